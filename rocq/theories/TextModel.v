(** Model of src/drawing/text.rs.  The font (crate ab_glyph) is a parameter. *)
From Verif Require Import Base Float LineModel WuModel.

(** ab_glyph OutlinedGlyph: the corner [px_bounds().min], and the calls
    [draw] makes to its closure: x, y and coverage *)
Record glyph := mkGlyph { g_min : f32 * f32; g_cover : list (Z * Z * f32) }.
(** ab_glyph ScaleFont for one scale: characters [C], glyph ids [G].
    [outline id position] is None for blank glyphs. *)
Record font (C G : Type) := mkFont {
  glyph_id : C -> G; outline : G -> f32 * f32 -> option glyph;
  h_advance : G -> f32; kern : G -> G -> f32; ascent : f32; height : f32 }.
Arguments glyph_id {C G}. Arguments outline {C G}. Arguments h_advance {C G}.
Arguments kern {C G}. Arguments ascent {C G}. Arguments height {C G}.

Section Text.
  Context {C G : Type} (F : font C G).

  (** text.rs 24-36 the body of the loop; the state is (w, prev, s), [s] being
      the state of the closure [f] *)
  Definition layout_step {S} (f : glyph -> S -> res S) (c : C) (st : f32 * option G * S) : res (f32 * option G * S) :=
    let '(w, prev, s) := st in
    let id := glyph_id F c in
    let g := outline F id (w, ascent F) in
    let w := fadd w (h_advance F id) in
    match g with
    | Some g =>
      let w := match prev with Some p => fadd w (kern F id p) | None => w end in
      s <- f g s ;;
      Ok (w, Some id, s)
    | None => Ok (w, prev, s)
    end.

  (** text.rs 10-43 layout_glyphs *)
  Definition layout_glyphs {S} (text : list C) (f : glyph -> S -> res S) (s : S) : res (S * (Z * Z)) :=
    match text with
    | [] => Ok (s, (0, 0))
    | _ =>
      ' (w, _, s) <- for_each text (layout_step f) (of_int 0, None, s) ;;
      let w := fceil w in
      let h := fceil (height F) in
      assert (fle (of_int 0) w) ;;;
      assert (fle (of_int 0) h) ;;;
      n <- chk_u 32 (1 + to_int 0 (2 ^ 32 - 1) w) ;;
      Ok (s, (n, to_int 0 (2 ^ 32 - 1) h))
    end.

  (** text.rs 46-48 text_size *)
  Definition text_size (text : list C) : res (Z * Z) :=
    ' (_, d) <- layout_glyphs text (fun _ s => Ok s) tt ;; Ok d.

  (** text.rs 94-106: the closure passed to [draw], for integer channels with
      largest value [hi]; [dr new old] is the pixel after canvas.draw_pixel
      (canvas.rs 31-33 and 107-116) *)
  Definition draw_cover (hi : Z) (color : list Z) (x_shift y_shift : Z) (dr : list Z -> list Z -> list Z)
      (c : Z * Z * f32) (im : image (list Z)) : res (image (list Z)) :=
    let '(gx, gy, gv) := c in
    image_x <- chk_i 32 (wrap_i32 gx + x_shift) ;;
    image_y <- chk_i 32 (wrap_i32 gy + y_shift) ;;
    if in_canvas im image_x image_y then
      pixel <- get_pixel im image_x image_y ;;
      let gv := fclamp gv (of_int 0) (of_int 1) in
      draw_pixel (dr (weighted_sum hi pixel color (fsub (of_int 1) gv) gv)) im image_x image_y
    else Ok im.

  (** text.rs 91-94: the closure passed to layout_glyphs *)
  Definition draw_glyph (hi : Z) (color : list Z) (x y : Z) (dr : list Z -> list Z -> list Z)
      (g : glyph) (im : image (list Z)) : res (image (list Z)) :=
    x_shift <- chk_i 32 (x + i32_of_f32 (fround (fst (g_min g)))) ;;
    y_shift <- chk_i 32 (y + i32_of_f32 (fround (snd (g_min g)))) ;;
    for_each (g_cover g) (draw_cover hi color x_shift y_shift dr) im.

  (** text.rs 75-108 draw_text_mut on a plain image ([dr] stores the new
      pixel), and on a copy draw_text (55-73) *)
  Definition draw_text (hi : Z) (color : list Z) (x y : Z) (text : list C) (im : image (list Z)) : res (image (list Z)) :=
    ' (im, _) <- layout_glyphs text (draw_glyph hi color x y (fun new _ => new)) im ;; Ok im.
End Text.
