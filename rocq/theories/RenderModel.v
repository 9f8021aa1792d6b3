(** Model of the rendering of histograms in src/hog.rs and of the L1 norm of
    src/math.rs.  Sine and cosine of the platform are parameters. *)
From Verif Require Import Base Float LineModel ClampModel HogModel HogCellsModel.
Open Scope Z_scope.

Section Render.
  Context (sin cos : f32 -> f32).

  (** hog.rs:394-411 draw_ray_mut *)
  Definition draw_ray (im : image Z) (theta : f32) (color : Z) : res (image Z) :=
    let scale := fdiv (of_int (Z.max (iw im) (ih im))) (of_int 2) in
    let start_x := of_int (iw im / 2) in
    let start_y := of_int (ih im / 2) in
    let x_step := fmul (fneg scale) (sin theta) in
    let y_step := fmul scale (cos theta) in
    draw_line_segment (fun _ => color) im (start_x, start_y) (fadd start_x x_step, fadd start_y y_step).

  (** hog.rs:416-433 draw_star_mut *)
  Definition draw_star (hist : list f32) (signed : bool) (im : image Z) : res (image Z) :=
    let n := of_int (zlen hist) in
    for_range 0 (zlen hist) (fun bucket im =>
      v <- vget hist bucket ;;
      if signed then
        let dir := fdiv (fmul (fmul (of_int 2) pi32) (of_int bucket)) n in
        draw_ray im dir (clamp_f32_u8 v)
      else
        let dir := fdiv (fmul pi32 (of_int bucket)) n in
        im <- draw_ray im dir (clamp_f32_u8 v) ;;
        draw_ray im (fadd dir pi32) (clamp_f32_u8 v)) im.

  (** hog.rs:373-389 render_hist_grid of a view of lengths [l0; l1; l2].
      [out.sub_image(..)] checks that the window lies in [out];
      [window.inner_mut()] is, in the image crate (0.25, SubImage::inner_mut),
      "a mutable reference to the underlying image", that is [out] itself. *)
  Definition render_hist_grid (star_side : Z) (data : list f32) (l0 l1 l2 : Z) (signed : bool) : res (image Z) :=
    width <- chk_u 32 (l1 mod 2 ^ 32 * star_side) ;;
    height <- chk_u 32 (l2 mod 2 ^ 32 * star_side) ;;
    for_range 0 l2 (fun y out =>
      y_window <- chk_u 32 (y mod 2 ^ 32 * star_side) ;;
      for_range 0 l1 (fun x out =>
        x_window <- chk_u 32 (x mod 2 ^ 32 * star_side) ;;
        assert ((x_window + star_side <=? iw out) && (y_window + star_side <=? ih out)) ;;;
        o <- inner_slice (zlen data) l0 l1 x y ;;
        draw_star (slice data o l0) signed out) out) (new_image width height 0).
End Render.

(** math.rs:4-6 l1_norm *)
Definition l1_norm (xs : list f32) : f32 := fold_left (fun acc x => fadd acc (fabs x)) xs (of_int 0).
