(** Model of src/pixelops.rs and of the antialiased lines of src/drawing/line.rs. *)
From Verif Require Import Base Float ClampModel LineModel.

(** pixelops.rs 56-61 weighted_channel_sum, for integer channels with largest
    value [hi] (u8: 255, u16: 65535); [into] f32 is exact for both *)
Definition weighted_channel_sum (hi l r : Z) (lw rw : f32) : Z :=
  clamp_float 0 hi (fadd (fmul (of_int l) lw) (fmul (of_int r) rw)).
(** pixelops.rs 23-30 weighted_sum: a pixel is its list of channels *)
Definition weighted_sum (hi : Z) (l r : list Z) (lw rw : f32) : list Z :=
  map (fun '(p, q) => weighted_channel_sum hi p q lw rw) (combine l r).
(** pixelops.rs 48-53 interpolate *)
Definition interpolate (hi : Z) (l r : list Z) (lw : f32) : list Z :=
  weighted_sum hi l r lw (fsub (of_int 1) lw).

Section Wu.
  (** the pixel type and the user's blend function (line colour, original, weight) *)
  Context {A : Type} (blend : A -> A -> f32 -> A).

  (** drawing/line.rs 308-322 Plotter::plot; [in_canvas] is in_bounds (309-311) *)
  Definition plot (tr : Z -> Z -> Z * Z) (im : image A) (x y : Z) (color : A) (weight : f32) : res (image A) :=
    let '(xt, yt) := tr x y in
    if in_canvas im xt yt then
      original <- get_pixel im xt yt ;;
      put_pixel im xt yt (blend color original weight)
    else Ok im.

  (** drawing/line.rs 269-290 plot_wu_line *)
  Definition wu_step (tr : Z -> Z -> Z * Z) (color : A) (gradient : f32) (x : Z) (st : image A * f32) : res (image A * f32) :=
    let '(im, fy) := st in
    im <- plot tr im x (i32_of_f32 fy) color (fsub (of_int 1) (ffract fy)) ;;
    y1 <- chk_i 32 (i32_of_f32 fy + 1) ;;
    im <- plot tr im x y1 color (ffract fy) ;;
    Ok (im, fadd fy gradient).
  Definition plot_wu_line (tr : Z -> Z -> Z * Z) (im : image A) (start end_ : Z * Z) (color : A) : res (image A) :=
    dx <- chk_i 32 (fst end_ - fst start) ;;
    dy <- chk_i 32 (snd end_ - snd start) ;;
    let gradient : f32 := fdiv (of_int dy) (of_int dx) in
    stop <- chk_i 32 (fst end_ + 1) ;;
    ' (im, _) <- for_range (fst start) stop (wu_step tr color gradient) (im, of_int (snd start)) ;;
    Ok im.

  (** drawing/line.rs 229-267 draw_antialiased_line_segment_mut; the
      non-mutating version (211-227) runs it on a copy *)
  Definition draw_antialiased_line_segment (im : image A) (start end_ : Z * Z) (color : A) : res (image A) :=
    let '(x0, y0) := start in
    let '(x1, y1) := end_ in
    dy <- chk_i 32 (y1 - y0) ;;
    ady <- chk_i 32 (Z.abs dy) ;;
    dx <- chk_i 32 (x1 - x0) ;;
    adx <- chk_i 32 (Z.abs dx) ;;
    if adx <? ady then
      let '(x0, y0, x1, y1) := if y1 <? y0 then (x1, y1, x0, y0) else (x0, y0, x1, y1) in
      plot_wu_line (fun x y => (y, x)) im (y0, x0) (y1, x1) color
    else
      let '(x0, y0, x1, y1) := if x1 <? x0 then (x1, y1, x0, y0) else (x0, y0, x1, y1) in
      plot_wu_line (fun x y => (x, y)) im (x0, y0) (x1, y1) color.
End Wu.
