(** Model of src/drawing/line.rs (Bresenham iterators, draw_line_segment) and
    of the canvas operations of src/drawing/canvas.rs. *)
From Verif Require Import Base Float.

(** [w as i32] for a u32 value (two's complement wrap). *)
Definition wrap_i32 (z : Z) : Z := if z <? 2 ^ 31 then z else z - 2 ^ 32.

(** A canvas is an image together with the effect [dr : A -> A] that drawing
    the given colour has on one pixel.  canvas.rs 75-92: for an image,
    [draw_pixel(x, y, c)] is [put_pixel(x, y, c)], i.e. [dr = fun _ => c];
    canvas.rs 99-117: for [Blend], [dr p] is [p.blend(&c)]. *)
Definition draw_pixel {A} (dr : A -> A) (im : image A) (x y : Z) : res (image A) :=
  p <- get_pixel im x y ;; put_pixel im x y (dr p).

(** drawing/mod.rs 41-50 draw_if_in_bounds, and the closure [in_bounds] of
    line.rs 188 *)
Definition in_canvas {A} (im : image A) (x y : Z) : bool :=
  (0 <=? x) && (x <? wrap_i32 (iw im)) && (0 <=? y) && (y <? wrap_i32 (ih im)).
Definition draw_if_in_bounds {A} (dr : A -> A) (im : image A) (x y : Z) : res (image A) :=
  if in_canvas im x y then draw_pixel dr im x y else Ok im.

(** line.rs 8-17 struct BresenhamLineIter *)
Record bres := mkBres {
  b_dx : f32; b_dy : f32; b_x : Z; b_y : Z; b_error : f32;
  b_end_x : Z; b_is_steep : bool; b_y_step : Z }.

(** line.rs 22-50 BresenhamLineIter::new *)
Definition bres_new (start end_ : f32 * f32) : bres :=
  let '(x0, y0) := start in
  let '(x1, y1) := end_ in
  let is_steep := flt (fabs (fsub x1 x0)) (fabs (fsub y1 y0)) in
  let '(x0, y0) := if is_steep then (y0, x0) else (x0, y0) in
  let '(x1, y1) := if is_steep then (y1, x1) else (x1, y1) in
  let '(x0, y0, x1, y1) := if flt x1 x0 then (x1, y1, x0, y0) else (x0, y0, x1, y1) in
  let dx := fsub x1 x0 in
  mkBres dx (fabs (fsub y1 y0)) (i32_of_f32 x0) (i32_of_f32 y0)
         (fdiv dx (of_int 2)) (i32_of_f32 x1) is_steep
         (if flt y0 y1 then 1 else -1).

(** line.rs 56-77 Iterator::next (checked i32 arithmetic) *)
Definition bres_next (s : bres) : res (option ((Z * Z) * bres)) :=
  if b_end_x s <? b_x s then Ok None
  else
    let ret := if b_is_steep s then (b_y s, b_x s) else (b_x s, b_y s) in
    x <- chk_i 32 (b_x s + 1) ;;
    let error := fsub (b_error s) (b_dy s) in
    if flt error (of_int 0) then
      y <- chk_i 32 (b_y s + b_y_step s) ;;
      Ok (Some (ret, mkBres (b_dx s) (b_dy s) x y (fadd error (b_dx s))
                            (b_end_x s) (b_is_steep s) (b_y_step s)))
    else
      Ok (Some (ret, mkBres (b_dx s) (b_dy s) x (b_y s) error
                            (b_end_x s) (b_is_steep s) (b_y_step s))).

(** Running the iterator to its end, collecting the items.  The fuel given by
    [bres_points] always suffices (LineProofs.bres_run_total). *)
Fixpoint bres_run (fuel : nat) (s : bres) : res (list (Z * Z)) :=
  match fuel with
  | O => Timeout
  | S n =>
      o <- bres_next s ;;
      match o with
      | None => Ok []
      | Some (p, s') => ps <- bres_run n s' ;; Ok (p :: ps)
      end
  end.
Definition bres_points (start end_ : f32 * f32) : res (list (Z * Z)) :=
  let s := bres_new start end_ in
  bres_run (Z.to_nat (b_end_x s - b_x s + 1) + 1) s.

(** line.rs 182-204 draw_line_segment_mut (and, on a copy, draw_line_segment
    165-180).  Simplification: the points are collected first and drawn
    afterwards; the iterator does not look at the canvas. *)
Definition draw_line_segment {A} (dr : A -> A) (im : image A) (start end_ : f32 * f32)
  : res (image A) :=
  pts <- bres_points start end_ ;;
  for_each pts (fun p im => draw_if_in_bounds dr im (fst p) (snd p)) im.

(** line.rs 84-88 clamp_point: [(image.width() - 1) as f32] on a non-empty image *)
Definition clamp_point {A} (p : f32 * f32) (im : image A) : f32 * f32 :=
  (fclamp (fst p) (of_int 0) (of_int (iw im - 1)),
   fclamp (snd p) (of_int 0) (of_int (ih im - 1))).

(** line.rs 92-121 BresenhamLinePixelIter (new and all items of the iterator):
    the pixels at the in-bounds points of the line between the clamped end
    points, each with its position. *)
Definition line_pixel_iter {A} (im : image A) (start end_ : f32 * f32)
  : res (list (Z * Z * A)) :=
  assert ((1 <=? iw im) && (1 <=? ih im)) ;;;
  pts <- bres_points (clamp_point start im) (clamp_point end_ im) ;;
  mapM (fun p => a <- get_pixel im (fst p) (snd p) ;; Ok (p, a))
       (filter (fun p => in_canvas im (fst p) (snd p)) pts).

(** line.rs 125-163 BresenhamLinePixelIterMut: the positions of the mutable
    references handed out (to a caller that may keep all of them alive). *)
Definition line_pixel_iter_mut {A} (im : image A) (start end_ : f32 * f32)
  : res (list (Z * Z)) :=
  assert ((1 <=? iw im) && (1 <=? ih im)) ;;;
  assert ((iw im <? 2 ^ 31 - 1) && (ih im <? 2 ^ 31 - 1)) ;;;
  pts <- bres_points (clamp_point start im) (clamp_point end_ im) ;;
  mapM (fun p => get_pixel im (fst p) (snd p) ;;; Ok p)
       (filter (fun p => in_canvas im (fst p) (snd p)) pts).
