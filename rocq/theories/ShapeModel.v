(** Model of src/rect.rs, src/drawing/rect.rs, src/drawing/cross.rs and the
    circles of src/drawing/conics.rs. *)
From Verif Require Import Base Float LineModel.

(** rect.rs 24-30 struct Rect (fields i32, i32, u32, u32) *)
Record rect := mkRect { r_left : Z; r_top : Z; r_width : Z; r_height : Z }.

(** rect.rs 151-160 RectPosition::of_size (and 43-45 Rect::at) *)
Definition rect_at_of_size (x y w h : Z) : res rect :=
  assert (0 <? w) ;;; assert (0 <? h) ;;; Ok (mkRect x y w h).

(** rect.rs 64-66, 71-73 Rect::bottom, Rect::right (checked i32 arithmetic) *)
Definition r_bottom (r : rect) : res Z :=
  t <- chk_i 32 (r_top r + wrap_i32 (r_height r)) ;; chk_i 32 (t - 1).
Definition r_right (r : rect) : res Z :=
  t <- chk_i 32 (r_left r + wrap_i32 (r_width r)) ;; chk_i 32 (t - 1).

(** rect.rs 106-122 Rect::intersect *)
Definition rect_intersect (a b : rect) : res (option rect) :=
  let left := Z.max (r_left a) (r_left b) in
  let top := Z.max (r_top a) (r_top b) in
  ra <- r_right a ;; rb <- r_right b ;; let right := Z.min ra rb in
  ba <- r_bottom a ;; bb <- r_bottom b ;; let bottom := Z.min ba bb in
  if (right <? left) || (bottom <? top) then Ok None
  else
    dw <- chk_i 32 (right - left) ;; w <- chk_u 32 (dw + 1) ;;
    dh <- chk_i 32 (bottom - top) ;; h <- chk_u 32 (dh + 1) ;;
    Ok (Some (mkRect left top w h)).

(** rect.rs 125-129 Region<i32>::contains (short-circuit conjunctions) *)
Definition rect_contains (r : rect) (x y : Z) : res bool :=
  if r_left r <=? x then
    right <- r_right r ;;
    if x <=? right then
      if r_top r <=? y then bottom <- r_bottom r ;; Ok (y <=? bottom) else Ok false
    else Ok false
  else Ok false.

(** rect.rs 131-138 Region<f32>::contains *)
Definition rect_contains_f32 (r : rect) (x y : f32) : res bool :=
  if fle (of_int (r_left r)) x then
    right <- r_right r ;;
    if fle x (of_int right) then
      if fle (of_int (r_top r)) y then bottom <- r_bottom r ;; Ok (fle y (of_int bottom)) else Ok false
    else Ok false
  else Ok false.

Definition i2f (x y : Z) : f32 * f32 := (of_int x, of_int y).

(** drawing/rect.rs 22-35 draw_hollow_rect_mut *)
Definition draw_hollow_rect {A} (dr : A -> A) (im : image A) (r : rect) : res (image A) :=
  right <- r_right r ;; bottom <- r_bottom r ;;
  let left := r_left r in let top := r_top r in
  im <- draw_line_segment dr im (i2f left top) (i2f right top) ;;
  im <- draw_line_segment dr im (i2f left bottom) (i2f right bottom) ;;
  im <- draw_line_segment dr im (i2f left top) (i2f left bottom) ;;
  draw_line_segment dr im (i2f right top) (i2f right bottom).

(** drawing/rect.rs 51-65 draw_filled_rect_mut *)
Definition draw_filled_rect {A} (dr : A -> A) (im : image A) (r : rect) : res (image A) :=
  bounds <- rect_at_of_size 0 0 (iw im) (ih im) ;;
  oi <- rect_intersect bounds r ;;
  match oi with
  | None => Ok im
  | Some i =>
      for_range 0 (r_height i) (fun dy im =>
        for_range 0 (r_width i) (fun dx im =>
          x <- chk_u 32 (r_left i + dx) ;; y <- chk_u 32 (r_top i + dy) ;;
          draw_pixel dr im x y) im) im
  end.

(** drawing/cross.rs 20-47 draw_cross_mut *)
Definition cross_stencil : list Z := [0; 1; 0; 1; 1; 1; 0; 1; 0].
Definition draw_cross {A} (dr : A -> A) (im : image A) (x y : Z) : res (image A) :=
  for_range (-1) 2 (fun sy im =>
    iy <- chk_i 32 (y + sy) ;;
    if (iy <? 0) || (wrap_i32 (ih im) <=? iy) then Ok im
    else
      for_range (-1) 2 (fun sx im =>
        ix <- chk_i 32 (x + sx) ;;
        if (ix <? 0) || (wrap_i32 (iw im) <=? ix) then Ok im
        else
          s <- vget cross_stencil (3 * (sy + 1) + sx + 1) ;;
          if s =? 1 then draw_pixel dr im ix iy else Ok im) im) im.

(** drawing/conics.rs 186-214 and 236-281: the loop shared by
    draw_hollow_circle_mut and draw_filled_circle_mut,
    [while x <= y { draw(x, y); x += 1; ... }], with [draw] a parameter. *)
Fixpoint circle_loop {S} (fuel : nat) (draw : Z -> Z -> S -> res S) (x y p : Z) (s : S) : res S :=
  match fuel with
  | O => Timeout
  | Datatypes.S n =>
      if x <=? y then
        s <- draw x y s ;;
        x <- chk_i 32 (x + 1) ;;
        if p <? 0 then
          d <- chk_i 32 (2 * x) ;; d <- chk_i 32 (d + 1) ;; p <- chk_i 32 (p + d) ;;
          circle_loop n draw x y p s
        else
          y <- chk_i 32 (y - 1) ;;
          e <- chk_i 32 (x - y) ;; d <- chk_i 32 (2 * e) ;; d <- chk_i 32 (d + 1) ;;
          p <- chk_i 32 (p + d) ;;
          circle_loop n draw x y p s
      else Ok s
  end.
(** [1 - radius] is checked; the fuel is never exhausted (ShapeProofs). *)
Definition circle {S} (draw : Z -> Z -> S -> res S) (radius : Z) (s : S) : res S :=
  p <- chk_i 32 (1 - radius) ;;
  circle_loop (Z.to_nat (Z.max 0 radius + 2)) draw 0 radius p s.

(** conics.rs 196-203: the eight symmetric points; [x0 - y] is written [x0 + (- y)]. *)
Definition draw_hollow_circle {A} (dr : A -> A) (im : image A) (c : Z * Z) (radius : Z) : res (image A) :=
  let '(x0, y0) := c in
  let pt sx sy im :=
    x <- chk_i 32 (x0 + sx) ;; y <- chk_i 32 (y0 + sy) ;; draw_if_in_bounds dr im x y in
  circle (fun x y im =>
    im <- pt x y im ;; im <- pt y x im ;; im <- pt (- y) x im ;; im <- pt (- x) y im ;;
    im <- pt (- x) (- y) im ;; im <- pt (- y) (- x) im ;; im <- pt y (- x) im ;; pt x (- y) im)
    radius im.

(** conics.rs 246-269: four horizontal segments *)
Definition draw_filled_circle {A} (dr : A -> A) (im : image A) (c : Z * Z) (radius : Z) : res (image A) :=
  let '(x0, y0) := c in
  let seg hx sy im :=
    l <- chk_i 32 (x0 - hx) ;; y <- chk_i 32 (y0 + sy) ;; r <- chk_i 32 (x0 + hx) ;;
    draw_line_segment dr im (i2f l y) (i2f r y) in
  circle (fun x y im =>
    im <- seg x y im ;; im <- seg y x im ;; im <- seg x (- y) im ;; seg y (- x) im)
    radius im.
