(** Model of ellipse drawing: src/drawing/conics.rs. *)
From Verif Require Import Base Float LineModel ShapeModel.
Local Open Scope Z_scope.

(** conics.rs:127-150, [draw_ellipse], the loop over the top and bottom regions
    [while px < py { ... }]; [render] is the caller's [render_func] with the
    centre already applied.  The result is the state in which the loop ends.
    [fuel] bounds the number of iterations (Rust's loop has no bound). *)
Fixpoint ellipse_top {S} (fuel : nat) (render : Z -> Z -> S -> res S) (w2 h2 : f32)
    (x y : Z) (px py p : f32) (s : S) : res (Z * Z * f32 * f32 * S) :=
  match fuel with
  | O => Timeout
  | Datatypes.S n =>
      if flt px py then
        x <- chk_i 32 (x + 1) ;;
        let px := fadd px (fmul (of_int 2) h2) in
        if flt p (of_int 0) then
          let p := fadd p (fadd h2 px) in
          s <- render x y s ;;
          ellipse_top n render w2 h2 x y px py p s
        else
          y <- chk_i 32 (y - 1) ;;
          let py := fadd py (fmul (of_int (-2)) w2) in
          let p := fadd p (fsub (fadd h2 px) py) in
          s <- render x y s ;;
          ellipse_top n render w2 h2 x y px py p s
      else Ok (x, y, px, py, s)
  end.

(** conics.rs:152-166, the loop over the left and right regions
    [while y > 0 { ... }]. *)
Fixpoint ellipse_side {S} (fuel : nat) (render : Z -> Z -> S -> res S) (w2 h2 : f32)
    (x y : Z) (px py p : f32) (s : S) : res S :=
  match fuel with
  | O => Timeout
  | Datatypes.S n =>
      if 0 <? y then
        y <- chk_i 32 (y - 1) ;;
        let py := fadd py (fmul (of_int (-2)) w2) in
        if flt (of_int 0) p then
          let p := fadd p (fsub w2 py) in
          s <- render x y s ;;
          ellipse_side n render w2 h2 x y px py p s
        else
          x <- chk_i 32 (x + 1) ;;
          let px := fadd px (fmul (of_int 2) h2) in
          let p := fadd p (fadd (fsub w2 py) px) in
          s <- render x y s ;;
          ellipse_side n render w2 h2 x y px py p s
      else Ok s
  end.

(** conics.rs:122-167, [draw_ellipse]: the two squares, and the square of
    [y - 1], are checked i32 arithmetic; [powi(2)] is one multiplication. *)
Definition draw_ellipse {S} (fuel : nat) (render : Z -> Z -> S -> res S) (w h : Z) (s : S) : res S :=
  ww <- chk_i 32 (w * w) ;;
  hh <- chk_i 32 (h * h) ;;
  let w2 : f32 := of_int ww in
  let h2 : f32 := of_int hh in
  let py := fmul (fmul (of_int 2) w2) (of_int h) in
  s <- render 0 h s ;;
  let p := fadd (fsub h2 (fmul w2 (of_int h))) (fmul (of_dyadic 1 (-2)) w2) in
  ' (x, y, px, py, s) <- ellipse_top fuel render w2 h2 0 h (of_int 0) py p s ;;
  y1 <- chk_i 32 (y - 1) ;;
  y2 <- chk_i 32 (y1 * y1) ;;
  let t := fadd (of_int x) (of_dyadic 1 (-1)) in
  let p := fsub (fadd (fmul h2 (fmul t t)) (fmul w2 (of_int y2))) (fmul w2 h2) in
  ellipse_side fuel render w2 h2 x y px py p s.

(** conics.rs:18-57, draw_hollow_ellipse and draw_hollow_ellipse_mut: equal radii are
    drawn as a circle; the closure draws four points of the image. *)
Definition draw_hollow_ellipse {A} (fuel : nat) (dr : A -> A) (im : image A) (c : Z * Z) (w h : Z) : res (image A) :=
  if w =? h then draw_hollow_circle dr im c w
  else
    let '(x0, y0) := c in
    let pt sx sy im :=
      x <- chk_i 32 (x0 + sx) ;; y <- chk_i 32 (y0 + sy) ;; draw_if_in_bounds dr im x y in
    draw_ellipse fuel (fun x y im =>
      im <- pt x y im ;; im <- pt (- x) y im ;; im <- pt x (- y) im ;; pt (- x) (- y) im) w h im.

(** conics.rs:70-117, draw_filled_ellipse and draw_filled_ellipse_mut: the closure
    draws two horizontal line segments. *)
Definition draw_filled_ellipse {A} (fuel : nat) (dr : A -> A) (im : image A) (c : Z * Z) (w h : Z) : res (image A) :=
  if w =? h then draw_filled_circle dr im c w
  else
    let '(x0, y0) := c in
    let seg hx sy im :=
      l <- chk_i 32 (x0 - hx) ;; y <- chk_i 32 (y0 + sy) ;; r <- chk_i 32 (x0 + hx) ;;
      draw_line_segment dr im (i2f l y) (i2f r y) in
    draw_ellipse fuel (fun x y im => im <- seg x y im ;; seg x (- y) im) w h im.
