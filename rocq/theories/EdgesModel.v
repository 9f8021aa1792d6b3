(** Model of src/edges.rs: non_maximum_suppression and hysteresis.  The blur,
    the Sobel filters and [hypot]/[atan2] of canny are not modelled here: the
    gradient magnitudes are an arbitrary image and the rounded directions an
    arbitrary function. *)
From Verif Require Import Base Float.

(** edges.rs 71-82: the rounded gradient direction at a pixel *)
Inductive direction := D0 | D45 | D90 | D135.

(** edges.rs 67-82: the direction for an angle in degrees; the angle
    [atan2(gy, gx) * RADIANS_TO_DEGREES] itself is not modelled *)
Definition dir_of_angle (angle : f32) : direction :=
  let angle := if flt angle (of_int 0) then fadd angle (of_int 180) else angle in
  let within lo hi := fle lo angle && flt angle hi in
  let a22 := of_dyadic 45 (-1) in
  let a67 := of_dyadic 135 (-1) in
  let a112 := of_dyadic 225 (-1) in
  let a157 := of_dyadic 315 (-1) in
  if negb (within a22 a157) then D0
  else if within a22 a67 then D45
  else if within a67 a112 then D90
  else D135.
(** the value of [clamped_angle] in degrees *)
Definition degrees (d : direction) : Z := match d with D0 => 0 | D45 => 45 | D90 => 90 | D135 => 135 end.

(** edges.rs 88-101: the two neighbours across the edge *)
Definition across (d : direction) : (Z * Z) * (Z * Z) :=
  match d with
  | D0 => ((-1, 0), (1, 0))
  | D45 => ((1, 1), (-1, -1))
  | D90 => ((0, -1), (0, 1))
  | D135 => ((-1, 1), (1, -1))
  end.

(** edges.rs 54-113 non_maximum_suppression *)
Definition non_maximum_suppression (g : image f32) (dir : Z -> Z -> direction) : res (image f32) :=
  h1 <- chk_u 32 (ih g - 1) ;;
  for_range 1 h1 (fun y out =>
    w1 <- chk_u 32 (iw g - 1) ;;
    for_range 1 w1 (fun x out =>
      let '((ax, ay), (bx, by_)) := across (dir x y) in
      cmp1 <- get_pixel g (x + ax) (y + ay) ;;
      cmp2 <- get_pixel g (x + bx) (y + by_) ;;
      pixel <- get_pixel g x y ;;
      if flt pixel cmp1 || flt pixel cmp2 then put_pixel out x y (of_int 0)
      else put_pixel out x y pixel) out) (new_image (iw g) (ih g) (of_int 0)).

(** edges.rs 134-141 neighbor_indices: six of the eight neighbours *)
Definition six : list (Z * Z) := [(1, 0); (1, 1); (0, 1); (-1, -1); (-1, 0); (-1, 1)].

(** edges.rs 143-150: one neighbour; the stack's top is the head of the list *)
Definition visit (input : image f32) (low : f32) (n : Z * Z) (s : image Z * list (Z * Z)) : res (image Z * list (Z * Z)) :=
  let '(out, edges) := s in
  i <- get_pixel input (fst n) (snd n) ;;
  o <- get_pixel out (fst n) (snd n) ;;
  if fle low i && (o =? 0) then
    out <- put_pixel out (fst n) (snd n) 255 ;; Ok (out, n :: edges)
  else Ok (out, edges).

(** edges.rs 133-151: the while loop; [nx - 1] and [ny - 1] are checked u32 *)
Fixpoint drain (input : image f32) (low : f32) (fuel : nat) (s : image Z * list (Z * Z)) : res (image Z) :=
  match fuel with
  | O => Timeout
  | S fuel =>
    match s with
    | (out, []) => Ok out
    | (out, (nx, ny) :: edges) =>
      ns <- mapM (fun '(dx, dy) => x <- chk_u 32 (nx + dx) ;; y <- chk_u 32 (ny + dy) ;; Ok (x, y)) six ;;
      s <- for_each ns (visit input low) (out, edges) ;;
      drain input low fuel s
    end
  end.

(** edges.rs 117-156 hysteresis *)
Definition hysteresis (input : image f32) (low high : f32) : res (image Z) :=
  area <- chk_u 32 (iw input * ih input) ;;
  h1 <- chk_u 32 (ih input - 1) ;;
  for_range 1 h1 (fun y out =>
    w1 <- chk_u 32 (iw input - 1) ;;
    for_range 1 w1 (fun x out =>
      i <- get_pixel input x y ;;
      o <- get_pixel out x y ;;
      if fle high i && (o =? 0) then
        out <- put_pixel out x y 255 ;;
        drain input low (S (Z.to_nat area)) (out, [(x, y)])
      else Ok out) out) (new_image (iw input) (ih input) 0).

(** edges.rs 31-52, stages 3 and 4 of canny *)
Definition canny_stages (g : image f32) (dir : Z -> Z -> direction) (low high : f32) : res (image Z) :=
  assert (fle low high) ;;;
  thinned <- non_maximum_suppression g dir ;;
  hysteresis thinned low high.
