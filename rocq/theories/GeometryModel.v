(** Model of src/geometry.rs (arc_length, approximate_polygon_dp, contour areas,
    convex_hull) and of the helpers in src/point.rs, for points with integer
    coordinates.  [powf(2.0)] is modelled as a product: both are correctly
    rounded squares.  min_area_rect and rotating_calipers are in MinRectModel. *)
From Flocq Require Import BinarySingleNaN.
From Verif Require Import Base Float.

Notation pt := (Z * Z)%type.
Notation fpt := (f64 * f64)%type.

(** point.rs 52-56 to_f64 (coordinates of the integer types are at most 64 bits) *)
Definition to_f64 (p : pt) : fpt := (of_int (fst p), of_int (snd p)).
(** point.rs 58-61 to_i32 *)
Definition to_i32 (p : pt) : res pt :=
  x <- chk_i 32 (fst p) ;; y <- chk_i 32 (snd p) ;; Ok (x, y).

(** point.rs 70-79 distance, distance_sq *)
Definition sq (x : f64) : f64 := fmul x x.
Definition distance_sq (p q : pt) : f64 :=
  let p := to_f64 p in let q := to_f64 q in
  fadd (sq (fsub (fst p) (fst q))) (sq (fsub (snd p) (snd q))).
Definition distance (p q : pt) : f64 := fsqrt (distance_sq p q).

(** point.rs 118-139 Line, from_points, distance_from_point *)
Record line := mkLine { la : f64; lb : f64; lc : f64 }.
Definition line_from_points (p q : fpt) : line :=
  mkLine (fsub (snd p) (snd q)) (fsub (fst q) (fst p))
         (fsub (fmul (fst p) (snd q)) (fmul (fst q) (snd p))).
Definition distance_from_point (l : line) (p : fpt) : f64 :=
  fdiv (fabs (fadd (fadd (fmul (la l) (fst p)) (fmul (lb l) (snd p))) (lc l)))
       (fsqrt (fadd (sq (la l)) (sq (lb l)))).

(** geometry.rs 10-22 arc_length; an empty f64 sum is 0 *)
Fixpoint path_length (a : pt) (l : list pt) (acc : f64) : f64 :=
  match l with [] => acc | b :: l => path_length b l (fadd acc (distance a b)) end.
Definition arc_length (arc : list pt) (closed : bool) : f64 :=
  match arc with
  | [] => of_int 0
  | a :: l =>
    let length := path_length a l (of_int 0) in
    if (2 <? zlen arc) && closed then fadd length (distance a (List.last l a)) else length
  end.

(** geometry.rs 35-46: the farthest point from the chord *)
Definition farthest (curve : list pt) (l : line) : f64 * Z :=
  fold_left (fun '(dmax, index) i =>
     match znth curve i with
     | Some p => let d := distance_from_point l (to_f64 p) in if flt dmax d then (d, i) else (dmax, index)
     | None => (dmax, index)
     end) (zrange 1 (zlen curve)) (of_int 0, 0).

(** geometry.rs 27-66 approximate_polygon_dp, at most [fuel] recursion levels.
    [curve.len() - 1] underflows on an empty curve. *)
Fixpoint approx_dp (fuel : nat) (curve : list pt) (epsilon : f64) (closed : bool) : res (list pt) :=
  match fuel with
  | O => Timeout
  | S fuel =>
    assert (negb (fle epsilon (of_int 0))) ;;;
    en <- chk_u 64 (zlen curve - 1) ;;
    first <- vget curve 0 ;; last <- vget curve en ;;
    let l := line_from_points (to_f64 first) (to_f64 last) in
    let '(dmax, index) := farthest curve l in
    res <- (if flt epsilon dmax then
        p1 <- approx_dp fuel (firstn (Z.to_nat (index + 1)) curve) epsilon false ;;
        p2 <- approx_dp fuel (skipn (Z.to_nat index) curve) epsilon false ;;
        Ok (removelast p1 ++ p2)
      else Ok [first; last]) ;;
    Ok (if closed then removelast res else res)
  end.
Definition approximate_polygon_dp (curve : list pt) (epsilon : f64) (closed : bool) : res (list pt) :=
  approx_dp (S (length curve)) curve epsilon closed.

(** geometry.rs 83-97 oriented_contour_area *)
Definition oriented_contour_area (points : list pt) : f64 :=
  if zlen points <? 3 then of_int 0
  else
    let prev := to_f64 (List.last points (0, 0)) in
    let '(acc, _) := fold_left (fun '(acc, prev) p =>
       let p := to_f64 p in
       (fadd acc (fsub (fmul (fst prev) (snd p)) (fmul (snd prev) (fst p))), p)) points (of_int 0, prev) in
    fmul (of_dyadic 1 (-1)) acc.
(** geometry.rs 72-77 *)
Definition contour_area (points : list pt) : f64 := fabs (oriented_contour_area points).

(** geometry.rs 256-270 orientation: Gt clockwise, Lt counter-clockwise.
    i32 arithmetic is checked. *)
Definition orientation (p q r : pt) : res comparison :=
  a <- chk_i 32 (snd q - snd p) ;; b <- chk_i 32 (fst r - fst q) ;; ab <- chk_i 32 (a * b) ;;
  c <- chk_i 32 (fst q - fst p) ;; d <- chk_i 32 (snd r - snd q) ;; cd <- chk_i 32 (c * d) ;;
  v <- chk_i 32 (ab - cd) ;;
  Ok (v ?= 0).
Definition orient (p q r : pt) : res comparison :=
  p <- to_i32 p ;; q <- to_i32 q ;; r <- to_i32 r ;; orientation p q r.

(** geometry.rs 200-206 *)
Definition start_of (p0 : pt) (points : list pt) : pt * Z :=
  fold_left (fun '(s, pos) i =>
     match znth points i with
     | Some p => if (snd p <? snd s) || ((snd p =? snd s) && (fst p <? fst s)) then (p, i) else (s, pos)
     | None => (s, pos)
     end) (zrange 1 (zlen points)) (p0, 0).

(** geometry.rs 209-221: is a sorted before b? *)
Definition angle_less (s a b : pt) : res bool :=
  o <- orient s a b ;;
  Ok (match o with Eq => flt (distance s a) (distance s b) | Gt => false | Lt => true end).
(** [sort_by]: insertion sort.  The comparison never says Equal; it is a total
    order on distinct points, so every sorting algorithm gives this list (equal
    points are indistinguishable).  Simplification: for two equal points the
    comparison says Greater both ways; Rust's documentation lets [sort_by] panic on
    such a comparison, the model does not. *)
Fixpoint insert_by (s x : pt) (l : list pt) : res (list pt) :=
  match l with
  | [] => Ok [x]
  | y :: l' => b <- angle_less s x y ;; if (b : bool) then Ok (x :: l) else l'' <- insert_by s x l' ;; Ok (y :: l'')
  end.
Definition sort_by (s : pt) (l : list pt) : res (list pt) :=
  for_each l (fun x acc => insert_by s x acc) [].

(** geometry.rs 223-235: remaining_points, which the function computes and then
    does not use *)
Fixpoint drop_collinear (s p : pt) (l : list pt) : res (list pt) :=
  match l with
  | [] => Ok [p]
  | q :: l => o <- orient s p q ;;
              match o with
              | Eq => drop_collinear s q l
              | _ => r <- drop_collinear s q l ;; Ok (p :: r)
              end
  end.

(** geometry.rs 242-251; the stack is kept top first *)
Fixpoint pop_while (stack : list pt) (p : pt) : res (list pt) :=
  match stack with
  | t :: rest =>
    match rest with
    | u :: _ => o <- orient u t p ;; match o with Lt => Ok stack | _ => pop_while rest p end
    | [] => Ok stack
    end
  | [] => Ok stack
  end.
Definition scan (start : pt) (points : list pt) : res (list pt) :=
  for_each points (fun p stack => st <- pop_while stack p ;; Ok (p :: st)) [start].

(** geometry.rs 189-254 convex_hull *)
Definition convex_hull (points : list pt) : res (list pt) :=
  match points with
  | [] => Ok []
  | p0 :: _ =>
    let '(s, pos) := start_of p0 points in
    let points := tl (zupd points pos p0) in
    points <- sort_by s points ;;
    _ <- match points with [] => Ok [] | p :: l => drop_collinear s p l end ;;
    stack <- scan s points ;;
    Ok (rev stack)
  end.
