(** Model of min_area_rect (src/geometry.rs) and of Rotation (src/point.rs) for
    points with integer coordinates.  [atan2 y x] is [f64::atan2], [sincos] is
    [f64::sin_cos]. *)
From Flocq Require Import Core BinarySingleNaN.
From Verif Require Import Base Float GeometryModel.

(** std::f64::consts::PI, f64::MAX, f64::MIN *)
Definition pi_f64 : f64 := of_dyadic 7074237752028440 (-51).
Definition max_f64 : f64 := of_dyadic (2 ^ 53 - 1) 971.
Definition min_f64 : f64 := fneg max_f64.

(** f64's [%]: the exact remainder of the division rounded towards zero, with
    the sign of the dividend *)
Definition frem (x y : f64) : f64 :=
  match x, y with
  | B754_nan, _ | _, B754_nan | B754_infinity _, _ | _, B754_zero _ => B754_nan
  | _, B754_infinity _ | B754_zero _, _ => x
  | B754_finite s m e _, B754_finite _ n f _ =>
      let g := Z.min e f in
      let r := (Z.pos m * 2 ^ (e - g)) mod (Z.pos n * 2 ^ (f - g)) in
      binary_normalize 53 1024 _ _ mode_NE (if s then - r else r) g s
  end.

(** num_traits::cast from f64 to an integer type with the values lo..hi, and unwrap *)
Definition cast_unwrap (lo hi : Z) (x : f64) : res Z :=
  match x with
  | B754_nan | B754_infinity _ => Panic
  | _ => let z := Btrunc x in if (lo <=? z) && (z <=? hi) then Ok z else Panic
  end.

Section MinRect.
  Context (atan2 : f64 -> f64 -> f64) (sincos : f64 -> f64 * f64).

  (** point.rs:102-106 rotate; the rotation is the pair (sin_theta, cos_theta)
      of 91-97 Rotation::new *)
  Definition rotate (r : f64 * f64) (p : fpt) : fpt :=
    let '(s, c) := r in
    (fadd (fmul (fst p) c) (fmul (snd p) s), fsub (fmul (snd p) c) (fmul (fst p) s)).
  (** point.rs:109-113 invert_rotation *)
  Definition invert_rotation (r : f64 * f64) (p : fpt) : fpt :=
    let '(s, c) := r in
    (fsub (fmul (fst p) c) (fmul (snd p) s), fadd (fmul (snd p) c) (fmul (fst p) s)).

  (** geometry.rs:122-128: the angles of the edges, [points.windows(2)] *)
  Definition edge_angle (p q : pt) : f64 :=
    let dx := fsub (fst (to_f64 q)) (fst (to_f64 p)) in
    let dy := fsub (snd (to_f64 q)) (snd (to_f64 p)) in
    fabs (frem (fadd (atan2 dy dx) pi_f64) (fdiv pi_f64 (of_int 2))).
  Fixpoint edge_angles (p : pt) (l : list pt) : list f64 :=
    match l with [] => [] | q :: l => edge_angle p q :: edge_angles q l end.
  (** geometry.rs:130 [Vec::dedup]: of a run of equal elements the first stays *)
  Fixpoint dedup_from (a : f64) (l : list f64) : list f64 :=
    match l with
    | [] => []
    | b :: l => if feq b a then dedup_from a l else b :: dedup_from b l
    end.
  Definition dedup (l : list f64) : list f64 :=
    match l with [] => [] | a :: l => a :: dedup_from a l end.

  (** geometry.rs:138-147: (min_x, max_x, min_y, max_y) of the rotated points *)
  Definition extents (r : f64 * f64) (points : list pt) : f64 * f64 * f64 * f64 :=
    fold_left (fun '(a, b, c, d) p =>
        let q := rotate r (to_f64 p) in
        (fmin a (fst q), fmax b (fst q), fmin c (snd q), fmax d (snd q)))
      points (max_f64, min_f64, max_f64, min_f64).

  (** geometry.rs:134-156: one turn of the loop; the state is (min_area, res) *)
  Definition try_angle (points : list pt) (st : f64 * list fpt) (angle : f64) : f64 * list fpt :=
    let r := sincos angle in
    let '(min_x, max_x, min_y, max_y) := extents r points in
    let area := fmul (fsub max_x min_x) (fsub max_y min_y) in
    if flt area (fst st) then
      (area, [invert_rotation r (max_x, min_y); invert_rotation r (min_x, min_y);
              invert_rotation r (min_x, max_y); invert_rotation r (max_x, max_y)])
    else st.

  (** geometry.rs:158: a stable sort by x; an unordered pair (a NaN) panics *)
  Fixpoint insert_x (p : fpt) (l : list fpt) : res (list fpt) :=
    match l with
    | [] => Ok [p]
    | q :: l' =>
        assert (negb (fis_nan (fst p)) && negb (fis_nan (fst q))) ;;;
        if flt (fst p) (fst q) then Ok (p :: l) else (r <- insert_x p l' ;; Ok (q :: r))
    end.
  Definition sort_x (l : list fpt) : res (list fpt) := for_each l (fun p acc => insert_x p acc) [].

  (** geometry.rs:118-183 rotating_calipers; T has the values lo..hi *)
  Definition rotating_calipers (lo hi : Z) (points : list pt) : res (list pt) :=
    let angles := dedup (match points with [] => [] | p :: l => edge_angles p l end) in
    let origin : fpt := (of_int 0, of_int 0) in
    let st := fold_left (try_angle points) angles (max_f64, [origin; origin; origin; origin]) in
    rs <- sort_x (snd st) ;;
    r0 <- vget rs 0 ;; r1 <- vget rs 1 ;; r2 <- vget rs 2 ;; r3 <- vget rs 3 ;;
    i1 <- vget rs (if flt (snd r0) (snd r1) then 0 else 1) ;;
    i2 <- vget rs (if flt (snd r2) (snd r3) then 2 else 3) ;;
    i3 <- vget rs (if flt (snd r2) (snd r3) then 3 else 2) ;;
    i4 <- vget rs (if flt (snd r0) (snd r1) then 1 else 0) ;;
    x1 <- cast_unwrap lo hi (ffloor (fst i1)) ;; y1 <- cast_unwrap lo hi (ffloor (snd i1)) ;;
    x2 <- cast_unwrap lo hi (fceil (fst i2)) ;; y2 <- cast_unwrap lo hi (ffloor (snd i2)) ;;
    x3 <- cast_unwrap lo hi (fceil (fst i3)) ;; y3 <- cast_unwrap lo hi (fceil (snd i3)) ;;
    x4 <- cast_unwrap lo hi (ffloor (fst i4)) ;; y4 <- cast_unwrap lo hi (fceil (snd i4)) ;;
    Ok [(x1, y1); (x2, y2); (x3, y3); (x4, y4)].

  (** geometry.rs:101-112 min_area_rect *)
  Definition min_area_rect (lo hi : Z) (points : list pt) : res (list pt) :=
    hull <- convex_hull points ;;
    match hull with
    | [] => Panic
    | [a] => Ok [a; a; a; a]
    | [a; b] => Ok [a; b; b; a]
    | _ => rotating_calipers lo hi hull
    end.
End MinRect.
