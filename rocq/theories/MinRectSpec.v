(** Rectangles in the plane, in any position. *)
From Coq Require Import Reals.
From Flocq Require Import Core BinarySingleNaN.
From Verif Require Import Base Float HogCellsSpec.
Local Open Scope R_scope.

(** Coordinates of an integer point with respect to axes turned by the angle t. *)
Definition along (t : R) (p : Z * Z) : R := IZR (fst p) * cos t + IZR (snd p) * sin t.
Definition across (t : R) (p : Z * Z) : R := IZR (snd p) * cos t - IZR (fst p) * sin t.

(** A rectangle: the ranges [x0, x1] and [y0, y1] on axes turned by [ang]. *)
Record rect := mkRect { ang : R; x0 : R; x1 : R; y0 : R; y1 : R }.
Definition contains (r : rect) (p : Z * Z) : Prop :=
  x0 r <= along (ang r) p <= x1 r /\ y0 r <= across (ang r) p <= y1 r.
Definition area (r : rect) : R := (x1 r - x0 r) * (y1 r - y0 r).
(** its four corners, named by (upper end of x?, upper end of y?) *)
Definition corner (r : rect) (k : bool * bool) : R * R :=
  let x := if fst k then x1 r else x0 r in
  let y := if snd k then y1 r else y0 r in
  (x * cos (ang r) - y * sin (ang r), y * cos (ang r) + x * sin (ang r)).
(** the line through p and q is parallel to a side *)
Definition parallel (r : rect) (p q : Z * Z) : Prop :=
  along (ang r) p = along (ang r) q \/ across (ang r) p = across (ang r) q.

(** Rounding outwards, up to a millionth: [down z r] when the integer z is r
    rounded down, [up z r] when it is r rounded up. *)
Definition down (z : Z) (r : R) : Prop := r - 1 - / 1000000 < IZR z <= r + / 1000000.
Definition up (z : Z) (r : R) : Prop := r - / 1000000 <= IZR z < r + 1 + / 1000000.

(** Whole numbers of moderate size *)
Definition within (b : Z) (l : list (Z * Z)) : Prop :=
  forall p, In p l -> (Z.abs (fst p) <= b /\ Z.abs (snd p) <= b)%Z.

(** What is asked of the platform's atan2 and sin_cos: an absolute error of at most
    10^-14 on integer vectors and on angles between 0 and 2.  ([angle h v],
    HogCellsSpec.v, is the angle of the vector (h, v).) *)
Definition accurate_atan2 (atan2 : f64 -> f64 -> f64) : Prop :=
  forall h v : Z, (Z.abs h <= 65536 /\ Z.abs v <= 65536 /\ (h, v) <> (0, 0))%Z ->
    is_finite (atan2 (of_int v) (of_int h)) = true /\
    Rabs (B2R (atan2 (of_int v) (of_int h)) - angle h v) <= / 100000000000000.
Definition accurate_sincos (sincos : f64 -> f64 * f64) : Prop :=
  forall t : f64, is_finite t = true -> 0 <= B2R t <= 2 ->
    (is_finite (fst (sincos t)) = true /\ Rabs (B2R (fst (sincos t)) - sin (B2R t)) <= / 100000000000000) /\
    (is_finite (snd (sincos t)) = true /\ Rabs (B2R (snd (sincos t)) - cos (B2R t)) <= / 100000000000000).

(** [o] lists the four corners of r, rounded outwards, in the order top left, top
    right, bottom right, bottom left (y grows downwards). *)
Definition lists_corners (r : rect) (o : list (Z * Z)) : Prop :=
  exists a b c d k1 k2 k3 k4, o = [a; b; c; d] /\ NoDup [k1; k2; k3; k4] /\
    down (fst a) (fst (corner r k1)) /\ down (snd a) (snd (corner r k1)) /\
    up (fst b) (fst (corner r k2)) /\ down (snd b) (snd (corner r k2)) /\
    up (fst c) (fst (corner r k3)) /\ up (snd c) (snd (corner r k3)) /\
    down (fst d) (fst (corner r k4)) /\ up (snd d) (snd (corner r k4)) /\
    (fst a <= fst b /\ fst a <= fst c /\ fst d <= fst b /\ fst d <= fst c)%Z /\
    (snd a <= snd d /\ snd b <= snd c)%Z.
(** every coordinate is a value of the type with the range lo..hi *)
Definition fits (lo hi : Z) (o : list (Z * Z)) : bool :=
  forallb (fun p => (lo <=? fst p) && (fst p <=? hi) && (lo <=? snd p) && (snd p <=? hi))%Z o.
