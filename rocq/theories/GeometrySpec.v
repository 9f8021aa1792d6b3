(** Plane geometry over the integers. *)
From Verif Require Import Base.

(** twice the signed area of the triangle p q r; positive for a
    counter-clockwise turn (y axis up) *)
Definition turn (p q r : Z * Z) : Z :=
  (fst q - fst p) * (snd r - snd p) - (snd q - snd p) * (fst r - fst p).
Definition collinear (p q r : Z * Z) : Prop := turn p q r = 0.

(** i-th point of a closed polygon, indices modulo the length *)
Definition cyc (l : list (Z * Z)) (i : Z) : Z * Z :=
  match znth l (i mod zlen l) with Some p => p | None => (0, 0) end.

(** [hull] is the convex hull of [pts]: at least three vertices taken from pts,
    turning strictly left at each, and all of pts to the left of every edge *)
Definition hull_of (pts hull : list (Z * Z)) : Prop :=
  3 <= zlen hull /\ incl hull pts /\
  (forall i, 0 <= i < zlen hull -> 0 < turn (cyc hull i) (cyc hull (i + 1)) (cyc hull (i + 2))) /\
  (forall i p, 0 <= i < zlen hull -> In p pts -> 0 <= turn (cyc hull i) (cyc hull (i + 1)) p).

(** the shoelace sum: twice the signed area of the closed polygon *)
Definition shoelace (l : list (Z * Z)) : Z :=
  zsum 0 (zlen l) (fun i => fst (cyc l i) * snd (cyc l (i + 1)) - snd (cyc l i) * fst (cyc l (i + 1))).

(** the coordinates of all points are at most [b] apart *)
Definition spread (b : Z) (l : list (Z * Z)) : Prop :=
  forall p q, In p l -> In q l -> Z.abs (fst p - fst q) <= b /\ Z.abs (snd p - snd q) <= b.
Definition i32_points (l : list (Z * Z)) : Prop :=
  forall p, In p l -> - 2 ^ 31 <= fst p < 2 ^ 31 /\ - 2 ^ 31 <= snd p < 2 ^ 31.
