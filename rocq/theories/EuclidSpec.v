(** What the squared Euclidean distance transform promises. *)
From Coq Require Import Reals.
From Flocq Require Import Core BinarySingleNaN.
From Verif Require Import Base Float.
Local Open Scope Z_scope.

Definition foreground (im : image Z) (i j : Z) : Prop := exists v, get im i j = Some v /\ v <> 0.
Definition sq_dist (x y i j : Z) : Z := (x - i) * (x - i) + (y - j) * (y - j).
(** [d] is the least squared distance from (x, y) to a foreground pixel *)
Definition least_sq (im : image Z) (x y d : Z) : Prop :=
  (exists i j, foreground im i j /\ sq_dist x y i j = d) /\
  (forall i j, foreground im i j -> d <= sq_dist x y i j).
(** the float [v] is that distance, and infinity when there is no foreground pixel *)
Definition is_sq_distance (im : image Z) (x y : Z) (v : f64) : Prop :=
  (exists d, least_sq im x y d /\ is_finite v = true /\ B2R v = IZR d) \/
  ((forall i j, ~ foreground im i j) /\ v = B754_infinity false).
