(** Norms of vectors of floats, over the real numbers. *)
From Flocq Require Import BinarySingleNaN.
From Coq Require Import Reals.
From Verif Require Import Base Float.
Open Scope R_scope.

Definition sum_abs (l : list f32) : R := fold_right (fun x s => Rabs (B2R x) + s) 0 l.
Definition sum_squares (l : list f32) : R := fold_right (fun x s => B2R x * B2R x + s) 0 l.
(** Euclidean norm *)
Definition norm (l : list f32) : R := sqrt (sum_squares l).

(** what most theorems ask of a vector: at most 2^20 finite entries of at most
    2^50, and not too small as a whole *)
Definition vector_ok (l : list f32) : Prop :=
  (zlen l <= 2 ^ 20)%Z /\ Forall (fun x => is_finite x = true /\ Rabs (B2R x) <= IZR (2 ^ 50)) l.
Definition large_enough (l : list f32) : Prop := / IZR (2 ^ 40) <= norm l.

(** relative accuracy for n entries *)
Definition rho (n : Z) : R := (IZR n + 3) / IZR (2 ^ 22).

(** out is l divided by its norm, to that accuracy (and to the least positive
    float for entries that underflow) *)
Definition is_scaled (l out : list f32) : Prop :=
  Forall2 (fun x y => is_finite y = true /\
    Rabs (B2R y - B2R x / norm l) <= rho (zlen l) * (Rabs (B2R x) / norm l) + / IZR (2 ^ 150)) l out.

(** the k-th of the blocks of n entries *)
Definition block_at (d : list f32) (n k : Z) : list f32 := firstn (Z.to_nat n) (skipn (Z.to_nat (k * n)) d).
