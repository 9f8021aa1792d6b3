(** Kapur's threshold criterion: entropy of the two classes of a split. *)
From Coq Require Import Reals.
From Flocq Require Import Core BinarySingleNaN.
From Verif Require Import Base Float FContrastSpec.
Open Scope R_scope.

Definition rsum (l : list R) : R := fold_right Rplus 0 l.

(** entropy of the distribution of levels [l] within a class of [n] pixels:
    - sum of q ln q over the levels that occur, q = pixels at the level / n *)
Definition class_entropy (im : image Z) (n : Z) (l : list Z) : R :=
  - rsum (map (fun v => let q := IZR (count_at im v) / IZR n in if (count_at im v =? 0)%Z then 0 else q * ln q) l).

(** entropy of the pixels at most at level s plus that of the pixels above it *)
Definition split_entropy (im : image Z) (s : Z) : R :=
  class_entropy im (count_le im s) (zrange 0 (s + 1)) + class_entropy im (count_gt im s) (zrange (s + 1) 256).

(** both classes of the split at s have pixels *)
Definition proper_split (im : image Z) (s : Z) : Prop := (0 < count_le im s)%Z /\ (0 < count_gt im s)%Z.

(** What is asked of the platform's logarithm: on numbers from 2^-70 to 2 the
    result is off by at most 2^-46. *)
Definition accurate_ln (ln64 : f64 -> f64) : Prop :=
  forall x : f64, is_finite x = true -> / 1180591620717411303424 <= B2R x <= 2 ->
    is_finite (ln64 x) = true /\ Rabs (B2R (ln64 x) - ln (B2R x)) <= / 70368744177664.
