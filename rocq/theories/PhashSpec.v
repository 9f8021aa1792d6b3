(** The discrete cosine transform of a 32 x 32 image. *)
From Flocq Require Import Core BinarySingleNaN.
From Coq Require Import Reals.
From Verif Require Import Base Float.
Local Open Scope R_scope.

Fixpoint sum_to (n : nat) (f : Z -> R) : R :=
  match n with O => 0 | S m => sum_to m f + f (Z.of_nat m) end.

(** the wave of k half periods over 32 samples *)
Definition wave (k n : Z) : R := cos (PI * IZR ((2 * n + 1) * k) / 64).

(** how much of the wave with k half periods across and l down is in [f] *)
Definition coef (f : Z -> Z -> R) (k l : Z) : R :=
  sum_to 32 (fun x => sum_to 32 (fun y => f x y * wave k x * wave l y)).
(** the mean over the 64 slowest waves in both directions, without the constant *)
Definition mean_coef (f : Z -> Z -> R) : R := sum_to 8 (fun j => sum_to 8 (fun i => coef f (i + 1) (j + 1))) / 64.

Definition val (l : list f32) (n : Z) : R := match znth l n with Some a => B2R a | None => 0 end.
Definition shade (r : image f32) (x y : Z) : R := match get r x y with Some a => B2R a | None => 0 end.
Definition bounded (B : R) (a : f32) : Prop := is_finite a = true /\ Rabs (B2R a) <= B.

(** the external transform keeps lengths, and on 32 samples is accurate to [e] times
    the greatest sample *)
Definition dct_ok (e : R) (dct : Z -> list f32 -> list f32) : Prop :=
  (forall n l, zlen l = n -> zlen (dct n l) = n) /\
  forall l B, zlen l = 32%Z -> 1 <= B <= 100000000 -> (forall a, In a l -> bounded B a) ->
    forall k c, znth (dct 32%Z l) k = Some c ->
      is_finite c = true /\ Rabs (B2R c - sum_to 32 (fun n => val l n * wave k n)) <= e * B.

(** [r] is 32 x 32 with samples up to [B] *)
Definition reduction (B : R) (r : image f32) : Prop :=
  wf r /\ iw r = 32%Z /\ ih r = 32%Z /\ forall x y a, get r x y = Some a -> bounded B a.
