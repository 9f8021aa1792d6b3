(** Gaussian averages over the reals. *)
From Flocq Require Import Core BinarySingleNaN.
From Coq Require Import Reals.
From Verif Require Import Base Float FilterSpec KapurSpec.
Open Scope R_scope.

(** weight of the neighbour at distance i, and the radius of the window *)
Definition gauss_weight (sigma : R) (i : Z) : R := exp (- (IZR i * IZR i / (2 * (sigma * sigma)))).
Definition gauss_radius (sigma : R) : Z := Zceil (2 * sigma).
Definition gauss_window (sigma : R) : list Z := zrange (- gauss_radius sigma) (gauss_radius sigma + 1).

(** weighted average of [f i] for i from -radius to radius *)
Definition gauss_avg (sigma : R) (f : Z -> R) : R :=
  rsum (map (fun i => gauss_weight sigma i * f i) (gauss_window sigma)) / rsum (map (gauss_weight sigma) (gauss_window sigma)).

(** the average of the square window around (x, y), borders replicated *)
Definition gauss_blur (sigma : R) (im : image (list Z)) (c x y : Z) : R :=
  gauss_avg sigma (fun j => gauss_avg sigma (fun i => IZR (rep_chan 0%Z im c (x + i) (y + j)))).

(** an exponential function with absolute error at most 2^-20 on the negative
    numbers, and NaN for NaN; the error of the usual libraries is below 2^-23 *)
Definition exp_ok (fexp : f32 -> f32) : Prop :=
  (forall x, is_nan x = true -> is_nan (fexp x) = true) /\
  forall x, is_finite x = true -> B2R x <= 0 ->
    is_finite (fexp x) = true /\ 0 <= B2R (fexp x) /\ Rabs (B2R (fexp x) - exp (B2R x)) <= / 1048576.
