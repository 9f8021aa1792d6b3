(** Rotating the plane about a point. *)
From Flocq Require Import Core BinarySingleNaN.
From Coq Require Import Reals.
From Verif Require Import Base Float.
Local Open Scope R_scope.

(** the point that a clockwise rotation by [t] about (cx, cy) takes to (x, y); the
    y axis points downwards *)
Definition back_x (t cx cy x y : R) : R := cx + (x - cx) * cos t + (y - cy) * sin t.
Definition back_y (t cx cy x y : R) : R := cy - (x - cx) * sin t + (y - cy) * cos t.

(** [s] and [c] are the sine and cosine of [t] to within 2^-22 *)
Definition sincos_ok (t : R) (s c : f32) : Prop :=
  (is_finite s = true /\ Rabs (B2R s) <= 1 /\ Rabs (B2R s - sin t) <= / 4194304) /\
  (is_finite c = true /\ Rabs (B2R c) <= 1 /\ Rabs (B2R c - cos t) <= / 4194304).
