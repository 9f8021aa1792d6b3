(** Lines between points with f32 coordinates. *)
From Flocq Require Import BinarySingleNaN.
From Coq Require Import Reals.
From Verif Require Import Base Float.
Open Scope Z_scope.

(** the point of the plane a fraction t of the way from a to b *)
Definition along (a b : f32 * f32) (t : R) : R * R :=
  ((B2R (fst a) + t * (B2R (fst b) - B2R (fst a)))%R, (B2R (snd a) + t * (B2R (snd b) - B2R (snd a)))%R).

(** the pixel p is at most d away from the point q, across and down *)
Definition close (d : R) (p : Z * Z) (q : R * R) : Prop :=
  (Rabs (IZR (fst p) - fst q) <= d)%R /\ (Rabs (IZR (snd p) - snd q) <= d)%R.

(** pts follow the segment from a to b: no pixel is more than 2.55 from the
    segment, and no point of the segment is more than 3.55 from a pixel *)
Definition follows (a b : f32 * f32) (pts : list (Z * Z)) : Prop :=
  Forall (fun p => exists t, (0 <= t <= 1)%R /\ close (51 / 20) p (along a b t)) pts /\
  forall t, (0 <= t <= 1)%R -> exists p, In p pts /\ close (71 / 20) p (along a b t).
