(** Where the rays of a star should be, over the real numbers. *)
From Flocq Require Import BinarySingleNaN.
From Coq Require Import Reals.
From Verif Require Import Base Float RenderSpec LineFloatSpec.
Open Scope R_scope.

(** sine and cosine accurate to 2^-22 up to 16 *)
Definition accurate_trig (fsin fcos : f32 -> f32) : Prop :=
  forall x : f32, is_finite x = true -> Rabs (B2R x) <= 16 ->
  is_finite (fsin x) = true /\ Rabs (B2R (fsin x) - sin (B2R x)) <= / 4194304 /\
  is_finite (fcos x) = true /\ Rabs (B2R (fcos x) - cos (B2R x)) <= / 4194304.

(** bucket b of n divides the whole turn, or half a turn without sign *)
Definition ideal_direction (signed : bool) (n b : Z) : R := (if signed then 2 * PI else PI) * IZR b / IZR n.

(** the point a fraction s along the ray in direction t, clockwise from
    downwards, from the middle of a w x h picture to half its longer side *)
Definition ideal_ray (w h : Z) (t s : R) : R * R :=
  (IZR (w / 2) - s * (IZR (Z.max w h) / 2 * sin t), IZR (h / 2) + s * (IZR (Z.max w h) / 2 * cos t)).

(** the pixels of the drawn ray in direction theta and the points of the ideal
    ray in direction t are close to each other *)
Definition ray_near (fsin fcos : f32 -> f32) (w h : Z) (theta : f32) (t : R) : Prop :=
  (forall x y, on_ray fsin fcos w h theta x y = true -> exists s, 0 <= s <= 1 /\ close (53 / 20) (x, y) (ideal_ray w h t s)) /\
  (forall s, 0 <= s <= 1 -> exists x y, on_ray fsin fcos w h theta x y = true /\ close (73 / 20) (x, y) (ideal_ray w h t s)).
