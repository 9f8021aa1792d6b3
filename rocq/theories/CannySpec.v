(** Canny's edges over the reals. *)
From Flocq Require Import Core BinarySingleNaN.
From Coq Require Import Reals.
From Verif Require Import Base Float FloatErr FilterSpec GradientSpec HogCellsSpec EdgesSpec.
Local Open Scope Z_scope.

(** squared length of the Sobel gradient, borders replicated *)
Definition gradient2 (b : image (list Z)) (x y : Z) : Z :=
  sobel_dx b x y * sobel_dx b x y + sobel_dy b x y * sobel_dy b x y.
(** the strength of an edge: its length, rounded to f32 *)
Definition strength (b : image (list Z)) (x y : Z) : R := rnd 24 128 (sqrt (IZR (gradient2 b x y))).

(** the direction of the gradient to the nearest multiple of 45 degrees, opposite
    directions being one; a thousandth of a degree of tolerance *)
Definition nearest_direction (b : image (list Z)) (deg x y : Z) : Prop :=
  (deg = 0 \/ deg = 45 \/ deg = 90 \/ deg = 135) /\
  exists m : Z, (Rabs (angle (sobel_dx b x y) (sobel_dy b x y) * 180 / PI - IZR deg - 180 * IZR m) <= 22.5 + / 1000)%R.

(** pixels that are not on the border and no weaker than their two neighbours
    forwards and backwards in the direction of the gradient *)
Definition ridge (b : image (list Z)) (deg : Z -> Z -> Z) (x y : Z) : Prop :=
  1 <= x < iw b - 1 /\ 1 <= y < ih b - 1 /\
  let '(sx, sy) := unit_step (deg x y) in
  gradient2 b (x + sx) (y + sy) <= gradient2 b x y /\ gradient2 b (x - sx) (y - sy) <= gradient2 b x y.

(** ridge pixels of at least the high threshold, and those of at least the low
    threshold that follow an edge pixel in a step allowed by [nb] *)
Inductive canny_edge (nb : Z -> Z -> Prop) (b : image (list Z)) (deg : Z -> Z -> Z) (low high : R) : Z -> Z -> Prop :=
| e_strong x y : ridge b deg x y -> (high <= strength b x y)%R -> canny_edge nb b deg low high x y
| e_step x y x' y' : canny_edge nb b deg low high x y -> nb (x' - x) (y' - y) ->
    ridge b deg x' y' -> (low <= strength b x' y')%R -> canny_edge nb b deg low high x' y'.

(** a correctly rounded hypot on the Sobel gradients (computing it in f64, as
    common libraries do, achieves that) *)
Definition hypot_ok (hypot : f32 -> f32 -> f32) : Prop := forall h v : Z, (Z.abs h <= 1020)%Z -> (Z.abs v <= 1020)%Z ->
  let d := hypot (of_int h) (of_int v) in
  is_finite d = true /\ B2R d = rnd 24 128 (sqrt (IZR (h * h + v * v))).
