(** What interpolation and antialiased lines promise. *)
From Coq Require Import Reals.
From Flocq Require Import BinarySingleNaN.
From Verif Require Import Base Float.
Open Scope Z_scope.

(** a weight in [0, 1]: in particular not NaN *)
Definition unit_weight (w : f32) : Prop := fle (of_int 0) w = true /\ fle w (of_int 1) = true.

(** l * w + r * (1 - w) over the reals *)
Definition mix (l r : Z) (w : R) : R := (IZR l * w + IZR r * (1 - w))%R.

(** two blend functions that treat all weights in [0, 1] alike *)
Definition agree_on_unit {A} (b b' : A -> A -> f32 -> A) : Prop :=
  forall c o w, unit_weight w -> b c o w = b' c o w.

(** The line from p to q: is it steeper than 45 degrees? *)
Definition steep (p q : Z * Z) : bool := Z.abs (fst q - fst p) <? Z.abs (snd q - snd p).
(** the signed distance of (x, y) from the line through p and q, measured along
    the minor axis *)
Definition line_offset (p q : Z * Z) (x y : Z) : R :=
  if steep p q then (IZR x - (IZR (fst p) + IZR (y - snd p) * (IZR (fst q - fst p) / IZR (snd q - snd p))))%R
  else (IZR y - (IZR (snd p) + IZR (x - fst p) * (IZR (snd q - snd p) / IZR (fst q - fst p))))%R.
(** (x, y) lies between the two ends along the major axis *)
Definition between_ends (p q : Z * Z) (x y : Z) : Prop :=
  if steep p q then Z.min (snd p) (snd q) <= y <= Z.max (snd p) (snd q)
  else Z.min (fst p) (fst q) <= x <= Z.max (fst p) (fst q).

(** The outcome [res] for a pixel with original value [o] whose signed distance
    from the line is [off]: between the ends it is blended once with a weight
    within 1/8 of 1 - |off|; pixels past the ends, and only pixels at distance
    at least 7/8, are left alone. *)
Local Open Scope R_scope.
Definition wu_result {A} (b : A -> A -> f32 -> A) (color o : A) (off : R) (inside : Prop) (res : option A) : Prop :=
  (inside /\ Rabs off <= (9 / 8) /\ exists w : f32, is_finite w = true /\ Rabs (B2R w - (1 - Rabs off)) <= / 8 /\ res = Some (b color o w)) \/
  ((~ inside \/ 7 / 8 <= Rabs off) /\ res = Some o).
