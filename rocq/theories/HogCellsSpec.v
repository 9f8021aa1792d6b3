(** Orientation histograms over the reals. *)
From Flocq Require Import Core BinarySingleNaN.
From Coq Require Import Reals.
From Verif Require Import Base Float FilterSpec GradientSpec HogModel.
Local Open Scope R_scope.

(** the angle of the vector (h, v), in (-PI, PI]; 0 for the zero vector *)
Definition angle (h v : Z) : R :=
  if (0 <? h)%Z then atan (IZR v / IZR h)
  else if (h <? 0)%Z then (if (0 <=? v)%Z then atan (IZR v / IZR h) + PI else atan (IZR v / IZR h) - PI)
  else if (0 <? v)%Z then PI / 2 else if (v <? 0)%Z then - (PI / 2) else 0.

(** Directions: the whole turn for signed gradients; opposite directions count as
    one for unsigned gradients. *)
Definition full_range (signed : bool) : R := if signed then 2 * PI else PI.
(** the angle brought to 0 <= . < full_range *)
Definition direction (signed : bool) (h v : Z) : R :=
  let t := angle h v in
  if (v <? 0)%Z then t + full_range signed
  else if negb signed && (v =? 0)%Z && (h <? 0)%Z then 0 else t.

(** linear interpolation: how much a position at distance t from a bin counts for it *)
Definition hat (t : R) : R := Rmax 0 (1 - Rabs t).
(** the same on a circle of n bins: p is between 0 and n, bin 0 follows bin n - 1 *)
Definition circular_hat (n : Z) (p : R) (o : Z) : R := hat (p - IZR o) + hat (p - IZR n - IZR o).

(** Sobel derivatives *)
Definition sobel_dx (im : image (list Z)) (x y : Z) : Z := deriv_x 1 2 im 0 x y.
Definition sobel_dy (im : image (list Z)) (x y : Z) : Z := deriv_y 1 2 im 0 x y.

(** What pixel (x, y) contributes to bin o of cell (cx, cy): its gradient
    magnitude, shared between neighbouring cells and bins, per pixel of a cell. *)
Definition contribution (im : image (list Z)) (opt : hog_options) (o cx cy x y : Z) : R :=
  let n := orientations opt in
  let side := IZR (cell_side opt) in
  let h := sobel_dx im x y in let v := sobel_dy im x y in
  hat (IZR y / side - IZR cy) * hat (IZR x / side - IZR cx) *
  circular_hat n (IZR n * direction (signed opt) h v / full_range (signed opt)) o *
  sqrt (IZR (h * h + v * v)) / (side * side).

Fixpoint rsum_to (n : nat) (f : Z -> R) : R :=
  match n with O => 0 | S k => rsum_to k f + f (Z.of_nat k) end.
(** the histogram: the sum over all pixels *)
Definition histogram (im : image (list Z)) (opt : hog_options) (o cx cy : Z) : R :=
  rsum_to (Z.to_nat (ih im)) (fun y => rsum_to (Z.to_nat (iw im)) (fun x => contribution im opt o cx cy x y)).

(** An arc tangent accurate to 2^-20 on the Sobel gradients, and right on the axis:
    atan2 of +0 and a negative number is the float PI (13176795 / 2^22).  IEEE 754
    asks for the latter; the error of the usual libraries is below 2^-22. *)
Definition atan2_ok (atan2 : f32 -> f32 -> f32) : Prop := forall h v : Z, (Z.abs h <= 1020)%Z -> (Z.abs v <= 1020)%Z ->
  let d := atan2 (of_int v) (of_int h) in
  is_finite d = true /\ Rabs (B2R d - angle h v) <= / 1048576 * Rabs (angle h v) /\
  (v = 0%Z -> (h < 0)%Z -> B2R d = 13176795 / 4194304).
