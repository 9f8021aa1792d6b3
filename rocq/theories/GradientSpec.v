(** Sobel, Scharr and Prewitt derivatives, written out. *)
From Verif Require Import Base FilterSpec.

(** channel c at (x, y), border replicated *)
Definition px_rep (im : image (list Z)) (c x y : Z) : Z := rep_chan 0 im c x y.

(** central difference in x, smoothed in y with weights (a, b, a) *)
Definition deriv_x (a b : Z) (im : image (list Z)) (c x y : Z) : Z :=
  let d j := px_rep im c (x + 1) j - px_rep im c (x - 1) j in
  a * d (y - 1) + b * d y + a * d (y + 1).
Definition deriv_y (a b : Z) (im : image (list Z)) (c x y : Z) : Z :=
  let d i := px_rep im c i (y + 1) - px_rep im c i (y - 1) in
  a * d (x - 1) + b * d x + a * d (x + 1).

(** every channel value is a u8 *)
Definition u8_image (im : image (list Z)) : Prop :=
  forall x y p v, get im x y = Some p -> In v p -> 0 <= v <= 255.
