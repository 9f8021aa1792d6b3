(** What sharpening, the Laplacian, the error statistics and the channel
    conversions should compute. *)
From Verif Require Import Base FilterSpec.

(** the pixel at (x, y), coordinates clamped to the image, is [gray_rep im x y] *)
Definition cross_sum (im : image Z) (x y : Z) : Z :=
  gray_rep im x (y - 1) + gray_rep im x (y + 1) + gray_rep im (x - 1) y + gray_rep im (x + 1) y.

(** sum of the squared differences of two lists of channels, and of two images *)
Fixpoint sq_diffs (p q : list Z) : Z :=
  match p, q with c :: p, d :: q => (c - d) * (c - d) + sq_diffs p q | _, _ => 0 end.
Fixpoint sum_sq (l r : list (list Z)) : Z :=
  match l, r with p :: l, q :: r => sq_diffs p q + sum_sq l r | _, _ => 0 end.
Definition squared_error (l r : image (list Z)) : Z := sum_sq (idata l) (idata r).

(** every pixel has [ch] channels with values in 0..max *)
Definition pixels_ok (ch max : Z) (im : image (list Z)) : Prop :=
  wf im /\ forall p, In p (idata im) -> zlen p = ch /\ forall c, In c p -> 0 <= c <= max.
