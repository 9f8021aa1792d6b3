(** Haar-like features, independently of the program. *)
From Verif Require Import Base IntegralSpec HaarModel.

Definition feature_width (f : feature) : Z := fst (shape (ftype f)) * block_width f.
Definition feature_height (f : feature) : Z := snd (shape (ftype f)) * block_height f.

(** a feature of a w x h frame: blocks are not empty, and all of them lie in the frame *)
Definition valid (w h : Z) (f : feature) : Prop :=
  1 <= block_width f /\ 1 <= block_height f /\ 0 <= left f /\ 0 <= top f /\
  left f + feature_width f <= w /\ top f + feature_height f <= h.

(** pixel (x, y) of the feature is counted positively: the blocks alternate like
    a chessboard, starting at the top left with the sign of the feature *)
Definition positive (f : feature) (x y : Z) : bool :=
  Bool.eqb (Z.even ((x - left f) / block_width f + (y - top f) / block_height f))
           (match fsign f with Positive => true | Negative => false end).

(** the sum of the positive pixels minus the sum of the negative ones *)
Definition feature_value (f : feature) (im : image (list Z)) : Z :=
  rect_sum (fun x y => if positive f x y then chan im 0 x y else - chan im 0 x y)
    (left f) (left f + feature_width f) (top f) (top f + feature_height f).
