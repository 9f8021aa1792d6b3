(** Counting pixels, independently of the histogram code. *)
From Verif Require Import Base IntegralSpec.

(** channel c of a pixel has level v *)
Definition has_level (c v : Z) (p : list Z) : bool :=
  match znth p c with Some u => u =? v | None => false end.
(** channel c of a pixel is at most v *)
Definition at_most (c v : Z) (p : list Z) : bool :=
  match znth p c with Some u => u <=? v | None => false end.

(** number of pixels of the image satisfying a test *)
Definition count_px (im : image (list Z)) (t : list Z -> bool) : Z := zlen (filter t (idata im)).

(** a grayscale image as an image of one-channel pixels *)
Definition luma (im : image Z) : image (list Z) := mkImage (iw im) (ih im) (map (fun v => [v]) (idata im)).
