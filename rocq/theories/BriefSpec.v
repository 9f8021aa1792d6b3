(** Binary descriptors, independently of the code. *)
From Verif Require Import Base IntegralSpec BriefModel.

(** a descriptor made of u128 words *)
Definition words (d : descriptor) : Prop := forall w, In w (dbits d) -> 0 <= w < 2 ^ 128.
(** number of bits, bit number i *)
Definition nbits (d : descriptor) : Z := 128 * zlen (dbits d).
Definition bit_of (d : descriptor) (i : Z) : bool :=
  match znth (dbits d) (i / 128) with Some w => Z.testbit w (i mod 128) | None => false end.
(** the number of positions below n at which two bit sequences differ *)
Definition differing (n : Z) (f g : Z -> bool) : Z := zsum 0 n (fun i => if Bool.eqb (f i) (g i) then 0 else 1).

(** the mean (rounded down) of the pixels of the 5 x 5 square around (x, y) that
    lie in the image *)
Definition patch_mean (im : image (list Z)) (x y : Z) : Z :=
  let x0 := Z.max 0 (x - 2) in let x1 := Z.min (x + 3) (iw im) in
  let y0 := Z.max 0 (y - 2) in let y1 := Z.min (y + 3) (ih im) in
  rect_sum (chan im 0) x0 x1 y0 y1 / ((y1 - y0) * (x1 - x0)).
(** the outcome of a test at a keypoint: is the first patch darker? *)
Definition outcome (im : image (list Z)) (k : Z * Z) (tp : test_pair) : bool :=
  let '((x0, y0), (x1, y1)) := tp in
  patch_mean im (fst k - 14 + x0) (snd k - 14 + y0) <? patch_mean im (fst k - 14 + x1) (snd k - 14 + y1).

(** keypoints far enough from the edge, pairs inside the 31 x 31 patch *)
Definition inner (im : image (list Z)) (k : Z * Z) : Prop :=
  16 <= fst k <= iw im - 15 /\ 16 <= snd k <= ih im - 15.
Definition in_patch (tp : test_pair) : Prop :=
  let '((x0, y0), (x1, y1)) := tp in 0 <= x0 < 31 /\ 0 <= y0 < 31 /\ 0 <= x1 < 31 /\ 0 <= y1 < 31.

(** ** Matching *)
(** descriptors of n words of 128 bits *)
Definition descs (n : Z) (l : list descriptor) : Prop := forall d, In d l -> zlen (dbits d) = n /\ words d.
Definition hdist (n : Z) (a b : descriptor) : Z := differing (128 * n) (bit_of a) (bit_of b).
(** any drawn bit positions, at most 128 per table *)
Definition draws_ok (n : Z) (draws : list (list Z)) : Prop :=
  forall bits, In bits draws -> zlen bits <= 128 /\ forall b, In b bits -> 0 <= b < 128 * n.
(** the two descriptors agree on all bits drawn for some table *)
Definition collide (draws : list (list Z)) (q d : descriptor) : Prop :=
  exists bits, In bits draws /\ forall b, In b bits -> bit_of q b = bit_of d b.
(** what is reported for a query: the nearest colliding database entry, if it is
    nearer than the threshold *)
Definition nearest (n : Z) (draws : list (list Z)) (database : list descriptor) (t : Z) (q : descriptor) (o : option descriptor) : Prop :=
  match o with
  | Some d => In d database /\ collide draws q d /\ hdist n q d < t /\
      forall d', In d' database -> collide draws q d' -> hdist n q d <= hdist n q d'
  | None => forall d', In d' database -> collide draws q d' -> t <= hdist n q d'
  end.
