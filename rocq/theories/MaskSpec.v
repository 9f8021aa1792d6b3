From Verif Require Import Base.
From Coq Require Import Sorted.

(** reverse lexicographic order, line by line (src/morphology.rs:342) *)
Definition before (a b : Z * Z) : Prop := snd a < snd b \/ (snd a = snd b /\ fst a < fst b).
(** each offset once, in that order *)
Definition in_order (m : list (Z * Z)) : Prop := StronglySorted before m.

(** (u, v) is an image position reached from (x, y) by an offset of the mask *)
Definition covered {A} (im : image A) (mask : list (Z * Z)) (x y u v : Z) : Prop :=
  In (u - x, v - y) mask /\ 0 <= u < iw im /\ 0 <= v < ih im.

(** value of the window maximum / minimum at (x, y); 0 / 255 over an empty window *)
Definition window_max (im : image Z) (mask : list (Z * Z)) (x y r : Z) : Prop :=
  (forall u v p, covered im mask x y u v -> get im u v = Some p -> p <= r) /\
  ((exists u v, covered im mask x y u v /\ get im u v = Some r) \/
   ((forall u v, ~ covered im mask x y u v) /\ r = 0)).
Definition window_min (im : image Z) (mask : list (Z * Z)) (x y r : Z) : Prop :=
  (forall u v p, covered im mask x y u v -> get im u v = Some p -> r <= p) /\
  ((exists u v, covered im mask x y u v /\ get im u v = Some r) \/
   ((forall u v, ~ covered im mask x y u v) /\ r = 255)).

Definition symmetric_mask (m : list (Z * Z)) : Prop := forall x y, In (x, y) m -> In (- x, - y) m.

(** pointwise order of images of the same size *)
Definition image_le (a b : image Z) : Prop :=
  iw a = iw b /\ ih a = ih b /\
  forall x y p q, get a x y = Some p -> get b x y = Some q -> p <= q.
