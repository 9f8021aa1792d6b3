(** Images that differ only in brightness, contrast or polarity. *)
From Verif Require Import Base.

(** [im'] is [im] with [f] applied to every pixel *)
Definition pointwise {A} (f : A -> A) (im im' : image A) : Prop :=
  wf im /\ wf im' /\ iw im' = iw im /\ ih im' = ih im /\
  forall x y p, get im x y = Some p -> get im' x y = Some (f p).

(** every intensity raised by [d] (lowered if [d] is negative) *)
Definition lit_by (d : Z) : image Z -> image Z -> Prop := pointwise (fun v => v + d).
(** the same for images that keep a list of channels in each pixel *)
Definition lit_by_channels (d : Z) : image (list Z) -> image (list Z) -> Prop := pointwise (map (fun v => v + d)).
(** the photographic negative *)
Definition negative : image Z -> image Z -> Prop := pointwise (fun v => 255 - v).
Definition negative_channels : image (list Z) -> image (list Z) -> Prop := pointwise (map (fun v => 255 - v)).
(** a change of intensities that keeps their order *)
Definition increasing (f : Z -> Z) : Prop := forall a b, 0 <= a <= 255 -> 0 <= b <= 255 -> a < b -> f a < f b.
