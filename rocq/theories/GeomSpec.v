(** What rotations and translations should do, pixel by pixel. *)
From Verif Require Import Base.

(** clockwise quarter turn: the input pixel (x,y) of a w x h image moves to
    (h-1-y, x) of an h x w image *)
Definition quarter_turn {A} (im out : image A) : Prop :=
  wf out /\ iw out = ih im /\ ih out = iw im /\
  forall x y, 0 <= x < iw im -> 0 <= y < ih im -> get out (ih im - 1 - y) x = get im x y.
(** anticlockwise quarter turn: (x,y) moves to (y, w-1-x) *)
Definition quarter_turn_ccw {A} (im out : image A) : Prop :=
  wf out /\ iw out = ih im /\ ih out = iw im /\
  forall x y, 0 <= x < iw im -> 0 <= y < ih im -> get out y (iw im - 1 - x) = get im x y.
Definition half_turn {A} (im out : image A) : Prop :=
  wf out /\ iw out = iw im /\ ih out = ih im /\
  forall x y, 0 <= x < iw im -> 0 <= y < ih im ->
    get out (iw im - 1 - x) (ih im - 1 - y) = get im x y.

(** shift by (tx,ty), border pixels replicated *)
Definition shifted {A} (im out : image A) (tx ty : Z) : Prop :=
  wf out /\ iw out = iw im /\ ih out = ih im /\
  forall x y, 0 <= x < iw im -> 0 <= y < ih im ->
    get out x y = get im (zclamp 0 (iw im - 1) (x - tx)) (zclamp 0 (ih im - 1) (y - ty)).

Definition is_i32 (z : Z) : Prop := - 2 ^ 31 <= z < 2 ^ 31.
