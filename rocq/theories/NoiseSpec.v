(** What noise may do to an image. *)
From Verif Require Import Base Float.
Open Scope Z_scope.

(** same size, and every pixel of [out] is the old pixel, black or white *)
Definition speckled {P} (white black : P) (im out : image P) : Prop :=
  wf out /\ iw out = iw im /\ ih out = ih im /\
  forall x y p, get im x y = Some p ->
    get out x y = Some p \/ get out x y = Some white \/ get out x y = Some black.
