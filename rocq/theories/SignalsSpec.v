(** Transposition and the two passes of a separable transform. *)
From Verif Require Import Base.
Open Scope Z_scope.

(** [t] is [im] reflected in its main diagonal *)
Definition is_transpose {F} (im t : image F) : Prop :=
  wf t /\ iw t = ih im /\ ih t = iw im /\ forall x y, get t x y = get im y x.

(** [l] lists column x from top to bottom, row y from left to right *)
Definition is_column {F} (im : image F) (x : Z) (l : list F) : Prop := forall y, znth l y = get im x y.
Definition is_row {F} (im : image F) (y : Z) (l : list F) : Prop := forall x, znth l x = get im x y.
