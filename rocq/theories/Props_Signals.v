(** C70: in-place transposition, and the two passes of dct2d. *)
From Verif Require Import Base BaseProofs SignalsModel SignalsSpec SignalsProofs.
Local Ltac Zify.zify_post_hook ::= idtac.
Open Scope Z_scope.

(** On a square image both transpositions return the reflection in the diagonal. *)
Theorem c70_inplace : forall (F : Type) (im : image F), wf im -> iw im = ih im ->
  exists t, transpose_inplace im = Ok t /\ transpose im = Ok t /\ is_transpose im t.
Proof.
  intros F im W E. destruct (inplace_ok im W E) as (t & E1 & H1). destruct (transpose_ok im W) as (t' & E2 & H2).
  exists t. split; [assumption|]. split; [|assumption]. rewrite E2, (transpose_unique im t' t); auto.
Qed.
Print Assumptions c70_inplace.

Theorem c70_transpose : forall (F : Type) (im : image F), wf im ->
  exists t, transpose im = Ok t /\ is_transpose im t.
Proof. intros. apply transpose_ok; assumption. Qed.
Print Assumptions c70_transpose.

(** Transposing in place twice restores the image. *)
Theorem c70_involution : forall (F : Type) (im t : image F), wf im ->
  transpose_inplace im = Ok t -> transpose_inplace t = Ok im.
Proof.
  intros F im t W E. assert (Q : iw im = ih im).
  { unfold transpose_inplace, assert in E. destruct (Z.eqb_spec (iw im) (ih im)); [assumption|discriminate]. }
  destruct (inplace_ok im W Q) as (t' & E' & Wt & Tw & Th & Tg). rewrite E in E'. inversion E'; subst t'.
  destruct (inplace_ok t Wt) as (u & Eu & Wu & Uw & Uh & Ug); [congruence|]. rewrite Eu. apply f_equal.
  apply image_ext; try assumption; congruence.
Qed.
Print Assumptions c70_involution.

(** Images that are not square are rejected. *)
Theorem c70_not_square : forall (F : Type) (im : image F), iw im <> ih im -> transpose_inplace im = Panic.
Proof. intros F im H. unfold transpose_inplace, assert. destruct (Z.eqb_spec (iw im) (ih im)); [contradiction|reflexivity]. Qed.
Print Assumptions c70_not_square.

(** dct2d transforms every column, then every row of the result, whatever the
    one-dimensional transform does. *)
Theorem c70_dct2d : forall (F : Type) (dct : Z -> list F -> list F) (im : image F), wf im ->
  (forall n l, zlen l = n -> zlen (dct n l) = n) ->
  exists mid out, dct2d dct im = Ok out /\
    (wf out /\ iw out = iw im /\ ih out = ih im) /\ (wf mid /\ iw mid = iw im /\ ih mid = ih im) /\
    (forall x l, 0 <= x < iw im -> is_column im x l -> is_column mid x (dct (ih im) l)) /\
    (forall y l, 0 <= y < ih im -> is_row mid y l -> is_row out y (dct (iw im) l)).
Proof.
  intros F dct im W HD. destruct (dct2d_ok dct im W HD) as (m & o & A & B & C & D & E & G & H & I & J).
  exists m, o. tauto.
Qed.
Print Assumptions c70_dct2d.

Example c70_nontrivial :
  transpose_inplace (mkImage 3 3 [1; 2; 3; 4; 5; 6; 7; 8; 9]) = Ok (mkImage 3 3 [1; 4; 7; 2; 5; 8; 3; 6; 9]) /\
  dct2d (fun n l => match l with a :: r => (a + n) :: r | [] => [] end) (mkImage 2 3 [1; 2; 3; 4; 5; 6]) =
    Ok (mkImage 2 3 [6; 5; 5; 4; 7; 6]).
Proof. split; reflexivity. Qed.
