(** Properties C01, C04, C05, C06: src/compose.rs *)
From Verif Require Import Base ComposeModel ComposeSpec ComposeProofs.

(** A 3x2 image of distinct pixels used to show hypotheses are met. *)
Definition ex32 : image Z := mkImage 3 2 [1; 2; 3; 4; 5; 6].
Example ex32_wf : wf ex32 /\ u32_dims ex32.
Proof. unfold wf, u32_dims, zlen; simpl; lia. Qed.

(** ** C01 *)
Theorem c01_flip_horizontal_mirrors :
  forall (A : Type) (im : image A), wf im ->
  exists out, flip_horizontal im = Ok out /\ mirrored_h im out.
Proof. exact @flip_horizontal_correct. Qed.
Print Assumptions c01_flip_horizontal_mirrors.

Theorem c01_flip_vertical_mirrors :
  forall (A : Type) (im : image A), wf im ->
  exists out, flip_vertical im = Ok out /\ mirrored_v im out.
Proof. exact @flip_vertical_correct. Qed.
Print Assumptions c01_flip_vertical_mirrors.

Theorem c01_flip_horizontal_involution :
  forall (A : Type) (im : image A), wf im ->
  bind (flip_horizontal im) flip_horizontal = Ok im.
Proof. exact @flip_horizontal_involutive. Qed.
Print Assumptions c01_flip_horizontal_involution.

Theorem c01_flip_vertical_involution :
  forall (A : Type) (im : image A), wf im ->
  bind (flip_vertical im) flip_vertical = Ok im.
Proof. exact @flip_vertical_involutive. Qed.
Print Assumptions c01_flip_vertical_involution.

(** the in-place variants leave the same image in their argument *)
Theorem c01_flip_mut_agrees :
  forall (A : Type) (im : image A),
  flip_horizontal_mut im = flip_horizontal im /\ flip_vertical_mut im = flip_vertical im.
Proof. intros; split; reflexivity. Qed.
Print Assumptions c01_flip_mut_agrees.

Example c01_ex : flip_horizontal ex32 = Ok (mkImage 3 2 [3; 2; 1; 6; 5; 4])
              /\ flip_vertical ex32 = Ok (mkImage 3 2 [4; 5; 6; 1; 2; 3]).
Proof. split; reflexivity. Qed.

(** ** C04 *)
Theorem c04_crop_window :
  forall (A : Type) (im : image A) rx ry rw rh,
  wf im -> u32_dims im -> 0 <= rx -> 0 <= ry -> 0 <= rw -> 0 <= rh ->
  (rx + rw <= iw im /\ ry + rh <= ih im ->
     exists out, crop im rx ry rw rh = Ok out /\ window im out rx ry rw rh) /\
  (~ (rx + rw <= iw im /\ ry + rh <= ih im) -> crop im rx ry rw rh = Panic).
Proof. exact @crop_correct. Qed.
Print Assumptions c04_crop_window.

Example c04_ex : crop ex32 1 0 2 2 = Ok (mkImage 2 2 [2; 3; 5; 6]) /\ crop ex32 2 0 2 1 = Panic.
Proof. split; reflexivity. Qed.

(** ** C05: false as documented.  Full statement: *)
Definition c05_statement : Prop :=
  forall (A : Type) (bottom top : image A) x y,
  wf bottom -> wf top -> u32_dims bottom -> 0 <= x -> 0 <= y ->
  x + iw top < 2 ^ 32 -> y + ih top < 2 ^ 32 ->
  (x < iw bottom /\ y < ih bottom ->
     exists out, replace bottom top x y = Ok out /\ replaced bottom top out x y) /\
  (~ (x < iw bottom /\ y < ih bottom) -> replace bottom top x y = Panic).

(** Replacing a 2x2 image of 0s with a 2x2 image of 1s at (0,0) changes one
    pixel only: the last row and column are skipped. *)
Theorem c05_replace_refuted : ~ c05_statement.
Proof.
  intros H. specialize (H Z (new_image 2 2 0) (new_image 2 2 1) 0 0).
  destruct H as [H _]; try (unfold wf, u32_dims, zlen; simpl; lia).
  destruct H as (out & E & _ & _ & G); [simpl; lia|].
  vm_compute in E. inversion E; subst; clear E.
  destruct (G 1 1) as [G1 _]; try (simpl; lia).
  assert (C : covered (new_image 2 2 1) 0 0 1 1) by (unfold covered; simpl; lia).
  specialize (G1 C). vm_compute in G1. discriminate.
Qed.
Print Assumptions c05_replace_refuted.

(** What holds: exactly the documented effect outside the last row and column,
    which are never written; panics as documented.  Missing from C05: covered
    pixels in the last row or column. *)
Theorem c05_replace_partial :
  forall (A : Type) (bottom top : image A) x y,
  wf bottom -> wf top -> 0 <= x -> 0 <= y ->
  x + iw top < 2 ^ 32 -> y + ih top < 2 ^ 32 ->
  (x < iw bottom /\ y < ih bottom ->
    exists out, replace bottom top x y = Ok out /\ wf out /\ same_size out bottom /\
    forall px py, 0 <= px < iw bottom -> 0 <= py < ih bottom ->
      (covered top x y px py /\ px < iw bottom - 1 /\ py < ih bottom - 1 ->
         get out px py = get top (px - x) (py - y)) /\
      (~ (covered top x y px py /\ px < iw bottom - 1 /\ py < ih bottom - 1) ->
         get out px py = get bottom px py)) /\
  (~ (x < iw bottom /\ y < ih bottom) -> replace bottom top x y = Panic).
Proof.
  intros A bottom top x y Wb Wt Hx Hy Ux Uy; split; intros H.
  - apply replace_characterised; auto; lia.
  - apply replace_panics; auto.
Qed.
Print Assumptions c05_replace_partial.

Example c05_ex : replace (new_image 3 3 0) ex32 0 1 = Ok (mkImage 3 3 [0;0;0; 1;2;0; 0;0;0]).
Proof. reflexivity. Qed.

(** ** C06: false as documented.  Full statement: *)
Definition c06_statement : Prop :=
  forall (A : Type) (blend : A -> A -> A) (bottom top : image A) x y,
  wf bottom -> wf top -> 0 <= x < iw bottom -> 0 <= y < ih bottom ->
  x + iw top < 2 ^ 32 -> y + ih top < 2 ^ 32 ->
  exists out, overlay blend bottom top x y = Ok out /\ overlaid blend bottom top out x y.

(** With the "opaque top" blend (result = top pixel), a top image of 7s on a
    bottom image of 0s changes nothing, because [top] is never read. *)
Theorem c06_overlay_refuted : ~ c06_statement.
Proof.
  intros H.
  specialize (H Z (fun _ t => t) (new_image 3 3 0) (new_image 1 1 7) 0 0).
  destruct H as (out & E & _ & _ & G); try (unfold wf, zlen; simpl; lia).
  vm_compute in E. inversion E; subst; clear E.
  destruct (G 0 0 0) as [G1 _]; [reflexivity|].
  specialize (G1 7 eq_refl). vm_compute in G1. discriminate.
Qed.
Print Assumptions c06_overlay_refuted.

(** The pixels of [top] are irrelevant: only its size matters. *)
Theorem c06_overlay_ignores_top :
  forall (A : Type) (blend : A -> A -> A) (bottom top top' : image A) x y,
  iw top = iw top' -> ih top = ih top' ->
  overlay blend bottom top x y = overlay blend bottom top' x y.
Proof.
  intros A blend bottom top top' x y Ew Eh. unfold overlay, overlay_mut.
  rewrite Ew, Eh. reflexivity.
Qed.
Print Assumptions c06_overlay_ignores_top.

(** What holds: panics as documented, the size is kept, only covered pixels
    outside the last row and column change, each blended exactly once.
    Missing from C06: that the blended-in pixel is the one of [top], and the
    last row and column. *)
Theorem c06_overlay_partial :
  forall (A : Type) (blend : A -> A -> A) (bottom top : image A) x y,
  wf bottom -> wf top -> 0 <= x -> 0 <= y ->
  x + iw top < 2 ^ 32 -> y + ih top < 2 ^ 32 ->
  (x < iw bottom /\ y < ih bottom ->
    exists out, overlay blend bottom top x y = Ok out /\ wf out /\ same_size out bottom /\
    forall px py b, get bottom px py = Some b ->
      (covered top x y px py /\ px < iw bottom - 1 /\ py < ih bottom - 1 ->
         exists t, get out px py = Some (blend b t)) /\
      (~ (covered top x y px py /\ px < iw bottom - 1 /\ py < ih bottom - 1) ->
         get out px py = Some b)) /\
  (~ (x < iw bottom /\ y < ih bottom) -> overlay blend bottom top x y = Panic).
Proof.
  intros A blend bottom top x y Wb Wt Hx Hy Ux Uy; split; intros H.
  - apply overlay_frame; auto; lia.
  - apply overlay_panics; auto.
Qed.
Print Assumptions c06_overlay_partial.

Example c06_ex : overlay Z.add (new_image 3 3 5) ex32 0 1 = Ok (mkImage 3 3 [5;5;5; 10;10;5; 5;5;5]).
Proof. reflexivity. Qed.
