(** C10, C11: connected component labelling. *)
From Coq Require Import Relations.
From Verif Require Import Base BaseProofs UnionFindModel RegionModel RegionSpec RegionProofs.

(** C10: whenever [connected_components] returns, its output is the component
    labelling: background 0, equal labels iff joined by a same-colour path,
    labels numbered 1, 2, 3, ... in raster order of first appearance. *)
Theorem c10_components : forall A (eqb : A -> A -> bool), (forall a b, eqb a b = true <-> a = b) ->
  forall (im : image A) conn bg out, wf im -> 
  connected_components eqb im conn bg = Ok out -> is_component_labelling im conn bg out.
Proof.
  intros A eqb Heq im conn bg out Hwf E.
  destruct (Z_lt_dec (iw im * ih im) (2 ^ 32)) as [Hn|Hn].
  2:{ unfold connected_components in E. assert (2 ^ 32 <=? iw im * ih im = true) as B by lia.
      rewrite B in E. discriminate. }
  assert (NI : ~ (0 < iw im * ih im /\ all_isolated im conn bg)).
  { intros (H1 & H2). rewrite (cc_panics eqb Heq im conn bg Hwf H1 (or_introl H2)) in E. discriminate. }
  destruct (cc_correct eqb Heq im conn bg Hwf Hn NI) as (out' & E' & L). congruence.
Qed.

Definition im33 : image Z := mkImage 3 3 [1;0;1; 1;0;2; 0;1;2].
Example c10_four : connected_components Z.eqb im33 Four 0 = Ok (mkImage 3 3 [1;0;2; 1;0;3; 0;4;3]).
Proof. vm_compute. reflexivity. Qed.
Example c10_eight : connected_components Z.eqb im33 Eight 0 = Ok (mkImage 3 3 [1;0;2; 1;0;3; 0;1;3]).
Proof. vm_compute. reflexivity. Qed.

(** C11 as stated: images with fewer than 2^32 pixels never make it panic. *)
Definition c11_statement : Prop :=
  forall (im : image Z) conn bg, wf im -> iw im * ih im < 2 ^ 32 ->
    exists out, connected_components Z.eqb im conn bg = Ok out.

(** False: a single foreground pixel panics. *)
Theorem c11_no_panic_refuted : ~ c11_statement.
Proof.
  intros H. destruct (H (mkImage 1 1 [255]) Four 0) as (out & E).
  - unfold wf; simpl; unfold zlen; simpl; lia.
  - simpl; lia.
  - vm_compute in E. discriminate.
Qed.

(** Exactly which non-empty images panic: 2^32 pixels or more, or every pixel is
    foreground and differs from all its neighbours.  All others are labelled. *)
Theorem c11_panic_condition_partial : forall A (eqb : A -> A -> bool), (forall a b, eqb a b = true <-> a = b) ->
  forall (im : image A) conn bg, wf im ->
  (connected_components eqb im conn bg = Panic <->
     0 < iw im * ih im /\ (2 ^ 32 <= iw im * ih im \/ all_isolated im conn bg)) /\
  connected_components eqb im conn bg <> Timeout.
Proof.
  intros A eqb Heq im conn bg Hwf.
  assert (D : (0 < iw im * ih im /\ (2 ^ 32 <= iw im * ih im \/ all_isolated im conn bg)) ->
              connected_components eqb im conn bg = Panic).
  { intros (H1 & H2). apply (cc_panics eqb Heq); auto. tauto. }
  assert (C : ~ (0 < iw im * ih im /\ (2 ^ 32 <= iw im * ih im \/ all_isolated im conn bg)) ->
              exists out, connected_components eqb im conn bg = Ok out).
  { intros H. destruct (cc_correct eqb Heq im conn bg Hwf) as (out & E & _).
    - destruct (Z_lt_dec (iw im * ih im) (2 ^ 32)); auto. exfalso; apply H; lia.
    - tauto.
    - eauto. }
  assert (Dec : (0 < iw im * ih im /\ (2 ^ 32 <= iw im * ih im \/ all_isolated im conn bg)) \/
              ~ (0 < iw im * ih im /\ (2 ^ 32 <= iw im * ih im \/ all_isolated im conn bg))).
  { assert (X : all_isolated im conn bg \/ ~ all_isolated im conn bg).
    { apply (all_isolated_dec eqb Heq); auto. }
    destruct X; [|].
    - destruct (Z_lt_dec 0 (iw im * ih im)); tauto.
    - destruct (Z_lt_dec 0 (iw im * ih im)); destruct (Z_le_dec (2 ^ 32) (iw im * ih im)); tauto. }
  destruct Dec as [Y|Y].
  - rewrite (D Y). split; [tauto|discriminate].
  - destruct (C Y) as (out & E). rewrite E. split; [|discriminate]. split; [discriminate|tauto].
Qed.

(** the panicking class also contains ordinary images *)
Example c11_checker_panics : connected_components Z.eqb (mkImage 2 2 [1;2;2;1]) Four 0 = Panic.
Proof. vm_compute. reflexivity. Qed.
Example c11_one_background_ok : exists out, connected_components Z.eqb (mkImage 2 2 [1;2;2;0]) Four 0 = Ok out.
Proof. eexists. vm_compute. reflexivity. Qed.

Print Assumptions c10_components.
Print Assumptions c11_no_panic_refuted.
Print Assumptions c11_panic_condition_partial.
