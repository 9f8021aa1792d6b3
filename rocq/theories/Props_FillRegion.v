(** C114: flood_fill recolours a connected component and can be undone. *)
From Coq Require Import Relations Relation_Operators Operators_Properties Classical_Prop.
From Verif Require Import Base BaseProofs LineModel LineSpec FloodModel FloodSpec FloodProofs Props_Flood RegionModel RegionSpec RegionProofs Props_Region.
Local Ltac Zify.zify_post_hook ::= idtac.

Section Fill.
  Context {A : Type} (eqb : A -> A -> bool) (Heq : forall a b, eqb a b = true <-> a = b).
  Lemma reach_colour im c x y x' y' : reach (has_colour eqb im c) x y x' y' -> get im x' y' = Some c.
  Proof using Heq. intros H. destruct H as [H|? ? ? ? ? ? H]; destruct H as (p & G & E); apply Heq in E; congruence. Qed.
  Lemma reach_path im c x y x' y' : reach (has_colour eqb im c) x y x' y' <-> (get im x y = Some c /\ path im Four (x, y) (x', y')).
  Proof using Heq.
    split.
    - intros H. induction H as [H|u v u' v' H (G & IH) N P].
      + destruct H as (p & G & E). apply Heq in E. subst p. split; [exact G|apply rt_refl].
      + split; [exact G|]. apply rt_trans with (u, v); [exact IH|]. apply rt_step. split; [cbn [neighbours fst snd]; lia|].
        exists c. split; [exact (reach_colour im c x y u v H)|]. destruct P as (p & Gp & E). apply Heq in E. subst p. exact Gp.
    - intros (G & H). apply clos_rt_rtn1 in H. remember (x', y') as q eqn:Eq. revert x' y' Eq.
      induction H as [|[u v] q (N & d & D1 & D2) _ IH]; intros x' y' Eq.
      + inversion Eq; subst. apply reach_start. exists c. split; [exact G|]. now apply Heq.
      + subst q. cbn [neighbours fst snd] in *. specialize (IH u v eq_refl). pose proof (reach_colour _ _ _ _ _ _ IH) as Gu.
        assert (d = c) by congruence. subst d. apply (reach_step _ _ _ u v); [exact IH|lia|]. exists c. split; [exact D2|]. now apply Heq.
  Qed.
End Fill.
Lemma eqb_laws {A} (eqb : A -> A -> bool) : (forall a b, eqb a b = true <-> a = b) ->
  (forall a b, eqb a b = true -> eqb b a = true) /\ (forall a b c, eqb a b = true -> eqb b c = true -> eqb a c = true) /\
  (forall a b, a <> b -> eqb a b = false).
Proof.
  intros H. split; [|split].
  - intros a b E. apply H in E. apply H. auto.
  - intros a b c E F. apply H in E. apply H in F. apply H. congruence.
  - intros a b N. destruct (eqb a b) eqn:E; [apply H in E; contradiction|reflexivity].
Qed.

(** the pixels that change are those with the label of the start *)
Theorem c114_component : forall A (eqb : A -> A -> bool), (forall a b, eqb a b = true <-> a = b) ->
  forall (im : image A) bg lab x y target fill fuel, wf im -> iw im < 2 ^ 31 - 1 -> ih im < 2 ^ 31 - 1 ->
  connected_components eqb im Four bg = Ok lab -> get im x y = Some target -> target <> bg -> fill <> target ->
  3 * (iw im * ih im) + 2 < Z.of_nat fuel ->
  exists out, flood_fill eqb fuel im x y fill = Ok out /\
    forall x' y' p, get im x' y' = Some p ->
      (get lab x' y' = get lab x y -> get out x' y' = Some fill) /\ (get lab x' y' <> get lab x y -> get out x' y' = Some p).
Proof.
  intros A eqb Heq im bg lab x y target fill fuel W Hw Hh EL G NB NF Hf.
  destruct (eqb_laws eqb Heq) as (Sy & Tr & Ne).
  destruct (c36_flood_fill A eqb im x y target fill fuel Sy Tr W Hw Hh G (Ne _ _ NF) Hf) as (out & E & (_ & _ & _ & R)).
  exists out. split; [exact E|]. intros x' y' p P. destruct (R x' y' p P) as (R1 & R2).
  destruct (c10_components A eqb Heq im Four bg lab W EL) as (_ & _ & _ & B & F & J).
  destruct (F x y target G NB) as (l & Gl & Pl & _).
  assert (K : get lab x' y' = get lab x y <-> reach (has_colour eqb im target) x y x' y').
  { rewrite (reach_path eqb Heq). destruct (classic (p = bg)) as [->|Nb].
    - rewrite (B x' y' P), Gl. split; [intros Q; injection Q as Q; lia|]. intros Q. exfalso.
      apply (reach_path eqb Heq), (reach_colour eqb Heq) in Q. congruence.
    - pose proof (J x y target x' y' p G NB P Nb) as Q. split.
      + intros S. split; [exact G|]. apply Q. auto.
      + intros (_ & S). symmetry. apply Q. exact S. }
  split; intros S; [apply R1, K, S|apply R2; intros T; apply S, K, T].
Qed.

(** filling with a colour that does not occur in the image can be undone by filling back *)
Theorem c114_undo : forall A (eqb : A -> A -> bool), (forall a b, eqb a b = true <-> a = b) ->
  forall (im : image A) x y target fill fuel, wf im -> iw im < 2 ^ 31 - 1 -> ih im < 2 ^ 31 - 1 ->
  get im x y = Some target -> (forall x' y', get im x' y' <> Some fill) -> 3 * (iw im * ih im) + 2 < Z.of_nat fuel ->
  exists out, flood_fill eqb fuel im x y fill = Ok out /\ flood_fill eqb fuel out x y target = Ok im.
Proof.
  intros A eqb Heq im x y target fill fuel W Hw Hh G NF Hf. destruct (eqb_laws eqb Heq) as (Sy & Tr & Ne).
  assert (D : fill <> target) by (intros ->; exact (NF x y G)).
  destruct (c36_flood_fill A eqb im x y target fill fuel Sy Tr W Hw Hh G (Ne _ _ D) Hf) as (out & E & (W' & D1 & D2 & R)).
  exists out. split; [exact E|]. set (S := reach (has_colour eqb im target) x y) in *.
  assert (S0 : S x y) by (apply reach_start; exists target; split; [exact G|now apply Heq]).
  pose proof (proj1 (R x y target G) S0) as G'.
  destruct (c36_flood_fill A eqb out x y fill target fuel Sy Tr W') as (o & E' & (W2 & D3 & D4 & R')); try lia; auto.
  rewrite E'. f_equal.
  assert (K : forall u v, has_colour eqb out fill u v -> S u v).
  { intros u v (p & Gp & Ep). apply Heq in Ep. subst p. pose proof (get_inb _ _ _ _ Gp) as (Hu & Hv).
    destruct (get_some im u v W) as (q & Gq); [lia|lia|]. destruct (classic (S u v)) as [H|H]; [exact H|].
    rewrite (proj2 (R u v q Gq) H) in Gp. inversion Gp; subst. destruct (NF u v Gq). }
  assert (K' : forall u v, S u v -> has_colour eqb out fill u v).
  { intros u v H. exists fill. split; [|now apply Heq]. apply (proj1 (R u v target (reach_colour eqb Heq _ _ _ _ _ _ H)) H). }
  assert (L : forall u v, reach (has_colour eqb out fill) x y u v <-> S u v).
  { intros u v. split.
    - intros H. destruct H as [H|? ? ? ? ? ? H]; apply K; exact H.
    - intros H. unfold S in H. induction H as [H|a b a' b' H IH N P].
      + apply reach_start. apply K'. exact S0.
      + apply (reach_step _ _ _ a b); [exact IH|exact N|]. apply K'. apply (reach_step _ _ _ a b); assumption. }
  apply image_ext; auto; try lia. intros u v Hu Hv. destruct (get_some im u v W) as (q & Gq); [lia|lia|]. rewrite Gq.
  destruct (classic (S u v)) as [H|H].
  - pose proof (proj1 (R u v q Gq) H) as Go. rewrite (proj1 (R' u v fill Go)) by (apply L; exact H).
    pose proof (reach_colour eqb Heq _ _ _ _ _ _ H). congruence.
  - pose proof (proj2 (R u v q Gq) H) as Go. apply (proj2 (R' u v q Go)). rewrite L. exact H.
Qed.
(** a colour that occurs next to the region joins it: undoing then goes too far *)
Theorem c114_undo_refuted : exists im out, flood_fill Z.eqb 20 im 0 0 2 = Ok out /\ flood_fill Z.eqb 20 out 0 0 1 <> Ok im /\ get im 0 0 = Some 1.
Proof. exists (mkImage 2 1 [1; 2]), (mkImage 2 1 [2; 2]). vm_compute. repeat split; discriminate. Qed.

Example c114_nontrivial :
  let im := mkImage 3 2 [1;1;0; 3;1;1] in
  flood_fill Z.eqb 40 im 0 0 5 = Ok (mkImage 3 2 [5;5;0; 3;5;5]) /\ connected_components Z.eqb im Four 0 = Ok (mkImage 3 2 [1;1;0; 2;1;1]) /\
  flood_fill Z.eqb 40 (mkImage 3 2 [5;5;0; 3;5;5]) 0 0 1 = Ok im.
Proof. vm_compute. auto. Qed.

Print Assumptions c114_component. Print Assumptions c114_undo. Print Assumptions c114_undo_refuted.
