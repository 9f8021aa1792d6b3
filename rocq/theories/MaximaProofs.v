From Coq Require Import Permutation Sorted.
From Verif Require Import Base BaseProofs SuppressModel SuppressSpec SuppressProofs.
Local Ltac Zify.zify_post_hook ::= idtac.

Section Maxima.
  Context {S : Type} (slt : S -> S -> bool).
  Notation item := (item S).

  Definition kle (a b : item) : Prop := py a < py b \/ (py a = py b /\ px a <= px b).
  Lemma key_le_spec a b : key_le a b = true <-> kle a b.
  Proof.
    unfold key_le, kle. rewrite orb_true_iff, andb_true_iff, Z.ltb_lt, Z.eqb_eq, Z.leb_le. tauto.
  Qed.

  Lemma insert_perm a (l : list item) : Permutation (a :: l) (insert_item a l).
  Proof.
    induction l as [|b t IH]; cbn [insert_item]; auto.
    destruct (key_le a b); auto. etransitivity; [apply perm_swap|]. constructor. exact IH.
  Qed.
  Lemma sort_items_perm (l : list item) : Permutation l (sort_items l).
  Proof.
    induction l as [|a t IH]; cbn [sort_items fold_right]; auto.
    etransitivity; [|apply insert_perm]. constructor. exact IH.
  Qed.
  Lemma insert_sorted_items a (l : list item) : StronglySorted kle l -> StronglySorted kle (insert_item a l).
  Proof.
    induction 1 as [|b t HS IH HF]; cbn [insert_item].
    - constructor; constructor.
    - destruct (key_le a b) eqn:E.
      + apply key_le_spec in E. constructor; [constructor; auto|]. constructor; auto.
        eapply Forall_impl; [|exact HF]. unfold kle in *. intros; lia.
      + assert (kle b a) by (unfold kle; unfold key_le in E; apply orb_false_iff in E as (E1 & E2);
          apply andb_false_iff in E2; rewrite Z.ltb_ge in E1; rewrite Z.eqb_neq, Z.leb_gt in E2; lia).
        constructor; auto. eapply Permutation_Forall; [apply insert_perm|]. constructor; auto.
  Qed.
  Lemma sort_items_sorted (l : list item) : StronglySorted kle (sort_items l).
  Proof.
    induction l as [|a t IH]; cbn [sort_items fold_right]; [constructor|]. apply insert_sorted_items. exact IH.
  Qed.

  (** the bottom row of the sorted list *)
  Definition bottom (l : list item) : Z := match rev l with [] => 0 | t :: _ => py t end.
  Lemma bottom_max l : StronglySorted kle l -> forall t, In t l -> py t <= bottom l.
  Proof.
    intros H t Ht. unfold bottom.
    destruct (rev l) as [|u r] eqn:E.
    - apply (f_equal (@rev item)) in E. rewrite rev_involutive in E. subst. destruct Ht.
    - apply (f_equal (@rev item)) in E. rewrite rev_involutive in E. cbn in E. subst l.
      revert H. induction (rev r) as [|b q IH]; cbn [app]; intros H.
      + destruct Ht as [->|[]]. lia.
      + inversion H as [|b' q' HS HF EQ]; subst. cbn [app] in Ht. destruct Ht as [->|Ht]; [|apply IH; auto].
        rewrite Forall_forall in HF. specialize (HF u ltac:(apply in_or_app; right; left; reflexivity)).
        unfold kle in HF. lia.
  Qed.
  Lemma bottom_in l : l <> [] -> exists t, In t l /\ py t = bottom l.
  Proof.
    intros N. unfold bottom. destruct (rev l) as [|u r] eqn:E.
    - apply (f_equal (@rev item)) in E. rewrite rev_involutive in E. contradiction.
    - exists u. split; auto. apply in_rev. rewrite E. left. reflexivity.
  Qed.

  Definition bad (r : Z) (t c : item) : bool :=
    (Z.abs (px c - px t) <=? r) &&
    (slt (score t) (score c) || (negb (slt (score c) (score t)) && lex_lt (py c) (px c) (py t) (px t))).

  Lemma scan_items_ok r t row : 0 <= r -> px t + r < 2 ^ 32 -> 0 <= px t ->
    (forall c, In c row -> 0 <= px c /\ px c + r < 2 ^ 32) ->
    StronglySorted (fun a b => px a <= px b) row ->
    scan_items slt r t row = Ok (forallb (fun c => negb (bad r t c)) row).
  Proof.
    intros Hr Ht H0 HB HS. induction HS as [|c rest HS IH HF]; [reflexivity|].
    cbn [scan_items forallb]. destruct (HB c (or_introl eq_refl)) as (B1 & B2).
    rewrite chk_u_ok by lia. cbn [bind].
    specialize (IH (fun d Hd => HB d (or_intror Hd))).
    unfold bad at 1. destruct (Z.ltb_spec (px c + r) (px t)).
    { rewrite IH. rewrite (proj2 (Z.leb_gt _ _)) by lia. reflexivity. }
    rewrite chk_u_ok by lia. cbn [bind].
    destruct (Z.ltb_spec (px t + r) (px c)).
    { rewrite (proj2 (Z.leb_gt _ _)) by lia. cbn [andb negb]. symmetry. f_equal.
      apply forallb_forall. intros d Hd. rewrite Forall_forall in HF. specialize (HF d Hd). cbv beta in HF.
      unfold bad. rewrite (proj2 (Z.leb_gt _ _)) by lia. reflexivity. }
    rewrite (proj2 (Z.leb_le _ _)) by lia. cbn [andb].
    destruct (slt (score t) (score c)); [reflexivity|]. cbn [orb].
    destruct (slt (score c) (score t)); [cbn [negb andb]; exact IH|]. cbn [negb andb].
    destruct (lex_lt (py c) (px c) (py t) (px t)); [reflexivity|]. cbn [negb andb]. exact IH.
  Qed.

  Lemma rows_ok (l : list item) h1 : 0 <= h1 -> (forall t, In t l -> 0 <= py t < h1) ->
    exists rows, for_each l (fun t rows =>
      r <- vget rows (py t) ;; vset rows (py t) (r ++ [t])) (map (fun _ => []) (zrange 0 h1)) = Ok rows /\
      zlen rows = h1 /\ forall y, 0 <= y < h1 -> znth rows y = Some (filter (fun t => py t =? y) l).
  Proof.
    intros Hh HB.
    destruct (for_each_ind (fun done rows => zlen rows = h1 /\
        forall y, 0 <= y < h1 -> znth rows y = Some (filter (fun t => py t =? y) done))
      l (fun t rows => r <- vget rows (py t) ;; vset rows (py t) (r ++ [t]))
      (map (fun _ => []) (zrange 0 h1))) as (rows & E & H).
    - split. { rewrite zlen_map, zlen_zrange. lia. }
      intros y Hy. rewrite znth_map, znth_zrange by lia. reflexivity.
    - intros done t rest rows El (HL & HR).
      assert (Ht : 0 <= py t < h1) by (apply HB; rewrite El; apply in_or_app; right; left; reflexivity).
      rewrite (proj2 (vget_ok rows (py t) _) (HR _ Ht)). cbn [bind].
      rewrite vset_ok by lia. eexists. split; [reflexivity|]. split; [rewrite zupd_zlen; auto|].
      intros y Hy. rewrite filter_app. cbn [filter]. rewrite znth_zupd by lia.
      destruct (Z.eqb_spec y (py t)) as [->|N].
      + rewrite Z.eqb_refl. reflexivity.
      + rewrite (proj2 (Z.eqb_neq (py t) y)) by lia. rewrite app_nil_r. apply HR. auto.
    - exists rows. auto.
  Qed.

  Lemma filter_row_sorted (l : list item) y : StronglySorted kle l ->
    StronglySorted (fun a b => px a <= px b) (filter (fun t => py t =? y) l).
  Proof.
    induction 1 as [|a t HS IH HF]; cbn [filter]; [constructor|].
    destruct (Z.eqb_spec (py a) y); auto. constructor; auto.
    rewrite Forall_forall in *. intros b Hb. apply filter_In in Hb as (Hb & Ey). apply Z.eqb_eq in Ey.
    specialize (HF b Hb). unfold kle in HF. lia.
  Qed.

  (** what local_maxima keeps *)
  Definition keepb (r : Z) (l : list item) (t : item) : bool :=
    forallb (fun c => negb ((Z.abs (py c - py t) <=? r) && (py c <? bottom l) && bad r t c)) l.

  Lemma concat_filter (k : item -> bool) l : concat (map (fun t => if k t then [t] else []) l) = filter k l.
  Proof.
    induction l as [|a l IH]; [reflexivity|]. cbn [map concat filter]. rewrite IH. destruct (k a); reflexivity.
  Qed.

  Theorem local_maxima_ok ts r : 0 <= r ->
    (forall t, In t ts -> 0 <= px t /\ px t + r < 2 ^ 32 /\ 0 <= py t /\ py t + r + 1 < 2 ^ 32) ->
    local_maxima slt ts r = Ok (filter (keepb r (sort_items ts)) (sort_items ts)).
  Proof.
    intros Hr HB. unfold local_maxima. fold (bottom (sort_items ts)).
    set (o := sort_items ts) in *.
    assert (HO : forall t, In t o -> 0 <= px t /\ px t + r < 2 ^ 32 /\ 0 <= py t /\ py t + r + 1 < 2 ^ 32).
    { intros t Ht. apply HB. eapply Permutation_in; [symmetry; apply sort_items_perm|]. exact Ht. }
    assert (SO : StronglySorted kle o) by apply sort_items_sorted.
    assert (B0 : 0 <= bottom o < 2 ^ 32 - 1).
    { assert (o = [] \/ o <> []) as [Eo|Eo] by (destruct o; [auto|right; discriminate]).
      - rewrite Eo. unfold bottom; cbn; lia.
      - destruct (bottom_in o Eo) as (t & Ht & <-). specialize (HO t Ht). lia. }
    rewrite chk_u_ok by lia. cbn [bind].
    destruct (rows_ok o (bottom o + 1)) as (rows & E & HL & HR); [lia| |].
    { intros t Ht. pose proof (bottom_max o SO t Ht). specialize (HO t Ht). lia. }
    rewrite E. cbn [bind].
    rewrite (mapM_ok _ (fun t => if keepb r o t then [t] else [])).
    - cbn [bind]. rewrite concat_filter. reflexivity.
    - intros t Ht. destruct (HO t Ht) as (P1 & P2 & P3 & P4).
      rewrite chk_u_ok by lia. cbn [bind]. rewrite chk_u_ok by lia. cbn [bind].
      set (up := if bottom o <? py t + r + 1 then bottom o else py t + r + 1).
      assert (Eup : up = Z.min (bottom o) (py t + r + 1)) by (unfold up; destruct (Z.ltb_spec (bottom o) (py t + r + 1)); lia).
      unfold sat_sub.
      pose (good := fun y => forallb (fun c => negb (bad r t c)) (filter (fun c => py c =? y) o)).
      assert (ROW : forall y, 0 <= y <= bottom o -> (row <- vget rows y ;; scan_items slt r t row) = Ok (good y)).
      { intros y Hy. rewrite (proj2 (vget_ok rows y _) (HR y ltac:(lia))). cbn [bind].
        apply scan_items_ok; try lia.
        - intros c Hc. apply filter_In in Hc as (Hc & _). specialize (HO c Hc). lia.
        - apply filter_row_sorted. exact SO. }
      assert (FIN : forall b : bool, (b = true <-> (forall y, Z.max 0 (py t - r) <= y < up -> good y = true)) ->
        b = keepb r o t).
      { intros b Hb. apply eq_iff_eq_true. rewrite Hb. unfold keepb. rewrite forallb_forall.
        split.
        - intros G c Hc. apply negb_true_iff. apply andb_false_iff.
          destruct (HO c Hc) as (_ & _ & Q3 & _).
          destruct (Z.leb_spec (Z.abs (py c - py t)) r); [|left; reflexivity].
          destruct (Z.ltb_spec (py c) (bottom o)); [|left; reflexivity]. right.
          assert (Gc : good (py c) = true) by (apply G; lia).
          unfold good in Gc. rewrite forallb_forall in Gc. apply negb_true_iff. apply Gc.
          apply filter_In. split; auto. apply Z.eqb_refl.
        - intros G y Hy. unfold good. apply forallb_forall. intros c Hc.
          apply filter_In in Hc as (Hc & Ey). apply Z.eqb_eq in Ey. specialize (G c Hc).
          rewrite (proj2 (Z.leb_le _ _)) in G by lia. rewrite (proj2 (Z.ltb_lt _ _)) in G by lia.
          cbn [andb] in G. exact G. }
      destruct (Z_le_dec up (Z.max 0 (py t - r))) as [LE|LT].
      { rewrite for_range_empty by lia. cbn [bind]. rewrite <- (FIN true); [reflexivity|].
        split; auto. intros _ y Hy. lia. }
      destruct (for_range_ind (fun j b => b = true <-> (forall y, Z.max 0 (py t - r) <= y < j -> good y = true))
        (Z.max 0 (py t - r)) up (fun y is_max =>
          if is_max : bool then row <- vget rows y ;; scan_items slt r t row else Ok false) true) as (b & Eb & Hb).
      + lia.
      + split; auto. intros _ y Hy. lia.
      + intros y b Hy Hb. destruct b.
        * rewrite ROW by lia. eexists. split; [reflexivity|]. split.
          -- intros G z Hz. destruct (Z.eq_dec z y) as [->|]; auto. apply (proj1 Hb); auto. lia.
          -- intros G. apply G. lia.
        * exists false. split; auto. split; [discriminate|]. intros G.
          apply (proj2 Hb). intros z Hz. apply G. lia.
      + rewrite Eb. cbn [bind]. rewrite (FIN b Hb). reflexivity.
  Qed.
End Maxima.
