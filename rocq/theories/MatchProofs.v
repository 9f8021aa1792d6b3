(** Proofs about histogram matching. *)
From Flocq Require Import Core BinarySingleNaN.
From Coq Require Import Reals Lra Psatz.
From Verif Require Import Base BaseProofs RasterProofs Float FloatProofs FloatErr StatsSpec StatsModel
  TemplateProofs FContrastModel FContrastSpec FContrastProofs.
Local Ltac Zify.zify_post_hook ::= idtac.
Local Open Scope R_scope.

Section Lut.
  Context (src tgt : Z -> Z) (st tt_ : Z).
  Hypothesis (Hs : forall i j, (0 <= i <= j)%Z -> (j <= 255)%Z -> (0 <= src i <= src j)%Z).
  Hypothesis (Ht : forall i j, (0 <= i <= j)%Z -> (j <= 255)%Z -> (0 <= tgt i <= tgt j)%Z).
  Hypothesis (Es : src 255 = st) (Et : tgt 255 = tt_).
  Hypothesis (Bs : (0 < st < 2 ^ 32)%Z) (Bt : (0 < tt_ < 2 ^ 32)%Z).

  Definition sfr (s : Z) : f32 := frac (src s) st.
  Definition tfr (s : Z) : f32 := frac (tgt s) tt_.

  Lemma sfr_ok s : (0 <= s <= 255)%Z -> is_finite (sfr s) = true /\ 0 <= B2R (sfr s) <= 1.
  Proof.
    intros H. pose proof (Hs s 255 ltac:(lia) ltac:(lia)). destruct (frac_R (src s) st) as (A & _ & B); [lia|lia|]. auto.
  Qed.
  Lemma tfr_ok s : (0 <= s <= 255)%Z -> is_finite (tfr s) = true /\ 0 <= B2R (tfr s) <= 1.
  Proof.
    intros H. pose proof (Ht s 255 ltac:(lia) ltac:(lia)). destruct (frac_R (tgt s) tt_) as (A & _ & B); [lia|lia|]. auto.
  Qed.
  Lemma sfr_mono i j : (0 <= i <= j)%Z -> (j <= 255)%Z -> B2R (sfr i) <= B2R (sfr j).
  Proof.
    intros A B. pose proof (Hs i j A B). pose proof (Hs j 255 ltac:(lia) ltac:(lia)). apply frac_mono; lia.
  Qed.
  Lemma tfr_mono i j : (0 <= i <= j)%Z -> (j <= 255)%Z -> B2R (tfr i) <= B2R (tfr j).
  Proof.
    intros A B. pose proof (Ht i j A B). pose proof (Ht j 255 ltac:(lia) ltac:(lia)). apply frac_mono; lia.
  Qed.
  Lemma tfr_255 : B2R (tfr 255) = 1.
  Proof. unfold tfr. rewrite Et. apply frac_full. assumption. Qed.

  (** y is the least target level whose share reaches that of s *)
  Definition reach (s y : Z) : Prop := (0 <= y <= 255)%Z /\ B2R (sfr s) <= B2R (tfr y) /\
    (y = 0%Z \/ B2R (tfr (y - 1)) < B2R (sfr s)).
  Definition dist (l s : Z) : f32 := fabs (fsub (tfr l) (sfr s)).
  Definition choice (s y : Z) : Z :=
    if (y =? 0)%Z then 0%Z else if flt (dist (y - 1) s) (dist y s) then (y - 1)%Z else y.

  Lemma dist_R l s : (0 <= l <= 255)%Z -> (0 <= s <= 255)%Z ->
    is_finite (dist l s) = true /\ B2R (dist l s) = Rabs (rnd 24 128 (B2R (tfr l) - B2R (sfr s))).
  Proof.
    intros A B. destruct (sfr_ok s B) as (Fs & Rs). destruct (tfr_ok l A) as (Ft & Rt).
    destruct (fsub_R 24 128 (tfr l) (sfr s)) as (F & E); [assumption|assumption| |].
    { pose proof f32_big. apply Rabs_le. lra. }
    unfold dist, fabs. rewrite is_finite_Babs, B2R_Babs, E. auto.
  Qed.
  Lemma rnd_pos x : 0 <= x -> 0 <= rnd 24 128 x.
  Proof. apply rnd_ge0. Qed.
  Lemma rnd_neg x : x <= 0 -> rnd 24 128 x <= 0.
  Proof. intros H. pose proof (rnd_le 24 128 x 0 H) as K. rewrite rnd_0 in K. exact K. Qed.

  Lemma dist_above l m s : (0 <= l <= 255)%Z -> (0 <= m <= 255)%Z -> (0 <= s <= 255)%Z ->
    B2R (sfr s) <= B2R (tfr l) <= B2R (tfr m) -> B2R (dist l s) <= B2R (dist m s).
  Proof.
    intros A B C H. destruct (dist_R l s A C) as (_ & ->). destruct (dist_R m s B C) as (_ & ->).
    rewrite !Rabs_pos_eq by (apply rnd_pos; lra). apply (rnd_le 24 128). lra.
  Qed.
  Lemma dist_below l m s : (0 <= l <= 255)%Z -> (0 <= m <= 255)%Z -> (0 <= s <= 255)%Z ->
    B2R (tfr m) <= B2R (tfr l) <= B2R (sfr s) -> B2R (dist l s) <= B2R (dist m s).
  Proof.
    intros A B C H. destruct (dist_R l s A C) as (_ & ->). destruct (dist_R m s B C) as (_ & ->).
    rewrite !Rabs_left1 by (apply rnd_neg; lra). apply Ropp_le_contravar. apply (rnd_le 24 128). lra.
  Qed.

  Lemma choice_range s y : reach s y -> (0 <= choice s y <= 255)%Z.
  Proof. intros (A & _). unfold choice. destruct (Z.eqb_spec y 0); [lia|]. destruct (flt _ _); lia. Qed.

  (** the choice is a nearest target level *)
  Lemma choice_near s y l : (0 <= s <= 255)%Z -> reach s y -> (0 <= l <= 255)%Z -> B2R (dist (choice s y) s) <= B2R (dist l s).
  Proof.
    intros HsR (Hy & R1 & R2) Hl. unfold choice. destruct (Z.eqb_spec y 0) as [->|Ny].
    - apply dist_above; try lia. split; [assumption|]. apply tfr_mono; lia.
    - destruct R2 as [?|R2]; [contradiction|].
      destruct (dist_R (y - 1) s ltac:(lia) HsR) as (F1 & _). destruct (dist_R y s ltac:(lia) HsR) as (F2 & _).
      rewrite flt32_R by assumption.
      destruct (Rlt_bool_spec (B2R (dist (y - 1) s)) (B2R (dist y s))) as [L|L].
      + destruct (Z.leb_spec y l).
        * apply Rle_trans with (B2R (dist y s)); [lra|]. apply dist_above; try lia. split; [assumption|]. apply tfr_mono; lia.
        * apply dist_below; try lia. split; [apply tfr_mono; lia|lra].
      + destruct (Z.leb_spec y l).
        * apply dist_above; try lia. split; [assumption|]. apply tfr_mono; lia.
        * apply Rle_trans with (B2R (dist (y - 1) s)); [lra|]. apply dist_below; try lia. split; [apply tfr_mono; lia|lra].
  Qed.

  Lemma reach_mono s s' y y' : (0 <= s <= s')%Z -> (s' <= 255)%Z -> reach s y -> reach s' y' -> (y <= y')%Z.
  Proof.
    intros A B (Hy & R1 & R2) (Hy' & R1' & R2'). destruct (Z.leb_spec y y'); [assumption|]. exfalso.
    destruct R2 as [?|R2]; [lia|]. pose proof (sfr_mono s s' A B). pose proof (tfr_mono y' (y - 1) ltac:(lia) ltac:(lia)). lra.
  Qed.
  Lemma choice_mono s s' y y' : (0 <= s <= s')%Z -> (s' <= 255)%Z -> reach s y -> reach s' y' -> (choice s y <= choice s' y')%Z.
  Proof.
    intros A B R R'. pose proof (reach_mono s s' y y' A B R R') as M. unfold choice.
    destruct (Z.eqb_spec y 0) as [->|Ny].
    { destruct (Z.eqb_spec y' 0); [lia|]. destruct R' as (? & _). destruct (flt _ _); lia. }
    destruct R as (Hy & R1 & R2). destruct R' as (Hy' & R1' & R2').
    destruct (Z.eqb_spec y' 0); [lia|]. destruct (Z.eqb_spec y y') as [<-|Nyy].
    2: { destruct (flt _ _); destruct (flt _ _); lia. }
    destruct R2 as [?|R2]; [contradiction|]. destruct R2' as [?|R2']; [contradiction|].
    destruct (flt (dist (y - 1) s) (dist y s)) eqn:F; [match goal with |- context [flt ?a ?b] => destruct (flt a b) end; lia|].
    replace (flt (dist (y - 1) s') (dist y s')) with false; [lia|]. symmetry.
    pose proof (sfr_mono s s' A B).
    destruct (dist_R (y - 1) s ltac:(lia) ltac:(lia)) as (F1 & E1). destruct (dist_R y s ltac:(lia) ltac:(lia)) as (F2 & E2).
    destruct (dist_R (y - 1) s' ltac:(lia) ltac:(lia)) as (F3 & E3). destruct (dist_R y s' ltac:(lia) ltac:(lia)) as (F4 & E4).
    rewrite flt32_R in F |- * by assumption. apply Rlt_bool_false.
    assert (L : B2R (dist y s) <= B2R (dist (y - 1) s)).
    { destruct (Rlt_bool_spec (B2R (dist (y - 1) s)) (B2R (dist y s))); [discriminate|assumption]. }
    assert (L1 : B2R (dist y s') <= B2R (dist y s)).
    { rewrite E4, E2. rewrite !Rabs_pos_eq by (apply rnd_pos; lra). apply (rnd_le 24 128). lra. }
    assert (L2 : B2R (dist (y - 1) s) <= B2R (dist (y - 1) s')).
    { rewrite E1, E3. rewrite !Rabs_left1 by (apply rnd_neg; lra). apply Ropp_le_contravar. apply (rnd_le 24 128). lra. }
    lra.
  Qed.

  (** ** the code *)
  Let target := map tgt (zrange 0 256).
  Let source := map src (zrange 0 256).
  Lemma scan_ok s fuel y prev : (0 <= s <= 255)%Z -> (0 <= y <= 255)%Z -> (255 - y < Z.of_nat fuel)%Z ->
    (y = 0%Z \/ (prev = tfr (y - 1) /\ B2R (tfr (y - 1)) < B2R (sfr s))) ->
    exists y' prev', lut_scan fuel target (of_int tt_) (sfr s) (tfr y) prev y = Ok (y', tfr y', prev') /\
      reach s y' /\ (y' = 0%Z \/ prev' = tfr (y' - 1)).
  Proof.
    intros HsR. revert y prev. induction fuel as [|fuel IH]; intros y prev Hy Hf Hp; [lia|].
    cbn [lut_scan]. destruct (tfr_ok y Hy) as (Fy & By). destruct (sfr_ok s HsR) as (Fs & Bs').
    rewrite flt32_R by assumption.
    destruct (Rlt_bool_spec (B2R (tfr y)) (B2R (sfr s))) as [L|L].
    - assert (Y : (y < 255)%Z).
      { destruct (Z.eqb_spec y 255) as [->|]; [|lia]. rewrite tfr_255 in L. lra. }
      replace (y <? 255)%Z with true by lia. cbn [andb].
      rewrite (proj2 (vget_ok target (y + 1)%Z (tgt (y + 1)%Z))).
      2: { unfold target. rewrite znth_map, znth_zrange by lia. reflexivity. }
      cbn [bind]. apply (IH (y + 1)%Z (tfr y)); [lia|lia|]. right. rewrite Z.add_simpl_r. auto.
    - cbn [andb]. exists y, prev. split; [reflexivity|]. split.
      + split; [assumption|]. split; [assumption|]. tauto.
      + tauto.
  Qed.

  Lemma lut_ok : exists lut ys, histogram_lut source target = Ok lut /\ zlen lut = 256%Z /\
    forall s, (0 <= s < 256)%Z -> reach s (ys s) /\ znth lut s = Some (choice s (ys s)).
  Proof.
    unfold histogram_lut.
    rewrite (proj2 (vget_ok source 255%Z st)) by (unfold source; rewrite znth_map, znth_zrange by lia; cbn [option_map]; f_equal; exact Es).
    rewrite (proj2 (vget_ok target 255%Z tt_)) by (unfold target; rewrite znth_map, znth_zrange by lia; cbn [option_map]; f_equal; exact Et).
    cbn [bind]. cbv zeta.
    match goal with |- context [for_range 0 256 ?b ?i] =>
      destruct (for_range_ind (fun s (state : list Z * Z * f32) => let '(lut, y, prev) := state in
         zlen lut = 256%Z /\ (0 <= y <= 255)%Z /\
         (y = 0%Z \/ (prev = tfr (y - 1) /\ (0 < s)%Z /\ B2R (tfr (y - 1)) < B2R (sfr (s - 1)))) /\
         exists ys, forall s', (0 <= s' < s)%Z -> reach s' (ys s') /\ znth lut s' = Some (choice s' (ys s')))
       0 256 b i) as (((lut & y) & prev) & E & HL & _ & _ & ys & HK)
    end.
    - lia.
    - split; [reflexivity|]. split; [lia|]. split; [left; reflexivity|]. exists (fun _ => 0%Z). intros; lia.
    - intros s ((lut & y) & prev) HsR (HL & Hy & Hp & ys & HK).
      rewrite (proj2 (vget_ok source s (src s))) by (unfold source; rewrite znth_map, znth_zrange by lia; reflexivity).
      cbn [bind].
      rewrite (proj2 (vget_ok target y (tgt y))) by (unfold target; rewrite znth_map, znth_zrange by lia; reflexivity).
      cbn [bind].
      change (fdiv (of_int (src s)) (of_int st)) with (sfr s). change (fdiv (of_int (tgt y)) (of_int tt_)) with (tfr y).
      destruct (scan_ok s 256 y prev) as (y' & prev' & -> & R & P).
      + lia.
      + lia.
      + lia.
      + destruct Hp as [?|(-> & S0 & L)]; [left; assumption|]. right. split; [reflexivity|].
        pose proof (sfr_mono (s - 1) s ltac:(lia) ltac:(lia)). lra.
      + cbn [bind].
        assert (V : (if (y' =? 0)%Z then vset lut s y'
                     else if flt (fabs (fsub prev' (sfr s))) (fabs (fsub (tfr y') (sfr s))) then vset lut s (y' - 1)%Z else vset lut s y')
                    = Ok (zupd lut s (choice s y'))).
        { unfold choice. destruct (Z.eqb_spec y' 0) as [->|].
          - apply vset_ok. lia.
          - destruct P as [?|P]; [contradiction|]. rewrite P. unfold dist.
            destruct (flt _ _); apply vset_ok; lia. }
        rewrite V. cbn [bind]. eexists; split; [reflexivity|].
        cbv beta iota. rewrite zupd_zlen. pose proof R as (Ry & _ & R2). split; [assumption|]. split; [assumption|]. split.
        * destruct R2 as [?|R2]; [left; assumption|]. destruct P as [?|P]; [left; assumption|].
          right. split; [assumption|]. split; [lia|]. rewrite Z.add_simpl_r. assumption.
        * exists (fun s' => if (s' =? s)%Z then y' else ys s'). intros s' Hs'.
          rewrite znth_zupd by lia. destruct (Z.eqb_spec s' s) as [->|]; [auto|]. apply HK. lia.
    - rewrite E. cbn [bind]. exists lut, ys. auto.
  Qed.
End Lut.

(** When an image has no pixels every comparison involves NaN and the table is zero. *)
Lemma scan_nan fuel target tt_ (sf tf prev : f32) y : flt tf sf = false ->
  lut_scan fuel target tt_ sf tf prev y = Ok (y, tf, prev).
Proof. intros H. destruct fuel; cbn [lut_scan]; rewrite H; reflexivity. Qed.

Lemma lut_empty (source target : list Z) st tt_ : zlen source = 256%Z -> zlen target = 256%Z ->
  znth source 255 = Some st -> znth target 255 = Some tt_ ->
  (forall s h, znth source s = Some h -> flt (fdiv (of_int (match znth target 0 with Some g => g | None => 0 end)) (of_int tt_) : f32) (fdiv (of_int h) (of_int st) : f32) = false) ->
  exists lut, histogram_lut source target = Ok lut /\ zlen lut = 256%Z /\ forall s, (0 <= s < 256)%Z -> znth lut s = Some 0%Z.
Proof.
  intros Ls Lt E1 E2 HN. unfold histogram_lut. rewrite (proj2 (vget_ok _ _ _) E1), (proj2 (vget_ok _ _ _) E2). cbn [bind]. cbv zeta.
  destruct (znth_some target 0) as (g0 & Eg); [lia|]. rewrite Eg in HN.
  match goal with |- context [for_range 0 256 ?b ?i] =>
    destruct (for_range_ind (fun s (state : list Z * Z * f32) => let '(lut, y, prev) := state in
       zlen lut = 256%Z /\ y = 0%Z /\ forall s', (0 <= s' < 256)%Z -> znth lut s' = Some 0%Z) 0 256 b i) as (((lut & y) & prev) & E & HL & _ & HK)
  end.
  - lia.
  - split; [reflexivity|]. split; [reflexivity|]. intros s Hs. rewrite znth_map, znth_zrange by lia. reflexivity.
  - intros s ((lut & y) & prev) Hs (HL & -> & HK).
    destruct (znth_some source s) as (h & Eh); [lia|]. rewrite (proj2 (vget_ok _ _ _) Eh). cbn [bind].
    rewrite (proj2 (vget_ok _ _ _) Eg). cbn [bind]. rewrite scan_nan by (eapply HN; eauto). cbn [bind].
    rewrite Z.eqb_refl. rewrite vset_ok by lia. cbn [bind]. eexists; split; [reflexivity|].
    cbv beta iota. rewrite zupd_zlen. split; [assumption|]. split; [reflexivity|]. intros s' Hs'. rewrite znth_zupd by lia.
    destruct (Z.eqb_spec s' s); [reflexivity|]. auto.
  - rewrite E. cbn [bind]. exists lut. auto.
Qed.
