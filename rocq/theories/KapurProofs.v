(** Proofs about kapur_level. *)
From Flocq Require Import Core BinarySingleNaN.
From Coq Require Import Reals Lra Psatz.
From Verif Require Import Base BaseProofs RasterProofs Float FloatProofs FloatErr StatsSpec StatsModel StatsProofs
  SuppressProofs FContrastModel FContrastSpec FContrastProofs OtsuProofs KapurModel KapurSpec.
Local Ltac Zify.zify_post_hook ::= idtac.
Local Open Scope R_scope.

Lemma running_map {A T} (f : T -> A -> T) (g : Z -> A) (F : Z -> T) a b :
  (forall i, (a <= i < b)%Z -> f (F (i - 1)%Z) (g i) = F i) ->
  running f (F (a - 1)%Z) (map g (zrange a b)) = map F (zrange a b).
Proof.
  intros H. remember (Z.to_nat (b - a)) as n eqn:En. revert a H En. induction n as [|n IH]; intros a H En.
  - rewrite zrange_empty by lia. reflexivity.
  - rewrite zrange_cons by lia. cbn [map running]. rewrite H by lia. f_equal.
    replace (F a) with (F (a + 1 - 1)%Z) by (f_equal; lia). apply IH; [|lia]. intros i Hi. apply H. lia.
Qed.

Lemma running_len {A T} (f : T -> A -> T) l acc : zlen (running f acc l) = zlen l.
Proof. revert acc. induction l as [|a l IH]; intros acc; [reflexivity|]. cbn [running]. rewrite !zlen_cons, IH. reflexivity. Qed.

Lemma rsum_app l l' : rsum (l ++ l') = rsum l + rsum l'.
Proof. unfold rsum. induction l as [|a l IH]; cbn [app fold_right]; lra. Qed.

Lemma vget_map {B} (F : Z -> B) s : (0 <= s < 256)%Z -> vget (map F (zrange 0 256)) s = Ok (F s).
Proof. intros H. apply vget_ok. rewrite znth_map, znth_zrange by lia. cbn. reflexivity. Qed.

Section Kapur.
  Context (im : image Z) (G : gray8 im) (Hs : (iw im * ih im < 2 ^ 32)%Z).
  Let N := (iw im * ih im)%Z.

  (** the term of level v in h *)
  Definition hterm (v : Z) : R :=
    if (count_at im v =? 0)%Z then 0 else IZR (count_at im v) / IZR N * ln (IZR (count_at im v) / IZR N).
  Definition hR (l : list Z) : R := - rsum (map hterm l).
  Definition cR (s : Z) : R := IZR (count_le im s) / IZR N.
  Definition pR (v : Z) : R := IZR (count_at im v) / IZR N.

  Lemma count_at_N v : (0 <= count_at im v <= N)%Z.
  Proof.
    pose proof (count_at_nonneg im v). pose proof (count_step im v). pose proof (count_le_nonneg im (v - 1)).
    pose proof (count_le_total im v (proj1 G)). unfold N. lia.
  Qed.

  Lemma pR_step i : cR (i - 1) + pR i = cR i.
  Proof. unfold cR, pR. rewrite (count_step im i), plus_IZR. unfold Rdiv. ring. Qed.

  Lemma cum_R : kapur_cum reckon_R (map pR (zrange 0 256)) = map cR (zrange 0 256).
  Proof.
    rewrite (zrange_cons 0 256) by lia. cbn [map kapur_cum].
    assert (E : pR 0 = cR 0).
    { unfold pR, cR. rewrite (count_step im 0), (count_le_neg im (0 - 1)) by (assumption || lia). reflexivity. }
    f_equal; [exact E|]. rewrite E. change (cR 0) with (cR (0 + 1 - 1)). apply running_map. intros i Hi. apply pR_step.
  Qed.

  Lemma hterm_cases v : (Rlt_bool 0 (pR v) = true /\ hterm v = pR v * ln (pR v)) \/ (Rlt_bool 0 (pR v) = false /\ hterm v = 0).
  Proof.
    unfold hterm, pR. pose proof (count_at_N v) as C. destruct (Z.eqb_spec (count_at im v) 0) as [E|E].
    - right. split; [|reflexivity]. apply Rlt_bool_false. rewrite E. unfold Rdiv. lra.
    - left. split; [|reflexivity]. apply Rlt_bool_true. apply Rdiv_lt_0_compat; apply IZR_lt; lia.
  Qed.

  Lemma h_R : kapur_h reckon_R (map pR (zrange 0 256)) = map (fun s => hR (zrange 0 (s + 1))) (zrange 0 256).
  Proof.
    rewrite (zrange_cons 0 256) by lia. cbn [map kapur_h e_lt e_int e_mul e_neg e_ln e_sub reckon_R].
    assert (E : (if Rlt_bool 0 (pR 0) then - pR 0 * ln (pR 0) else 0) = hR (zrange 0 (0 + 1))).
    { unfold hR. change (zrange 0 (0 + 1)) with [0%Z]. unfold rsum. cbn [map fold_right].
      destruct (hterm_cases 0) as [(E & F)|(E & F)]; rewrite E, F; ring. }
    f_equal; [exact E|]. rewrite E. change (hR (zrange 0 (0 + 1))) with ((fun s => hR (zrange 0 (s + 1))) (0 + 1 - 1)%Z).
    refine (running_map _ _ (fun s => hR (zrange 0 (s + 1))) _ _ _). intros i Hi. cbv beta. replace (i - 1 + 1)%Z with i by lia.
    rewrite (zrange_snoc 0 i) by lia. unfold hR. rewrite map_app, rsum_app. change (rsum (map hterm [i])) with (hterm i + 0).
    destruct (hterm_cases i) as [(E' & F)|(E' & F)]; rewrite E', F; ring.
  Qed.

  Lemma levels_sum s t : (-1 <= s <= t)%Z -> rsum (map (fun v => IZR (count_at im v)) (zrange (s + 1) (t + 1))) = IZR (count_le im t) - IZR (count_le im s).
  Proof.
    intros H. remember (Z.to_nat (t - s)) as n eqn:En. revert t H En. induction n as [|n IH]; intros t H En.
    - rewrite zrange_empty by lia. replace t with s by lia. unfold rsum. cbn. lra.
    - rewrite zrange_snoc by lia. rewrite map_app, rsum_app. replace t with (t - 1 + 1)%Z at 1 by lia. rewrite IH by lia.
      rewrite (count_step im t), plus_IZR. unfold rsum. cbn [map fold_right]. lra.
  Qed.

  Lemma entropy_rel n l : (0 < n <= N)%Z ->
    class_entropy im n l = hR l / (IZR n / IZR N) + ln (IZR n / IZR N) * (rsum (map (fun v => IZR (count_at im v)) l) / IZR n).
  Proof.
    intros Hn. unfold class_entropy, hR.
    assert (n0 : 0 < IZR n) by (apply IZR_lt; lia). assert (N0 : 0 < IZR N) by (apply IZR_lt; lia).
    induction l as [|v l IH]; [unfold rsum; cbn [map fold_right]; field; lra|].
    cbn [map]. unfold rsum in *. cbn [fold_right].
    set (A := fold_right Rplus 0 (map (fun v0 => let q := IZR (count_at im v0) / IZR n in if (count_at im v0 =? 0)%Z then 0 else q * ln q) l)) in *.
    set (B := fold_right Rplus 0 (map hterm l)) in *. set (C := fold_right Rplus 0 (map (fun v => IZR (count_at im v)) l)) in *.
    assert (S : (if (count_at im v =? 0)%Z then 0 else IZR (count_at im v) / IZR n * ln (IZR (count_at im v) / IZR n)) =
      hterm v / (IZR n / IZR N) - ln (IZR n / IZR N) * (IZR (count_at im v) / IZR n)).
    { unfold hterm. pose proof (count_at_N v) as C'. destruct (Z.eqb_spec (count_at im v) 0) as [E|E]; [rewrite E; field; lra|].
      assert (c0 : 0 < IZR (count_at im v)) by (apply IZR_lt; lia).
      assert (LQ : ln (IZR (count_at im v) / IZR n) = ln (IZR (count_at im v) / IZR N) - ln (IZR n / IZR N)).
      { replace (IZR (count_at im v) / IZR n) with ((IZR (count_at im v) / IZR N) * / (IZR n / IZR N)) by (field; lra).
        rewrite ln_mult, ln_Rinv by (try apply Rinv_0_lt_compat; apply Rdiv_lt_0_compat; lra). ring. }
      rewrite LQ. field. lra. }
    cbv zeta. rewrite S. clearbody A B C. clear S.
    replace (- (hterm v / (IZR n / IZR N) - ln (IZR n / IZR N) * (IZR (count_at im v) / IZR n) + A)) with
      (- A - hterm v / (IZR n / IZR N) + ln (IZR n / IZR N) * (IZR (count_at im v) / IZR n)) by ring.
    rewrite IH. field. lra.
  Qed.

  Lemma class_nonneg n l : (forall v, In v l -> (count_at im v <= n)%Z) -> 0 <= class_entropy im n l.
  Proof.
    intros H. unfold class_entropy, rsum. induction l as [|v l IH]; [cbn; lra|]. cbn [map fold_right].
    assert (I := IH (fun u Hu => H u (or_intror Hu))). specialize (H v (or_introl eq_refl)).
    set (A := fold_right Rplus 0 _) in *. clearbody A. cbv zeta.
    destruct (Z.eqb_spec (count_at im v) 0) as [E|E]; [lra|]. pose proof (count_at_nonneg im v).
    assert (c0 : 0 < IZR (count_at im v)) by (apply IZR_lt; lia). assert (n0 : IZR (count_at im v) <= IZR n) by (apply IZR_le; lia).
    set (q := IZR (count_at im v) / IZR n). assert (q0 : 0 < q) by (apply Rdiv_lt_0_compat; lra).
    assert (q1 : q <= 1) by (unfold q; apply Rdiv_le_aux; lra).
    assert (ln q <= 0). { destruct (Rle_lt_or_eq_dec q 1 q1) as [L|L]; [|rewrite L, ln_1; lra]. apply Rlt_le. rewrite <- ln_1. apply ln_increasing; lra. }
    nra.
  Qed.

  Lemma split_nonneg s : (0 <= s < 256)%Z -> 0 <= split_entropy im s.
  Proof.
    intros H. unfold split_entropy.
    assert (forall v, (v <= s)%Z -> (count_at im v <= count_le im s)%Z) as A.
    { intros v Hv. pose proof (count_step im v). pose proof (count_le_nonneg im (v - 1)). pose proof (count_le_mono im v s Hv). lia. }
    assert (forall v, (s < v)%Z -> (count_at im v <= count_gt im s)%Z) as B.
    { intros v Hv. pose proof (count_step im v). pose proof (count_le_mono im s (v - 1) ltac:(lia)).
      pose proof (count_le_total im v (proj1 G)). pose proof (count_split im s (proj1 G)). lia. }
    assert (C := class_nonneg (count_le im s) (zrange 0 (s + 1)) (fun v Hv => A v ltac:(apply in_zrange in Hv; lia))).
    assert (D := class_nonneg (count_gt im s) (zrange (s + 1) 256) (fun v Hv => B v ltac:(apply in_zrange in Hv; lia))).
    lra.
  Qed.

  Lemma count_le_255 : count_le im 255 = N.
  Proof. apply count_le_max; [exact (proj1 G)|]. intros x y p E. apply (proj2 G) in E. unfold is_u8 in E. lia. Qed.

  (** equation (18) of the article *)
  Lemma psi_R s : (0 <= s < 256)%Z -> proper_split im s ->
    0 < cR s < 1 /\
    ln (cR s * (1 - cR s)) + hR (zrange 0 (s + 1)) / cR s + (hR (zrange 0 256) - hR (zrange 0 (s + 1))) / (1 - cR s) = split_entropy im s.
  Proof.
    intros H (P1 & P2). pose proof (count_split im s (proj1 G)) as CS. fold N in CS. pose proof count_le_255 as C255.
    assert (n0 : 0 < IZR (count_le im s)) by (apply IZR_lt; lia). assert (m0 : 0 < IZR (count_gt im s)) by (apply IZR_lt; lia).
    assert (N0 : 0 < IZR N) by (apply IZR_lt; lia).
    assert (SN : IZR (count_le im s) + IZR (count_gt im s) = IZR N) by (rewrite <- plus_IZR; f_equal; exact CS).
    assert (E1 : 1 - cR s = IZR (count_gt im s) / IZR N) by (unfold cR; rewrite <- SN; field; lra).
    assert (c0 : 0 < cR s) by (apply Rdiv_lt_0_compat; lra). assert (c1 : 0 < 1 - cR s) by (rewrite E1; apply Rdiv_lt_0_compat; lra).
    split; [lra|]. rewrite ln_mult by lra.
    assert (E2 : hR (zrange 0 256) - hR (zrange 0 (s + 1)) = hR (zrange (s + 1) 256)).
    { unfold hR. rewrite (zrange_split 0 (s + 1) 256), map_app, rsum_app by lia. ring. }
    rewrite E2. unfold split_entropy. rewrite (entropy_rel (count_le im s)), (entropy_rel (count_gt im s)) by lia.
    rewrite E1. fold (cR s).
    replace (zrange 0 (s + 1)) with (zrange (-1 + 1) (s + 1)) by (f_equal; lia).
    assert (L1 := levels_sum (-1) s ltac:(lia)). rewrite (count_le_neg im (-1)) in L1 by (assumption || lia).
    assert (L2 := levels_sum s 255 ltac:(lia)). change (255 + 1)%Z with 256%Z in L2. rewrite C255 in L2. rewrite L1, L2.
    replace (IZR N - IZR (count_le im s)) with (IZR (count_gt im s)) by lra. field. lra.
  Qed.

  (** the state after the levels below s *)
  Definition kinv (s : Z) (st : R * Z) : Prop :=
    (st = (e_min reckon_R, 0%Z) /\ forall u, (0 <= u < s)%Z -> ~ proper_split im u) \/
    ((0 <= snd st < s)%Z /\ proper_split im (snd st) /\ fst st = split_entropy im (snd st) /\
     forall u, (0 <= u < s)%Z -> proper_split im u ->
       split_entropy im u <= split_entropy im (snd st) /\ ((u < snd st)%Z -> split_entropy im u < split_entropy im (snd st))).

  Lemma kmin_neg : e_min reckon_R < 0.
  Proof. cbn [e_min reckon_R]. apply Ropp_lt_gt_0_contravar. apply IZR_lt. reflexivity. Qed.

  Lemma kapur_step_R s st : (0 <= s < 256)%Z -> kinv s st ->
    exists st', kapur_step reckon_R (map cR (zrange 0 256)) (map (fun s => hR (zrange 0 (s + 1))) (zrange 0 256)) s st = Ok st' /\ kinv (s + 1) st'.
  Proof.
    intros H I. unfold kapur_step. rewrite !vget_map by lia. cbn [bind]. cbn [e_mul e_sub e_int e_le reckon_R].
    assert (Q : proper_split im s \/ ~ proper_split im s) by (unfold proper_split; lia).
    destruct Q as [Q|Q].
    - destruct (psi_R s H Q) as (C & E). rewrite Rle_bool_false by (apply Rmult_lt_0_compat; lra).
      cbn [bind]. cbn [e_add e_sub e_div e_ln e_lt e_int reckon_R].
      change (255 + 1)%Z with 256%Z. rewrite E. eexists; split; [reflexivity|]. pose proof (split_nonneg s H) as SN.
      destruct I as [(I1 & I2)|(I1 & I2 & I3 & I4)].
      + rewrite I1. cbn [fst]. rewrite Rlt_bool_true by (pose proof kmin_neg; lra). right. cbn [fst snd].
        split; [lia|]. split; [exact Q|]. split; [reflexivity|]. intros u Hu Pu. assert (u = s) as -> ; [|split; [lra|lia]].
        destruct (Z.eq_dec u s); [assumption|]. exfalso. apply (I2 u); [lia|assumption].
      + rewrite I3. case Rlt_bool_spec; intros L; right; cbn [fst snd].
        * split; [lia|]. split; [exact Q|]. split; [reflexivity|]. intros u Hu Pu. destruct (Z.eq_dec u s) as [->|D]; [split; [lra|lia]|].
          destruct (I4 u ltac:(lia) Pu). split; [lra|intros _; lra].
        * split; [lia|]. split; [exact I2|]. split; [exact I3|]. intros u Hu Pu. destruct (Z.eq_dec u s) as [->|D]; [split; [lra|lia]|].
          apply I4; [lia|assumption].
    - assert (Z0 : cR s * (1 - cR s) = 0).
      { unfold cR. pose proof (count_split im s (proj1 G)) as CS. fold N in CS. unfold proper_split in Q.
        pose proof (count_le_nonneg im s). assert (0 <= count_gt im s)%Z by apply zlen_nonneg.
        destruct (Z.eq_dec (count_le im s) 0) as [->|D]; [unfold Rdiv; ring|].
        assert (count_le im s = N) as -> by lia. unfold Rdiv. rewrite Rinv_r by (apply not_0_IZR; lia). ring. }
      rewrite Rle_bool_true by lra. eexists; split; [reflexivity|].
      destruct I as [(I1 & I2)|(I1 & I2 & I3 & I4)].
      + left. split; [assumption|]. intros u Hu. destruct (Z.eq_dec u s) as [->|D]; [assumption|]. apply I2; lia.
      + right. split; [lia|]. split; [exact I2|]. split; [exact I3|]. intros u Hu Pu. destruct (Z.eq_dec u s) as [->|D]; [contradiction|].
        apply I4; [lia|assumption].
  Qed.

  Lemma kapur_R : exists t, kapur_level reckon_R im = Ok t /\ (0 <= t < 256)%Z /\
    ((forall s, (0 <= s < 256)%Z -> ~ proper_split im s) /\ t = 0%Z \/
     proper_split im t /\ forall s, (0 <= s < 256)%Z -> proper_split im s ->
       split_entropy im s <= split_entropy im t /\ ((s < t)%Z -> split_entropy im s < split_entropy im t)).
  Proof.
    unfold kapur_level. rewrite (hist_gray im G Hs). cbn [bind]. change (vget [map (count_at im) (zrange 0 256)] 0) with (Ok (map (count_at im) (zrange 0 256))).
    cbn [bind]. destruct G as ((Hw & Hh & Hl) & _). rewrite chk_u_ok by nia. cbn [bind]. cbv zeta. rewrite map_map.
    change (map (fun x => e_div reckon_R (e_int reckon_R (count_at im x)) (e_int reckon_R (iw im * ih im))) (zrange 0 256)) with (map pR (zrange 0 256)).
    rewrite cum_R, h_R.
    match goal with |- context [for_range 0 256 ?b ?s0] => destruct (for_range_ind kinv 0 256 b s0) as (st & E & I) end; [lia| |intros s st Hs' I; apply kapur_step_R; assumption|].
    { left. split; [reflexivity|]. intros u Hu. lia. }
    rewrite E. cbn [bind]. destruct I as [(-> & I2)|(I1 & I2 & I3 & I4)].
    - exists 0%Z. cbn [snd]. split; [reflexivity|]. split; [lia|]. left. auto.
    - exists (snd st). rewrite Z.mod_small by lia. split; [reflexivity|]. split; [lia|]. right. auto.
  Qed.
End Kapur.

(** ** any arithmetic *)
Lemma kapur_total {T} (K : reckon T) (im : image Z) : gray8 im -> (iw im * ih im < 2 ^ 32)%Z ->
  exists t, kapur_level K im = Ok t /\ (0 <= t < 256)%Z.
Proof.
  intros G Hs. unfold kapur_level. rewrite (hist_gray im G Hs). cbn [bind].
  change (vget [map (count_at im) (zrange 0 256)] 0) with (Ok (map (count_at im) (zrange 0 256))).
  cbn [bind]. destruct G as ((Hw & Hh & Hl) & _). rewrite chk_u_ok by nia. cbn [bind]. cbv zeta. rewrite map_map.
  set (p := map _ (zrange 0 256)).
  assert (Lp : zlen p = 256%Z) by (unfold p; rewrite zlen_map, zlen_zrange; lia).
  assert (Lc : zlen (kapur_cum K p) = 256%Z) by (rewrite <- Lp; destruct p; [reflexivity|]; cbn [kapur_cum]; rewrite !zlen_cons, running_len; reflexivity).
  assert (Lh : zlen (kapur_h K p) = 256%Z) by (rewrite <- Lp; destruct p; [reflexivity|]; cbn [kapur_h]; cbv zeta; rewrite !zlen_cons, running_len; reflexivity).
  assert (V : forall l s, zlen l = 256%Z -> (0 <= s < 256)%Z -> exists a : T, vget l s = Ok a).
  { intros l s Ll Hl'. destruct (znth_some l s ltac:(lia)) as (a & Ea). exists a. apply vget_ok. exact Ea. }
  match goal with |- context [for_range 0 256 ?b ?s0] => destruct (for_range_ind (fun _ _ => True) 0 256 b s0) as (st & E & _) end; [lia|exact I| |].
  { intros s st Hs' _. unfold kapur_step. destruct (V _ s Lc Hs') as (c & ->). cbn [bind]. destruct (e_le _ _ _); [eauto|].
    destruct (V _ s Lh Hs') as (x & ->). destruct (V _ 255%Z Lh ltac:(lia)) as (y & ->). cbn [bind]. eauto. }
  rewrite E. cbn [bind]. eexists; split; [reflexivity|]. apply Z.mod_pos_bound. lia.
Qed.
