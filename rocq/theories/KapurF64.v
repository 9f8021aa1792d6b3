(** kapur_level in f64: the rounding errors. *)
From Flocq Require Import Core BinarySingleNaN.
From Coq Require Import Reals Lra Psatz.
From Verif Require Import Base BaseProofs RasterProofs Float FloatProofs FloatErr StatsSpec StatsModel StatsProofs
  SuppressProofs FContrastModel FContrastSpec FContrastProofs OtsuProofs KapurModel KapurSpec KapurProofs.
Local Ltac Zify.zify_post_hook ::= idtac.
Local Open Scope R_scope.
Local Notation rn := (rnd 53 1024).

(** the unit of rounding, 2^-53, and a tiny number *)
Definition u : R := / 9007199254740992.
Definition tiny : R := bpow radix2 (-300).
Lemma tiny_pos : 0 < tiny.
Proof. apply bpow_gt_0. Qed.
Lemma tiny_small : tiny <= u / 1000000000000000000000000000000.
Proof.
  apply Rle_trans with (bpow radix2 (-160)); [apply bpow_le; lia|]. unfold u.
  change (bpow radix2 (-160)) with (/ 1461501637330902918203684832716283019655932542976). lra.
Qed.
Lemma u_small : 0 < u /\ u <= / 9000000000000000.
Proof. unfold u. lra. Qed.
Lemma err r : Rabs (rn r - r) <= u * Rabs r + tiny.
Proof.
  pose proof (rnd_err 53 1024 r) as H. eapply Rle_trans; [exact H|]. apply Rplus_le_compat.
  - unfold uu, u. change (bpow radix2 (- (53))) with (/ 9007199254740992). lra.
  - unfold eta, tiny. apply bpow_le. lia.
Qed.
Lemma err_b r S : Rabs r <= S -> Rabs (rn r - r) <= u * S + tiny.
Proof. intros H. pose proof (err r). pose proof u_small. nra. Qed.
Lemma err_rel r : / 1180591620717411303424 <= Rabs r -> Rabs (rn r - r) <= 2 * u * Rabs r.
Proof. intros H. pose proof (err r). pose proof u_small. pose proof tiny_small. nra. Qed.
Lemma big : 1000000000000000 <= bpow radix2 (1024 - 1).
Proof. apply Rle_trans with (bpow radix2 60); [change (bpow radix2 60) with 1152921504606846976; lra|apply bpow_le; lia]. Qed.
Lemma int_R z : (Z.abs z <= 2 ^ 40)%Z -> is_finite (of_int z : f64) = true /\ B2R (of_int z : f64) = IZR z.
Proof.
  intros H. destruct (dy_int 53 1024 z) as (F & R); [split; lia|lia|]. split; [exact F|]. rewrite R. change (bpow radix2 0) with 1. ring.
Qed.

(** ** logarithms *)
Lemma ln_up x : 0 < x -> ln x <= x - 1.
Proof.
  intros H. destruct (Req_dec x 1) as [->|N]; [rewrite ln_1; lra|].
  assert (K : exp (ln x) >= 1 + ln x). { destruct (Req_dec (ln x) 0) as [->|N']; [rewrite exp_0; lra|]. left. apply exp_ineq1. exact N'. }
  rewrite exp_ln in K by exact H. lra.
Qed.
Lemma ln_rel x X r : 0 < X -> Rabs (x - X) <= r * X -> 0 <= r <= / 2 -> 0 < x /\ Rabs (ln x - ln X) <= 2 * r.
Proof.
  intros HX H Hr. apply Rabs_le_inv in H. assert (x0 : 0 < x) by nra. split; [exact x0|].
  assert (A : ln x - ln X <= r).
  { replace (ln x - ln X) with (ln (x / X)) by (unfold Rdiv; rewrite ln_mult, ln_Rinv by (try apply Rinv_0_lt_compat; lra); ring).
    eapply Rle_trans; [apply ln_up; apply Rdiv_lt_0_compat; lra|]. apply Rmult_le_reg_r with X; [lra|]. unfold Rdiv. rewrite Rmult_minus_distr_r, Rmult_assoc, Rinv_l by lra. nra. }
  assert (B : ln X - ln x <= 2 * r).
  { replace (ln X - ln x) with (ln (X / x)) by (unfold Rdiv; rewrite ln_mult, ln_Rinv by (try apply Rinv_0_lt_compat; lra); ring).
    eapply Rle_trans; [apply ln_up; apply Rdiv_lt_0_compat; lra|]. apply Rmult_le_reg_r with x; [lra|]. unfold Rdiv. rewrite Rmult_minus_distr_r, Rmult_assoc, Rinv_l by lra. nra. }
  apply Rabs_le. lra.
Qed.
Lemma ln2_up : ln 2 <= 76 / 100.
Proof.
  assert (E : ln 2 = ln (8 / 7) + ln (7 / 6) + ln (6 / 5) + ln (5 / 4)).
  { rewrite <- !ln_mult by lra. f_equal. lra. }
  pose proof (ln_up (8 / 7) ltac:(lra)). pose proof (ln_up (7 / 6) ltac:(lra)). pose proof (ln_up (6 / 5) ltac:(lra)). pose proof (ln_up (5 / 4) ltac:(lra)). lra.
Qed.
Lemma ln_pow2 k : ln (2 ^ k) = INR k * ln 2.
Proof.
  induction k as [|k IH]; [cbn; rewrite ln_1; ring|]. rewrite <- tech_pow_Rmult, ln_mult, IH by (try apply pow_lt; lra). rewrite S_INR. ring.
Qed.
Lemma ln2_low : / 2 < ln 2.
Proof. exact ln_lt_2. Qed.

Section F64.
  Context (ln64 : f64 -> f64) (Hln : accurate_ln ln64).
  Context (im : image Z) (G : gray8 im) (Hs : (0 < iw im * ih im < 2 ^ 32)%Z).
  Let N := (iw im * ih im)%Z.
  Notation K := (reckon_f64 ln64).
  Notation n := (IZR N).

  Lemma n_b : 1 <= n <= 4294967296.
  Proof. unfold N. split; apply IZR_le; lia. Qed.
  Lemma ln_n : 0 <= ln n <= 32 * ln 2 /\ ln n <= 25.
  Proof.
    pose proof n_b as B. pose proof ln2_up. assert (A : ln n <= 32 * ln 2).
    { replace (32 * ln 2) with (INR 32 * ln 2) by (cbn; lra). rewrite <- ln_pow2. destruct (Req_dec n (2 ^ 32)) as [->|D]; [lra|]. left. apply ln_increasing; lra. }
    split; [|lra]. split; [|exact A]. destruct (Req_dec n 1) as [->|D]; [rewrite ln_1; lra|]. left. rewrite <- ln_1. apply ln_increasing; lra.
  Qed.

  Definition pF (v : Z) : f64 := fdiv (of_int (count_at im v)) (of_int N).
  Notation pr := (pR im).
  Notation cr := (cR im).
  Lemma pr_b v : 0 <= pr v <= 1 /\ (count_at im v = 0%Z -> pr v = 0) /\ (count_at im v <> 0%Z -> / n <= pr v).
  Proof.
    pose proof (count_at_N im G v) as C. fold N in C. pose proof n_b as B. unfold pR. fold N. split; [|split].
    - split.
      + apply Rmult_le_pos; [apply IZR_le; lia|]. left. apply Rinv_0_lt_compat. lra.
      + apply Rmult_le_reg_r with n; [lra|]. unfold Rdiv. rewrite Rmult_assoc, Rinv_l by lra. rewrite Rmult_1_r, Rmult_1_l. apply IZR_le. lia.
    - intros ->. unfold Rdiv. ring.
    - intros D. unfold Rdiv. rewrite <- (Rmult_1_l (/ n)) at 1. apply Rmult_le_compat_r; [left; apply Rinv_0_lt_compat; lra|]. apply IZR_le. lia.
  Qed.
  Lemma inv_n : / 4294967296 <= / n <= 1.
  Proof. pose proof n_b. split; [apply Rinv_le_contravar; lra|]. rewrite <- Rinv_1. apply Rinv_le_contravar; lra. Qed.

  Lemma pF_R v : is_finite (pF v) = true /\ B2R (pF v) = rn (pr v).
  Proof.
    pose proof (count_at_N im G v) as C. fold N in C. pose proof n_b as B. unfold pF.
    destruct (int_R (count_at im v)) as (F1 & R1); [unfold N in *; lia|]. destruct (int_R N) as (F2 & R2); [unfold N in *; lia|].
    destruct (fdiv_R 53 1024 (of_int (count_at im v)) (of_int N) F1) as (F & R).
    - rewrite R2. lra.
    - rewrite R1, R2. change (IZR (count_at im v) / n) with (pr v). pose proof (pr_b v). rewrite Rabs_pos_eq by lra. pose proof big. lra.
    - split; [exact F|]. rewrite R, R1, R2. reflexivity.
  Qed.
  Lemma pF_ok v : is_finite (pF v) = true /\ Rabs (B2R (pF v) - pr v) <= 2 * u * pr v.
  Proof.
    destruct (pF_R v) as (F & R). split; [exact F|]. rewrite R. destruct (pr_b v) as (B & Z0 & P). destruct (Z.eq_dec (count_at im v) 0) as [E|E].
    - rewrite (Z0 E), rnd_0. rewrite Rminus_0_r, Rabs_R0. lra.
    - specialize (P E). pose proof inv_n. rewrite <- (Rabs_pos_eq (pr v)) at 3 by lra. apply err_rel. rewrite Rabs_pos_eq by lra. lra.
  Qed.

  (** cum_p *)
  Fixpoint cfn (k : nat) : f64 := match k with O => pF 0 | S k => fadd (cfn k) (pF (Z.of_nat (S k))) end.
  Definition cF (s : Z) : f64 := cfn (Z.to_nat s).
  Lemma cF_step s : (0 < s)%Z -> cF s = fadd (cF (s - 1)) (pF s).
  Proof.
    intros H. unfold cF. replace (Z.to_nat s) with (S (Z.to_nat (s - 1))) by lia. cbn [cfn]. do 2 f_equal. lia.
  Qed.
  Lemma cum_F : kapur_cum K (map pF (zrange 0 256)) = map cF (zrange 0 256).
  Proof.
    rewrite (zrange_cons 0 256) by lia. cbn [map kapur_cum]. apply (f_equal (cons (pF 0))).
    refine (running_map (e_add K) pF cF (0 + 1) 256 _). intros i Hi. symmetry. apply cF_step. lia.
  Qed.
  Lemma cr_b s : 0 <= cr s <= 1.
  Proof.
    unfold cR. fold N. pose proof n_b. pose proof (count_le_nonneg im s). pose proof (count_le_total im s (proj1 G)) as T. fold N in T. split.
    - apply Rmult_le_pos; [apply IZR_le; lia|]. left. apply Rinv_0_lt_compat. lra.
    - apply Rmult_le_reg_r with n; [lra|]. unfold Rdiv. rewrite Rmult_assoc, Rinv_l by lra. rewrite Rmult_1_r, Rmult_1_l. apply IZR_le. lia.
  Qed.
  Lemma cr_0 : cr 0 = pr 0.
  Proof. unfold pR, cR. rewrite (count_step im 0), (count_le_neg im (0 - 1)) by (assumption || lia). reflexivity. Qed.
  Lemma cF_ok s : (0 <= s < 256)%Z -> is_finite (cF s) = true /\ Rabs (B2R (cF s) - cr s) <= 4 * u * IZR (s + 1).
  Proof.
    intros H. pose proof u_small as U. pose proof tiny_small as Ty. pose proof tiny_pos. remember (Z.to_nat s) as k eqn:Ek. revert s H Ek. induction k as [|k IH]; intros s H Ek.
    - assert (s = 0)%Z as -> by lia. destruct (pF_ok 0) as (F & E). split; [exact F|]. rewrite cr_0. change (cF 0) with (pF 0). pose proof (pr_b 0). eapply Rle_trans; [exact E|]. change (IZR (0 + 1)) with 1. nra.
    - destruct (IH (s - 1)%Z ltac:(lia) ltac:(lia)) as (F1 & E1). replace (s - 1 + 1)%Z with s in E1 by lia. destruct (pF_ok s) as (F2 & E2).
      rewrite (cF_step s) by lia. pose proof (pR_step im s) as St. pose proof (cr_b s) as Cb. pose proof (cr_b (s - 1)) as Cb'. pose proof (pr_b s) as (Pb & _).
      assert (Sb : 0 <= IZR s <= 255) by (split; apply IZR_le; lia). rewrite plus_IZR.
      assert (Q2 : Rabs (B2R (pF s) - pr s) <= 2 * u) by nra.
      apply Rabs_le_inv in E1, Q2.
      assert (Sm : Rabs (B2R (cF (s - 1)) + B2R (pF s)) <= 3 / 2) by (apply Rabs_le; nra).
      destruct (fadd_R 53 1024 (cF (s - 1)) (pF s) F1 F2) as (F & R). { pose proof big. lra. }
      split; [exact F|]. rewrite R. pose proof (err_b _ _ Sm) as E3. apply Rabs_le_inv in E3. apply Rabs_le. nra.
  Qed.
  Definition e1 : R := 1024 * u.
  Lemma cF_e1 s : (0 <= s < 256)%Z -> is_finite (cF s) = true /\ Rabs (B2R (cF s) - cr s) <= e1.
  Proof.
    intros H. destruct (cF_ok s H) as (F & E). split; [exact F|]. eapply Rle_trans; [exact E|]. unfold e1. pose proof u_small. assert (IZR (s + 1) <= 256) by (apply IZR_le; lia). nra.
  Qed.

  (** h *)
  Definition tF (v : Z) : f64 := fmul (pF v) (ln64 (pF v)).
  Fixpoint hfn (k : nat) : f64 :=
    match k with
    | O => if flt (of_int 0) (pF 0) then fmul (fneg (pF 0)) (ln64 (pF 0)) else of_int 0
    | S k => let v := Z.of_nat (S k) in if flt (of_int 0) (pF v) then fsub (hfn k) (tF v) else hfn k
    end.
  Definition hF (s : Z) : f64 := hfn (Z.to_nat s).
  Lemma hF_step s : (0 < s)%Z -> hF s = if flt (of_int 0) (pF s) then fsub (hF (s - 1)) (tF s) else hF (s - 1).
  Proof.
    intros H. unfold hF. replace (Z.to_nat s) with (S (Z.to_nat (s - 1))) by lia. cbn [hfn]. cbv zeta. replace (Z.of_nat (S (Z.to_nat (s - 1)))) with s by lia. reflexivity.
  Qed.
  Lemma h_F : kapur_h K (map pF (zrange 0 256)) = map hF (zrange 0 256).
  Proof.
    rewrite (zrange_cons 0 256) by lia. cbn [map kapur_h]. cbv zeta. apply (f_equal (cons (hF 0))).
    refine (running_map _ pF hF (0 + 1) 256 _). intros i Hi. symmetry. apply hF_step. lia.
  Qed.
  Lemma pF_pos v : flt (of_int 0) (pF v) = negb (count_at im v =? 0)%Z.
  Proof.
    destruct (pF_ok v) as (F & E). destruct (int_R 0) as (F0 & R0); [lia|]. unfold flt. rewrite Bltb_correct by assumption. rewrite R0.
    destruct (pr_b v) as (B & Z0 & P). pose proof u_small. pose proof inv_n. apply Rabs_le_inv in E. destruct (Z.eqb_spec (count_at im v) 0) as [C|C].
    - rewrite (Z0 C) in E. apply Rlt_bool_false. lra.
    - specialize (P C). apply Rlt_bool_true. nra.
  Qed.
  Notation hr := (hterm im).
  Lemma ln_p v : count_at im v <> 0%Z -> hr v = pr v * ln (pr v) /\ - ln n <= ln (pr v) <= 0.
  Proof.
    intros C. unfold hterm. rewrite (proj2 (Z.eqb_neq _ _) C). split; [reflexivity|]. destruct (pr_b v) as (B & _ & P). specialize (P C). pose proof inv_n as I. pose proof n_b. split.
    - rewrite <- ln_Rinv by lra. destruct (Rle_lt_or_eq_dec _ _ P) as [L|L]; [left; apply ln_increasing; lra|rewrite L; lra].
    - rewrite <- ln_1. destruct (Rle_lt_or_eq_dec _ _ (proj2 B)) as [L|L]; [left; apply ln_increasing; lra|rewrite L; lra].
  Qed.
  (** the product in a term of h: both signs of the first factor *)
  Lemma term_ok v (p' : f64) sg : count_at im v <> 0%Z -> (sg = 1 \/ sg = -1) -> is_finite p' = true -> B2R p' = sg * B2R (pF v) ->
    is_finite (fmul p' (ln64 (pF v))) = true /\ Rabs (B2R (fmul p' (ln64 (pF v))) - sg * hr v) <= 256 * u * pr v.
  Proof.
    intros C Hsg Fp' Rp'. destruct (ln_p v C) as (-> & LB). destruct (pF_ok v) as (F & E). destruct (pr_b v) as (B & _ & P). specialize (P C).
    pose proof inv_n as I. pose proof ln_n as (_ & L25). pose proof u_small as U. pose proof tiny_small as Ty.
    set (p := B2R (pF v)) in *. set (q := pr v) in *.
    assert (q0 : / 4294967296 <= q) by lra.
    destruct (ln_rel p q (2 * u) ltac:(lra) E ltac:(lra)) as (p0 & El).
    assert (pl : Rabs (p - q) <= 2 * u * q) by exact E. apply Rabs_le_inv in E.
    destruct (Hln (pF v) F) as (Fl & Rl). { fold p. split; nra. }
    fold p in Rl. set (l := B2R (ln64 (pF v))) in *.
    assert (El' : Rabs (l - ln q) <= 132 * u). { replace (l - ln q) with ((l - ln p) + (ln p - ln q)) by ring. eapply Rle_trans; [apply Rabs_triang|]. unfold u in *. lra. }
    assert (Lb : Rabs l <= 26). { apply Rabs_le_inv in El'. apply Rabs_le. lra. }
    assert (M : Rabs (p * l - q * ln q) <= (52 + 132) * u * q).
    { replace (p * l - q * ln q) with ((p - q) * l + q * (l - ln q)) by ring. eapply Rle_trans; [apply Rabs_triang|]. rewrite !Rabs_mult. rewrite (Rabs_pos_eq q) by lra.
      assert (Rabs (p - q) * Rabs l <= 2 * u * q * 26) by (apply Rmult_le_compat; auto using Rabs_pos).
      assert (q * Rabs (l - ln q) <= q * (132 * u)) by (apply Rmult_le_compat_l; lra). lra. }
    assert (M2 : Rabs (sg * p * l - sg * (q * ln q)) <= 184 * u * q).
    { replace (sg * p * l - sg * (q * ln q)) with (sg * (p * l - q * ln q)) by ring. rewrite Rabs_mult. replace (Rabs sg) with 1; [lra|]. destruct Hsg as [-> | ->]; unfold Rabs; destruct Rcase_abs; lra. }
    assert (Sz : Rabs (sg * p * l) <= 27 * q).
    { rewrite !Rabs_mult. replace (Rabs sg) with 1 by (destruct Hsg as [-> | ->]; unfold Rabs; destruct Rcase_abs; lra). rewrite (Rabs_pos_eq p) by lra. assert (p * Rabs l <= p * 26) by (apply Rmult_le_compat_l; lra). nra. }
    destruct (fmul_R 53 1024 p' (ln64 (pF v)) Fp' Fl) as (Fm & Rm). { rewrite Rp'. fold l. pose proof big. lra. }
    split; [exact Fm|]. rewrite Rm, Rp'. fold l. pose proof (err_b _ _ Sz) as E3. apply Rabs_le_inv in E3, M2. apply Rabs_le. nra.
  Qed.
  Definition Hr (s : Z) : R := hR im (zrange 0 (s + 1)).
  Lemma Hr_step s : (0 < s)%Z -> Hr s = Hr (s - 1) - hr s.
  Proof.
    intros H. unfold Hr, hR. rewrite (zrange_snoc 0 s) by lia. rewrite map_app, rsum_app. replace (s - 1 + 1)%Z with s by lia. change (rsum (map (hterm im) [s])) with (hterm im s + 0). ring.
  Qed.
  Lemma Hr_0 : Hr 0 = - hr 0.
  Proof. unfold Hr, hR. change (zrange 0 (0 + 1)) with [0%Z]. unfold rsum. cbn [map fold_right]. ring. Qed.
  Lemma hr_b v : - (ln n) * pr v <= hr v <= 0.
  Proof.
    destruct (pr_b v) as (B & Z0 & _). pose proof ln_n as ((L & _) & _). destruct (Z.eq_dec (count_at im v) 0) as [C|C].
    - rewrite (Z0 C). unfold hterm. rewrite C. cbn [Z.eqb]. lra.
    - destruct (ln_p v C) as (-> & Lb). nra.
  Qed.
  Lemma Hr_b s t : (-1 <= s <= t)%Z -> 0 <= Hr t - Hr s <= ln n * (cr t - cr s).
  Proof.
    intros H. remember (Z.to_nat (t - s)) as k eqn:Ek. revert t H Ek. induction k as [|k IH]; intros t H Ek.
    - replace t with s by lia. lra.
    - destruct (Z.eq_dec t 0) as [->|D].
      + assert (s = -1)%Z as -> by lia. rewrite Hr_0. pose proof (hr_b 0). rewrite cr_0.
        assert (Z1 : Hr (-1) = 0). { unfold Hr, hR. rewrite zrange_empty by lia. unfold rsum. cbn. lra. }
        assert (Z2 : cr (-1) = 0). { unfold cR. rewrite (count_le_neg im (-1)) by (assumption || lia). unfold Rdiv. ring. }
        rewrite Z1, Z2. lra.
      + rewrite Hr_step by lia. specialize (IH (t - 1)%Z ltac:(lia) ltac:(lia)). pose proof (pR_step im t) as St. pose proof (hr_b t). rewrite <- St. nra.
  Qed.
  Lemma Hr_m1 : Hr (-1) = 0 /\ cr (-1) = 0.
  Proof.
    split; [unfold Hr, hR; rewrite zrange_empty by lia; unfold rsum; cbn; lra|]. unfold cR. rewrite (count_le_neg im (-1)) by (assumption || lia). unfold Rdiv. ring.
  Qed.
  Lemma Hr_c s : (0 <= s)%Z -> 0 <= Hr s <= ln n * cr s.
  Proof. intros H. pose proof (Hr_b (-1) s ltac:(lia)) as Q. destruct Hr_m1 as (A & B). rewrite A, B in Q. lra. Qed.
  Lemma hF_ok s : (0 <= s < 256)%Z -> is_finite (hF s) = true /\ Rabs (B2R (hF s) - Hr s) <= 256 * u * cr s + 27 * u * IZR s.
  Proof.
    intros H. pose proof u_small as U. pose proof tiny_small as Ty. pose proof tiny_pos as Tp. pose proof ln_n as (_ & L25).
    remember (Z.to_nat s) as k eqn:Ek. revert s H Ek. induction k as [|k IH]; intros s H Ek.
    - assert (s = 0)%Z as -> by lia. rewrite Hr_0, cr_0. unfold hF. cbn [Z.to_nat hfn]. rewrite pF_pos. destruct (Z.eqb_spec (count_at im 0) 0) as [C|C]; cbn [negb].
      + destruct (int_R 0) as (F & R); [lia|]. split; [exact F|]. rewrite R. unfold hterm. rewrite C. cbn [Z.eqb]. rewrite Ropp_0, Rminus_0_r, Rabs_R0. pose proof (pr_b 0). nra.
      + destruct (pF_ok 0) as (F & _). destruct (term_ok 0 (fneg (pF 0)) (-1) C) as (Fm & Rm).
        * now right.
        * unfold fneg. now rewrite is_finite_Bopp.
        * unfold fneg. rewrite B2R_Bopp. ring.
        * split; [exact Fm|]. replace (- hr 0) with (-1 * hr 0) by ring. lra.
    - destruct (IH (s - 1)%Z ltac:(lia) ltac:(lia)) as (F1 & E1). rewrite hF_step, Hr_step by lia. rewrite pF_pos.
      pose proof (pR_step im s) as St. destruct (pr_b s) as (Pb & Z0 & _). pose proof (cr_b s) as Cb.
      assert (Sb : 1 <= IZR s <= 255) by (split; apply IZR_le; lia). rewrite minus_IZR in E1.
      destruct (Z.eqb_spec (count_at im s) 0) as [C|C]; cbn [negb].
      + split; [exact F1|]. rewrite <- St, (Z0 C). unfold hterm. rewrite C. cbn [Z.eqb]. rewrite Rminus_0_r, Rplus_0_r. nra.
      + destruct (pF_ok s) as (F & _). destruct (term_ok s (pF s) 1 C ltac:(now left) F ltac:(ring)) as (Fm & Rm). fold (tF s) in Fm, Rm. rewrite Rmult_1_l in Rm.
        pose proof (Hr_c s ltac:(lia)) as Hb. rewrite Hr_step in Hb by lia.
        apply Rabs_le_inv in E1, Rm.
        assert (Sm : Rabs (B2R (hF (s - 1)) - B2R (tF s)) <= 26) by (apply Rabs_le; nra).
        destruct (fsub_R 53 1024 (hF (s - 1)) (tF s) F1 Fm) as (Fs & Rs). { pose proof big. lra. }
        split; [exact Fs|]. rewrite Rs. pose proof (err_b _ _ Sm) as E3. apply Rabs_le_inv in E3. apply Rabs_le. rewrite <- St. nra.
  Qed.
  Definition e2 : R := 7168 * u.
  Lemma hF_e2 s : (0 <= s < 256)%Z -> is_finite (hF s) = true /\ Rabs (B2R (hF s) - Hr s) <= e2.
  Proof.
    intros H. destruct (hF_ok s H) as (F & E). split; [exact F|]. eapply Rle_trans; [exact E|]. unfold e2. pose proof u_small. pose proof (cr_b s). assert (IZR s <= 255) by (apply IZR_le; lia). nra.
  Qed.

  (** a quotient *)
  Lemma quot_ok (a b : f64) A X E e : is_finite a = true -> Rabs (B2R a - A) <= E -> Rabs (B2R b - X) <= e ->
    / n <= X -> 0 <= A <= 25 * X -> 0 <= e -> e * n <= / 1000 -> 0 <= E -> E * n <= / 50 ->
    is_finite (fdiv a b) = true /\ Rabs (B2R (fdiv a b) - A / X) <= 101 / 100 * n * (E + 25 * e) + 27 * u /\ / 2 * X <= B2R b.
  Proof.
    intros Fa Ea Eb HX HA He Hen HE HEn. pose proof n_b as Nb. pose proof inv_n as In. pose proof u_small as U. pose proof tiny_small as Ty.
    assert (nX : 1 <= n * X). { apply Rmult_le_compat_l with (r := n) in HX; [|lra]. rewrite Rinv_r in HX by lra. exact HX. }
    assert (eX : e <= X / 1000). { assert (e <= / 1000 * / n). { apply Rmult_le_reg_r with n; [lra|]. rewrite Rmult_assoc, Rinv_l by lra. lra. } lra. }
    apply Rabs_le_inv in Eb. set (b' := B2R b) in *. set (a' := B2R a) in *.
    assert (b0 : 999 / 1000 * X <= b') by lra. assert (X0 : 0 < X) by lra.
    assert (D : Rabs (a' / b' - A / X) <= 1002 / 1000 * n * (E + 25 * e)).
    { replace (a' / b' - A / X) with (((a' - A) + (A / X) * (X - b')) * / b') by (field; lra).
      rewrite Rabs_mult. rewrite (Rabs_pos_eq (/ b')) by (left; apply Rinv_0_lt_compat; lra).
      assert (P1 : Rabs (a' - A + A / X * (X - b')) <= E + 25 * e).
      { eapply Rle_trans; [apply Rabs_triang|]. apply Rplus_le_compat; [exact Ea|]. rewrite Rabs_mult. apply Rmult_le_compat; auto using Rabs_pos.
        - rewrite Rabs_pos_eq by (apply Rmult_le_pos; [lra|left; apply Rinv_0_lt_compat; lra]). apply Rmult_le_reg_r with X; [lra|]. unfold Rdiv. rewrite Rmult_assoc, Rinv_l by lra. lra.
        - apply Rabs_le. lra. }
      assert (P2 : / b' <= 1002 / 1000 * n).
      { apply Rmult_le_reg_r with b'; [lra|]. rewrite Rinv_l by lra. nra. }
      apply Rle_trans with ((E + 25 * e) * (1002 / 1000 * n)); [|right; ring]. apply Rmult_le_compat; auto using Rabs_pos. left. apply Rinv_0_lt_compat. lra. }
    assert (Q0 : 0 <= A / X <= 25).
    { split; [apply Rmult_le_pos; [lra|left; apply Rinv_0_lt_compat; lra]|]. apply Rmult_le_reg_r with X; [lra|]. unfold Rdiv. rewrite Rmult_assoc, Rinv_l by lra. lra. }
    assert (Sm : 0 <= 1002 / 1000 * n * (E + 25 * e) <= / 10).
    { replace (1002 / 1000 * n * (E + 25 * e)) with (1002 / 1000 * (E * n + 25 * (e * n))) by ring. assert (0 <= E * n) by nra. assert (0 <= e * n) by nra. lra. }
    assert (Sz : Rabs (a' / b') <= 26). { apply Rabs_le_inv in D. apply Rabs_le. lra. }
    destruct (fdiv_R 53 1024 a b Fa) as (F & R). { fold b'. lra. } { fold a' b'. pose proof big. lra. }
    split; [exact F|]. split; [|lra]. rewrite R. fold a' b'. pose proof (err_b _ _ Sz) as E3. apply Rabs_le_inv in D, E3. apply Rabs_le.
    assert (1002 / 1000 * n * (E + 25 * e) <= 101 / 100 * n * (E + 25 * e)) by nra. lra.
  Qed.

  Definition qF (s : Z) : f64 := fsub (of_int 1) (cF s).
  Definition pqF (s : Z) : f64 := fmul (cF s) (qF s).
  Definition psiF (s : Z) : f64 :=
    fadd (fadd (ln64 (pqF s)) (fdiv (hF s) (cF s))) (fdiv (fsub (hF 255) (hF s)) (qF s)).
  Definition e3 : R := 1026 * u.
  Lemma qF_ok s : (0 <= s < 256)%Z -> is_finite (qF s) = true /\ Rabs (B2R (qF s) - (1 - cr s)) <= e3 /\ B2R (qF s) = rn (1 - B2R (cF s)).
  Proof.
    intros H. destruct (cF_e1 s H) as (F & E). destruct (int_R 1) as (F1 & R1); [lia|]. pose proof (cr_b s) as Cb. pose proof u_small as U. pose proof tiny_small as Ty.
    unfold e1 in E. apply Rabs_le_inv in E. assert (Sz : Rabs (1 - B2R (cF s)) <= 3 / 2) by (apply Rabs_le; lra).
    destruct (fsub_R 53 1024 (of_int 1) (cF s) F1 F) as (Fq & Rq). { rewrite R1. pose proof big. lra. }
    split; [exact Fq|]. rewrite R1 in Rq. split; [|exact Rq]. unfold qF. rewrite Rq. pose proof (err_b _ _ Sz) as E3. apply Rabs_le_inv in E3. unfold e3. apply Rabs_le. lra.
  Qed.
  Lemma en : 0 <= e3 /\ e3 * n <= / 1000 /\ 0 <= e2 /\ (2 * e2 + 27 * u) * n <= / 50 /\ e2 * n <= / 50 /\ 0 <= e1 /\ e1 <= e3.
  Proof. pose proof n_b. unfold e1, e2, e3, u. lra. Qed.

  Lemma proper_c s : proper_split im s -> / n <= cr s /\ / n <= 1 - cr s.
  Proof.
    intros (P1 & P2). pose proof (count_split im s (proj1 G)) as CS. fold N in CS. pose proof n_b. unfold cR. fold N.
    assert (E1 : 1 - IZR (count_le im s) / n = IZR (count_gt im s) / n).
    { rewrite <- CS. rewrite plus_IZR. field. rewrite <- plus_IZR, CS. lra. }
    rewrite E1. unfold Rdiv. assert (0 < / n) by (apply Rinv_0_lt_compat; lra).
    split; rewrite <- (Rmult_1_l (/ n)) at 1; apply Rmult_le_compat_r; try lra; apply IZR_le; lia.
  Qed.
  Lemma pq_R s : (0 <= s < 256)%Z -> is_finite (pqF s) = true /\ B2R (pqF s) = rn (B2R (cF s) * B2R (qF s)).
  Proof.
    intros H. destruct (cF_e1 s H) as (F & E). destruct (qF_ok s H) as (Fq & Eq & _). pose proof (cr_b s) as Cb. pose proof u_small. unfold e1, e3 in *.
    apply Rabs_le_inv in E, Eq. destruct (fmul_R 53 1024 (cF s) (qF s) F Fq) as (Fp & Rp).
    - rewrite Rabs_mult. apply Rle_trans with (2 * 2); [|pose proof big; lra]. apply Rmult_le_compat; auto using Rabs_pos; apply Rabs_le; lra.
    - split; [exact Fp|exact Rp].
  Qed.
  Definition e4 : R := 78500 * u.
  Lemma psi_proper s : (0 <= s < 256)%Z -> proper_split im s ->
    0 < B2R (pqF s) /\ is_finite (psiF s) = true /\ Rabs (B2R (psiF s) - split_entropy im s) <= e4 * n.
  Proof.
    intros H P. destruct (proper_c s P) as (C1 & C2). destruct (psi_R im G s H P) as (_ & PE). rewrite <- PE. clear PE.
    destruct (cF_e1 s H) as (Fc & Ec). destruct (qF_ok s H) as (Fq & Eq & _). destruct (hF_e2 s H) as (Fh & Eh). destruct (hF_e2 255 ltac:(lia)) as (Fh' & Eh').
    pose proof en as (N3 & N3n & N2 & N2n & N2n' & N1 & N13). pose proof n_b as Nb. pose proof inv_n as In. pose proof u_small as U. pose proof tiny_small as Ty. pose proof ln_n as (_ & L25).
    pose proof (cr_b s) as Cb. destruct (pq_R s H) as (Fpq & Rpq).
    assert (Ec3 : Rabs (B2R (cF s) - cr s) <= e3) by lra.
    set (C := cr s) in *. set (c := B2R (cF s)) in *. set (q := B2R (qF s)) in *.
    (* the logarithm *)
    assert (r0 : 0 <= e3 * n <= / 2) by nra.
    assert (rel : forall x X, / n <= X -> Rabs (x - X) <= e3 -> 0 < x /\ Rabs (ln x - ln X) <= 2 * (e3 * n)).
    { intros x X HX Hx. apply ln_rel; [lra| |exact r0]. eapply Rle_trans; [exact Hx|].
      assert (1 <= n * X). { apply Rmult_le_compat_l with (r := n) in HX; [|lra]. rewrite Rinv_r in HX by lra. exact HX. } nra. }
    destruct (rel c C C1 Ec3) as (c0 & Lc). destruct (rel q (1 - C) C2 Eq) as (q0 & Lq).
    assert (cb : / 8589934592 <= c <= 11 / 10). { apply Rabs_le_inv in Ec. unfold e1 in Ec. assert (1024 * u <= / 8000000000000) by (unfold u; lra). lra. }
    assert (qb : / 8589934592 <= q <= 11 / 10). { apply Rabs_le_inv in Eq. unfold e3 in Eq. assert (1026 * u <= / 8000000000000) by (unfold u; lra). lra. }
    assert (cq : / 73786976294838206464 <= c * q <= 121 / 100) by nra.
    assert (Epq : Rabs (B2R (pqF s) - c * q) <= 2 * u * (c * q)).
    { rewrite Rpq. rewrite <- (Rabs_pos_eq (c * q)) at 3 by lra. apply err_rel. rewrite Rabs_pos_eq by lra. lra. }
    destruct (ln_rel (B2R (pqF s)) (c * q) (2 * u) ltac:(lra) Epq ltac:(lra)) as (pq0 & Lpq).
    split; [exact pq0|].
    apply Rabs_le_inv in Epq.
    destruct (Hln (pqF s) Fpq) as (Fl & El). { split; nra. }
    assert (T1 : Rabs (B2R (ln64 (pqF s)) - ln (C * (1 - C))) <= 4 * (e3 * n) + 132 * u).
    { rewrite (ln_mult C (1 - C)) by lra. rewrite ln_mult in Lpq by lra. change (/ 70368744177664) with (/ 70368744177664) in El.
      assert (/ 70368744177664 = 128 * u) as El2 by (unfold u; lra). rewrite El2 in El. apply Rabs_le_inv in El, Lpq, Lc, Lq. apply Rabs_le. lra. }
    assert (B1 : -50 <= ln (C * (1 - C)) <= 0).
    { rewrite ln_mult by lra. assert (G1 : forall x, / n <= x -> x <= 1 -> -25 <= ln x <= 0).
      { intros x Hx Hx1. split; [|rewrite <- ln_1; destruct (Rle_lt_or_eq_dec _ _ Hx1) as [L|L]; [left; apply ln_increasing; lra|rewrite L; lra]].
        apply Rle_trans with (ln (/ n)); [rewrite ln_Rinv by lra; lra|]. destruct (Rle_lt_or_eq_dec _ _ Hx) as [L|L]; [left; apply ln_increasing; lra|rewrite L; lra]. }
      pose proof (G1 C C1 ltac:(lra)). pose proof (G1 (1 - C) C2 ltac:(lra)). lra. }
    (* the two quotients *)
    pose proof (Hr_c s ltac:(lia)) as Hb. fold C in Hb. assert (Hb' : ln n * C <= 25 * C) by (apply Rmult_le_compat_r; lra).
    destruct (quot_ok (hF s) (cF s) (Hr s) C e2 e3 Fh Eh Ec3 C1) as (F2 & T2 & _); [lra|lra|lra|lra|lra|].
    pose proof (Hr_b s 255 ltac:(lia)) as Hb2. fold C in Hb2.
    assert (C255 : cr 255 = 1). { unfold cR. rewrite (count_le_255 im G). fold N. field. lra. }
    rewrite C255 in Hb2. assert (Hb2' : ln n * (1 - C) <= 25 * (1 - C)) by (apply Rmult_le_compat_r; lra).
    assert (D : is_finite (fsub (hF 255) (hF s)) = true /\ Rabs (B2R (fsub (hF 255) (hF s)) - (Hr 255 - Hr s)) <= 2 * e2 + 27 * u).
    { apply Rabs_le_inv in Eh, Eh'. assert (e2 <= / 1000) by (unfold e2; lra).
      assert (Sz : Rabs (B2R (hF 255) - B2R (hF s)) <= 26) by (apply Rabs_le; lra).
      destruct (fsub_R 53 1024 (hF 255) (hF s) Fh' Fh) as (F & R). { pose proof big. lra. }
      split; [exact F|]. rewrite R. pose proof (err_b _ _ Sz) as E3. apply Rabs_le_inv in E3. apply Rabs_le. lra. }
    destruct D as (Fd & Ed).
    destruct (quot_ok (fsub (hF 255) (hF s)) (qF s) (Hr 255 - Hr s) (1 - C) (2 * e2 + 27 * u) e3 Fd Ed Eq C2) as (F3 & T3 & _); [lra|lra|lra|lra|lra|].
    change (hR im (zrange 0 256)) with (Hr 255). change (hR im (zrange 0 (s + 1))) with (Hr s).
    (* the sums *)
    assert (Q2 : 0 <= Hr s / C <= 25).
    { split; [apply Rmult_le_pos; [lra|left; apply Rinv_0_lt_compat; lra]|]. apply Rmult_le_reg_r with C; [lra|]. unfold Rdiv. rewrite Rmult_assoc, Rinv_l by lra. lra. }
    assert (Q3 : 0 <= (Hr 255 - Hr s) / (1 - C) <= 25).
    { split; [apply Rmult_le_pos; [lra|left; apply Rinv_0_lt_compat; lra]|]. apply Rmult_le_reg_r with (1 - C); [lra|]. unfold Rdiv. rewrite Rmult_assoc, Rinv_l by lra. lra. }
    set (x2 := Hr s / C) in *. set (x3 := (Hr 255 - Hr s) / (1 - C)) in *. set (x1 := ln (C * (1 - C))) in *.
    set (f2 := fdiv (hF s) (cF s)) in *. set (f3 := fdiv (fsub (hF 255) (hF s)) (qF s)) in *. set (f1 := ln64 (pqF s)) in *.
    assert (U2 : 101 / 100 * n * (e2 + 25 * e3) <= 33147 * u * n) by (unfold e2, e3; pose proof (Rmult_lt_0_compat u n ltac:(lra) ltac:(lra)); lra).
    assert (U3 : 101 / 100 * n * (2 * e2 + 27 * u + 25 * e3) <= 40414 * u * n) by (unfold e2, e3; pose proof (Rmult_lt_0_compat u n ltac:(lra) ltac:(lra)); lra).
    assert (U1 : 4 * (e3 * n) <= 4104 * u * n) by (unfold e3; lra).
    assert (un : 0 < u <= u * n) by (split; [lra|]; rewrite <- (Rmult_1_r u) at 1; apply Rmult_le_compat_l; lra). assert (unb : u * n <= / 2000000) by (unfold u; lra).
    apply Rabs_le_inv in T1, T2, T3.
    assert (S1 : Rabs (B2R f1 + B2R f2) <= 60) by (apply Rabs_le; lra).
    destruct (fadd_R 53 1024 f1 f2 Fl F2) as (Fa & Ra). { pose proof big. lra. }
    pose proof (err_b _ _ S1) as R1. rewrite <- Ra in R1. apply Rabs_le_inv in R1.
    assert (S2 : Rabs (B2R (fadd f1 f2) + B2R f3) <= 90) by (apply Rabs_le; lra).
    destruct (fadd_R 53 1024 (fadd f1 f2) f3 Fa F3) as (Fb & Rb). { pose proof big. lra. }
    pose proof (err_b _ _ S2) as R2. rewrite <- Rb in R2. apply Rabs_le_inv in R2.
    split; [exact Fb|]. unfold psiF. fold f1 f2 f3. unfold e4. apply Rabs_le. lra.
  Qed.

  (** levels with no pixels on one side *)
  Lemma at_zero_le s v : count_le im s = 0%Z -> (v <= s)%Z -> count_at im v = 0%Z.
  Proof.
    intros H Hv. pose proof (count_step im v). pose proof (count_le_nonneg im (v - 1)). pose proof (count_le_mono im v s Hv). pose proof (count_at_nonneg im v). lia.
  Qed.
  Lemma at_zero_gt s v : count_gt im s = 0%Z -> (s < v)%Z -> count_at im v = 0%Z.
  Proof.
    intros H Hv. pose proof (count_step im v). pose proof (count_le_mono im s (v - 1) ltac:(lia)).
    pose proof (count_le_total im v (proj1 G)). pose proof (count_split im s (proj1 G)). pose proof (count_at_nonneg im v). lia.
  Qed.
  Lemma cF_R s : (0 < s < 256)%Z -> B2R (cF s) = rn (B2R (cF (s - 1)) + B2R (pF s)).
  Proof.
    intros H. rewrite (cF_step s) by lia. destruct (cF_e1 (s - 1) ltac:(lia)) as (F1 & E1). destruct (pF_ok s) as (F2 & E2). pose proof (cr_b (s - 1)). pose proof (pr_b s) as (Pb & _).
    pose proof u_small as U. unfold e1 in E1. assert (E3 : Rabs (B2R (pF s) - pr s) <= 2 * u) by nra.
    apply Rabs_le_inv in E1, E3. destruct (fadd_R 53 1024 (cF (s - 1)) (pF s) F1 F2) as (F & R); [|exact R].
    pose proof big. apply Rle_trans with 3; [apply Rabs_le; lra|lra].
  Qed.
  Lemma cF_zero s : (0 <= s < 256)%Z -> count_le im s = 0%Z -> B2R (cF s) = 0.
  Proof.
    intros H C. assert (Q : forall k, (Z.of_nat k <= s)%Z -> B2R (cF (Z.of_nat k)) = 0).
    { assert (P0 : forall v, (v <= s)%Z -> B2R (pF v) = 0).
      { intros v Hv. rewrite (proj2 (pF_R v)). destruct (pr_b v) as (_ & Z0 & _). rewrite (Z0 (at_zero_le s v C Hv)). apply rnd_0. }
      induction k as [|k IH]; intros Hk; [apply (P0 0%Z); lia|]. rewrite cF_R by lia. replace (Z.of_nat (S k) - 1)%Z with (Z.of_nat k) by lia.
      rewrite IH by lia. rewrite P0 by lia. rewrite Rplus_0_r. apply rnd_0. }
    specialize (Q (Z.to_nat s)). rewrite Z2Nat.id in Q by lia. apply Q. lia.
  Qed.
  Lemma hF_same s t : (0 <= s <= t)%Z -> count_gt im s = 0%Z -> hF t = hF s.
  Proof.
    intros H C. remember (Z.to_nat (t - s)) as k eqn:Ek. revert t H Ek. induction k as [|k IH]; intros t H Ek; [replace t with s by lia; reflexivity|].
    rewrite hF_step by lia. rewrite pF_pos. rewrite (at_zero_gt s t C) by lia. cbn [Z.eqb negb]. apply IH; lia.
  Qed.
  Lemma skipped s : (0 <= s < 256)%Z -> B2R (pqF s) <= 0 -> fle (pqF s) (of_int 0) = true.
  Proof.
    intros H L. destruct (pq_R s H) as (F & _). destruct (int_R 0) as (F0 & R0); [lia|]. unfold fle. rewrite Bleb_correct by assumption. rewrite R0. apply Rle_bool_true. exact L.
  Qed.
  Lemma tried s : (0 <= s < 256)%Z -> 0 < B2R (pqF s) -> fle (pqF s) (of_int 0) = false.
  Proof.
    intros H L. destruct (pq_R s H) as (F & _). destruct (int_R 0) as (F0 & R0); [lia|]. unfold fle. rewrite Bleb_correct by assumption. rewrite R0. apply Rle_bool_false. exact L.
  Qed.
  Lemma below_one (c : f64) : B2R c < 1 -> B2R c <= 1 - u.
  Proof.
    intros H. assert (V : Valid_exp (SpecFloat.fexp 53 1024)) by (apply fexp_correct; reflexivity).
    assert (Q : B2R c <= pred radix2 (SpecFloat.fexp 53 1024) (bpow radix2 0)).
    { apply pred_ge_gt; [exact V|apply generic_format_B2R|apply generic_format_bpow; cbn; lia|exact H]. }
    rewrite pred_bpow in Q by exact V. change (bpow radix2 (SpecFloat.fexp 53 1024 0)) with (/ 9007199254740992) in Q. change (bpow radix2 0) with 1 in Q. exact Q.
  Qed.

  Lemma psi_improper s : (0 <= s < 256)%Z -> ~ proper_split im s ->
    fle (pqF s) (of_int 0) = true \/ fle (pqF s) (of_int 0) = false /\ is_finite (psiF s) = true /\ B2R (psiF s) <= -3.
  Proof.
    intros H P. destruct (pq_R s H) as (Fpq & Rpq). destruct (qF_ok s H) as (Fq & Eq & Rq). destruct (cF_e1 s H) as (Fc & Ec).
    pose proof (count_split im s (proj1 G)) as CS. fold N in CS. pose proof (count_le_nonneg im s). assert (0 <= count_gt im s)%Z by apply zlen_nonneg.
    destruct (Z.eq_dec (count_le im s) 0) as [D|D].
    - left. apply skipped; [exact H|]. rewrite Rpq, (cF_zero s H D), Rmult_0_l, rnd_0. lra.
    - assert (Cg : count_gt im s = 0%Z) by (unfold proper_split in P; lia).
      assert (C1 : cr s = 1). { unfold cR. replace (count_le im s) with N by lia. fold N. pose proof n_b. field. lra. }
      pose proof u_small as U. pose proof tiny_small as Ty. pose proof tiny_pos as Tp.
      destruct (Rle_lt_dec 1 (B2R (cF s))) as [L|L].
      + left. apply skipped; [exact H|]. rewrite Rpq. rewrite <- (rnd_0 53 1024). apply (rnd_le 53 1024).
        assert (B2R (qF s) <= 0). { rewrite Rq. rewrite <- (rnd_0 53 1024). apply (rnd_le 53 1024). lra. }
        rewrite <- (Rmult_0_r (B2R (cF s))). apply Rmult_le_compat_l; lra.
      + right. pose proof (below_one _ L) as L'. rewrite C1 in Ec. set (c := B2R (cF s)) in *.
        unfold e1 in Ec. assert (Ec' := Ec). apply Rabs_le_inv in Ec'.
        assert (Eq' : Rabs (B2R (qF s) - (1 - c)) <= 2 * u * (1 - c)).
        { rewrite Rq. rewrite <- (Rabs_pos_eq (1 - c)) at 3 by lra. apply err_rel. rewrite Rabs_pos_eq by lra. unfold u in *. lra. }
        set (q := B2R (qF s)) in *. apply Rabs_le_inv in Eq'.
        assert (qb : u / 2 <= q <= 1025 * u).
        { assert (2 * u * (1 - c) <= / 4 * (1 - c)) by (apply Rmult_le_compat_r; lra). assert (2 * u * (1 - c) <= 2 * u * (1024 * u)) by (apply Rmult_le_compat_l; lra). split; [lra|]. nra. }
        assert (cq : u / 4 <= c * q <= 1025 * u).
        { assert (/ 2 * q <= c * q) by (apply Rmult_le_compat_r; lra). assert (c * q <= 1 * q) by (apply Rmult_le_compat_r; lra). lra. }
        assert (Epq : Rabs (B2R (pqF s) - c * q) <= 2 * u * (c * q)).
        { rewrite Rpq. rewrite <- (Rabs_pos_eq (c * q)) at 3 by lra. apply err_rel. rewrite Rabs_pos_eq by lra. unfold u in *. lra. }
        apply Rabs_le_inv in Epq.
        assert (pqb : u / 8 <= B2R (pqF s) <= 2048 * u).
        { assert (2 * u * (c * q) <= / 4 * (c * q)) by (apply Rmult_le_compat_r; lra). lra. }
        destruct (Hln (pqF s) Fpq) as (Fl & El). { unfold u in *. lra. }
        assert (Lb : - (56 * ln 2) <= ln (B2R (pqF s)) <= - (42 * ln 2)).
        { split.
          - replace (56 * ln 2) with (INR 56 * ln 2) by (cbn; lra). rewrite <- ln_pow2, <- ln_Rinv by (apply pow_lt; lra).
            assert (/ 2 ^ 56 <= B2R (pqF s)). { unfold u in pqb. lra. }
            assert (0 < / 2 ^ 56) by (apply Rinv_0_lt_compat, pow_lt; lra).
            match goal with A : / 2 ^ 56 <= _ |- _ => destruct (Rle_lt_or_eq_dec _ _ A) as [A'|A'] end; [left; apply ln_increasing; assumption|rewrite <- A'; lra].
          - replace (42 * ln 2) with (INR 42 * ln 2) by (cbn; lra). rewrite <- ln_pow2, <- ln_Rinv by (apply pow_lt; lra).
            assert (B2R (pqF s) <= / 2 ^ 42). { unfold u in pqb. lra. }
            match goal with A : _ <= / 2 ^ 42 |- _ => destruct (Rle_lt_or_eq_dec _ _ A) as [A'|A'] end; [left; apply ln_increasing; [lra|assumption]|rewrite A'; lra]. }
        split; [apply tried; [exact H|lra]|].
        destruct (hF_e2 s H) as (Fh & Eh). pose proof en as (N3 & N3n & N2 & N2n & N2n' & N1 & N13). pose proof ln_n as (L32 & L25). pose proof n_b as Nb. pose proof inv_n as In.
        pose proof (Hr_c s ltac:(lia)) as Hb. rewrite C1, Rmult_1_r in Hb.
        assert (Ec3 : Rabs (B2R (cF s) - 1) <= e3). { unfold e3. fold c. eapply Rle_trans; [exact Ec|]. lra. }
        destruct (quot_ok (hF s) (cF s) (Hr s) 1 e2 e3 Fh Eh Ec3) as (F2 & T2 & _); [lra|lra|lra|lra|lra|lra|].
        replace (Hr s / 1) with (Hr s) in T2 by field.
        assert (Sm : 101 / 100 * n * (e2 + 25 * e3) <= / 10). { unfold e2, e3, u. lra. }
        assert (Z3 : is_finite (fdiv (fsub (hF 255) (hF s)) (qF s)) = true /\ B2R (fdiv (fsub (hF 255) (hF s)) (qF s)) = 0).
        { rewrite (hF_same s 255 ltac:(lia) Cg). destruct (fsub_R 53 1024 (hF s) (hF s) Fh Fh) as (Fs & Rs).
          { rewrite Rminus_diag_eq by reflexivity. rewrite Rabs_R0. apply bpow_ge_0. }
          rewrite Rminus_diag_eq, rnd_0 in Rs by reflexivity.
          destruct (fdiv_R 53 1024 (fsub (hF s) (hF s)) (qF s) Fs) as (Fd & Rd).
          - fold q. lra.
          - rewrite Rs. unfold Rdiv. rewrite Rmult_0_l, Rabs_R0. apply bpow_ge_0.
          - split; [exact Fd|]. rewrite Rd, Rs. unfold Rdiv. rewrite Rmult_0_l. apply rnd_0. }
        destruct Z3 as (F3 & R3). pose proof ln2_low as Ll. pose proof ln2_up as Lu.
        unfold psiF. set (f1 := ln64 (pqF s)) in *. set (f2 := fdiv (hF s) (cF s)) in *. set (f3 := fdiv (fsub (hF 255) (hF s)) (qF s)) in *. clearbody f1 f2 f3.
        apply Rabs_le_inv in El, T2.
        assert (V : -50 <= B2R f1 + B2R f2 <= -4) by lra.
        assert (S1 : Rabs (B2R f1 + B2R f2) <= 60) by (apply Rabs_le; lra).
        destruct (fadd_R 53 1024 f1 f2 Fl F2) as (Fa & Ra). { pose proof big. lra. }
        pose proof (err_b _ _ S1) as R1. rewrite <- Ra in R1. apply Rabs_le_inv in R1.
        assert (S2 : Rabs (B2R (fadd f1 f2) + B2R f3) <= 90) by (apply Rabs_le; lra).
        destruct (fadd_R 53 1024 (fadd f1 f2) f3 Fa F3) as (Fb & Rb). { pose proof big. lra. }
        pose proof (err_b _ _ S2) as R2. rewrite <- Rb in R2. apply Rabs_le_inv in R2.
        split; [exact Fb|]. lra.
  Qed.

  (** one level only: every level is skipped *)
  Lemma cF_exact s : (forall s, (0 <= s < 256)%Z -> ~ proper_split im s) -> (0 <= s < 256)%Z -> B2R (cF s) = cr s /\ (cr s = 0 \/ cr s = 1).
  Proof.
    intros NP. assert (Z01 : forall s, (0 <= s < 256)%Z -> cr s = 0 \/ cr s = 1).
    { intros t Ht. specialize (NP t Ht). pose proof (count_split im t (proj1 G)) as CS. fold N in CS. pose proof (count_le_nonneg im t). assert (0 <= count_gt im t)%Z by apply zlen_nonneg.
      unfold cR. fold N. pose proof n_b. unfold proper_split in NP. destruct (Z.eq_dec (count_le im t) 0) as [->|D]; [left; unfold Rdiv; ring|right].
      replace (count_le im t) with N by lia. field. lra. }
    assert (R01 : forall r, r = 0 \/ r = 1 -> rn r = r). { intros r [-> | ->]; [apply rnd_0|apply (rnd_int 53 1024 1); cbn; lia]. }
    intros H. split; [|apply Z01; exact H].
    remember (Z.to_nat s) as k eqn:Ek. revert s H Ek. induction k as [|k IH]; intros s H Ek.
    - assert (s = 0)%Z as -> by lia. change (cF 0) with (pF 0). rewrite (proj2 (pF_R 0)), <- cr_0. apply R01, Z01. lia.
    - rewrite cF_R by lia. rewrite (IH (s - 1)%Z) by lia. rewrite (proj2 (pF_R s)).
      pose proof (pR_step im s) as St. pose proof (pr_b s) as (Pb & _). pose proof (Z01 s H). pose proof (Z01 (s - 1)%Z ltac:(lia)).
      rewrite (R01 (pr s)) by lra. rewrite St. apply R01. assumption.
  Qed.
  Lemma one_level_skipped s : (forall s, (0 <= s < 256)%Z -> ~ proper_split im s) -> (0 <= s < 256)%Z -> fle (pqF s) (of_int 0) = true.
  Proof.
    intros NP H. apply skipped; [exact H|]. destruct (pq_R s H) as (_ & ->). destruct (qF_ok s H) as (_ & _ & ->). destruct (cF_exact s NP H) as (-> & [-> | ->]).
    - rewrite Rmult_0_l, rnd_0. lra.
    - replace (1 - 1) with 0 by ring. rewrite rnd_0, Rmult_0_r, rnd_0. lra.
  Qed.

  (** the loop *)
  Lemma step_F s st : (0 <= s < 256)%Z ->
    kapur_step K (map cF (zrange 0 256)) (map hF (zrange 0 256)) s st =
    Ok (if fle (pqF s) (of_int 0) then st else if flt (fst st) (psiF s) then (psiF s, s) else st).
  Proof.
    intros H. unfold kapur_step. rewrite !vget_map by lia. cbn [bind]. cbn [e_mul e_sub e_int e_le reckon_f64].
    change (fmul (cF s) (fsub (of_int 1) (cF s))) with (pqF s). destruct (fle (pqF s) (of_int 0)); reflexivity.
  Qed.
  Definition finv (s : Z) (st : f64 * Z) : Prop :=
    is_finite (fst st) = true /\
    ((forall v, (0 <= v < s)%Z -> ~ proper_split im v) /\ B2R (fst st) <= -3 \/
     (0 <= snd st < s)%Z /\ (proper_split im (snd st) /\ count_at im (snd st) <> 0%Z) /\ fst st = psiF (snd st) /\
     forall v, (0 <= v < s)%Z -> proper_split im v -> B2R (psiF v) <= B2R (fst st)).
  Lemma psi_above s : (0 <= s < 256)%Z -> proper_split im s -> -1 <= B2R (psiF s).
  Proof.
    intros H P. destruct (psi_proper s H P) as (_ & _ & E). pose proof (split_nonneg im G s H) as S. apply Rabs_le_inv in E.
    assert (e4 * n <= 1) by (pose proof n_b; unfold e4, u; lra). lra.
  Qed.
  (** a level with no pixels repeats the value of the level below *)
  Lemma fadd_zero (x z : f64) : is_finite x = true -> B2R x <> 0 -> is_finite z = true -> B2R z = 0 -> fadd x z = x.
  Proof.
    intros Fx Rx Fz Rz. destruct z as [sz|sz| |sz m e B]; try discriminate Fz.
    - destruct x as [sx|sx| |sx mx ex Bx]; try discriminate Fx; [exfalso; apply Rx; reflexivity|reflexivity].
    - exfalso. cbn [B2R] in Rz. apply eq_0_F2R in Rz. destruct sz; discriminate Rz.
  Qed.
  Lemma same_psi s : (0 <= s < 256)%Z -> proper_split im s -> count_at im s = 0%Z -> (0 < s)%Z /\ proper_split im (s - 1) /\ psiF s = psiF (s - 1).
  Proof.
    intros H (P1 & P2) C. pose proof (count_step im s) as St. rewrite C, Z.add_0_r in St.
    assert (s0 : (0 < s)%Z). { destruct (Z.eq_dec s 0) as [->|D]; [|lia]. rewrite (count_le_neg im (0 - 1)) in St by (assumption || lia). lia. }
    assert (P : proper_split im (s - 1)). { pose proof (count_split im s (proj1 G)). pose proof (count_split im (s - 1) (proj1 G)). unfold proper_split. lia. }
    split; [exact s0|]. split; [exact P|].
    assert (E : cF s = cF (s - 1)).
    { rewrite (cF_step s) by lia. destruct (cF_e1 (s - 1) ltac:(lia)) as (Fc & Ec). destruct (pF_R s) as (Fp & Rp). destruct (pr_b s) as (_ & Z0 & _). rewrite (Z0 C), rnd_0 in Rp.
      apply fadd_zero; try assumption. intros R0. rewrite R0 in Ec. destruct (proper_c (s - 1) P) as (C1 & _). pose proof inv_n. apply Rabs_le_inv in Ec. unfold e1, u in Ec. lra. }
    assert (E' : hF s = hF (s - 1)). { rewrite (hF_step s) by lia. rewrite pF_pos, C. reflexivity. }
    unfold psiF, pqF, qF. rewrite E, E'. reflexivity.
  Qed.
  Lemma finv_step s st : (0 <= s < 256)%Z -> finv s st -> finv (s + 1) (if fle (pqF s) (of_int 0) then st else if flt (fst st) (psiF s) then (psiF s, s) else st).
  Proof.
    intros H (F & I). assert (Q : proper_split im s \/ ~ proper_split im s) by (unfold proper_split; lia). destruct Q as [Q|Q].
    - destruct (psi_proper s H Q) as (P0 & Fp & _). pose proof (psi_above s H Q) as A. rewrite (tried s H P0). unfold flt. rewrite Bltb_correct by assumption.
      destruct I as [(I1 & I2)|(I1 & I2 & I3 & I4)].
      + rewrite Rlt_bool_true by lra. split; [exact Fp|]. right. cbn [fst snd]. split; [lia|]. split.
        { split; [exact Q|]. intros C. destruct (same_psi s H Q C) as (s0 & P' & _). apply (I1 (s - 1)%Z); [lia|exact P']. }
        split; [reflexivity|]. intros v Hv Pv. destruct (Z.eq_dec v s) as [->|D]; [lra|]. exfalso. apply (I1 v); [lia|exact Pv].
      + case Rlt_bool_spec; intros L.
        * split; [exact Fp|]. right. cbn [fst snd]. split; [lia|]. split.
          { split; [exact Q|]. intros C. destruct (same_psi s H Q C) as (s0 & P' & E). specialize (I4 (s - 1)%Z ltac:(lia) P'). rewrite <- E in I4. lra. }
          split; [reflexivity|]. intros v Hv Pv. destruct (Z.eq_dec v s) as [->|D]; [lra|]. specialize (I4 v ltac:(lia) Pv). lra.
        * split; [exact F|]. right. split; [lia|]. split; [exact I2|]. split; [exact I3|].
          intros v Hv Pv. destruct (Z.eq_dec v s) as [->|D]; [lra|]. apply I4; [lia|exact Pv].
    - assert (Old : finv (s + 1) st).
      { split; [exact F|]. destruct I as [(I1 & I2)|(I1 & I2 & I3 & I4)].
        - left. split; [|exact I2]. intros v Hv. destruct (Z.eq_dec v s) as [->|D]; [exact Q|]. apply I1. lia.
        - right. split; [lia|]. split; [exact I2|]. split; [exact I3|]. intros v Hv Pv. destruct (Z.eq_dec v s) as [->|D]; [contradiction|]. apply I4; [lia|exact Pv]. }
      destruct (psi_improper s H Q) as [-> |(-> & Fp & B)]; [exact Old|]. unfold flt. rewrite Bltb_correct by assumption.
      case Rlt_bool_spec; intros L; [|exact Old]. split; [exact Fp|]. left. cbn [fst]. split; [|exact B].
      destruct I as [(I1 & I2)|(I1 & I2 & I3 & I4)].
      + intros v Hv. destruct (Z.eq_dec v s) as [->|D]; [exact Q|]. apply I1. lia.
      + exfalso. rewrite I3 in L. pose proof (psi_above (snd st) ltac:(lia) (proj1 I2)). lra.
  Qed.
  Lemma min_R : is_finite (e_min K) = true /\ B2R (e_min K) <= -3.
  Proof.
    cbn [e_min reckon_f64]. set (m := of_dyadic (2 ^ 53 - 1) 971 : f64). assert (M : is_finite m = true /\ 3 <= B2R m).
    { assert (E : B2SF m = SpecFloat.S754_finite false 9007199254740991 971) by (vm_compute; reflexivity).
      clearbody m. destruct m as [s|s| |s m e B]; try discriminate E. cbn [B2SF] in E. injection E as -> -> ->.
      split; [reflexivity|]. cbn [B2R cond_Zopp]. unfold F2R. cbn [Fnum Fexp].
      assert (1 <= bpow radix2 971) by (apply (bpow_le radix2 0); lia). nra. }
    unfold fneg. rewrite is_finite_Bopp, B2R_Bopp. split; [apply M|]. pose proof (proj2 M). lra.
  Qed.

  Lemma kapur_F : exists t, kapur_level K im = Ok t /\ (0 <= t < 256)%Z /\
    ((forall s, (0 <= s < 256)%Z -> ~ proper_split im s) /\ t = 0%Z \/
     (proper_split im t /\ count_at im t <> 0%Z) /\
     forall s, (0 <= s < 256)%Z -> proper_split im s -> split_entropy im s <= split_entropy im t + n / 34359738368).
  Proof.
    unfold kapur_level. rewrite (hist_gray im G (proj2 Hs)). cbn [bind]. change (vget [map (count_at im) (zrange 0 256)] 0) with (Ok (map (count_at im) (zrange 0 256))).
    cbn [bind]. destruct G as ((Hw & Hh & Hl) & _). rewrite chk_u_ok by nia. cbn [bind]. cbv zeta. rewrite map_map.
    change (map (fun x => e_div K (e_int K (count_at im x)) (e_int K (iw im * ih im))) (zrange 0 256)) with (map pF (zrange 0 256)).
    rewrite cum_F, h_F.
    assert (Dec : (forall s, (0 <= s < 256)%Z -> ~ proper_split im s) \/ exists s, (0 <= s < 256)%Z /\ proper_split im s).
    { destruct (existsb (fun s => (0 <? count_le im s)%Z && (0 <? count_gt im s)%Z)%bool (zrange 0 256)) eqn:E.
      - right. apply existsb_exists in E. destruct E as (s & Hi & E). apply in_zrange in Hi. apply Bool.andb_true_iff in E. exists s. unfold proper_split. lia.
      - left. intros s Hi P. rewrite <- Bool.not_true_iff_false in E. apply E. apply existsb_exists. exists s. split; [apply in_zrange; lia|]. unfold proper_split in P. apply Bool.andb_true_iff. lia. }
    destruct Dec as [NP|(s0 & Hs0 & P0)].
    - match goal with |- context [for_range 0 256 ?b ?x] => destruct (for_range_ind (fun _ st => st = x) 0 256 b x) as (st & E & I) end; [lia|reflexivity| |].
      { intros s st Hi ->. eexists. split; [apply step_F; exact Hi|]. rewrite one_level_skipped by assumption. reflexivity. }
      rewrite E, I. cbn [bind snd]. exists 0%Z. split; [reflexivity|]. split; [lia|]. left. auto.
    - match goal with |- context [for_range 0 256 ?b ?x] => destruct (for_range_ind finv 0 256 b x) as (st & E & I) end; [lia| | |].
      { destruct min_R as (M1 & M2). split; [exact M1|]. left. split; [intros v Hv; lia|exact M2]. }
      { intros s st Hi Iv. eexists. split; [apply step_F; exact Hi|]. apply finv_step; assumption. }
      rewrite E. cbn [bind]. destruct I as (F & [(I1 & I2)|(I1 & I2 & I3 & I4)]); [exfalso; apply (I1 s0); assumption|].
      exists (snd st). rewrite Z.mod_small by lia. split; [reflexivity|]. split; [lia|]. right. split; [exact I2|].
      intros s Hi P. specialize (I4 s Hi P). rewrite I3 in I4. destruct (psi_proper s Hi P) as (_ & _ & E1). destruct (psi_proper (snd st) ltac:(lia) (proj1 I2)) as (_ & _ & E2).
      apply Rabs_le_inv in E1, E2. assert (2 * (e4 * n) <= n / 34359738368). { pose proof n_b. unfold e4, u. lra. } lra.
  Qed.
End F64.

(** ** an empty image: every share is NaN and no level is accepted *)
Section Empty.
  Context (ln64 : f64 -> f64) (im : image Z) (G : gray8 im) (He : (iw im * ih im = 0)%Z).
  Notation K := (reckon_f64 ln64).
  Lemma empty_count v : count_at im v = 0%Z.
  Proof. pose proof (count_at_N im G v) as C. lia. Qed.
  Lemma empty_share : e_div K (e_int K 0) (e_int K 0) = B754_nan.
  Proof. vm_compute. reflexivity. Qed.
  Lemma kapur_empty : kapur_level K im = Ok 0%Z.
  Proof.
    assert (Hs : (iw im * ih im < 2 ^ 32)%Z) by lia.
    unfold kapur_level. rewrite (hist_gray im G Hs). cbn [bind]. change (vget [map (count_at im) (zrange 0 256)] 0) with (Ok (map (count_at im) (zrange 0 256))).
    cbn [bind]. rewrite chk_u_ok by lia. cbn [bind]. cbv zeta. rewrite map_map.
    replace (map (fun x => e_div K (e_int K (count_at im x)) (e_int K (iw im * ih im))) (zrange 0 256)) with (map (fun _ => B754_nan : f64) (zrange 0 256)).
    2: { apply map_ext. intros v. rewrite empty_count, He, empty_share. reflexivity. }
    assert (E1 : kapur_cum K (map (fun _ => B754_nan : f64) (zrange 0 256)) = map (fun _ => B754_nan) (zrange 0 256)).
    { rewrite (zrange_cons 0 256) by lia. cbn [map kapur_cum]. apply (f_equal (cons B754_nan)).
      refine (running_map (e_add K) (fun _ => B754_nan) (fun _ => B754_nan) (0 + 1) 256 _). intros i Hi. reflexivity. }
    assert (E2 : kapur_h K (map (fun _ => B754_nan : f64) (zrange 0 256)) = map (fun _ => of_int 0) (zrange 0 256)).
    { rewrite (zrange_cons 0 256) by lia. cbn [map kapur_h]. cbv zeta. apply (f_equal (cons (of_int 0))).
      refine (running_map _ (fun _ => B754_nan) (fun _ => of_int 0) (0 + 1) 256 _). intros i Hi. reflexivity. }
    rewrite E1, E2.
    match goal with |- context [for_range 0 256 ?b ?x] => destruct (for_range_ind (fun _ st => st = x) 0 256 b x) as (st & E & I) end; [lia|reflexivity| |].
    { intros s st Hi ->. unfold kapur_step. rewrite !vget_map by lia. cbn [bind]. cbn [e_mul e_sub e_int e_le reckon_f64].
      change (fle (fmul B754_nan (fsub (of_int 1) B754_nan)) (of_int 0)) with false. cbv iota. cbn [bind].
      eexists. split; [reflexivity|]. cbn [e_add e_sub e_div e_ln e_lt e_int fst reckon_f64].
      match goal with |- (if flt ?a (fadd ?x ?y) then _ else _) = _ => assert (fadd x y = B754_nan) as -> end.
      { assert (N : forall x : f64, fadd x B754_nan = B754_nan) by (intros []; reflexivity).
        match goal with |- fadd ?x ?y = _ => assert (y = B754_nan) as -> end; [|apply N]. vm_compute. reflexivity. }
      match goal with |- (if flt ?a B754_nan then _ else _) = _ => assert (flt a B754_nan = false) as -> end; [|reflexivity].
      unfold fneg, flt. destruct (of_dyadic (2 ^ 53 - 1) 971 : f64); reflexivity. }
    rewrite E, I. reflexivity.
  Qed.
End Empty.

(** ** the logarithm rounded to the nearest f64 is accurate enough *)
Definition nearest (r : R) : f64 :=
  of_dyadic (Ztrunc (scaled_mantissa radix2 (SpecFloat.fexp 53 1024) (rnd 53 1024 r))) (cexp radix2 (SpecFloat.fexp 53 1024) (rnd 53 1024 r)).
Lemma nearest_R r : Rabs r <= 64 -> is_finite (nearest r) = true /\ B2R (nearest r) = rn r.
Proof.
  intros H. unfold nearest, of_dyadic. set (x := rnd 53 1024 r).
  assert (G : generic_format radix2 (SpecFloat.fexp 53 1024) x) by (apply generic_format_round; [apply fexp_correct; reflexivity|apply valid_rnd_N]).
  pose proof (binary_normalize_correct 53 1024 eq_refl eq_refl mode_NE (Ztrunc (scaled_mantissa radix2 (SpecFloat.fexp 53 1024) x)) (cexp radix2 (SpecFloat.fexp 53 1024) x) false) as C.
  cbv zeta in C. replace (F2R _) with x in C by exact G.
  rewrite round_generic in C by (try exact G; apply valid_rnd_round_mode). rewrite Rlt_bool_true in C.
  - destruct C as (C1 & C2 & _). split; [exact C2|exact C1].
  - apply Rle_lt_trans with (bpow radix2 6); [|apply bpow_lt; lia]. unfold x, rnd. apply abs_round_le_generic; [apply fexp_correct; reflexivity|apply valid_rnd_N|apply generic_format_bpow; cbn; lia|].
    change (bpow radix2 6) with 64. exact H.
Qed.
Lemma nearest_ln : accurate_ln (fun x => nearest (ln (B2R x))).
Proof.
  intros x F (B1 & B2). pose proof ln2_up as L2. pose proof ln2_low as L2'.
  assert (LB : Rabs (ln (B2R x)) <= 60).
  { apply Rabs_le. split.
    - assert (E : ln (/ 1180591620717411303424) = - (70 * ln 2)).
      { replace (/ 1180591620717411303424) with (/ 2 ^ 70) by lra. rewrite ln_Rinv, ln_pow2 by (apply pow_lt; lra). cbn [INR]. lra. }
      destruct (Rle_lt_or_eq_dec _ _ B1) as [L|L]; [|rewrite <- L, E; lra]. assert (Q := ln_increasing (/ 1180591620717411303424) (B2R x) ltac:(lra) L). rewrite E in Q. lra.
    - destruct (Rle_lt_or_eq_dec _ _ B2) as [L|L]; [|rewrite L; lra]. assert (Q := ln_increasing (B2R x) 2 ltac:(lra) L). lra. }
  destruct (nearest_R (ln (B2R x)) ltac:(lra)) as (Fn & ->). split; [exact Fn|].
  eapply Rle_trans; [apply (err_b _ _ LB)|]. pose proof tiny_small. unfold u in *. lra.
Qed.
