(** Lemmas about the IEEE operations of [Float]: results are exact on dyadic
    numbers with small numerators, and otherwise rounded. *)
From Flocq Require Import Core BinarySingleNaN.
From Coq Require Import Reals Lra Psatz.
From Verif Require Import Base BaseProofs Float.
Local Ltac Zify.zify_post_hook ::= idtac.
Local Open Scope Z_scope.

Section FP.
  Context (prec emax : Z) {Hp : Prec_gt_0 prec} {Hm : Prec_lt_emax prec emax}.
  Notation F := (binary_float prec emax).
  Notation emin := (3 - emax - prec).
  Notation fexp := (SpecFloat.fexp prec emax).

  (** [dy k m x]: x is the finite number m * 2^k. *)
  Definition dy (k m : Z) (x : F) : Prop :=
    is_finite x = true /\ B2R x = (IZR m * bpow radix2 k)%R.

  Lemma fexp_flt : fexp = FLT_exp emin prec.
  Proof. reflexivity. Qed.

  Lemma dy_format k m : emin <= k -> Z.abs m <= 2 ^ prec ->
    generic_format radix2 fexp (IZR m * bpow radix2 k)%R.
  Proof.
    intros Hk Hmm. assert (Hp0 : 0 < prec) by exact Hp.
    rewrite fexp_flt.
    destruct (Z.eq_dec (Z.abs m) (2 ^ prec)) as [E|N].
    - assert (IZR m * bpow radix2 k = bpow radix2 (prec + k) \/
              IZR m * bpow radix2 k = - bpow radix2 (prec + k))%R as [->| ->].
      { rewrite bpow_plus. rewrite <- (IZR_Zpower radix2 prec) by lia.
        replace (radix2 ^ prec) with (2 ^ prec) by reflexivity.
        destruct (Z.abs_eq_or_opp m) as [A|A]; rewrite A in E.
        - left. now rewrite E.
        - right. rewrite <- E, opp_IZR. ring. }
      + apply generic_format_bpow. unfold FLT_exp. lia.
      + apply generic_format_opp, generic_format_bpow. unfold FLT_exp. lia.
    - apply generic_format_FLT.
      exists (Defs.Float radix2 m k); cbn [Fnum Fexp].
      + reflexivity.
      + replace (radix2 ^ prec) with (2 ^ prec) by reflexivity. lia.
      + exact Hk.
  Qed.

  Lemma dy_small k m : k + prec < emax -> Z.abs m <= 2 ^ prec ->
    (Rabs (IZR m * bpow radix2 k) < bpow radix2 emax)%R.
  Proof.
    intros Hk Hmm. assert (Hp0 : 0 < prec) by exact Hp.
    rewrite Rabs_mult, (Rabs_pos_eq (bpow _ _)) by apply bpow_ge_0.
    rewrite <- abs_IZR.
    apply Rle_lt_trans with (bpow radix2 (prec + k)).
    - rewrite bpow_plus. apply Rmult_le_compat_r; [apply bpow_ge_0|].
      rewrite <- (IZR_Zpower radix2 prec) by lia. apply IZR_le. exact Hmm.
    - apply bpow_lt. lia.
  Qed.

  Definition dyk (k : Z) := emin <= k /\ k + prec < emax.

  Lemma dy_round k m : dyk k -> Z.abs m <= 2 ^ prec ->
    round radix2 fexp (round_mode mode_NE) (IZR m * bpow radix2 k) = (IZR m * bpow radix2 k)%R.
  Proof.
    intros [H1 H2] H. apply round_generic; [apply valid_rnd_round_mode|].
    now apply dy_format.
  Qed.

  Lemma dy_add k m n x y : dyk k -> Z.abs (m + n) <= 2 ^ prec ->
    dy k m x -> dy k n y -> dy k (m + n) (fadd x y).
  Proof.
    intros Hk Hs [Fx Rx] [Fy Ry]. unfold fadd.
    pose proof (Bplus_correct prec emax _ _ mode_NE x y Fx Fy) as C.
    rewrite Rx, Ry in C.
    rewrite <- Rmult_plus_distr_r, <- plus_IZR in C.
    rewrite (dy_round k (m + n) Hk Hs) in C.
    rewrite Rlt_bool_true in C by (apply dy_small; [apply Hk|exact Hs]).
    destruct C as (C1 & C2 & _). split; assumption.
  Qed.

  Lemma dy_sub k m n x y : dyk k -> Z.abs (m - n) <= 2 ^ prec ->
    dy k m x -> dy k n y -> dy k (m - n) (fsub x y).
  Proof.
    intros Hk Hs [Fx Rx] [Fy Ry]. unfold fsub.
    pose proof (Bminus_correct prec emax _ _ mode_NE x y Fx Fy) as C.
    rewrite Rx, Ry in C.
    rewrite <- Rmult_minus_distr_r, <- minus_IZR in C.
    rewrite (dy_round k (m - n) Hk Hs) in C.
    rewrite Rlt_bool_true in C by (apply dy_small; [apply Hk|exact Hs]).
    destruct C as (C1 & C2 & _). split; assumption.
  Qed.

  Lemma dy_mul k1 k2 m n x y : dyk (k1 + k2) -> Z.abs (m * n) <= 2 ^ prec ->
    dy k1 m x -> dy k2 n y -> dy (k1 + k2) (m * n) (fmul x y).
  Proof.
    intros Hk Hs [Fx Rx] [Fy Ry]. unfold fmul.
    pose proof (Bmult_correct prec emax _ _ mode_NE x y) as C.
    rewrite Rx, Ry in C.
    replace (IZR m * bpow radix2 k1 * (IZR n * bpow radix2 k2))%R
      with (IZR (m * n) * bpow radix2 (k1 + k2))%R in C
      by (rewrite mult_IZR, bpow_plus; ring).
    rewrite (dy_round _ (m * n) Hk Hs) in C.
    rewrite Rlt_bool_true in C by (apply dy_small; [apply Hk|exact Hs]).
    destruct C as (C1 & C2 & _). split; [rewrite C2, Fx, Fy; reflexivity|assumption].
  Qed.

  (** exact quotients *)
  Lemma dy_div k k1 k2 m n q x y : dyk k -> Z.abs q <= 2 ^ prec -> n <> 0 ->
    (IZR m * bpow radix2 k1 = IZR q * bpow radix2 k * (IZR n * bpow radix2 k2))%R ->
    dy k1 m x -> dy k2 n y -> dy k q (fdiv x y).
  Proof.
    intros Hk Hs Hn Hq [Fx Rx] [Fy Ry]. unfold fdiv.
    assert (NZ : (IZR n * bpow radix2 k2 <> 0)%R).
    { apply Rmult_integral_contrapositive_currified.
      - apply not_0_IZR. exact Hn.
      - apply Rgt_not_eq, bpow_gt_0. }
    pose proof (Bdiv_correct prec emax _ _ mode_NE x y) as C.
    rewrite Rx, Ry in C. specialize (C NZ).
    replace (IZR m * bpow radix2 k1 / (IZR n * bpow radix2 k2))%R
      with (IZR q * bpow radix2 k)%R in C
      by (rewrite Hq; field; split;
          [apply Rgt_not_eq, bpow_gt_0|apply not_0_IZR; exact Hn]).
    rewrite (dy_round _ q Hk Hs) in C.
    rewrite Rlt_bool_true in C by (apply dy_small; [apply Hk|exact Hs]).
    destruct C as (C1 & C2 & _). split; [rewrite C2; exact Fx|assumption].
  Qed.

  Lemma dy_dyadic k m : dyk k -> Z.abs m <= 2 ^ prec -> dy k m (of_dyadic m k).
  Proof.
    intros Hk Hs. unfold of_dyadic.
    pose proof (binary_normalize_correct prec emax _ _ mode_NE m k false) as C.
    cbv zeta in C. unfold F2R in C; cbn [Fnum Fexp] in C.
    rewrite (dy_round _ m Hk Hs) in C.
    rewrite Rlt_bool_true in C by (apply dy_small; [apply Hk|exact Hs]).
    destruct C as (C1 & C2 & _). split; assumption.
  Qed.

  Lemma dy_int m : dyk 0 -> Z.abs m <= 2 ^ prec -> dy 0 m (of_int m).
  Proof. apply dy_dyadic. Qed.

  Lemma dy_neg k m x : dy k m x -> dy k (- m) (fneg x).
  Proof.
    intros [Fx Rx]. unfold fneg. split.
    - rewrite is_finite_Bopp. exact Fx.
    - rewrite B2R_Bopp, Rx, opp_IZR. ring.
  Qed.
  Lemma dy_abs k m x : dy k m x -> dy k (Z.abs m) (fabs x).
  Proof.
    intros [Fx Rx]. unfold fabs. split.
    - rewrite is_finite_Babs. exact Fx.
    - rewrite B2R_Babs, Rx, Rabs_mult, (Rabs_pos_eq (bpow _ _)), abs_IZR by apply bpow_ge_0.
      reflexivity.
  Qed.

  Lemma dy_scale k j m x : 0 <= j -> dy k m x -> dy (k - j) (m * 2 ^ j) x.
  Proof.
    intros Hj [Fx Rx]. split; [exact Fx|].
    rewrite Rx, mult_IZR. replace (2 ^ j) with (radix2 ^ j) by reflexivity.
    rewrite IZR_Zpower by exact Hj.
    rewrite Rmult_assoc, <- bpow_plus. f_equal. f_equal. lia.
  Qed.

  Lemma bpow_pos k : (0 < bpow radix2 k)%R.
  Proof. apply bpow_gt_0. Qed.

  Lemma dy_lt k m n x y : dy k m x -> dy k n y -> flt x y = (m <? n).
  Proof.
    intros [Fx Rx] [Fy Ry]. unfold flt.
    rewrite (Bltb_correct _ _ x y Fx Fy), Rx, Ry.
    pose proof (bpow_pos k).
    destruct (Z.ltb_spec m n) as [L|L].
    - apply Rlt_bool_true. apply Rmult_lt_compat_r; [assumption|now apply IZR_lt].
    - apply Rlt_bool_false. apply Rmult_le_compat_r; [lra|now apply IZR_le].
  Qed.
  Lemma dy_le k m n x y : dy k m x -> dy k n y -> fle x y = (m <=? n).
  Proof.
    intros [Fx Rx] [Fy Ry]. unfold fle.
    rewrite (Bleb_correct _ _ x y Fx Fy), Rx, Ry.
    pose proof (bpow_pos k).
    destruct (Z.leb_spec m n) as [L|L].
    - apply Rle_bool_true. apply Rmult_le_compat_r; [lra|now apply IZR_le].
    - apply Rle_bool_false. apply Rmult_lt_compat_r; [assumption|now apply IZR_lt].
  Qed.
  Lemma dy_eq k m n x y : dy k m x -> dy k n y -> feq x y = (m =? n).
  Proof.
    intros [Fx Rx] [Fy Ry]. unfold feq.
    rewrite (Beqb_correct _ _ x y Fx Fy), Rx, Ry.
    pose proof (bpow_pos k).
    destruct (Z.eqb_spec m n) as [L|L].
    - subst. apply Req_bool_true. reflexivity.
    - apply Req_bool_false. intros E. apply Rmult_eq_reg_r in E; [|lra].
      apply eq_IZR in E. contradiction.
  Qed.

  Lemma dy_trunc m x : dy 0 m x -> Btrunc x = m.
  Proof.
    intros [Fx Rx]. apply eq_IZR. rewrite Btrunc_correct by exact Hm.
    rewrite Rx. change (bpow radix2 0) with 1%R. rewrite Rmult_1_r.
    apply round_generic; [apply valid_rnd_ZR|].
    apply generic_format_FIX. exists (Defs.Float radix2 m 0); [|reflexivity].
    unfold F2R; cbn. ring.
  Qed.

  Lemma dy_to_int lo hi m x : dy 0 m x -> to_int lo hi x = zclamp lo hi m.
  Proof.
    intros D. pose proof (dy_trunc m x D) as T. destruct D as [Fx _].
    destruct x; cbn [is_finite] in Fx; try discriminate; unfold to_int; now rewrite T.
  Qed.

  (** General truncation: the integer part. *)
  Lemma trunc_R (x : F) : Btrunc x = Ztrunc (B2R x).
  Proof.
    apply eq_IZR. rewrite Btrunc_correct by exact Hm.
    unfold round, F2R, scaled_mantissa, cexp, FIX_exp. cbn [Fnum Fexp].
    change (- 0) with 0. change (bpow radix2 0) with 1%R. rewrite !Rmult_1_r. reflexivity.
  Qed.

  Lemma to_int_R lo hi (x : F) : is_finite x = true -> to_int lo hi x = zclamp lo hi (Ztrunc (B2R x)).
  Proof.
    intros Fx. rewrite <- trunc_R. now destruct x.
  Qed.
End FP.
Arguments dy {prec emax}.
