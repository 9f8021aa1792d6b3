(** Proofs about orientation histograms: angles and positions of bins. *)
From Flocq Require Import Core BinarySingleNaN.
From Coq Require Import Reals Lra Psatz.
From Verif Require Import Base BaseProofs Float FloatProofs FloatErr TemplateProofs WuProofs WarpProofs HogModel HogCellsModel HogCellsSpec.
Local Ltac Zify.zify_post_hook ::= idtac.
Local Open Scope R_scope.
Local Notation rn := (rnd 24 128).

(** ** PI *)
Definition P32 : R := 13176795 / 4194304.
Lemma pi_bounds : P32 - / 4194304 <= PI <= P32 + / 4194304.
Proof.
  pose proof (PI_2_3_7_ineq 4) as (A & B). unfold PI_2_3_7_tg, tg_alt, Ratan_seq in A, B. cbn [sum_f_R0 Nat.mul Nat.add] in A, B.
  cbn [pow] in A, B. rewrite !S_INR in A, B. cbn [INR] in A, B. unfold P32.
  split; lra.
Qed.

(** ** the angle of an integer vector *)
Lemma atan_lower x : 0 < x <= 1 -> x / 2 <= atan x.
Proof.
  intros Hx. assert (A : 0 < atan x) by (rewrite <- atan_0; apply atan_increasing; lra).
  pose proof (sin_lt_x _ A) as S. rewrite sin_atan in S.
  assert (Q : 0 < sqrt (1 + x²) <= 2).
  { split; [apply sqrt_lt_R0; unfold Rsqr; nra|]. replace 2 with (sqrt (2 * 2)) by (apply sqrt_square; lra).
    apply sqrt_le_1_alt. unfold Rsqr. nra. }
  apply Rlt_le in S. eapply Rle_trans; [|exact S]. unfold Rdiv. apply Rmult_le_compat_l; [lra|]. apply Rinv_le; lra.
Qed.
Lemma atan_slope a b : (0 < a <= 1020)%Z -> (0 < b <= 1020)%Z -> / 2040 <= atan (IZR a / IZR b) < PI / 2.
Proof.
  intros Ha Hb. split; [|apply atan_bound]. assert (L : / 1020 <= IZR a / IZR b).
  { assert (1 <= IZR a) by (apply IZR_le; lia). assert (1 <= IZR b <= 1020) by (split; apply IZR_le; lia).
    apply Rle_trans with (1 * / IZR b); [rewrite Rmult_1_l; apply Rinv_le; lra|]. unfold Rdiv. apply Rmult_le_compat_r; [|lra].
    apply Rlt_le, Rinv_0_lt_compat. lra. }
  pose proof (atan_lower (/ 1020) ltac:(lra)) as A. destruct L as [L|L].
  - apply atan_increasing in L. lra.
  - rewrite <- L. lra.
Qed.
Lemma angle_up h v : (Z.abs h <= 1020)%Z -> (0 < v <= 1020)%Z -> / 2040 <= angle h v <= PI - / 2040.
Proof.
  intros Hh Hv. pose proof pi_bounds as P. unfold P32 in P. unfold angle.
  destruct (Z.ltb_spec 0 h); [|destruct (Z.ltb_spec h 0)].
  - pose proof (atan_slope v h ltac:(lia) ltac:(lia)). lra.
  - rewrite (proj2 (Z.leb_le 0 v)) by lia. pose proof (atan_slope v (- h) ltac:(lia) ltac:(lia)) as A.
    replace (IZR v / IZR h) with (- (IZR v / IZR (- h))).
    + rewrite atan_opp. lra.
    + rewrite opp_IZR. field. apply not_0_IZR. lia.
  - rewrite (proj2 (Z.ltb_lt 0 v)) by lia. lra.
Qed.
Lemma angle_down h v : (Z.abs h <= 1020)%Z -> (- 1020 <= v < 0)%Z -> - PI + / 2040 <= angle h v <= - / 2040.
Proof.
  intros Hh Hv. pose proof pi_bounds as P. unfold P32 in P. unfold angle.
  destruct (Z.ltb_spec 0 h); [|destruct (Z.ltb_spec h 0)].
  - pose proof (atan_slope (- v) h ltac:(lia) ltac:(lia)) as A. replace (IZR v / IZR h) with (- (IZR (- v) / IZR h)).
    + rewrite atan_opp. lra.
    + rewrite opp_IZR. field. apply not_0_IZR. lia.
  - rewrite (proj2 (Z.leb_gt 0 v)) by lia. pose proof (atan_slope (- v) (- h) ltac:(lia) ltac:(lia)) as A.
    replace (IZR v / IZR h) with (IZR (- v) / IZR (- h)).
    + lra.
    + rewrite !opp_IZR. field. apply not_0_IZR. lia.
  - rewrite (proj2 (Z.ltb_ge 0 v)) by lia. rewrite (proj2 (Z.ltb_lt v 0)) by lia. lra.
Qed.
Lemma angle_axis h : angle h 0 = if (h <? 0)%Z then PI else 0.
Proof.
  unfold angle. destruct (Z.ltb_spec 0 h).
  - rewrite (proj2 (Z.ltb_ge h 0)) by lia. unfold Rdiv. rewrite Rmult_0_l. apply atan_0.
  - destruct (Z.ltb_spec h 0); [|reflexivity]. change (0 <=? 0)%Z with true. cbv iota. unfold Rdiv. rewrite Rmult_0_l, atan_0. ring.
Qed.

(** ** constants *)
Lemma pi32_R : is_finite pi32 = true /\ B2R pi32 = P32.
Proof.
  split; [vm_compute; reflexivity|].
  assert (D : dy (-22)%Z 13176795%Z pi32) by (apply (dy_dyadic 24 128); [unfold dyk; lia|cbn; lia]).
  destruct D as (_ & R). rewrite R. unfold P32. change (bpow radix2 (-22)) with (/ 4194304). reflexivity.
Qed.
Lemma range_R o : is_finite (direction_range o) = true /\ B2R (direction_range o) = if signed o then 2 * P32 else P32.
Proof.
  unfold direction_range. destruct (signed o); [|exact pi32_R].
  destruct pi32_R as (F & R). destruct (int32_R 2) as (F2 & R2); [lia|].
  destruct (fmul_R 24 128 (of_int 2) pi32 F2 F) as (Fm & Rm).
  { rewrite R, R2. unfold P32. rewrite Rabs_pos_eq by lra. pose proof f32_big. lra. }
  split; [exact Fm|]. rewrite Rm, R, R2.
  assert (D : dy (-21)%Z 13176795%Z (of_dyadic 13176795 (-21) : f32)) by (apply (dy_dyadic 24 128); [unfold dyk; lia|cbn; lia]).
  destruct D as (_ & RD). replace (2 * P32) with (B2R (of_dyadic 13176795 (-21) : f32)); [apply rnd_idF|].
  rewrite RD. unfold P32. change (bpow radix2 (-21)) with (/ 2097152). lra.
Qed.

Lemma flt0_R (d : f32) : is_finite d = true -> flt d (of_int 0) = Rlt_bool (B2R d) 0.
Proof. intros F. destruct (int32_R 0) as (F0 & R0); [lia|]. rewrite flt32_R by assumption. rewrite R0. reflexivity. Qed.
Lemma small_int z : (Z.abs z <= 2 ^ 24)%Z -> is_finite (of_int z : f32) = true /\ B2R (of_int z : f32) = IZR z.
Proof.
  intros H. destruct (of_int_R 24 128 z) as (F & R).
  - rewrite <- abs_IZR. assert (IZR (Z.abs z) <= IZR (2 ^ 24)) by (apply IZR_le; lia). pose proof f32_big. change (IZR (2 ^ 24)) with 16777216 in *. lra.
  - split; [exact F|]. rewrite R. apply (rnd_int 24 128). exact H.
Qed.

(** ** the direction *)
Section Direction.
  Context (atan2 : f32 -> f32 -> f32) (HA : atan2_ok atan2) (o : hog_options).
  Definition RG : R := if signed o then 2 * P32 else P32.
  Lemma RG_b : P32 <= RG <= 2 * P32 /\ Rabs (RG - full_range (signed o)) <= / 2097152.
  Proof.
    pose proof pi_bounds as P. unfold RG, full_range, P32 in *. destruct (signed o); (split; [lra|apply Rabs_le; lra]).
  Qed.

  Lemma direction_ok h v : (Z.abs h <= 1020)%Z -> (Z.abs v <= 1020)%Z ->
    let d := gradient_direction atan2 o (of_int h) (of_int v) in
    is_finite d = true /\ 0 <= B2R d <= RG - / 3000 /\ Rabs (B2R d - direction (signed o) h v) <= / 262144.
  Proof.
    intros Hh Hv. cbv zeta. unfold gradient_direction, direction. destruct (HA h v Hh Hv) as (Fd & Ed & Ax).
    cbv zeta in Fd, Ed, Ax. set (d := atan2 (of_int v) (of_int h)) in *. rewrite flt0_R by exact Fd.
    pose proof pi_bounds as P. destruct RG_b as (G1 & G2). destruct (range_R o) as (Fr & Rr). change (if signed o then 2 * P32 else P32) with RG in Rr.
    destruct pi32_R as (Fp & Rp). unfold P32 in *.
    destruct (Z.ltb_spec v 0) as [V|V]; [|destruct (Z.eqb_spec v 0) as [V0|V0]].
    - pose proof (angle_down h v Hh ltac:(lia)) as An. set (a := angle h v) in *.
      rewrite (Rabs_left a) in Ed by lra. apply Rabs_le_inv in Ed. rewrite Rlt_bool_true by lra.
      destruct (fadd_R 24 128 d (direction_range o) Fd Fr) as (Fs & Rs).
      { rewrite Rr. apply Rabs_le. pose proof f32_big. lra. }
      rewrite Rr in Rs. pose proof (f32_err (B2R d + RG)) as Er. rewrite <- Rs in Er. rewrite (Rabs_pos_eq (B2R d + RG)) in Er by lra.
      apply Rabs_le_inv in Er. apply Rabs_le_inv in G2.
      assert (Q : negb (signed o) && fle pi32 (fadd d (direction_range o)) = false).
      { destruct (signed o) eqn:S; [reflexivity|]. cbn [negb andb]. rewrite fle_R by assumption. rewrite Rp. apply Rle_bool_false.
        assert (RGE : RG = 13176795 / 4194304) by (unfold RG, P32; rewrite S; reflexivity). lra. }
      rewrite Q. split; [exact Fs|]. split; [lra|]. apply Rabs_le. lra.
    - subst v. rewrite angle_axis in *. change (0 <? 0)%Z with false. rewrite andb_true_r.
      destruct (Z.ltb_spec h 0) as [H0|H0].
      + specialize (Ax eq_refl H0). rewrite Rlt_bool_false by lra. destruct (signed o) eqn:S; cbn [negb andb].
        * split; [exact Fd|]. assert (RGE : RG = 2 * (13176795 / 4194304)) by (unfold RG, P32; rewrite S; reflexivity).
          split; [lra|]. apply Rabs_le. lra.
        * rewrite fle_R by assumption. rewrite Rp, Ax. rewrite Rle_bool_true by lra.
          destruct (fsub_R 24 128 d pi32 Fd Fp) as (Fs & Rs). { rewrite Ax, Rp, Rminus_diag_eq, Rabs_R0 by reflexivity. pose proof f32_big. lra. }
          rewrite Ax, Rp, Rminus_diag_eq in Rs by reflexivity. rewrite rnd_0 in Rs.
          split; [exact Fs|]. rewrite Rs. split; [lra|]. rewrite Rminus_diag_eq, Rabs_R0 by reflexivity. lra.
      + rewrite andb_false_r. rewrite Rabs_R0, Rmult_0_r in Ed. apply Rabs_le_inv in Ed. assert (D0 : B2R d = 0) by lra.
        rewrite Rlt_bool_false by lra. assert (Q : negb (signed o) && fle pi32 d = false).
        { rewrite fle_R by assumption. rewrite Rle_bool_false by lra. apply andb_false_r. }
        rewrite Q. split; [exact Fd|]. split; [lra|]. rewrite D0, Rminus_0_r, Rabs_R0. lra.
    - rewrite andb_false_r. cbn [andb]. pose proof (angle_up h v Hh ltac:(lia)) as An. set (a := angle h v) in *.
      rewrite (Rabs_pos_eq a) in Ed by lra. apply Rabs_le_inv in Ed. rewrite Rlt_bool_false by lra.
      assert (Q : negb (signed o) && fle pi32 d = false).
      { rewrite fle_R by assumption. rewrite Rle_bool_false by lra. apply andb_false_r. }
      rewrite Q. split; [exact Fd|]. split; [lra|]. apply Rabs_le. lra.
  Qed.

  (** the position among the bins *)
  Lemma bin_position h v : (Z.abs h <= 1020)%Z -> (Z.abs v <= 1020)%Z -> (1 <= orientations o <= 4096)%Z ->
    let p := fdiv (gradient_direction atan2 o (of_int h) (of_int v)) (orientation_bin_width o) in
    let n := IZR (orientations o) in
    is_finite p = true /\ 0 <= B2R p < n /\ Rabs (B2R p - n * direction (signed o) h v / full_range (signed o)) <= n / 262144.
  Proof.
    intros Hh Hv Hn. cbv zeta. destruct (direction_ok h v Hh Hv) as (Fd & Bd & Ed). cbv zeta in Fd, Bd, Ed.
    set (d := gradient_direction atan2 o (of_int h) (of_int v)) in *. set (t := direction (signed o) h v) in *.
    destruct (range_R o) as (Fr & Rr). change (if signed o then 2 * P32 else P32) with RG in Rr.
    destruct RG_b as (G1 & G2). pose proof pi_bounds as PB. unfold P32 in *.
    assert (FR : 3 <= full_range (signed o) <= 7) by (unfold full_range; destruct (signed o); lra).
    set (fr := full_range (signed o)) in *. set (n := orientations o) in *.
    assert (N : 1 <= IZR n <= 4096) by (split; apply IZR_le; apply Hn).
    destruct (small_int n) as (Fn & Rn); [clear - Hn; lia|].
    assert (Ni : 0 < / IZR n <= 1). { split; [apply Rinv_0_lt_compat; lra|]. rewrite <- Rinv_1. apply Rinv_le; lra. }
    assert (NI : IZR n * / IZR n = 1) by (apply Rinv_r; lra).
    destruct (fdiv_R 24 128 (direction_range o) (of_int n) Fr) as (Fi & Ri); [rewrite Rn; lra| |].
    { rewrite Rr, Rn. unfold Rdiv. assert (RN : 0 <= RG * / IZR n <= 7) by (clear - G1 Ni; nra). rewrite Rabs_pos_eq by lra. pose proof f32_big. lra. }
    change (fdiv (direction_range o) (of_int n)) with (orientation_bin_width o) in Fi, Ri. rewrite Rr, Rn in Ri.
    set (w := B2R (orientation_bin_width o)) in *.
    assert (Ew : exists e, Rabs e <= / 16000000 /\ w = RG * / IZR n * (1 + e)).
    { pose proof (f32_err (RG / IZR n)) as E. rewrite <- Ri in E. rewrite (Rabs_pos_eq (RG / IZR n)) in E by (unfold Rdiv; clear - G1 Ni; nra).
      assert (K : / 4096 <= / IZR n) by (apply Rinv_le; lra).
      assert (R0 : 0 < RG / IZR n) by (unfold Rdiv; nra).
      exists ((w - RG / IZR n) / (RG / IZR n)). split.
      - unfold Rdiv at 1. rewrite Rabs_mult, (Rabs_pos_eq (/ (RG / IZR n))) by (apply Rlt_le, Rinv_0_lt_compat; exact R0).
        apply Rmult_le_reg_r with (RG / IZR n); [exact R0|]. rewrite Rmult_assoc, Rinv_l, Rmult_1_r by lra.
        assert (3 * / 4096 <= RG / IZR n) by (unfold Rdiv; nra). lra.
      - field. split; lra. }
    destruct Ew as (e & He & Ew).
    assert (W0 : 0 < w). { rewrite Ew. apply Rabs_le_inv in He. apply Rmult_lt_0_compat; [nra|lra]. }
    assert (Q : B2R d / w = IZR n * (B2R d / RG) * / (1 + e)).
    { rewrite Ew. apply Rabs_le_inv in He. field. repeat split; lra. }
    assert (Qe : Rabs (/ (1 + e) - 1) <= / 15000000).
    { apply Rabs_le_inv in He. replace (/ (1 + e) - 1) with (- e * / (1 + e)) by (field; lra).
      assert (0 < / (1 + e) <= 8000001 / 8000000).
      { split; [apply Rinv_0_lt_compat; lra|]. apply Rmult_le_reg_r with (1 + e); [lra|]. rewrite Rinv_l by lra. lra. }
      apply Rabs_le. nra. }
    set (u := / (1 + e)) in *. apply Rabs_le_inv in Qe.
    assert (X : 0 <= B2R d / RG <= 1 - / 20000).
    { assert (0 < / RG) by (apply Rinv_0_lt_compat; lra). split; [unfold Rdiv; apply Rmult_le_pos; lra|].
      apply Rmult_le_reg_r with RG; [lra|]. unfold Rdiv. rewrite Rmult_assoc, Rinv_l, Rmult_1_r by lra. lra. }
    set (xr := B2R d / RG) in *.
    assert (B : 0 <= B2R d / w <= IZR n * (1 - / 30000)).
    { rewrite Q. split; [apply Rmult_le_pos; [apply Rmult_le_pos; lra|lra]|]. rewrite Rmult_assoc. apply Rmult_le_compat_l; [lra|]. nra. }
    destruct (fdiv_R 24 128 d (orientation_bin_width o) Fd) as (Fq & Rq). { fold w. lra. }
    { fold w. rewrite Rabs_pos_eq by lra. pose proof f32_big. lra. }
    fold w in Rq. pose proof (f32_err (B2R d / w)) as Er. rewrite <- Rq in Er. rewrite (Rabs_pos_eq (B2R d / w)) in Er by lra.
    split; [exact Fq|]. split.
    - split; [rewrite Rq, <- (rnd_0 24 128); apply (rnd_le 24 128), B|]. apply Rabs_le_inv in Er. lra.
    - replace (IZR n * t / fr) with (IZR n * (t / fr)) by (unfold Rdiv; ring).
      assert (T : Rabs (xr - t / fr) <= / 690000).
      { unfold xr. assert (0 < / fr <= / 3) by (split; [apply Rinv_0_lt_compat; lra|apply Rinv_le; lra]).
        assert (0 < / RG <= / 3) by (split; [apply Rinv_0_lt_compat; lra|apply Rinv_le; lra]).
        replace (B2R d / RG - t / fr) with ((B2R d - t) * / fr - B2R d / RG * (RG - fr) * / fr) by (field; lra). fold xr.
        assert (P1 : Rabs ((B2R d - t) * / fr) <= / 262144 * / 3).
        { rewrite Rabs_mult, (Rabs_pos_eq (/ fr)) by lra. apply Rmult_le_compat; [apply Rabs_pos|lra|exact Ed|lra]. }
        assert (P2 : Rabs (xr * (RG - fr) * / fr) <= 1 * / 2097152 * / 3).
        { rewrite !Rabs_mult, (Rabs_pos_eq (/ fr)), (Rabs_pos_eq xr) by lra. apply Rmult_le_compat; [apply Rmult_le_pos; [lra|apply Rabs_pos]|lra| |lra].
          apply Rmult_le_compat; [lra|apply Rabs_pos|lra|exact G2]. }
        apply Rabs_le_inv in P1. apply Rabs_le_inv in P2. apply Rabs_le. lra. }
      replace (B2R (fdiv d (orientation_bin_width o)) - IZR n * (t / fr))
        with ((B2R (fdiv d (orientation_bin_width o)) - B2R d / w) + IZR n * (xr * (u - 1)) + IZR n * (xr - t / fr)) by (rewrite Q; ring).
      apply Rabs_le_inv in Er. apply Rabs_le_inv in T. apply Rabs_le.
      assert (- / 15000000 <= xr * (u - 1) <= / 15000000) by nra. nra.
  Qed.
End Direction.
