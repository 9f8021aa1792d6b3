From Flocq Require Import Core BinarySingleNaN.
From Coq Require Import Reals Lra Permutation.
From Verif Require Import Base BaseProofs CornerModel CornerSpec CornerProofs Float FloatProofs FloatErr SuppressProofs WuProofs OfastModel OfastSpec OfastProofs.
Local Ltac Zify.zify_post_hook ::= idtac.

Lemma insert_asc_perm a l : Permutation (insert_asc a l) (a :: l).
Proof.
  induction l as [|b l IH]; cbn [insert_asc]; [reflexivity|]. destruct (a <=? b); [reflexivity|].
  rewrite IH. apply perm_swap.
Qed.
Lemma sort_asc_perm l : Permutation (sort_asc l) l.
Proof. induction l as [|a l IH]; cbn; [reflexivity|]. rewrite insert_asc_perm. now rewrite IH. Qed.

(** * The index of the sampled threshold *)
Definition fraction_idx (target n : Z) : Z :=
  to_int 0 (2 ^ 64 - 1) (fmul (of_int 1000 : f32) (fsub (of_int 1) (fdiv (of_int target) (of_int n)))).

Open Scope R_scope.
Lemma rnd_dy (m e : Z) : (-149 <= e)%Z -> (Z.abs m <= 2 ^ 24)%Z -> rnd 24 128 (IZR m * bpow radix2 e) = IZR m * bpow radix2 e.
Proof. intros He H. apply (rnd_id 24 128). apply (dy_format 24 128); assumption. Qed.

Lemma big32 r : Rabs r <= IZR (2 ^ 80) -> Rabs r <= bpow radix2 (128 - 1).
Proof. intros H. eapply Rle_trans; [exact H|]. rewrite <- (IZR_Zpower radix2) by lia. apply IZR_le. vm_compute. congruence. Qed.

Lemma ratio_R n N : (0 <= n < 2 ^ 64)%Z -> (1 <= N < 2 ^ 32)%Z ->
  exists a b, is_finite (fdiv (of_int n : f32) (of_int N)) = true /\
    B2R (fdiv (of_int n : f32) (of_int N)) = rnd 24 128 (a / b) /\ a = rnd 24 128 (IZR n) /\ b = rnd 24 128 (IZR N) /\
    0 <= a <= IZR (2 ^ 64) /\ 1 <= b.
Proof.
  intros Hn HN.
  assert (A : 0 <= rnd 24 128 (IZR n) <= IZR (2 ^ 64)).
  { split.
    - rewrite <- (rnd_0 24 128). apply (rnd_le 24 128). apply IZR_le. lia.
    - replace (IZR (2 ^ 64)) with (rnd 24 128 (IZR (2 ^ 64))). { apply (rnd_le 24 128). apply IZR_le. lia. }
      change (IZR (2 ^ 64)) with (bpow radix2 64). replace (bpow radix2 64) with (IZR 1 * bpow radix2 64) by ring. apply rnd_dy; [lia|vm_compute; congruence]. }
  assert (B : 1 <= rnd 24 128 (IZR N)).
  { rewrite <- (rnd_int 24 128 1) by (vm_compute; congruence). apply (rnd_le 24 128). apply IZR_le. lia. }
  destruct (of_int_R 24 128 n) as (Fn & Rn). { apply big32. rewrite Rabs_pos_eq by (apply IZR_le; lia). apply IZR_le. lia. }
  destruct (of_int_R 24 128 N) as (FN & RN). { apply big32. rewrite Rabs_pos_eq by (apply IZR_le; lia). apply IZR_le. lia. }
  destruct (fdiv_R 24 128 (of_int n) (of_int N) Fn) as (F & R).
  { rewrite RN. lra. }
  { rewrite Rn, RN. apply big32. rewrite Rabs_pos_eq by (apply Rmult_le_pos; [lra|left; apply Rinv_0_lt_compat; lra]).
    apply Rle_trans with (IZR (2 ^ 64)); [|apply IZR_le; lia]. apply Rle_trans with (rnd 24 128 (IZR n)); [|lra].
    apply Rmult_le_reg_r with (rnd 24 128 (IZR N)); [lra|]. unfold Rdiv. rewrite Rmult_assoc, Rinv_l by lra.
    rewrite <- (Rmult_1_r (rnd 24 128 (IZR n))) at 1. rewrite !Rmult_1_r. rewrite <- (Rmult_1_r (rnd 24 128 (IZR n))) at 1. apply Rmult_le_compat_l; lra. }
  exists (rnd 24 128 (IZR n)), (rnd 24 128 (IZR N)). rewrite R, Rn, RN. split; [exact F|]. split; [reflexivity|]. split; [reflexivity|]. split; [reflexivity|]. split; [exact A|exact B].
Qed.

Lemma idx_value n N : (0 <= n < 2 ^ 64)%Z -> (1 <= N < 2 ^ 32)%Z ->
  exists f, B2R (fdiv (of_int n : f32) (of_int N)) = f /\ 0 <= f <= IZR (2 ^ 64) /\
    f = rnd 24 128 (rnd 24 128 (IZR n) / rnd 24 128 (IZR N)) /\
    fraction_idx n N = zclamp 0 (2 ^ 64 - 1) (Ztrunc (rnd 24 128 (1000 * rnd 24 128 (1 - f)))).
Proof.
  intros Hn HN. destruct (ratio_R n N Hn HN) as (a & b & Ff & Rf & Ea & Eb & Ba & Bb).
  set (f := B2R (fdiv (of_int n : f32) (of_int N))) in *. exists f. split; [reflexivity|].
  assert (Bq : 0 <= a / b <= IZR (2 ^ 64)).
  { split; [apply Rmult_le_pos; [lra|left; apply Rinv_0_lt_compat; lra]|].
    apply Rmult_le_reg_r with b; [lra|]. unfold Rdiv. rewrite Rmult_assoc, Rinv_l, Rmult_1_r by lra. nra. }
  assert (Bf : 0 <= f <= IZR (2 ^ 64)).
  { rewrite Rf. split; [rewrite <- (rnd_0 24 128)|replace (IZR (2 ^ 64)) with (rnd 24 128 (IZR (2 ^ 64)))]; [apply (rnd_le 24 128); lra|apply (rnd_le 24 128); lra|].
    change (IZR (2 ^ 64)) with (bpow radix2 64). replace (bpow radix2 64) with (IZR 1 * bpow radix2 64) by ring. apply rnd_dy; [lia|vm_compute; congruence]. }
  split; [exact Bf|]. split; [rewrite Rf, Ea, Eb; reflexivity|]. unfold fraction_idx.
  destruct (int32_R 1) as (F1 & R1); [lia|]. destruct (int32_R 1000) as (F2 & R2); [lia|].
  assert (P64 : IZR (2 ^ 64) = 18446744073709551616) by reflexivity. assert (P80 : IZR (2 ^ 80) = 1208925819614629174706176) by reflexivity.
  assert (P66 : IZR (2 ^ 66) = 73786976294838206464) by reflexivity.
  destruct (fsub_R 24 128 (of_int 1) (fdiv (of_int n) (of_int N)) F1 Ff) as (Fs & Rs).
  { fold f. rewrite R1. apply big32. apply Rabs_le. rewrite P80. rewrite P64 in Bf. lra. }
  fold f in Rs. rewrite R1 in Rs.
  assert (Bs : - IZR (2 ^ 66) <= rnd 24 128 (1 - f) <= 1).
  { split.
    - replace (- IZR (2 ^ 66)) with (rnd 24 128 (- IZR (2 ^ 66))). { apply (rnd_le 24 128). rewrite P66. rewrite P64 in Bf. lra. }
      replace (- IZR (2 ^ 66)) with (IZR (-1) * bpow radix2 66) by (change (bpow radix2 66) with (IZR (2 ^ 66)); ring). apply rnd_dy; [lia|vm_compute; congruence].
    - apply Rle_trans with (rnd 24 128 (IZR 1)); [apply (rnd_le 24 128); lra|]. rewrite (rnd_int 24 128 1) by (vm_compute; congruence). lra. }
  destruct (fmul_R 24 128 (of_int 1000) (fsub (of_int 1) (fdiv (of_int n) (of_int N))) F2 Fs) as (Fm & Rm).
  { rewrite R2, Rs. apply big32. apply Rabs_le. rewrite P80. rewrite P66 in Bs. lra. }
  rewrite (to_int_R 24 128) by exact Fm. rewrite Rm, R2, Rs. reflexivity.
Qed.

Lemma Ztrunc_upper r k : (0 < k)%Z -> r < IZR k -> (Ztrunc r < k)%Z.
Proof.
  intros Hk H. destruct (Rle_dec 0 r) as [P|P].
  - rewrite Ztrunc_floor by exact P. apply lt_IZR. eapply Rle_lt_trans; [apply Zfloor_lb|exact H].
  - rewrite Ztrunc_ceil by lra. assert (Zceil r <= 0)%Z by (apply Zceil_glb; lra). lia.
Qed.

Lemma idx_small n N : (1 <= n < 2 ^ 64)%Z -> (1 <= N < 2 ^ 32)%Z -> (N <= 2 ^ 22 * n)%Z -> (0 <= fraction_idx n N <= 999)%Z.
Proof.
  intros Hn HN H. destruct (idx_value n N) as (f & _ & Bf & Ef & ->); [lia|lia|].
  assert (Lf : / 8388608 <= f).
  { rewrite Ef. replace (/ 8388608) with (rnd 24 128 (/ 8388608)).
    2: { replace (/ 8388608) with (IZR 1 * bpow radix2 (-23)) by (cbn; lra). apply rnd_dy; [lia|vm_compute; congruence]. }
    apply (rnd_le 24 128). pose proof (f32_err (IZR n)) as En. pose proof (f32_err (IZR N)) as EN.
    assert (Pn : 1 <= IZR n) by (apply IZR_le; lia). assert (PN : 1 <= IZR N) by (apply IZR_le; lia).
    rewrite (Rabs_pos_eq (IZR n)) in En by lra. rewrite (Rabs_pos_eq (IZR N)) in EN by lra. apply Rabs_le_inv in En. apply Rabs_le_inv in EN.
    assert (PNn : IZR N <= 4194304 * IZR n) by (rewrite <- mult_IZR; apply IZR_le; lia).
    assert (B1 : 0 < rnd 24 128 (IZR N)) by lra.
    apply Rmult_le_reg_r with (rnd 24 128 (IZR N)); [exact B1|]. unfold Rdiv. rewrite Rmult_assoc, Rinv_l, Rmult_1_r by lra. lra. }
  assert (L1 : rnd 24 128 (1 - f) <= 1 - / 8388608).
  { replace (1 - / 8388608) with (rnd 24 128 (1 - / 8388608)). { apply (rnd_le 24 128). lra. }
    replace (1 - / 8388608) with (IZR 8388607 * bpow radix2 (-23)) by (cbn; lra). apply rnd_dy; [lia|vm_compute; congruence]. }
  assert (L2 : rnd 24 128 (1000 * rnd 24 128 (1 - f)) <= 1000 - / 16384).
  { replace (1000 - / 16384) with (rnd 24 128 (1000 - / 16384)). { apply (rnd_le 24 128). lra. }
    replace (1000 - / 16384) with (IZR 16383999 * bpow radix2 (-14)) by (cbn; lra). apply rnd_dy; [lia|vm_compute; congruence]. }
  assert (L3 : rnd 24 128 (1000 * rnd 24 128 (1 - f)) < IZR 1000) by lra. pose proof (Ztrunc_upper _ 1000 ltac:(lia) L3) as T.
  unfold zclamp. lia.
Qed.

Lemma idx_large n N k : (0 <= n < 2 ^ 64)%Z -> (1 <= N < 2 ^ 32)%Z -> (0 <= k <= 1000)%Z ->
  1000 * rnd 24 128 (1 - B2R (fdiv (of_int n : f32) (of_int N))) >= IZR k -> (k <= fraction_idx n N)%Z.
Proof.
  intros Hn HN Hk H. destruct (idx_value n N) as (f & E & Bf & Ef & ->); [lia|lia|]. rewrite E in H.
  assert (L : IZR k <= rnd 24 128 (1000 * rnd 24 128 (1 - f))).
  { rewrite <- (rnd_int 24 128 k) by (change (2 ^ 24)%Z with 16777216%Z; lia). apply (rnd_le 24 128). lra. }
  assert (k <= Ztrunc (rnd 24 128 (1000 * rnd 24 128 (1 - f))))%Z.
  { rewrite <- (Ztrunc_IZR k). apply Ztrunc_le. exact L. }
  unfold zclamp. change (2 ^ 64 - 1)%Z with 18446744073709551615%Z. lia.
Qed.

Lemma idx_zero N : (1 <= N < 2 ^ 32)%Z -> (1000 <= fraction_idx 0 N)%Z.
Proof.
  intros HN. destruct (idx_value 0 N) as (f & E & Bf & Ef & _); [lia|lia|]. apply idx_large; [lia|lia|lia|]. rewrite E.
  assert (f = 0). { rewrite Ef. rewrite (rnd_int 24 128 0) by (vm_compute; congruence). unfold Rdiv. rewrite Rmult_0_l. apply (rnd_0 24 128). }
  subst f. rewrite H. rewrite Rminus_0_r. rewrite (rnd_int 24 128 1) by (vm_compute; congruence). lra.
Qed.
Lemma idx_half n N : (0 <= n)%Z -> (2 * n <= N)%Z -> (1 <= N <= 1000)%Z -> (500 <= fraction_idx n N)%Z.
Proof.
  intros Hn H HN. destruct (idx_value n N) as (f & E & Bf & Ef & _); [lia|lia|]. apply idx_large; [lia|lia|lia|]. rewrite E.
  assert (f <= / 2).
  { rewrite Ef. rewrite !(rnd_int 24 128) by (change (2 ^ 24)%Z with 16777216%Z; lia).
    replace (/ 2) with (rnd 24 128 (/ 2)).
    2: { replace (/ 2) with (IZR 1 * bpow radix2 (-1)) by (cbn; lra). apply rnd_dy; [lia|vm_compute; congruence]. }
    apply (rnd_le 24 128). assert (1 <= IZR N) by (apply IZR_le; lia). assert (2 * IZR n <= IZR N) by (rewrite <- mult_IZR; apply IZR_le; lia).
    apply Rmult_le_reg_r with (IZR N); [lra|]. unfold Rdiv. rewrite Rmult_assoc, Rinv_l by lra. lra. }
  assert (/ 2 <= rnd 24 128 (1 - f)).
  { replace (/ 2) with (rnd 24 128 (/ 2)).
    2: { replace (/ 2) with (IZR 1 * bpow radix2 (-1)) by (cbn; lra). apply rnd_dy; [lia|vm_compute; congruence]. }
    apply (rnd_le 24 128). lra. }
  lra.
Qed.
