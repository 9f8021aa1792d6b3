(** Proofs about [detect_lines]: rounding of the distances. *)
From Flocq Require Import Core BinarySingleNaN.
From Coq Require Import Reals Lra Psatz.
From Verif Require Import Base BaseProofs Float FloatProofs FloatErr WuProofs SuppressProofs HoughModel HoughSpec.
Local Ltac Zify.zify_post_hook ::= idtac.
Local Open Scope R_scope.

Lemma trunc_between k s : IZR k <= s < IZR k + 1 -> (0 <= k)%Z -> Ztrunc s = k.
Proof.
  intros H K. apply IZR_le in K. rewrite Ztrunc_floor by lra. apply Zfloor_imp. rewrite plus_IZR. exact H.
Qed.

Lemma rmax_ok w h : (0 <= w)%Z -> (0 <= h)%Z -> (w * w + h * h < 2 ^ 32)%Z ->
  hough_rmax w h = Ok (Z.sqrt (w * w + h * h)).
Proof.
  intros Hw Hh HD. unfold hough_rmax.
  assert (Pw : (0 <= w * w)%Z) by nia. assert (Ph : (0 <= h * h)%Z) by nia.
  rewrite (chk_u_ok 32 (w * w)) by lia. cbn [bind]. rewrite (chk_u_ok 32 (h * h)) by lia. cbn [bind].
  rewrite (chk_u_ok 32) by lia. cbn [bind]. f_equal.
  set (n := (w * w + h * h)%Z) in *. assert (Hn : (0 <= n)%Z) by lia. clearbody n.
  pose proof (Z.sqrt_spec n Hn) as Sq. cbv zeta in Sq. pose proof (Z.sqrt_nonneg n) as Sn. set (k := Z.sqrt n) in *. clearbody k.
  assert (Kb : (k <= 65535)%Z).
  { destruct (Z_le_gt_dec k 65535); [assumption|]. exfalso. assert ((65536 * 65536 <= k * k)%Z) by (clear - g; nia). lia. }
  destruct (of_int_R 53 1024 n) as (F1 & R1).
  { rewrite Rabs_pos_eq by (apply IZR_le; lia). apply Rle_trans with (IZR (2 ^ 32)); [apply IZR_le; lia|].
    change (IZR (2 ^ 32)) with (bpow radix2 32). apply bpow_le. lia. }
  rewrite (rnd_int 53 1024) in R1 by lia.
  destruct (fsqrt_R 53 1024 (of_int n) F1) as (F2 & R2). { rewrite R1. apply IZR_le. lia. }
  rewrite R1 in R2. rewrite (to_int_R 53 1024) by assumption. rewrite R2.
  assert (B : IZR k <= rnd 53 1024 (sqrt (IZR n)) < IZR k + 1).
  { assert (Kn : 0 <= IZR k) by (apply IZR_le; lia).
    split.
    - rewrite <- (rnd_int 53 1024 k) at 1 by lia. apply (rnd_le 53 1024).
      rewrite <- (sqrt_square (IZR k)) by lra. apply sqrt_le_1_alt. rewrite <- mult_IZR. apply IZR_le. lia.
    - set (t := IZR ((k + 1) * 2 ^ 18 - 1) * bpow radix2 (-18)).
      assert (Et : t = IZR k + 1 - / 262144).
      { unfold t. change (bpow radix2 (-18)) with (/ 262144). rewrite minus_IZR, mult_IZR, plus_IZR.
        change (IZR (2 ^ 18)) with 262144. field. }
      assert (Rt : rnd 53 1024 t = t) by (apply (rnd_id 53 1024), (dy_format 53 1024); lia).
      apply Rle_lt_trans with t; [|lra]. rewrite <- Rt. apply (rnd_le 53 1024).
      assert (K2 : IZR k <= 65535) by (apply IZR_le; lia).
      rewrite <- (sqrt_square t) by lra. apply sqrt_le_1_alt. rewrite Et.
      assert (Nk : IZR n <= IZR k * IZR k + 2 * IZR k).
      { rewrite <- !mult_IZR, <- plus_IZR. apply IZR_le. lia. }
      nra. }
  rewrite (trunc_between k) by (auto || lia). unfold zclamp. lia.
Qed.

Section Bucket.
  Context (sc : f32 * f32) (TP : trig_pair sc) (x y : Z) (Hx : (0 <= x <= 65535)%Z) (Hy : (0 <= y <= 65535)%Z).
  Notation s := (B2R (fst sc)). Notation c := (B2R (snd sc)).
  Notation q := (IZR x * c + IZR y * s).

  Lemma dist_R : let r := fadd (fmul (of_int x) (snd sc)) (fmul (of_int y) (fst sc)) in
    is_finite r = true /\ Rabs (B2R r - q) <= / 50.
  Proof.
    cbv zeta. destruct TP as (Fs & Fc & Bs & Bc & _).
    destruct (int32_R x) as (Fx & Rx); [lia|]. destruct (int32_R y) as (Fy & Ry); [lia|].
    assert (X : 0 <= IZR x <= 65535) by (split; apply IZR_le; lia).
    assert (Y : 0 <= IZR y <= 65535) by (split; apply IZR_le; lia).
    pose proof f32_big as BIG.
    assert (Mx : Rabs (IZR x * c) <= 65535). { rewrite Rabs_mult, (Rabs_pos_eq (IZR x)) by lra. pose proof (Rabs_pos c). nra. }
    assert (My : Rabs (IZR y * s) <= 65535). { rewrite Rabs_mult, (Rabs_pos_eq (IZR y)) by lra. pose proof (Rabs_pos s). nra. }
    destruct (fmul_R 24 128 (of_int x) (snd sc) Fx Fc) as (F1 & R1). { rewrite Rx. lra. }
    destruct (fmul_R 24 128 (of_int y) (fst sc) Fy Fs) as (F2 & R2). { rewrite Ry. lra. }
    rewrite Rx in R1. rewrite Ry in R2.
    pose proof (err_le _ _ Mx) as E1. pose proof (err_le _ _ My) as E2. rewrite <- R1 in E1. rewrite <- R2 in E2.
    set (a := B2R (fmul (of_int x) (snd sc))) in *. set (b := B2R (fmul (of_int y) (fst sc))) in *.
    set (p1 := IZR x * c) in *. set (p2 := IZR y * s) in *.
    assert (M3 : Rabs (a + b) <= 131072).
    { clear - E1 E2 Mx My. apply Rabs_le. unfold Rabs in *; repeat destruct Rcase_abs; lra. }
    destruct (fadd_R 24 128 _ _ F1 F2) as (F3 & R3). { fold a b. lra. }
    split; [exact F3|]. fold a b in R3. rewrite R3. pose proof (err_le _ _ M3) as E3.
    clear - E1 E2 E3. unfold Rabs in *; repeat destruct Rcase_abs; lra.
  Qed.

  Lemma q_bound : Rabs q <= 131070.
  Proof.
    destruct TP as (_ & _ & Bs & Bc & _).
    assert (X : 0 <= IZR x <= 65535) by (split; apply IZR_le; lia).
    assert (Y : 0 <= IZR y <= 65535) by (split; apply IZR_le; lia).
    apply Rabs_le. apply Rabs_le_inv in Bs, Bc. nra.
  Qed.

  Lemma bucket_R : exists r, bucket sc x y = Ztrunc r /\ Rabs (r - q) <= / 50 /\ (Z.abs (bucket sc x y) <= 131071)%Z.
  Proof.
    destruct dist_R as (F & E). pose proof q_bound as Q.
    exists (B2R (fadd (fmul (of_int x) (snd sc)) (fmul (of_int y) (fst sc)))).
    unfold bucket, i32_of_f32. rewrite (to_int_R 24 128) by assumption.
    set (r := B2R _) in *. clearbody r.
    assert (B : (Z.abs (Ztrunc r) <= 131071)%Z).
    { rewrite <- Ztrunc_abs. rewrite Ztrunc_floor by apply Rabs_pos.
      assert (IZR (Zfloor (Rabs r)) < IZR (131071 + 1)).
      { pose proof (Zfloor_lb (Rabs r)). change (IZR (131071 + 1)) with 131072. clear - H Q E. unfold Rabs in *; repeat destruct Rcase_abs; lra. }
      apply lt_IZR in H. lia. }
    assert (Ec : zclamp (- 2 ^ 31) (2 ^ 31 - 1) (Ztrunc r) = Ztrunc r) by (unfold zclamp; lia).
    rewrite Ec. auto.
  Qed.

  Lemma bucket_near : Rabs (q - IZR (bucket sc x y)) < 1 + / 50.
  Proof.
    destruct bucket_R as (r & E & D & _). rewrite E. clear E.
    assert (T : Rabs (r - IZR (Ztrunc r)) < 1).
    { destruct (Rle_dec 0 r).
      - rewrite Ztrunc_floor by lra. pose proof (Zfloor_lb r). pose proof (Zfloor_ub r). rewrite Rabs_pos_eq; lra.
      - rewrite Ztrunc_ceil by lra. pose proof (Zceil_ub r). pose proof (Zceil_lb r).
        rewrite Rabs_left1; lra. }
    clear - D T. unfold Rabs in *; repeat destruct Rcase_abs; lra.
  Qed.

  Lemma bucket_range w h : (x < w)%Z -> (y < h)%Z -> (w * w + h * h < 2 ^ 32)%Z ->
    (Z.abs (bucket sc x y) <= Z.sqrt (w * w + h * h))%Z.
  Proof.
    intros Hw Hh HD. destruct bucket_R as (r & E & D & _). rewrite E. clear E.
    destruct TP as (_ & _ & _ & _ & N).
    set (n := (w * w + h * h)%Z) in *. assert (Hn : (0 <= n)%Z) by (unfold n; nia).
    pose proof (Z.sqrt_spec n Hn) as Sq. cbv zeta in Sq. pose proof (Z.sqrt_nonneg n) as Sn. set (k := Z.sqrt n) in *. clearbody k.
    assert (X : 0 <= IZR x) by (apply IZR_le; lia). assert (Y : 0 <= IZR y) by (apply IZR_le; lia).
    set (d := sqrt (IZR x * IZR x + IZR y * IZR y)).
    assert (D0 : 0 <= d) by apply sqrt_pos.
    assert (D2 : d * d = IZR x * IZR x + IZR y * IZR y) by (apply sqrt_sqrt; nra).
    clearbody d. assert (D1 : d <= IZR x + IZR y) by (clear - X Y D0 D2; nra).
    assert (DM : d <= 65536).
    { assert (IZR x * IZR x + IZR y * IZR y <= 65536 * 65536); [|nra].
      rewrite <- !mult_IZR, <- plus_IZR. apply IZR_le. unfold n in HD. nia. }
    assert (Q : Rabs q <= d * (1 + / 2097152)).
    { assert (Rabs q * Rabs q <= (d * (1 + / 2097152)) * (d * (1 + / 2097152))).
      { rewrite <- Rabs_mult, Rabs_pos_eq by exact (Rle_0_sqr q).
        assert (q * q <= d * d * (1 + / 1048576)).
        { rewrite D2. clear - N. generalize dependent (B2R (fst sc)). generalize (B2R (snd sc)), (IZR x), (IZR y).
          intros C1 X1 Y1 S1 N. pose proof (Rle_0_sqr (X1 * S1 - Y1 * C1)) as CS. unfold Rsqr in CS.
          assert (P : 0 <= X1 * X1 + Y1 * Y1) by (pose proof (Rle_0_sqr X1); pose proof (Rle_0_sqr Y1); unfold Rsqr in *; lra).
          pose proof (Rmult_le_compat_l _ _ _ P N) as M. lra. }
        clear - H D0. nra. }
      clear - H D0. pose proof (Rabs_pos q). revert H H0. generalize (Rabs q). intros Q H H0. nra. }
    assert (Kd : d + 1 < IZR k + 1).
    { assert (W1 : IZR x + 1 <= IZR w) by (rewrite <- plus_IZR; apply IZR_le; lia).
      assert (H1 : IZR y + 1 <= IZR h) by (rewrite <- plus_IZR; apply IZR_le; lia).
      assert (Nk : IZR w * IZR w + IZR h * IZR h < (IZR k + 1) * (IZR k + 1)).
      { rewrite <- plus_IZR, <- !mult_IZR, <- plus_IZR. apply IZR_lt. fold n. lia. }
      assert (K0 : 0 <= IZR k) by (apply IZR_le; lia).
      assert ((d + 1) * (d + 1) < (IZR k + 1) * (IZR k + 1)).
      { apply Rle_lt_trans with (IZR w * IZR w + IZR h * IZR h); [|exact Nk]. nra. }
      nra. }
    assert (Rk : Rabs r < IZR (k + 1)).
    { rewrite plus_IZR. clear - D Q Kd DM D0. assert (d * (1 + / 2097152) <= d + / 32) by lra.
      unfold Rabs in *; repeat destruct Rcase_abs; lra. }
    rewrite <- Ztrunc_abs, Ztrunc_floor by apply Rabs_pos. pose proof (Zfloor_lb (Rabs r)).
    assert (IZR (Zfloor (Rabs r)) < IZR (k + 1)) by lra. apply lt_IZR in H0. lia.
  Qed.
End Bucket.
