(** f64 error bounds for min_area_rect. *)
From Coq Require Import Reals Lra Psatz.
From Flocq Require Import Core BinarySingleNaN.
From Verif Require Import Base BaseProofs Float FloatProofs FloatErr HullProofs HogCellsSpec GeometryModel MinRectModel MinRectSpec MinRectGeom.
Local Ltac Zify.zify_post_hook ::= idtac.
Local Open Scope R_scope.
Local Notation rn := (rnd 53 1024).

Lemma err64 r S : Rabs r <= S -> Rabs (rn r - r) <= S / 9007199254740992 + / 1000000000000000000.
Proof. intros H. pose proof (f64_err r). lra. Qed.
Lemma big64 : 1000000000000000 <= bpow radix2 (1024 - 1).
Proof. apply Rle_trans with (bpow radix2 60); [change (bpow radix2 60) with 1152921504606846976; lra|apply bpow_le; lia]. Qed.

Definition ap (f : f64) (V M e : R) : Prop := is_finite f = true /\ Rabs (B2R f - V) <= e /\ Rabs V <= M.
Lemma ap_abs f V M e : ap f V M e -> Rabs (B2R f) <= M + e.
Proof. intros (_ & A & B). apply Rabs_le_inv in A, B. apply Rabs_le. lra. Qed.
Lemma ap_nn f V M e : ap f V M e -> 0 <= M /\ 0 <= e.
Proof. intros (_ & A & B). pose proof (Rabs_pos (B2R f - V)). pose proof (Rabs_pos V). lra. Qed.
Lemma ap_weaken f V M e M' e' : ap f V M e -> M <= M' -> e <= e' -> ap f V M' e'.
Proof. intros (A & B & C) H1 H2. split; [exact A|]. split; lra. Qed.
Lemma ap_add f g V W M N e d : ap f V M e -> ap g W N d -> M + N + e + d <= 1000000000000 ->
  ap (fadd f g) (V + W) (M + N) (e + d + (M + N + e + d) / 9007199254740992 + / 1000000000000000000).
Proof.
  intros A B H. pose proof (ap_abs _ _ _ _ A) as A'. pose proof (ap_abs _ _ _ _ B) as B'.
  destruct A as (Fa & Ea & Ma). destruct B as (Fb & Eb & Mb).
  assert (S : Rabs (B2R f + B2R g) <= M + N + e + d). { apply Rabs_le_inv in A', B'. apply Rabs_le. lra. }
  destruct (fadd_R 53 1024 f g Fa Fb) as (F & R). { pose proof big64. lra. }
  split; [exact F|]. pose proof (err64 _ _ S) as E. rewrite <- R in E.
  apply Rabs_le_inv in E, Ea, Eb, Ma, Mb. split; apply Rabs_le; lra.
Qed.
Lemma ap_sub f g V W M N e d : ap f V M e -> ap g W N d -> M + N + e + d <= 1000000000000 ->
  ap (fsub f g) (V - W) (M + N) (e + d + (M + N + e + d) / 9007199254740992 + / 1000000000000000000).
Proof.
  intros A B H. pose proof (ap_abs _ _ _ _ A) as A'. pose proof (ap_abs _ _ _ _ B) as B'.
  destruct A as (Fa & Ea & Ma). destruct B as (Fb & Eb & Mb).
  assert (S : Rabs (B2R f - B2R g) <= M + N + e + d). { apply Rabs_le_inv in A', B'. apply Rabs_le. lra. }
  destruct (fsub_R 53 1024 f g Fa Fb) as (F & R). { pose proof big64. lra. }
  split; [exact F|]. pose proof (err64 _ _ S) as E. rewrite <- R in E.
  apply Rabs_le_inv in E, Ea, Eb, Ma, Mb. split; apply Rabs_le; lra.
Qed.
Lemma ap_mul f g V W M N e d : ap f V M e -> ap g W N d -> (M + e) * (N + d) <= 1000000000000 ->
  ap (fmul f g) (V * W) (M * N) ((M + e) * d + N * e + (M + e) * (N + d) / 9007199254740992 + / 1000000000000000000).
Proof.
  intros A B H. pose proof (ap_abs _ _ _ _ A) as A'. pose proof (ap_abs _ _ _ _ B) as B'.
  pose proof (ap_nn _ _ _ _ A) as PA. pose proof (ap_nn _ _ _ _ B) as PB.
  destruct A as (Fa & Ea & Ma). destruct B as (Fb & Eb & Mb).
  assert (S : Rabs (B2R f * B2R g) <= (M + e) * (N + d)). { rewrite Rabs_mult. apply Rmult_le_compat; auto using Rabs_pos. }
  destruct (fmul_R 53 1024 f g Fa Fb) as (F & R). { pose proof big64. lra. }
  split; [exact F|]. pose proof (err64 _ _ S) as E. rewrite <- R in E.
  assert (P1 : Rabs (B2R f * (B2R g - W)) <= (M + e) * d). { rewrite Rabs_mult. apply Rmult_le_compat; auto using Rabs_pos. }
  assert (P2 : Rabs (W * (B2R f - V)) <= N * e). { rewrite Rabs_mult. apply Rmult_le_compat; auto using Rabs_pos. }
  split.
  - replace (B2R (fmul f g) - V * W) with (B2R (fmul f g) - B2R f * B2R g + (B2R f * (B2R g - W) + W * (B2R f - V))) by ring.
    eapply Rle_trans; [apply Rabs_triang|]. pose proof (Rabs_triang (B2R f * (B2R g - W)) (W * (B2R f - V))). lra.
  - rewrite Rabs_mult. apply Rmult_le_compat; auto using Rabs_pos.
Qed.
Lemma int64_R z : (Z.abs z <= 2 ^ 40)%Z -> is_finite (of_int z : f64) = true /\ B2R (of_int z : f64) = IZR z.
Proof.
  intros H. destruct (dy_int 53 1024 z) as (F & R); [split; lia|lia|]. split; [exact F|]. rewrite R. change (bpow radix2 0) with 1. ring.
Qed.
Lemma ap_int z B : (Z.abs z <= B)%Z -> (B <= 2 ^ 40)%Z -> ap (of_int z) (IZR z) (IZR B) 0.
Proof.
  intros H1 H2. destruct (int64_R z) as (F & R); [lia|]. split; [exact F|]. rewrite R. rewrite Rminus_diag_eq by reflexivity. rewrite Rabs_R0.
  split; [lra|]. rewrite <- abs_IZR. apply IZR_le. exact H1.
Qed.
Lemma sub_int a b : (Z.abs a <= 2 ^ 30)%Z -> (Z.abs b <= 2 ^ 30)%Z -> fsub (of_int a) (of_int b) = (of_int (a - b) : f64).
Proof.
  intros Ha Hb. destruct (int64_R a) as (Fa & Ra); [lia|]. destruct (int64_R b) as (Fb & Rb); [lia|]. destruct (int64_R (a - b)) as (Fc & Rc); [lia|].
  assert (E : rn (IZR a - IZR b) = IZR (a - b)) by (rewrite <- minus_IZR; apply (rnd_int 53 1024); lia).
  pose proof (Bminus_correct 53 1024 _ _ mode_NE (of_int a) (of_int b) Fa Fb) as C. cbn [round_mode] in C.
  rewrite Ra, Rb in C. fold (rn (IZR a - IZR b)) in C. rewrite (rnd_lt_max 53 1024) in C.
  2:{ rewrite <- minus_IZR, <- abs_IZR. apply Rle_trans with (IZR (2 ^ 40)); [apply IZR_le; lia|]. pose proof big64. change (IZR (2 ^ 40)) with 1099511627776. lra. }
  destruct C as (C1 & C2 & C3).
  apply B2R_Bsign_inj; [exact C2|exact Fc| |].
  - unfold fsub. rewrite C1, Rc. exact E.
  - unfold fsub. rewrite C3.
    pose proof (binary_normalize_correct 53 1024 _ _ mode_NE (a - b) 0 false) as D. cbv zeta in D.
    replace (F2R {| Fnum := (a - b)%Z; Fexp := 0 |}) with (IZR (a - b)) in D by (unfold F2R; cbn [Fnum Fexp]; change (bpow radix2 0) with 1; ring).
    cbn [round_mode] in D. fold (rn (IZR (a - b))) in D. rewrite (rnd_lt_max 53 1024) in D.
    2:{ rewrite <- abs_IZR. apply Rle_trans with (IZR (2 ^ 40)); [apply IZR_le; lia|]. pose proof big64. change (IZR (2 ^ 40)) with 1099511627776. lra. }
    destruct D as (_ & _ & D). unfold of_int at 3. rewrite D. rewrite minus_IZR.
    destruct (Rcompare (IZR a - IZR b) 0) eqn:Q; try reflexivity.
    apply Rcompare_Eq_inv in Q. assert (a = b) as <- by (apply eq_IZR; lra). destruct (Bsign (of_int a : f64)); reflexivity.
Qed.

(** ** pi, and sine and cosine nearby *)
Definition P64 : R := 7074237752028440 / 2251799813685248.
Lemma pi64_R : is_finite pi_f64 = true /\ B2R pi_f64 = P64.
Proof.
  destruct (dy_dyadic 53 1024 (-51) 7074237752028440) as (F & R); [split; lia|lia|].
  split; [exact F|]. unfold pi_f64. rewrite R. unfold P64. change (bpow radix2 (-51)) with (/ 2251799813685248). reflexivity.
Qed.
Lemma pi64_err : Rabs (P64 - PI) <= / 1000000000000000.
Proof.
  pose proof (PI_2_3_7_ineq 8) as (A & B). unfold PI_2_3_7_tg, tg_alt, Ratan_seq in A, B. cbn [sum_f_R0 Nat.mul Nat.add] in A, B.
  cbn [pow] in A, B. rewrite !S_INR in A, B. cbn [INR] in A, B. unfold P64. apply Rabs_le. split; lra.
Qed.
Lemma sin_le_abs x : Rabs (sin x) <= Rabs x.
Proof.
  assert (P : forall x, 0 <= x -> Rabs (sin x) <= x).
  { intros y Hy. destruct (Rle_or_lt y 1) as [L|L].
    - destruct (Req_dec y 0) as [->|N]; [rewrite sin_0, Rabs_R0; lra|].
      rewrite Rabs_right; [left; apply sin_lt_x; lra|]. apply Rle_ge, sin_ge_0; [lra|]. pose proof PI2_1. lra.
    - pose proof (SIN_bound y). apply Rle_trans with 1; [apply Rabs_le; lra|lra]. }
  destruct (Rle_or_lt 0 x) as [L|L].
  - rewrite (Rabs_right x) by lra. apply P, L.
  - rewrite (Rabs_left x) by lra. replace (sin x) with (- sin (- x)) by (rewrite sin_neg; ring). rewrite Rabs_Ropp. apply P. lra.
Qed.
Lemma sin_lip a b : Rabs (sin a - sin b) <= Rabs (a - b).
Proof.
  rewrite form4. rewrite !Rabs_mult. pose proof (sin_le_abs ((a - b) / 2)) as S. pose proof (COS_bound ((a + b) / 2)) as C.
  rewrite (Rabs_right 2) by lra. replace (Rabs (a - b)) with (2 * Rabs ((a - b) / 2)).
  - assert (Rabs (cos ((a + b) / 2)) <= 1) by (apply Rabs_le; lra). pose proof (Rabs_pos (sin ((a - b) / 2))). pose proof (Rabs_pos (cos ((a + b) / 2))). nra.
  - unfold Rdiv. rewrite Rabs_mult, (Rabs_right (/ 2)) by lra. lra.
Qed.
Lemma cos_lip a b : Rabs (cos a - cos b) <= Rabs (a - b).
Proof. rewrite !cos_sin. eapply Rle_trans; [apply sin_lip|]. right. f_equal. ring. Qed.

(** ** the remainder *)
Lemma frem_R (x y : f64) : is_finite x = true -> is_finite y = true -> 0 < B2R y ->
  is_finite (frem x y) = true /\
  exists k, (0 <= k)%Z /\ Rabs (B2R (frem x y)) = Rabs (B2R x) - IZR k * B2R y /\ Rabs (B2R (frem x y)) < B2R y.
Proof.
  intros Fx Fy Hy. destruct y as [sy|sy| |sy n f Bf]; try discriminate Fy; [cbn in Hy; lra|].
  destruct x as [sx|sx| |sx m e Be]; try discriminate Fx.
  { cbn [frem]. split; [reflexivity|]. exists 0%Z. split; [lia|]. change (B2R (B754_zero sx)) with 0. rewrite Rabs_R0. split; [lra|exact Hy]. }
  assert (sy = false) as ->. { destruct sy; [|reflexivity]. exfalso. cbn [B2R] in Hy. assert (F2R (Defs.Float radix2 (cond_Zopp true (Z.pos n)) f) < 0) by (apply F2R_lt_0; cbn; lia). lra. }
  cbn [frem]. set (g := Z.min e f). set (X := (Z.pos m * 2 ^ (e - g))%Z). set (Y := (Z.pos n * 2 ^ (f - g))%Z).
  assert (Gx : (0 < 2 ^ (e - g))%Z) by (apply Z.pow_pos_nonneg; unfold g; lia).
  assert (Gy : (0 < 2 ^ (f - g))%Z) by (apply Z.pow_pos_nonneg; unfold g; lia).
  assert (Yp : (0 < Y)%Z) by (unfold Y; lia). assert (Xp : (0 < X)%Z) by (unfold X; lia).
  pose proof (Z.mod_pos_bound X Y Yp) as Rr. pose proof (Z.div_mod X Y ltac:(lia)) as DM. pose proof (Z.div_pos X Y ltac:(lia) ltac:(lia)) as Dp.
  set (r := (X mod Y)%Z) in *. set (k := (X / Y)%Z) in *.
  assert (Pw : forall a, (g <= a)%Z -> bpow radix2 a = IZR (2 ^ (a - g)) * bpow radix2 g).
  { intros a Ha. replace a with ((a - g) + g)%Z at 1 by lia. rewrite bpow_plus. f_equal. symmetry. apply (IZR_Zpower radix2). lia. }
  assert (Rx : Rabs (B2R (B754_finite sx m e Be)) = IZR X * bpow radix2 g).
  { unfold B2R. rewrite <- F2R_Zabs. replace (Z.abs (cond_Zopp sx (Z.pos m))) with (Z.pos m) by (destruct sx; reflexivity).
    unfold F2R. cbn [Fnum Fexp]. rewrite (Pw e) by (unfold g; lia). unfold X. rewrite mult_IZR. ring. }
  assert (Ry : B2R (B754_finite false n f Bf) = IZR Y * bpow radix2 g).
  { unfold B2R. cbn [cond_Zopp]. unfold F2R. cbn [Fnum Fexp]. rewrite (Pw f) by (unfold g; lia). unfold Y. rewrite mult_IZR. ring. }
  assert (Mm : (Z.pos m < 2 ^ 53)%Z /\ (-1074 <= e)%Z).
  { clear - Be. unfold SpecFloat.bounded, SpecFloat.canonical_mantissa in Be. apply andb_prop in Be. destruct Be as (B1 & B2). apply Zeq_bool_eq in B1.
    unfold SpecFloat.fexp, SpecFloat.emin in B1.
    assert (D : (Z.pos (SpecFloat.digits2_pos m) <= 53)%Z) by lia. split; [|lia].
    rewrite Digits.Zpos_digits2_pos in D.
    pose proof (Digits.Zdigits_correct radix2 (Z.pos m)) as (_ & U). cbn [Z.abs] in U.
    eapply Z.lt_le_trans; [exact U|]. change (2 ^ 53)%Z with (radix2 ^ 53)%Z. apply Zpower_le. exact D. }
  assert (Mn : (Z.pos n < 2 ^ 53)%Z /\ (-1074 <= f)%Z).
  { clear - Bf. unfold SpecFloat.bounded, SpecFloat.canonical_mantissa in Bf. apply andb_prop in Bf. destruct Bf as (B1 & B2). apply Zeq_bool_eq in B1.
    unfold SpecFloat.fexp, SpecFloat.emin in B1.
    assert (D : (Z.pos (SpecFloat.digits2_pos n) <= 53)%Z) by lia. split; [|lia].
    rewrite Digits.Zpos_digits2_pos in D.
    pose proof (Digits.Zdigits_correct radix2 (Z.pos n)) as (_ & U). cbn [Z.abs] in U.
    eapply Z.lt_le_trans; [exact U|]. change (2 ^ 53)%Z with (radix2 ^ 53)%Z. apply Zpower_le. exact D. }
  assert (Rsmall : (r < 2 ^ 53)%Z).
  { unfold g in *. destruct (Z.le_ge_cases e f) as [L|L].
    - assert (X = Z.pos m). { unfold X, g. rewrite Z.min_l by lia. rewrite Z.sub_diag. change (2 ^ 0)%Z with 1%Z. lia. }
      assert (r <= X)%Z by (pose proof (Z.mod_le X Y ltac:(lia) ltac:(lia)); unfold r; lia). lia.
    - assert (Y = Z.pos n). { unfold Y, g. rewrite Z.min_r by lia. rewrite Z.sub_diag. change (2 ^ 0)%Z with 1%Z. lia. } lia. }
  assert (Gg : (-1074 <= g)%Z) by (unfold g; lia).
  set (q := if sx then (- r)%Z else r).
  assert (Qa : Z.abs q = r) by (unfold q; destruct sx; lia).
  pose proof (binary_normalize_correct 53 1024 prec64 emax64 mode_NE q g sx) as C. cbv zeta in C.
  assert (Fm : generic_format radix2 (SpecFloat.fexp 53 1024) (F2R (Defs.Float radix2 q g))).
  { apply (generic_format_FLT radix2 (-1074) 53). exists (Defs.Float radix2 q g); [reflexivity|cbn [Fnum]; rewrite Qa; exact Rsmall|exact Gg]. }
  rewrite (round_generic _ _ _ _ Fm) in C.
  assert (Qv : Rabs (F2R (Defs.Float radix2 q g)) = IZR r * bpow radix2 g).
  { rewrite <- F2R_Zabs, Qa. reflexivity. }
  assert (Lt : IZR r * bpow radix2 g < IZR Y * bpow radix2 g) by (apply Rmult_lt_compat_r; [apply bpow_gt_0|apply IZR_lt; lia]).
  rewrite Rlt_bool_true in C.
  2:{ rewrite Qv. eapply Rlt_trans; [exact Lt|]. rewrite <- Ry. rewrite <- (Rabs_right (B2R (B754_finite false n f Bf))) by (apply Rle_ge; rewrite Ry; apply Rmult_le_pos; [apply IZR_le; lia|apply bpow_ge_0]). apply abs_B2R_lt_emax. }
  destruct C as (C1 & C2 & _). split; [exact C2|].
  exists k. split; [exact Dp|]. rewrite C1, Qv, Rx, Ry. split; [|exact Lt].
  replace r with (X - Y * k)%Z by lia. rewrite minus_IZR, mult_IZR. ring.
Qed.
