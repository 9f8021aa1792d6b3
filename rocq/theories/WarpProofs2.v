(** Bilinear and bicubic interpolation, and warping. *)
From Flocq Require Import Core BinarySingleNaN.
From Coq Require Import Reals Lra Psatz.
From Verif Require Import Base BaseProofs Float FloatProofs FloatErr ClampModel TemplateProofs FContrastProofs WuModel WuSpec WuProofs.
From Verif Require Import RasterProofs ProjModel WarpModel WarpSpec WarpProofs.
Local Ltac Zify.zify_post_hook ::= idtac.
Local Open Scope R_scope.
Local Notation rn := (rnd 24 128).

(** ** approximate evaluation: [f] is within [e] of [V], and [V] within [M] of 0 *)
Definition ap (f : f32) (V M e : R) : Prop := is_finite f = true /\ Rabs (B2R f - V) <= e /\ Rabs V <= M.
Lemma ap_abs f V M e : ap f V M e -> Rabs (B2R f) <= M + e.
Proof. intros (_ & A & B). apply Rabs_le_inv in A, B. apply Rabs_le. lra. Qed.
Lemma ap_nn f V M e : ap f V M e -> 0 <= M /\ 0 <= e.
Proof. intros (_ & A & B). pose proof (Rabs_pos (B2R f - V)). pose proof (Rabs_pos V). lra. Qed.
Lemma big9 : 1000000000 <= bpow radix2 (128 - 1).
Proof. pose proof f32_big. lra. Qed.
Lemma ap_add f g V W M N e d : ap f V M e -> ap g W N d -> M + N + e + d <= 1000000000 ->
  ap (fadd f g) (V + W) (M + N) (e + d + (M + N + e + d) / 16777216 + / 1000000000).
Proof.
  intros A B H. pose proof (ap_abs _ _ _ _ A) as A'. pose proof (ap_abs _ _ _ _ B) as B'.
  destruct A as (Fa & Ea & Ma). destruct B as (Fb & Eb & Mb).
  assert (S : Rabs (B2R f + B2R g) <= M + N + e + d). { apply Rabs_le_inv in A', B'. apply Rabs_le. lra. }
  destruct (fadd_R 24 128 f g Fa Fb) as (F & R). { pose proof big9. lra. }
  split; [exact F|]. pose proof (err_le _ _ S) as E. rewrite <- R in E.
  apply Rabs_le_inv in E, Ea, Eb, Ma, Mb. split; apply Rabs_le; lra.
Qed.
Lemma ap_sub f g V W M N e d : ap f V M e -> ap g W N d -> M + N + e + d <= 1000000000 ->
  ap (fsub f g) (V - W) (M + N) (e + d + (M + N + e + d) / 16777216 + / 1000000000).
Proof.
  intros A B H. pose proof (ap_abs _ _ _ _ A) as A'. pose proof (ap_abs _ _ _ _ B) as B'.
  destruct A as (Fa & Ea & Ma). destruct B as (Fb & Eb & Mb).
  assert (S : Rabs (B2R f - B2R g) <= M + N + e + d). { apply Rabs_le_inv in A', B'. apply Rabs_le. lra. }
  destruct (fsub_R 24 128 f g Fa Fb) as (F & R). { pose proof big9. lra. }
  split; [exact F|]. pose proof (err_le _ _ S) as E. rewrite <- R in E.
  apply Rabs_le_inv in E, Ea, Eb, Ma, Mb. split; apply Rabs_le; lra.
Qed.
Lemma ap_mul f g V W M N e d : ap f V M e -> ap g W N d -> (M + e) * (N + d) <= 1000000000 ->
  ap (fmul f g) (V * W) (M * N) ((M + e) * d + N * e + (M + e) * (N + d) / 16777216 + / 1000000000).
Proof.
  intros A B H. pose proof (ap_abs _ _ _ _ A) as A'. pose proof (ap_abs _ _ _ _ B) as B'.
  pose proof (ap_nn _ _ _ _ A) as PA. pose proof (ap_nn _ _ _ _ B) as PB.
  destruct A as (Fa & Ea & Ma). destruct B as (Fb & Eb & Mb).
  assert (S : Rabs (B2R f * B2R g) <= (M + e) * (N + d)). { rewrite Rabs_mult. apply Rmult_le_compat; auto using Rabs_pos. }
  destruct (fmul_R 24 128 f g Fa Fb) as (F & R). { pose proof big9. lra. }
  split; [exact F|]. pose proof (err_le _ _ S) as E. rewrite <- R in E.
  assert (P1 : Rabs (B2R f * (B2R g - W)) <= (M + e) * d). { rewrite Rabs_mult. apply Rmult_le_compat; auto using Rabs_pos. }
  assert (P2 : Rabs (W * (B2R f - V)) <= N * e). { rewrite Rabs_mult. apply Rmult_le_compat; auto using Rabs_pos. }
  split.
  - replace (B2R (fmul f g) - V * W) with (B2R (fmul f g) - B2R f * B2R g + (B2R f * (B2R g - W) + W * (B2R f - V))) by ring.
    eapply Rle_trans; [apply Rabs_triang|]. pose proof (Rabs_triang (B2R f * (B2R g - W)) (W * (B2R f - V))). lra.
  - rewrite Rabs_mult. apply Rmult_le_compat; auto using Rabs_pos.
Qed.
Lemma ap_int k B : (0 <= k <= 65535)%Z -> IZR k <= B -> ap (of_int k) (IZR k) B 0.
Proof.
  intros H1 H2. destruct (int32_R k) as (F & R); [lia|]. split; [exact F|]. rewrite R. rewrite Rminus_diag_eq by reflexivity. rewrite Rabs_R0.
  split; [lra|]. rewrite Rabs_pos_eq by (apply IZR_le; lia). exact H2.
Qed.
Lemma ap_weaken f V M e M' e' : ap f V M e -> M <= M' -> e <= e' -> ap f V M' e'.
Proof. intros (A & B & C) H1 H2. split; [exact A|]. split; lra. Qed.

Section Cubic.
  Context (u : f32) (Hu : unit_weight u) (p0 p1 p2 p3 : Z) (B : R).
  Context (HB : B = 255 \/ B = 65535).
  Context (H0 : (0 <= p0 <= 65535)%Z) (H1 : (0 <= p1 <= 65535)%Z) (H2 : (0 <= p2 <= 65535)%Z) (H3 : (0 <= p3 <= 65535)%Z).
  Context (L0 : IZR p0 <= B) (L1 : IZR p1 <= B) (L2 : IZR p2 <= B) (L3 : IZR p3 <= B).
  Let U := B2R u.
  Let P0 := IZR p0. Let P1 := IZR p1. Let P2 := IZR p2. Let P3 := IZR p3.
  Let inner := (fadd (fsub (of_int p2) (of_int p0))
       (fmul u (fadd (fsub (fadd (fsub (fmul (of_int 2) (of_int p0)) (fmul (of_int 5) (of_int p1))) (fmul (of_int 4) (of_int p2))) (of_int p3))
          (fmul u (fsub (fadd (fmul (of_int 3) (fsub (of_int p1) (of_int p2))) (of_int p3)) (of_int p0)))))) : f32.
  Lemma ap_u : ap u U 1 0.
  Proof.
    destruct (unit_R u Hu) as (F & R). split; [exact F|]. unfold U. rewrite Rminus_diag_eq by reflexivity. rewrite Rabs_R0, Rabs_pos_eq by lra. lra.
  Qed.
  Lemma inner_ap : ap inner (P2 - P0 + U * (2 * P0 - 5 * P1 + 4 * P2 - P3 + U * (3 * (P1 - P2) + P3 - P0))) (22 * B) (160 * B / 16777216).
  Proof.
    pose proof ap_u as Au. assert (B0 : 255 <= B <= 65535) by lra.
    pose proof (ap_int p0 B H0 L0) as A0. pose proof (ap_int p1 B H1 L1) as A1. pose proof (ap_int p2 B H2 L2) as A2. pose proof (ap_int p3 B H3 L3) as A3.
    pose proof (ap_int 2 2 ltac:(lia) ltac:(lra)) as C2. pose proof (ap_int 3 3 ltac:(lia) ltac:(lra)) as C3.
    pose proof (ap_int 4 4 ltac:(lia) ltac:(lra)) as C4. pose proof (ap_int 5 5 ltac:(lia) ltac:(lra)) as C5.
    fold P0 in A0. fold P1 in A1. fold P2 in A2. fold P3 in A3.
    assert (S1 : ap (fsub (of_int p2) (of_int p0)) (P2 - P0) (2 * B) (2.1 * B / 16777216)) by (eapply ap_weaken; [eapply ap_sub; eassumption || lra|lra|lra]).
    assert (S2 : ap (fmul (of_int 2) (of_int p0)) (2 * P0) (2 * B) (2.1 * B / 16777216)) by (eapply ap_weaken; [eapply ap_mul; eassumption || lra|lra|lra]).
    assert (S3 : ap (fmul (of_int 5) (of_int p1)) (5 * P1) (5 * B) (5.1 * B / 16777216)) by (eapply ap_weaken; [eapply ap_mul; eassumption || lra|lra|lra]).
    assert (S4 : ap (fmul (of_int 4) (of_int p2)) (4 * P2) (4 * B) (4.1 * B / 16777216)) by (eapply ap_weaken; [eapply ap_mul; eassumption || lra|lra|lra]).
    assert (S5 : ap (fsub (fmul (of_int 2) (of_int p0)) (fmul (of_int 5) (of_int p1))) (2 * P0 - 5 * P1) (7 * B) (15 * B / 16777216))
      by (eapply ap_weaken; [eapply ap_sub; eassumption || lra|lra|lra]).
    assert (S6 : ap (fadd (fsub (fmul (of_int 2) (of_int p0)) (fmul (of_int 5) (of_int p1))) (fmul (of_int 4) (of_int p2))) (2 * P0 - 5 * P1 + 4 * P2) (11 * B) (31 * B / 16777216))
      by (eapply ap_weaken; [eapply ap_add; eassumption || lra|lra|lra]).
    assert (S7 : ap (fsub (fadd (fsub (fmul (of_int 2) (of_int p0)) (fmul (of_int 5) (of_int p1))) (fmul (of_int 4) (of_int p2))) (of_int p3)) (2 * P0 - 5 * P1 + 4 * P2 - P3) (12 * B) (44 * B / 16777216))
      by (eapply ap_weaken; [eapply ap_sub; eassumption || lra|lra|lra]).
    set (s7 := fsub (fadd _ _) (of_int p3)) in *. fold s7 in inner. clearbody s7. clear S2 S3 S4 S5 S6.
    assert (T1 : ap (fsub (of_int p1) (of_int p2)) (P1 - P2) (2 * B) (2.1 * B / 16777216)) by (eapply ap_weaken; [eapply ap_sub; eassumption || lra|lra|lra]).
    assert (T2 : ap (fmul (of_int 3) (fsub (of_int p1) (of_int p2))) (3 * (P1 - P2)) (6 * B) (13 * B / 16777216)) by (eapply ap_weaken; [eapply ap_mul; eassumption || lra|lra|lra]).
    assert (T3 : ap (fadd (fmul (of_int 3) (fsub (of_int p1) (of_int p2))) (of_int p3)) (3 * (P1 - P2) + P3) (7 * B) (21 * B / 16777216)) by (eapply ap_weaken; [eapply ap_add; eassumption || lra|lra|lra]).
    assert (T4 : ap (fsub (fadd (fmul (of_int 3) (fsub (of_int p1) (of_int p2))) (of_int p3)) (of_int p0)) (3 * (P1 - P2) + P3 - P0) (8 * B) (30 * B / 16777216)) by (eapply ap_weaken; [eapply ap_sub; eassumption || lra|lra|lra]).
    set (t4 := fsub (fadd _ _) (of_int p0)) in *. clearbody t4. clear T1 T2 T3.
    assert (T5 : ap (fmul u t4) (U * (3 * (P1 - P2) + P3 - P0)) (8 * B) (39 * B / 16777216)) by (eapply ap_weaken; [eapply ap_mul; eassumption || lra|lra|lra]).
    assert (T6 : ap (fadd s7 (fmul u t4)) (2 * P0 - 5 * P1 + 4 * P2 - P3 + U * (3 * (P1 - P2) + P3 - P0)) (20 * B) (105 * B / 16777216)) by (eapply ap_weaken; [eapply ap_add; eassumption || lra|lra|lra]).
    assert (T7 : ap (fmul u (fadd s7 (fmul u t4))) (U * (2 * P0 - 5 * P1 + 4 * P2 - P3 + U * (3 * (P1 - P2) + P3 - P0))) (20 * B) (127 * B / 16777216)) by (eapply ap_weaken; [eapply ap_mul; eassumption || lra|lra|lra]).
    eapply ap_weaken; [eapply ap_add; [exact S1|exact T7|lra]|lra|lra].
  Qed.
  Lemma cubic_R : is_finite (cubic u (of_int p0) (of_int p1) (of_int p2) (of_int p3)) = true /\
    Rabs (B2R (cubic u (of_int p0) (of_int p1) (of_int p2) (of_int p3)) - catmull U P0 P1 P2 P3) <= B / 100000.
  Proof.
    assert (B0 : 255 <= B <= 65535) by lra. pose proof inner_ap as I. pose proof ap_u as Au. destruct half_R as (Fh & Rh).
    unfold cubic. fold inner. set (i := inner) in *. clearbody i.
    assert (Ah : ap half (/ 2) (/ 2) 0). { split; [exact Fh|]. rewrite Rh, Rminus_diag_eq by reflexivity. rewrite Rabs_R0, Rabs_pos_eq by lra. lra. }
    assert (A1 : ap (fmul half u) (/ 2 * U) (/ 2) (0.6 / 16777216)) by (eapply ap_weaken; [eapply ap_mul; eassumption || lra|lra|lra]).
    set (V := P2 - P0 + U * (2 * P0 - 5 * P1 + 4 * P2 - P3 + U * (3 * (P1 - P2) + P3 - P0))) in *.
    assert (A2 : ap (fmul (fmul half u) i) (/ 2 * U * V) (11 * B) (120 * B / 16777216)). { eapply ap_weaken; [eapply ap_mul; [exact A1|exact I|]|lra|]; nra. }
    pose proof (ap_int p1 B H1 L1) as A3. fold P1 in A3.
    assert (A4 : ap (fadd (of_int p1) (fmul (fmul half u) i)) (P1 + / 2 * U * V) (12 * B) (140 * B / 16777216)) by (eapply ap_weaken; [eapply ap_add; [exact A3|exact A2|lra]|lra|lra]).
    destruct A4 as (F & E & _). split; [exact F|].
    replace (catmull U P0 P1 P2 P3) with (P1 + / 2 * U * V) by (unfold catmull, V; field). lra.
  Qed.
  Lemma cubic_0 : B2R u = 0 -> is_finite (cubic u (of_int p0) (of_int p1) (of_int p2) (of_int p3)) = true /\
    B2R (cubic u (of_int p0) (of_int p1) (of_int p2) (of_int p3)) = IZR p1.
  Proof.
    intros E. destruct inner_ap as (Fi & _ & _). destruct half_R as (Fh & Rh). destruct (unit_R u Hu) as (Fu & _). pose proof f32_big as BIG.
    unfold cubic. fold inner. set (i := inner) in *. clearbody i.
    destruct (fmul_R 24 128 half u Fh Fu) as (F1 & R1). { rewrite E, Rmult_0_r, Rabs_R0. lra. } rewrite E, Rmult_0_r, (rnd_0 24 128) in R1.
    destruct (fmul_R 24 128 (fmul half u) i F1 Fi) as (F2 & R2). { rewrite R1, Rmult_0_l, Rabs_R0. lra. } rewrite R1, Rmult_0_l, (rnd_0 24 128) in R2.
    destruct (int32_R p1) as (F3 & R3); [lia|]. assert (IZR p1 <= 65535) by (apply IZR_le; lia). assert (0 <= IZR p1) by (apply IZR_le; lia).
    destruct (fadd_R 24 128 (of_int p1) (fmul (fmul half u) i) F3 F2) as (F & R). { rewrite R2, R3, Rplus_0_r, Rabs_pos_eq by lra. lra. }
    split; [exact F|]. rewrite R, R2, R3, Rplus_0_r. apply (rnd_int 24 128). lia.
  Qed.
End Cubic.

Lemma rclamp_lip hi a b d : 0 <= hi -> Rabs (a - b) <= d -> rclamp hi b - d <= rclamp hi a <= rclamp hi b + d.
Proof. intros Hh H. apply Rabs_le_inv in H. unfold rclamp, Rmax, Rmin. repeat destruct (Rle_dec _ _); lra. Qed.
Lemma zclamp_trunc hi z : (0 < hi)%Z -> rclamp (IZR hi) z - 1 <= IZR (zclamp 0 hi (Ztrunc z)) <= rclamp (IZR hi) z.
Proof.
  intros Hh. assert (Ph : 0 < IZR hi) by (apply IZR_lt; exact Hh). unfold rclamp.
  destruct (Rle_or_lt 0 z) as [P|P].
  - rewrite Ztrunc_floor by exact P. pose proof (Zfloor_lb z). pose proof (Zfloor_ub z). pose proof (Zfloor_lub 0 z P).
    unfold zclamp. destruct (Z.leb_spec (Zfloor z) hi) as [L|L].
    + replace (Z.max 0 (Z.min hi (Zfloor z))) with (Zfloor z) by lia. apply IZR_le in L. unfold Rmax, Rmin. repeat destruct (Rle_dec _ _); lra.
    + replace (Z.max 0 (Z.min hi (Zfloor z))) with hi by lia. apply IZR_lt in L. unfold Rmax, Rmin. repeat destruct (Rle_dec _ _); lra.
  - assert (Ztrunc z <= 0)%Z by (pose proof (Ztrunc_le _ _ (Rlt_le _ _ P)) as K; rewrite Ztrunc_IZR in K; exact K).
    replace (zclamp 0 hi (Ztrunc z)) with 0%Z by (unfold zclamp; lia). unfold Rmax, Rmin. repeat destruct (Rle_dec _ _); lra.
Qed.

Lemma cubic_channel hi u a b c d : hi = 255%Z \/ hi = 65535%Z -> unit_weight u ->
  (0 <= a <= hi)%Z -> (0 <= b <= hi)%Z -> (0 <= c <= hi)%Z -> (0 <= d <= hi)%Z ->
  let v := clamp_float 0 hi (cubic u (of_int a) (of_int b) (of_int c) (of_int d)) in
  (0 <= v <= hi)%Z /\ cubic_value hi (B2R u) a b c d v /\ (B2R u = 0 -> v = b).
Proof.
  intros Hh Hu Ha Hb Hc Hd. cbv zeta.
  assert (HB : IZR hi = 255 \/ IZR hi = 65535) by (destruct Hh; subst; auto).
  assert (X : forall k, (0 <= k <= hi)%Z -> (0 <= k <= 65535)%Z /\ IZR k <= IZR hi) by (intros k Hk; split; [lia|apply IZR_le; lia]).
  destruct (X a Ha), (X b Hb), (X c Hc), (X d Hd).
  destruct (cubic_R u Hu a b c d (IZR hi)) as (F & E); try assumption.
  rewrite clamp_R by (assumption || lia). split; [unfold zclamp; lia|]. split.
  - unfold cubic_value. pose proof (zclamp_trunc hi (B2R (cubic u (of_int a) (of_int b) (of_int c) (of_int d))) ltac:(lia)) as T.
    pose proof (rclamp_lip (IZR hi) _ _ _ ltac:(lra) E). lra.
  - intros Z. destruct (cubic_0 u Hu a b c d (IZR hi)) as (_ & R); try assumption. rewrite R, Ztrunc_IZR. unfold zclamp. lia.
Qed.
