(** Proofs about interpolation and antialiased lines. *)
From Flocq Require Import Core BinarySingleNaN.
From Coq Require Import Reals Lra Psatz.
From Verif Require Import Base BaseProofs Float FloatProofs FloatErr ClampModel LineModel LineProofs TemplateProofs FContrastProofs WuModel WuSpec.
Local Ltac Zify.zify_post_hook ::= idtac.
Local Open Scope R_scope.
Local Notation rn := (rnd 24 128).

Lemma int32_R k : (0 <= k <= 2 ^ 24)%Z -> is_finite (of_int k : f32) = true /\ B2R (of_int k : f32) = IZR k.
Proof.
  intros H. destruct (of_int_R 24 128 k) as (F & R).
  - rewrite Rabs_pos_eq by (apply IZR_le; lia). pose proof f32_big. assert (IZR k <= IZR (2 ^ 24)) by (apply IZR_le; lia).
    change (IZR (2 ^ 24)) with 16777216 in *. lra.
  - split; [exact F|]. rewrite R. apply (rnd_int 24 128). lia.
Qed.
Lemma unit_R (w : f32) : unit_weight w -> is_finite w = true /\ 0 <= B2R w <= 1.
Proof.
  intros (A & B). destruct (int32_R 0) as (F0 & R0); [lia|]. destruct (int32_R 1) as (F1 & R1); [lia|].
  assert (F : is_finite w = true).
  { destruct w as [s|[]| |s m e h]; try reflexivity; vm_compute in A; vm_compute in B; discriminate. }
  split; [exact F|]. unfold fle in A, B. rewrite (Bleb_correct 24 128) in A, B by assumption.
  rewrite R0 in A. rewrite R1 in B.
  destruct (Rle_bool_spec 0 (B2R w)); [|discriminate]. destruct (Rle_bool_spec (B2R w) 1); [|discriminate]. lra.
Qed.
Lemma R_unit (w : f32) : is_finite w = true -> 0 <= B2R w <= 1 -> unit_weight w.
Proof.
  intros F H. destruct (int32_R 0) as (F0 & R0); [lia|]. destruct (int32_R 1) as (F1 & R1); [lia|].
  split; unfold fle; rewrite (Bleb_correct 24 128) by assumption; apply Rle_bool_true; rewrite ?R0, ?R1; lra.
Qed.

(** ** interpolation *)
Lemma err_le r B : Rabs r <= B -> Rabs (rn r - r) <= B / 16777216 + / 1000000000.
Proof. intros H. pose proof (f32_err r). lra. Qed.

Section Mix.
  Context (l r : Z) (w : f32) (Hl : (0 <= l <= 65535)%Z) (Hr : (0 <= r <= 65535)%Z) (Hw : unit_weight w).
  Let v : f32 := fadd (fmul (of_int l) w) (fmul (of_int r) (fsub (of_int 1) w)).
  Lemma mix_R : is_finite v = true /\ Rabs (B2R v - mix l r (B2R w)) <= / 32.
  Proof.
    destruct (unit_R w Hw) as (Fw & Bw). destruct (int32_R 1) as (F1 & R1); [lia|].
    destruct (int32_R l) as (Fl & Rl); [lia|]. destruct (int32_R r) as (Fr & Rr); [lia|].
    pose proof f32_big as BIG.
    assert (Bl : 0 <= IZR l <= 65535) by (split; apply IZR_le; lia). assert (Br : 0 <= IZR r <= 65535) by (split; apply IZR_le; lia).
    unfold v, mix. set (W := B2R w) in *.
    destruct (fsub_R 24 128 (of_int 1) w F1 Fw) as (Fc & Rc). { fold W. rewrite R1. apply Rabs_le. lra. }
    fold W in Rc. rewrite R1 in Rc. set (c := fsub (of_int 1) w) in *. clearbody c.
    assert (C01 : 0 <= B2R c <= 1). { rewrite Rc. split; [apply rnd_ge0; lra|apply rnd_le1; lra]. }
    assert (Ec : Rabs (B2R c - (1 - W)) <= 1 / 16777216 + / 1000000000). { rewrite Rc. apply err_le. apply Rabs_le. lra. }
    assert (L1 : 0 <= IZR l * W <= 65535) by nra. assert (L2 : 0 <= IZR r * B2R c <= 65535) by nra.
    destruct (fmul_R 24 128 (of_int l) w Fl Fw) as (Fa & Ra). { fold W. rewrite Rl, Rabs_pos_eq by lra. lra. }
    fold W in Ra. rewrite Rl in Ra.
    destruct (fmul_R 24 128 (of_int r) c Fr Fc) as (Fb & Rb). { rewrite Rr, Rabs_pos_eq by lra. lra. } rewrite Rr in Rb.
    assert (Ea : Rabs (B2R (fmul (of_int l) w) - IZR l * W) <= 65535 / 16777216 + / 1000000000). { rewrite Ra. apply err_le. rewrite Rabs_pos_eq; lra. }
    assert (Eb : Rabs (B2R (fmul (of_int r) c) - IZR r * B2R c) <= 65535 / 16777216 + / 1000000000). { rewrite Rb. apply err_le. rewrite Rabs_pos_eq; lra. }
    set (a := fmul (of_int l) w) in *. set (b := fmul (of_int r) c) in *. clearbody a b.
    assert (S : Rabs (B2R a + B2R b) <= 131072). { apply Rabs_le. apply Rabs_le_inv in Ea, Eb. lra. }
    destruct (fadd_R 24 128 a b Fa Fb) as (F & R); [lra|]. split; [exact F|].
    pose proof (err_le _ _ S) as Es. rewrite <- R in Es. set (s := fadd a b) in *. clearbody s.
    assert (X : Rabs (IZR r * (B2R c - (1 - W))) <= 65535 * (1 / 16777216 + / 1000000000)).
    { rewrite Rabs_mult. rewrite (Rabs_pos_eq (IZR r)) by lra. apply Rmult_le_compat; try lra. apply Rabs_pos. }
    apply Rabs_le. apply Rabs_le_inv in Es, Ea, Eb, X. replace (IZR r * (B2R c - (1 - W))) with (IZR r * B2R c - IZR r * (1 - W)) in X by ring. lra.
  Qed.
End Mix.

Lemma trunc_ge k x : IZR k <= x -> (k <= Ztrunc x)%Z.
Proof. intros H. apply Ztrunc_le in H. rewrite Ztrunc_IZR in H. exact H. Qed.
Lemma trunc_lt k x : 0 <= x -> x < IZR (k + 1) -> (Ztrunc x <= k)%Z.
Proof. intros H0 H. rewrite Ztrunc_floor by assumption. pose proof (Zfloor_lb x). assert (IZR (Zfloor x) < IZR (k + 1)) by lra. apply lt_IZR in H2. lia. Qed.

(** clamping a finite float *)
Lemma clamp_R hi (x : f32) : (0 < hi <= 65535)%Z -> is_finite x = true ->
  clamp_float 0 hi x = zclamp 0 hi (Ztrunc (B2R x)).
Proof.
  intros Hh F. unfold clamp_float. destruct (int32_R 0) as (F0 & R0); [lia|]. destruct (int32_R hi) as (Fh & Rh); [lia|].
  rewrite !flt32_R by assumption. rewrite R0, Rh. unfold zclamp.
  destruct (Rlt_bool_spec (B2R x) (IZR hi)) as [L|L].
  - destruct (Rlt_bool_spec 0 (B2R x)) as [L0|L0].
    + rewrite (to_int_R 24 128) by (first [assumption|reflexivity]). unfold zclamp. reflexivity.
    + assert (Ztrunc (B2R x) <= 0)%Z by (pose proof (Ztrunc_le _ _ L0) as K; rewrite Ztrunc_IZR in K; exact K). lia.
  - pose proof (trunc_ge hi _ L). lia.
Qed.

Lemma weighted_bounds hi l r w : hi = 255%Z \/ hi = 65535%Z -> (0 <= l <= hi)%Z -> (0 <= r <= hi)%Z -> unit_weight w ->
  let o := weighted_channel_sum hi l r w (fsub (of_int 1) w) in
  (Z.min l r - 1 <= o <= Z.max l r)%Z /\ (0 <= o <= hi)%Z /\ mix l r (B2R w) - (1 + / 32) <= IZR o <= mix l r (B2R w) + / 32.
Proof.
  intros Hh Hl Hr Hw. assert (B : (0 < hi <= 65535)%Z) by lia. cbv zeta. unfold weighted_channel_sum.
  destruct (mix_R l r w ltac:(lia) ltac:(lia) Hw) as (F & E). rewrite clamp_R by assumption.
  set (x := B2R _) in *. destruct (unit_R w Hw) as (_ & Bw).
  assert (M : IZR (Z.min l r) <= mix l r (B2R w) <= IZR (Z.max l r)).
  { unfold mix. assert (IZR (Z.min l r) <= IZR l /\ IZR (Z.min l r) <= IZR r) by (split; apply IZR_le; lia).
    assert (IZR l <= IZR (Z.max l r) /\ IZR r <= IZR (Z.max l r)) by (split; apply IZR_le; lia). nra. }
  assert (M0 : 0 <= mix l r (B2R w) <= IZR hi).
  { assert (0 <= IZR (Z.min l r)) by (apply IZR_le; lia). assert (IZR (Z.max l r) <= IZR hi) by (apply IZR_le; lia). lra. }
  set (m := mix l r (B2R w)) in *. clearbody m x. apply Rabs_le_inv in E.
  assert (T1 : (Z.min l r - 1 <= Ztrunc x)%Z) by (apply trunc_ge; rewrite minus_IZR; lra).
  assert (T2 : (Ztrunc x <= Z.max l r)%Z).
  { destruct (Rle_or_lt 0 x) as [P|P]; [apply trunc_lt; [exact P|rewrite plus_IZR; lra]|].
    apply Rlt_le in P. apply Ztrunc_le in P. rewrite Ztrunc_IZR in P. lia. }
  assert (T3 : IZR (zclamp 0 hi (Ztrunc x)) <= m + / 32).
  { destruct (Rle_or_lt 0 x) as [P|P].
    - apply Rle_trans with (IZR (Ztrunc x)); [apply IZR_le; unfold zclamp; pose proof (trunc_ge 0 x P); lia|].
      rewrite Ztrunc_floor by assumption. pose proof (Zfloor_lb x). lra.
    - apply Rlt_le in P. apply Ztrunc_le in P. rewrite Ztrunc_IZR in P. replace (zclamp 0 hi (Ztrunc x)) with 0%Z by (unfold zclamp; lia). lra. }
  assert (T4 : m - (1 + / 32) <= IZR (zclamp 0 hi (Ztrunc x))).
  { assert (K : m - (1 + / 32) <= IZR (Z.max 0 (Ztrunc x))).
    { destruct (Rle_or_lt 0 x) as [P|P].
      - apply Rle_trans with (IZR (Ztrunc x)); [|apply IZR_le; lia]. rewrite Ztrunc_floor by assumption. pose proof (Zfloor_ub x). lra.
      - apply Rle_trans with 0; [lra|apply IZR_le; lia]. }
    unfold zclamp. destruct (Z.leb_spec (Ztrunc x) hi).
    - replace (Z.max 0 (Z.min hi (Ztrunc x))) with (Z.max 0 (Ztrunc x)) by lia. exact K.
    - replace (Z.max 0 (Z.min hi (Ztrunc x))) with hi by lia. lra. }
  split; [unfold zclamp; lia|]. split; [unfold zclamp; lia|]. lra.
Qed.

Lemma weighted_ends hi l r w : hi = 255%Z \/ hi = 65535%Z -> (0 <= l <= hi)%Z -> (0 <= r <= hi)%Z -> unit_weight w ->
  (B2R w = 1 -> weighted_channel_sum hi l r w (fsub (of_int 1) w) = l) /\
  (B2R w = 0 -> weighted_channel_sum hi l r w (fsub (of_int 1) w) = r).
Proof.
  intros Hh Hl Hr Hw. destruct (unit_R w Hw) as (Fw & Bw). destruct (int32_R 1) as (F1 & R1); [lia|].
  destruct (int32_R l) as (Fl & Rl); [lia|]. destruct (int32_R r) as (Fr & Rr); [lia|]. pose proof f32_big as BIG.
  assert (Bl : 0 <= IZR l <= 65535) by (split; apply IZR_le; lia). assert (Br : 0 <= IZR r <= 65535) by (split; apply IZR_le; lia).
  assert (Il : rn (IZR l) = IZR l) by (apply (rnd_int 24 128); lia). assert (Ir : rn (IZR r) = IZR r) by (apply (rnd_int 24 128); lia).
  destruct (fsub_R 24 128 (of_int 1) w F1 Fw) as (Fc & Rc). { rewrite R1. apply Rabs_le. lra. }
  assert (C01 : 0 <= B2R (fsub (of_int 1) w) <= 1). { rewrite Rc, R1. split; [apply rnd_ge0; lra|apply rnd_le1; lra]. }
  assert (L1 : 0 <= IZR l * B2R w <= 65535) by nra. assert (L2 : 0 <= IZR r * B2R (fsub (of_int 1) w) <= 65535) by nra.
  destruct (fmul_R 24 128 (of_int l) w Fl Fw) as (Fa & Ra). { rewrite Rl, Rabs_pos_eq by lra. lra. }
  destruct (fmul_R 24 128 (of_int r) (fsub (of_int 1) w) Fr Fc) as (Fb & Rb). { rewrite Rr, Rabs_pos_eq by lra. lra. }
  assert (BA : 0 <= rn (IZR l * B2R w) <= 65535).
  { split; [apply rnd_ge0; lra|]. rewrite <- (rnd_int 24 128 65535) by lia. apply (rnd_le 24 128); lra. }
  assert (BB : 0 <= rn (IZR r * B2R (fsub (of_int 1) w)) <= 65535).
  { split; [apply rnd_ge0; lra|]. rewrite <- (rnd_int 24 128 65535) by lia. apply (rnd_le 24 128); lra. }
  destruct (fadd_R 24 128 _ _ Fa Fb) as (F & R). { rewrite Ra, Rb, Rl, Rr. rewrite Rabs_pos_eq by lra. lra. }
  unfold weighted_channel_sum. rewrite clamp_R by (assumption || lia). rewrite R, Ra, Rb, Rc, R1, Rl, Rr.
  split; intros E; rewrite E.
  - rewrite Rmult_1_r, Il. replace (1 - 1) with 0 by ring. rewrite (rnd_0 24 128), Rmult_0_r, (rnd_0 24 128), Rplus_0_r, Il, Ztrunc_IZR.
    unfold zclamp. lia.
  - rewrite Rmult_0_r, (rnd_0 24 128). replace (1 - 0) with 1 by ring. rewrite rnd32_1, Rmult_1_r, Ir, Rplus_0_l, Ir, Ztrunc_IZR.
    unfold zclamp. lia.
Qed.

(** ** antialiased lines *)
Fixpoint walk (g fy : f32) (k : nat) : f32 := match k with O => fy | S k => walk g (fadd fy g) k end.
Lemma walk_S g fy k : walk g fy (S k) = fadd (walk g fy k) g.
Proof. revert fy. induction k as [|k IH]; intros fy; [reflexivity|]. cbn [walk] in *. rewrite <- IH. reflexivity. Qed.

Definition good_weights (fy : f32) : Prop := unit_weight (ffract fy) /\ unit_weight (fsub (of_int 1) (ffract fy)).

Section Agree.
  Context {A : Type} (b b' : A -> A -> f32 -> A) (Hb : agree_on_unit b b').
  Lemma plot_agree tr im x y c w : unit_weight w -> plot b tr im x y c w = plot b' tr im x y c w.
  Proof.
    intros Hw. unfold plot. destruct (tr x y) as (xt, yt). destruct (in_canvas im xt yt); [|reflexivity].
    destruct (get_pixel im xt yt); cbn [bind]; [|reflexivity|reflexivity]. rewrite Hb by assumption. reflexivity.
  Qed.
  Lemma step_agree tr c g x im fy : good_weights fy -> wu_step b tr c g x (im, fy) = wu_step b' tr c g x (im, fy).
  Proof.
    intros (H1 & H2). unfold wu_step. rewrite plot_agree by assumption. destruct (plot b' tr im x _ c _) as [im1| |]; cbn [bind]; [|reflexivity|reflexivity].
    destruct (chk_i 32 _); cbn [bind]; [|reflexivity|reflexivity]. rewrite plot_agree by assumption. reflexivity.
  Qed.
  Lemma loop_agree tr c g n : forall lo im fy, (forall k, (k < n)%nat -> good_weights (walk g fy k)) ->
    for_range lo (lo + Z.of_nat n) (wu_step b tr c g) (im, fy) = for_range lo (lo + Z.of_nat n) (wu_step b' tr c g) (im, fy).
  Proof.
    induction n as [|n IH]; intros lo im fy H.
    - rewrite !for_range_empty by lia. reflexivity.
    - rewrite !(for_range_cons lo) by lia. rewrite step_agree by (apply (H 0%nat); lia).
      replace (lo + Z.of_nat (S n))%Z with (lo + 1 + Z.of_nat n)%Z by lia.
      unfold wu_step at 1 3. destruct (plot b' tr im lo _ c _) as [im1| |]; cbn [bind]; [|reflexivity|reflexivity].
      destruct (chk_i 32 _); cbn [bind]; [|reflexivity|reflexivity]. destruct (plot b' tr im1 lo _ c _) as [im2| |]; cbn [bind]; [|reflexivity|reflexivity].
      apply IH. intros k Hk. apply (H (S k)). lia.
  Qed.
End Agree.

(** rising lines: the running coordinate stays in [0, 2^33] *)
Definition low (fy : f32) : Prop := is_finite fy = true /\ 0 <= B2R fy <= 8589934592.
Lemma fract_R (fy : f32) : low fy -> is_finite (ffract fy) = true /\ 0 <= B2R (ffract fy) <= 1.
Proof.
  intros (F & B). unfold ffract, ftrunc. destruct (nearby_R 24 128 mode_ZR fy F) as (Ft & Rt). cbn [round_mode] in Rt.
  assert (K : 0 <= B2R fy - IZR (Ztrunc (B2R fy)) <= 1).
  { rewrite Ztrunc_floor by lra. pose proof (Zfloor_lb (B2R fy)). pose proof (Zfloor_ub (B2R fy)). lra. }
  destruct (fsub_R 24 128 fy (Bnearbyint mode_ZR fy) F Ft) as (F1 & R1). { rewrite Rt. pose proof f32_big. rewrite Rabs_pos_eq; lra. }
  split; [exact F1|]. rewrite R1, Rt. split; [apply rnd_ge0; lra|apply rnd_le1; lra].
Qed.
Lemma low_good fy : low fy -> good_weights fy.
Proof.
  intros L. destruct (fract_R fy L) as (F & B). split; [apply R_unit; assumption|].
  destruct (int32_R 1) as (F1 & R1); [lia|]. destruct (fsub_R 24 128 (of_int 1) (ffract fy) F1 F) as (Fc & Rc).
  { rewrite R1. pose proof f32_big. rewrite Rabs_pos_eq; lra. }
  apply R_unit; [assumption|]. rewrite Rc, R1. split; [apply rnd_ge0; lra|apply rnd_le1; lra].
Qed.
Lemma stuck : rn (8589934592 + 1) = 8589934592.
Proof.
  pose (big := of_dyadic 8388608 10 : f32). pose (one := of_int 1 : f32).
  destruct (int32_R 1) as (F1 & R1); [lia|].
  destruct (dy_dyadic 24 128 10 8388608) as (Fb & Rb); [split; lia|lia|].
  fold big in Fb, Rb. change (bpow radix2 10) with 1024 in Rb.
  destruct (fadd_R 24 128 big one Fb F1) as (F & R). { rewrite Rb. unfold one. rewrite R1. pose proof f32_big. rewrite Rabs_pos_eq; lra. }
  assert (E : feq (fadd big one) big = true) by (vm_compute; reflexivity).
  unfold feq in E. rewrite (Beqb_correct 24 128) in E by assumption.
  destruct (Req_bool_spec (B2R (fadd big one)) (B2R big)) as [Q|]; [|discriminate].
  rewrite R, Rb in Q. change (B2R one) with (B2R (of_int 1 : f32)) in Q. rewrite R1 in Q.
  replace (8388608 * 1024) with 8589934592 in Q by ring. exact Q.
Qed.
Lemma low_step fy g : low fy -> is_finite g = true -> 0 <= B2R g <= 1 -> low (fadd fy g).
Proof.
  intros (F & B) Fg Bg. destruct (fadd_R 24 128 fy g F Fg) as (F1 & R1). { pose proof f32_big. rewrite Rabs_pos_eq; lra. }
  split; [exact F1|]. rewrite R1. split; [apply rnd_ge0; lra|]. rewrite <- stuck. apply (rnd_le 24 128). lra.
Qed.
Lemma low_walk g k : is_finite g = true -> 0 <= B2R g <= 1 -> forall fy, low fy -> low (walk g fy k).
Proof. intros Fg Bg. induction k as [|k IH]; intros fy L; [exact L|]. cbn [walk]. apply IH. apply low_step; assumption. Qed.
Lemma low_int y : (0 <= y < 2 ^ 31)%Z -> low (of_int y).
Proof.
  intros H. assert (B : 0 <= IZR y <= 2147483648) by (split; apply IZR_le; lia). pose proof f32_big.
  destruct (of_int_R 24 128 y) as (F & R); [rewrite Rabs_pos_eq; lra|]. split; [exact F|]. rewrite R.
  split; [apply rnd_ge0; lra|]. rewrite <- stuck. apply (rnd_le 24 128). lra.
Qed.
Lemma gradient_R dy dx : (0 <= dy <= dx)%Z -> (0 < dx < 2 ^ 31)%Z ->
  is_finite (fdiv (of_int dy) (of_int dx) : f32) = true /\ 0 <= B2R (fdiv (of_int dy) (of_int dx) : f32) <= 1.
Proof.
  intros H H0. assert (B : 0 <= IZR dy <= IZR dx) by (split; apply IZR_le; lia).
  assert (B' : 1 <= IZR dx <= 2147483648) by (split; apply IZR_le; lia). pose proof f32_big.
  destruct (of_int_R 24 128 dy) as (F1 & R1); [rewrite Rabs_pos_eq; lra|].
  destruct (of_int_R 24 128 dx) as (F2 & R2); [rewrite Rabs_pos_eq; lra|].
  assert (X : 1 <= rn (IZR dx)) by (apply rnd_ge1; lra). assert (Y : 0 <= rn (IZR dy)) by (apply rnd_ge0; lra).
  assert (Z : rn (IZR dy) <= rn (IZR dx)) by (apply (rnd_le 24 128); lra).
  assert (Q : 0 <= rn (IZR dy) / rn (IZR dx) <= 1).
  { split; [apply Rmult_le_pos; [assumption|apply Rlt_le, Rinv_0_lt_compat; lra]|].
    apply (Rmult_le_reg_r (rn (IZR dx))); [lra|]. unfold Rdiv. rewrite Rmult_assoc, Rinv_l by lra. lra. }
  destruct (fdiv_R 24 128 (of_int dy) (of_int dx) F1) as (F & R); [rewrite R2; lra|rewrite R1, R2, Rabs_pos_eq; lra|].
  split; [exact F|]. rewrite R, R1, R2. split; [apply rnd_ge0; lra|apply rnd_le1; lra].
Qed.

Lemma wu_agree {A} (b b' : A -> A -> f32 -> A) tr im start end_ color : agree_on_unit b b' ->
  (fst start <= fst end_)%Z -> (0 <= snd start <= snd end_)%Z -> (snd start < 2 ^ 31)%Z -> (snd end_ - snd start <= fst end_ - fst start)%Z ->
  plot_wu_line b tr im start end_ color = plot_wu_line b' tr im start end_ color.
Proof.
  intros Hb Hx Hy Hs Hg. unfold plot_wu_line.
  destruct (chk_i 32 (fst end_ - fst start)) as [dx| |] eqn:E1; cbn [bind]; [|reflexivity|reflexivity].
  destruct (chk_i 32 (snd end_ - snd start)) as [dy| |] eqn:E2; cbn [bind]; [|reflexivity|reflexivity].
  destruct (chk_i 32 (fst end_ + 1)) as [stop| |] eqn:E3; cbn [bind]; [|reflexivity|reflexivity].
  unfold chk_i in E1, E2, E3.
  destruct (i_fits 32 (fst end_ - fst start)) eqn:I1; [|discriminate]. destruct (i_fits 32 (snd end_ - snd start)); [|discriminate].
  destruct (i_fits 32 (fst end_ + 1)); [|discriminate]. inversion E1; inversion E2; inversion E3; subst. clear E1 E2 E3.
  unfold i_fits in I1. 
  set (g := fdiv _ _ : f32). set (n := Z.to_nat (fst end_ + 1 - fst start)).
  replace (fst end_ + 1)%Z with (fst start + Z.of_nat n)%Z by lia.
  rewrite (loop_agree b b' Hb); [reflexivity|]. intros k Hk. apply low_good.
  destruct (Z.eqb_spec (fst end_ - fst start) 0) as [E0|N0].
  - assert (k = 0%nat) by lia. subst k. cbn [walk]. apply low_int. lia.
  - destruct (gradient_R (snd end_ - snd start) (fst end_ - fst start)) as (Fg & Bg); [lia|lia|].
    apply low_walk; [exact Fg|exact Bg|]. apply low_int. lia.
Qed.

(** ** what gets painted *)
Section Paint.
  Context {A : Type} (b : A -> A -> f32 -> A) (tr : Z -> Z -> Z * Z) (color : A).
  Hypothesis (tr_inj : forall x y x' y', tr x y = tr x' y' -> x = x' /\ y = y').
  Definition at_p (im : image A) (p : Z * Z) : option A := get im (fst p) (snd p).

  Lemma plot_ok im x y w : cdim im -> exists im', plot b tr im x y color w = Ok im' /\ cdim im' /\ iw im' = iw im /\ ih im' = ih im /\
    forall x' y', at_p im' (tr x' y') = if ((x' =? x) && (y' =? y))%bool%Z then option_map (fun o => b color o w) (at_p im (tr x' y')) else at_p im (tr x' y').
  Proof.
    intros C. pose proof C as (W & _). unfold plot. destruct (tr x y) as (xt, yt) eqn:T. rewrite in_canvas_inb by assumption.
    destruct (inb im xt yt) eqn:I.
    - apply inb_spec in I. destruct I as (Ix & Iy). destruct (get_some im xt yt W Ix Iy) as (o & Go).
      rewrite (proj2 (get_pixel_ok im xt yt o) Go). cbn [bind]. rewrite put_pixel_ok by assumption. eexists. split; [reflexivity|].
      split; [destruct C as (_ & C1 & C2); split; [apply wf_put; assumption|split; assumption]|]. split; [reflexivity|]. split; [reflexivity|].
      intros x' y'. unfold at_p. rewrite get_put by assumption.
      destruct (Z.eqb_spec x' x) as [->|Nx]; destruct (Z.eqb_spec y' y) as [->|Ny]; cbn [andb].
      + rewrite T. cbn [fst snd]. rewrite !Z.eqb_refl. cbn [andb]. rewrite Go. reflexivity.
      + destruct (tr x y') as (a, c) eqn:T'. cbn [fst snd]. destruct (Z.eqb_spec a xt); destruct (Z.eqb_spec c yt); subst; cbn [andb]; try reflexivity.
        rewrite <- T' in T. apply tr_inj in T. lia.
      + destruct (tr x' y) as (a, c) eqn:T'. cbn [fst snd]. destruct (Z.eqb_spec a xt); destruct (Z.eqb_spec c yt); subst; cbn [andb]; try reflexivity.
        rewrite <- T' in T. apply tr_inj in T. lia.
      + destruct (tr x' y') as (a, c) eqn:T'. cbn [fst snd]. destruct (Z.eqb_spec a xt); destruct (Z.eqb_spec c yt); subst; cbn [andb]; try reflexivity.
        rewrite <- T' in T. apply tr_inj in T. lia.
    - exists im. split; [reflexivity|]. split; [assumption|]. split; [reflexivity|]. split; [reflexivity|]. intros x' y'.
      destruct (Z.eqb_spec x' x) as [->|Nx]; destruct (Z.eqb_spec y' y) as [->|Ny]; cbn [andb]; try reflexivity.
      unfold at_p. rewrite T. cbn [fst snd]. rewrite get_none by (apply inb_false; assumption). reflexivity.
  Qed.

  Definition painted (im : image A) (fy : f32) (x y : Z) : option A :=
    if (y =? i32_of_f32 fy)%Z then option_map (fun o => b color o (fsub (of_int 1) (ffract fy))) (at_p im (tr x y))
    else if (y =? i32_of_f32 fy + 1)%Z then option_map (fun o => b color o (ffract fy)) (at_p im (tr x y))
    else at_p im (tr x y).

  Lemma paint_ok im g fy lo n : cdim im -> (forall k, (k < n)%nat -> (- 2 ^ 31 <= i32_of_f32 (walk g fy k) < 2 ^ 31 - 1)%Z) ->
    exists im' last, for_range lo (lo + Z.of_nat n) (wu_step b tr color g) (im, fy) = Ok (im', last) /\ cdim im' /\ iw im' = iw im /\ ih im' = ih im /\
    forall x y, at_p im' (tr x y) = if ((lo <=? x) && (x <? lo + Z.of_nat n))%bool%Z then painted im (walk g fy (Z.to_nat (x - lo))) x y else at_p im (tr x y).
  Proof.
    intros C Hk.
    destruct (for_range_ind (fun x (st : image A * f32) => let '(im', f) := st in
       f = walk g fy (Z.to_nat (x - lo)) /\ cdim im' /\ iw im' = iw im /\ ih im' = ih im /\
       forall x' y, at_p im' (tr x' y) = if ((lo <=? x') && (x' <? x))%bool%Z then painted im (walk g fy (Z.to_nat (x' - lo))) x' y else at_p im (tr x' y))
     lo (lo + Z.of_nat n) (wu_step b tr color g) (im, fy)) as ((im' & last) & E & _ & K).
    - lia.
    - rewrite Z.sub_diag. split; [reflexivity|]. split; [assumption|]. split; [reflexivity|]. split; [reflexivity|]. intros x' y.
      destruct (Z.leb_spec lo x'); destruct (Z.ltb_spec x' lo); cbn [andb]; try reflexivity; lia.
    - intros x (im1 & f) Hx (-> & C1 & W1 & H1 & P1). set (f := walk g fy (Z.to_nat (x - lo))) in *.
      pose proof (Hk (Z.to_nat (x - lo)) ltac:(lia)) as Rf. fold f in Rf.
      unfold wu_step at 1. destruct (plot_ok im1 x (i32_of_f32 f) (fsub (of_int 1) (ffract f)) C1) as (im2 & -> & C2 & W2 & H2 & P2). cbn [bind].
      rewrite chk_i_ok by lia. cbn [bind].
      destruct (plot_ok im2 x (i32_of_f32 f + 1) (ffract f) C2) as (im3 & -> & C3 & W3 & H3 & P3). cbn [bind].
      eexists. split; [reflexivity|]. cbv beta iota. split; [|split; [assumption|split; [congruence|split; [congruence|]]]].
      + replace (Z.to_nat (x + 1 - lo)) with (S (Z.to_nat (x - lo))) by lia. rewrite walk_S. reflexivity.
      + intros x' y. rewrite P3, P2, P1. destruct (Z.eqb_spec x' x) as [->|Nx]; cbn [andb].
        * replace ((lo <=? x) && (x <? x))%bool%Z with false by lia. replace ((lo <=? x) && (x <? x + 1))%bool%Z with true by lia.
          fold f. unfold painted. destruct (Z.eqb_spec y (i32_of_f32 f)) as [->|]; [|reflexivity].
          replace (i32_of_f32 f =? i32_of_f32 f + 1)%Z with false by lia. reflexivity.
        * replace (x' <? x + 1)%Z with (x' <? x)%Z by lia. reflexivity.
    - exists im', last. split; [exact E|]. exact K.
  Qed.
End Paint.

Section Close.
  Context (y0 dy dx : Z) (Hy0 : (0 <= y0 <= 1000)%Z) (Hy1 : (0 <= y0 + dy <= 1000)%Z) (Hdx : (0 < dx <= 1000)%Z) (Hg : (Z.abs dy <= dx)%Z).
  Let slope : R := IZR dy / IZR dx.
  Let g : f32 := fdiv (of_int dy) (of_int dx).
  Definition ideal (k : nat) : R := IZR y0 + INR k * slope.

  Lemma slope_bounds : -1 <= slope <= 1.
  Proof.
    assert (1 <= IZR dx) by (apply IZR_le; lia). assert (- IZR dx <= IZR dy <= IZR dx) by (split; [rewrite <- opp_IZR|]; apply IZR_le; lia).
    unfold slope. split; apply (Rmult_le_reg_r (IZR dx)); try lra; unfold Rdiv; rewrite Rmult_assoc, Rinv_l by lra; lra.
  Qed.
  Lemma ideal_bounds k : (Z.of_nat k <= dx)%Z -> 0 <= ideal k <= 1000.
  Proof.
    intros H. unfold ideal. assert (D : 1 <= IZR dx) by (apply IZR_le; lia).
    assert (E : IZR dx * slope = IZR dy) by (unfold slope; field; lra).
    assert (B0 : 0 <= IZR y0 <= 1000) by (split; apply IZR_le; lia).
    assert (B1 : 0 <= IZR y0 + IZR dy <= 1000) by (rewrite <- plus_IZR; split; apply IZR_le; lia).
    assert (K : 0 <= INR k <= IZR dx). { rewrite INR_IZR_INZ. split; apply IZR_le; lia. }
    set (s := slope) in *. clearbody s. set (d := IZR dx) in *. set (q := INR k) in *. clearbody d q.
    assert (M : (d * (IZR y0 + q * s)) = ((d - q) * IZR y0 + q * (IZR y0 + IZR dy))) by (rewrite <- E; ring).
    split; apply (Rmult_le_reg_l d); try lra; rewrite M.
    - rewrite Rmult_0_r. apply Rplus_le_le_0_compat; apply Rmult_le_pos; lra.
    - replace (d * 1000) with ((d - q) * 1000 + q * 1000) by ring. apply Rplus_le_compat; apply Rmult_le_compat_l; lra.
  Qed.
  Lemma int32_abs z : (Z.abs z <= 2 ^ 24)%Z -> is_finite (of_int z : f32) = true /\ B2R (of_int z : f32) = IZR z.
  Proof.
    intros H. pose proof f32_big. assert (B : Rabs (IZR z) <= 16777216) by (rewrite <- abs_IZR; apply IZR_le; lia).
    destruct (of_int_R 24 128 z) as (F & R); [lra|]. split; [exact F|]. rewrite R. apply (rnd_int 24 128). lia.
  Qed.
  Lemma g_R : is_finite g = true /\ Rabs (B2R g - slope) <= / 1000000 /\ Rabs (B2R g) <= 2.
  Proof.
    destruct (int32_abs dy) as (F1 & R1); [lia|]. destruct (int32_abs dx) as (F2 & R2); [lia|].
    assert (1 <= IZR dx) by (apply IZR_le; lia). pose proof slope_bounds as S. pose proof f32_big.
    destruct (fdiv_R 24 128 (of_int dy) (of_int dx) F1) as (F & R); [rewrite R2; lra|rewrite R1, R2; fold slope; apply Rabs_le; lra|].
    fold g in F, R. rewrite R1, R2 in R. fold slope in R. split; [exact F|].
    pose proof (err_le slope 1 ltac:(apply Rabs_le; lra)) as E. rewrite <- R in E. apply Rabs_le_inv in E. split; apply Rabs_le; lra.
  Qed.
  Lemma walk_close k : (Z.of_nat k <= dx)%Z ->
    is_finite (walk g (of_int y0) k) = true /\ Rabs (B2R (walk g (of_int y0) k) - ideal k) <= INR k / 10000.
  Proof.
    destruct g_R as (Fg & Eg & Bg). induction k as [|k IH]; intros Hk.
    - cbn [walk]. destruct (int32_abs y0) as (F & R); [lia|]. split; [exact F|]. rewrite R. unfold ideal. cbn [INR].
      apply Rabs_le. lra.
    - destruct IH as (F & E); [lia|]. rewrite walk_S. set (f := walk g (of_int y0) k) in *. clearbody f.
      pose proof (ideal_bounds k ltac:(lia)) as B.
      assert (K : 0 <= INR k <= 1000). { rewrite INR_IZR_INZ. split; apply IZR_le; lia. }
      assert (S : Rabs (B2R f + B2R g) <= 1003). { apply Rabs_le. apply Rabs_le_inv in E, Bg. lra. }
      destruct (fadd_R 24 128 f g F Fg) as (F1 & R1); [pose proof f32_big; lra|]. split; [exact F1|].
      pose proof (err_le _ _ S) as Er. rewrite <- R1 in Er. rewrite S_INR.
      replace (ideal (Datatypes.S k)) with (ideal k + slope) by (unfold ideal; rewrite S_INR; ring).
      apply Rabs_le. apply Rabs_le_inv in Er, E, Eg. lra.
  Qed.
End Close.

(** weights and rows of one column, from a position within 1/10 of the ideal one *)
Lemma column f L : is_finite f = true -> 0 <= L <= 1000 -> Rabs (B2R f - L) <= / 10 ->
  let t := i32_of_f32 f in
  (-1 <= t <= 1001)%Z /\
  (is_finite (fsub (of_int 1) (ffract f)) = true /\ Rabs (B2R (fsub (of_int 1) (ffract f)) - (1 - Rabs (IZR t - L))) <= / 8 /\ Rabs (IZR t - L) <= 9 / 8) /\
  (is_finite (ffract f) = true /\ Rabs (B2R (ffract f) - (1 - Rabs (IZR (t + 1) - L))) <= / 8 /\ Rabs (IZR (t + 1) - L) <= 9 / 8) /\
  (forall y, y <> t -> y <> (t + 1)%Z -> 7 / 8 <= Rabs (IZR y - L)).
Proof.
  intros F HL E. cbv zeta. unfold i32_of_f32. rewrite (to_int_R 24 128) by (first [assumption|reflexivity]).
  pose proof E as E'. apply Rabs_le_inv in E'. pose proof f32_big as BIG.
  destruct (nearby_R 24 128 mode_ZR f F) as (Ft & Rt). cbn [round_mode] in Rt.
  assert (T : (-1 <= Ztrunc (B2R f) <= 1001)%Z /\
    ((0 <= B2R f /\ 0 <= B2R f - IZR (Ztrunc (B2R f)) < 1) \/ (- / 10 <= B2R f < 0 /\ Ztrunc (B2R f) = 0%Z))).
  { destruct (Rle_or_lt 0 (B2R f)) as [P|P].
    - rewrite Ztrunc_floor by assumption. pose proof (Zfloor_lb (B2R f)). pose proof (Zfloor_ub (B2R f)). split; [|left; lra].
      split; [apply Z.le_trans with 0%Z; [lia|apply Zfloor_lub; exact P]|].
      apply Z.lt_succ_r. apply lt_IZR. rewrite succ_IZR. lra.
    - rewrite Ztrunc_ceil by lra.
      assert (Zc : Zceil (B2R f) = 0%Z) by (apply Zceil_imp; change (0 - 1)%Z with (-1)%Z; lra). rewrite Zc. split; [lia|]. right. split; [lra|reflexivity]. }
  destruct T as (T1 & T2). replace (zclamp (- 2 ^ 31) (2 ^ 31 - 1) (Ztrunc (B2R f))) with (Ztrunc (B2R f)) by (unfold zclamp; lia).
  set (t := Ztrunc (B2R f)) in *. clearbody t.
  assert (D : Rabs (B2R f - IZR t) <= 1) by (apply Rabs_le; destruct T2 as [?|(? & ->)]; lra).
  destruct (fsub_R 24 128 f (Bnearbyint mode_ZR f) F Ft) as (Fr & Rr); [rewrite Rt; lra|]. rewrite Rt in Rr.
  change (fsub f (Bnearbyint mode_ZR f)) with (ffract f) in Fr, Rr.
  pose proof (err_le _ _ D) as Er. rewrite <- Rr in Er. apply Rabs_le_inv in Er.
  destruct (int32_R 1) as (F1 & R1); [lia|].
  destruct (fsub_R 24 128 (of_int 1) (ffract f) F1 Fr) as (Fc & Rc). { rewrite R1. apply Rabs_le. apply Rabs_le_inv in D. lra. }
  rewrite R1 in Rc. assert (D2 : Rabs (1 - B2R (ffract f)) <= 3) by (apply Rabs_le; apply Rabs_le_inv in D; lra).
  pose proof (err_le _ _ D2) as Ec. rewrite <- Rc in Ec. apply Rabs_le_inv in Ec.
  set (w0 := B2R (fsub (of_int 1) (ffract f))) in *. set (w1 := B2R (ffract f)) in *. set (x := B2R f) in *. clearbody w0 w1 x.
  split; [assumption|]. rewrite plus_IZR.
  destruct T2 as [(P & T2)|(P & ->)].
  - split; [split; [exact Fc|]|split; [split; [exact Fr|]|]].
    + destruct (Rabs_le_inv _ _ D). unfold Rabs at 2 3. destruct (Rcase_abs (IZR t - L)); split; try apply Rabs_le; lra.
    + unfold Rabs at 2 3. destruct (Rcase_abs (IZR t + 1 - L)); split; try apply Rabs_le; lra.
    + intros y N1 N2. assert (y <= t - 1 \/ t + 2 <= y)%Z as [K|K] by lia; apply IZR_le in K; [rewrite minus_IZR in K|rewrite plus_IZR in K];
        unfold Rabs; destruct (Rcase_abs (IZR y - L)); lra.
  - split; [split; [exact Fc|]|split; [split; [exact Fr|]|]].
    + unfold Rabs at 2 3. destruct (Rcase_abs (0 - L)); split; try apply Rabs_le; lra.
    + unfold Rabs at 2 3. destruct (Rcase_abs (0 + 1 - L)); split; try apply Rabs_le; lra.
    + intros y N1 N2. assert (y <= -1 \/ 2 <= y)%Z as [K|K] by lia; apply IZR_le in K;
        unfold Rabs; destruct (Rcase_abs (IZR y - L)); lra.
Qed.

(** one line in the frame of the loop *)
Lemma wu_paints {A} (b : A -> A -> f32 -> A) tr im x0 y0 x1 y1 color : cdim im ->
  (forall x y x' y', tr x y = tr x' y' -> x = x' /\ y = y') ->
  (0 <= x0 <= x1)%Z -> (x1 <= 1000)%Z -> (0 <= y0 <= 1000)%Z -> (0 <= y1 <= 1000)%Z -> (Z.abs (y1 - y0) <= x1 - x0)%Z ->
  exists im', plot_wu_line b tr im (x0, y0) (x1, y1) color = Ok im' /\ cdim im' /\ iw im' = iw im /\ ih im' = ih im /\
    forall x y o, at_p im (tr x y) = Some o ->
      wu_result b color o (IZR y - (IZR y0 + IZR (x - x0) * (IZR (y1 - y0) / IZR (x1 - x0)))) (x0 <= x <= x1)%Z (at_p im' (tr x y)).
Proof.
  intros C Inj Hx Hx1 Hy0 Hy1 Hg. unfold plot_wu_line. cbn [fst snd]. rewrite !chk_i_ok by lia. cbn [bind].
  set (g := fdiv _ _ : f32). set (n := Z.to_nat (x1 + 1 - x0)). replace (x1 + 1)%Z with (x0 + Z.of_nat n)%Z by lia.
  assert (K : forall k, (k < n)%nat -> let L := IZR y0 + INR k * (IZR (y1 - y0) / IZR (x1 - x0)) in
     is_finite (walk g (of_int y0) k) = true /\ 0 <= L <= 1000 /\ Rabs (B2R (walk g (of_int y0) k) - L) <= / 10).
  { intros k Hk. cbv zeta. destruct (Z.eqb_spec x0 x1) as [->|N].
    - assert (k = 0)%nat by lia. subst k. cbn [walk INR]. destruct (int32_R y0) as (F & R); [lia|]. split; [exact F|]. rewrite R, Rmult_0_l, Rplus_0_r.
      split; [split; apply IZR_le; lia|]. rewrite Rminus_diag_eq by reflexivity. rewrite Rabs_R0. lra.
    - destruct (walk_close y0 (y1 - y0) (x1 - x0) ltac:(lia) ltac:(lia) ltac:(lia) ltac:(lia) k ltac:(lia)) as (F & E).
      split; [exact F|]. split; [apply ideal_bounds; lia|]. eapply Rle_trans; [exact E|].
      assert (INR k <= 1000). { rewrite INR_IZR_INZ. apply IZR_le. lia. } lra. }
  destruct (paint_ok b tr color Inj im g (of_int y0) x0 n C) as (im' & last & -> & C' & W' & H' & P).
  { intros k Hk. destruct (K k Hk) as (F & B & E). destruct (column _ _ F B E) as (R & _). lia. }
  cbn [bind]. exists im'. split; [reflexivity|]. split; [assumption|]. split; [assumption|]. split; [assumption|].
  intros x y o Go. rewrite P. destruct (Z.leb_spec x0 x); [destruct (Z.ltb_spec x (x0 + Z.of_nat n))|]; cbn [andb].
  2: { right. split; [left; lia|assumption]. } 2: { right. split; [left; lia|assumption]. }
  destruct (K (Z.to_nat (x - x0)) ltac:(lia)) as (F & B & E). destruct (column _ _ F B E) as (_ & C0 & C1 & C2). clear K.
  rewrite INR_IZR_INZ in C0, C1, C2. rewrite Z2Nat.id in C0, C1, C2 by lia. unfold painted. rewrite Go. cbn [option_map].
  destruct (Z.eqb_spec y (i32_of_f32 (walk g (of_int y0) (Z.to_nat (x - x0))))) as [->|N0].
  - left. split; [lia|]. destruct C0 as (c1 & c2 & c3). split; [exact c3|]. eauto.
  - destruct (Z.eqb_spec y (i32_of_f32 (walk g (of_int y0) (Z.to_nat (x - x0))) + 1)) as [->|N1].
    + left. split; [lia|]. destruct C1 as (c1 & c2 & c3). split; [exact c3|]. eauto.
    + right. split; [right; apply C2; assumption|reflexivity].
Qed.
