(** C101: rotation about a point. *)
From Flocq Require Import Core BinarySingleNaN.
From Coq Require Import Reals Lra Psatz.
From Verif Require Import Base BaseProofs Float FloatProofs FloatErr ProjModel WarpModel WarpSpec WarpProofs WarpProofs2 Props_Warp WuProofs HogCellsModel HogCellsProofs RotateSpec.
Local Ltac Zify.zify_post_hook ::= idtac.
Local Open Scope R_scope.

(** ** a sine and cosine as required exist for every angle *)
Definition nearby (r : R) : f32 := fdiv (of_int (ZnearestE (r * 8388608))) (of_int 8388608).
Lemma nearby_ok r : -1 <= r <= 1 -> is_finite (nearby r) = true /\ Rabs (B2R (nearby r)) <= 1 /\ Rabs (B2R (nearby r) - r) <= / 4194304.
Proof.
  intros H. unfold nearby. set (m := ZnearestE (r * 8388608)).
  pose proof (Znearest_half (fun x => negb (Z.even x)) (r * 8388608)) as NH. fold m in NH. apply Rabs_le_inv in NH.
  assert (B : (-8388608 <= m <= 8388608)%Z).
  { split; apply le_IZR; [|].
    - destruct (Rle_lt_dec (-8388608) (IZR m)) as [|L]; [assumption|]. exfalso. assert (m <= -8388609)%Z by (assert (m < -8388608)%Z by (apply lt_IZR; exact L); lia). apply IZR_le in H0. lra.
    - destruct (Rle_lt_dec (IZR m) 8388608) as [|L]; [assumption|]. exfalso. assert (8388609 <= m)%Z by (assert (8388608 < m)%Z by (apply lt_IZR; exact L); lia). apply IZR_le in H0. lra. }
  destruct (of_int_R 24 128 m) as (F & R). { rewrite <- abs_IZR. pose proof f32_big. assert (IZR (Z.abs m) <= 8388608) by (apply IZR_le; lia). lra. }
  rewrite (rnd_int 24 128) in R by lia.
  destruct (int32_R 8388608 ltac:(lia)) as (F2 & R2).
  assert (Q : -1 <= IZR m / 8388608 <= 1) by (destruct B as (B1 & B2); apply IZR_le in B1, B2; lra).
  destruct (fdiv_R 24 128 (of_int m : f32) (of_int 8388608) F) as (F3 & R3). { rewrite R2. lra. }
  { rewrite R, R2. pose proof f32_big. apply Rabs_le. lra. }
  rewrite R, R2 in R3. split; [exact F3|]. pose proof (f32_err (IZR m / 8388608)) as E.
  assert (A : Rabs (IZR m / 8388608) <= 1) by (apply Rabs_le; lra).
  split.
  - rewrite R3. apply Rabs_le. assert (O : rnd 24 128 1 = 1) by (apply (rnd_int 24 128 1); lia). assert (O' : rnd 24 128 (-1) = -1) by (apply (rnd_int 24 128 (-1)); lia).
    assert (K1 : rnd 24 128 (-1) <= rnd 24 128 (IZR m / 8388608)) by (apply (rnd_le 24 128); lra).
    assert (K2 : rnd 24 128 (IZR m / 8388608) <= rnd 24 128 1) by (apply (rnd_le 24 128); lra). lra.
  - rewrite R3. apply Rabs_le_inv in E. apply Rabs_le. lra.
Qed.
Theorem c101_sincos_exists : forall t, sincos_ok t (nearby (sin t)) (nearby (cos t)).
Proof. intros t. split; apply nearby_ok; [apply SIN_bound|apply COS_bound]. Qed.
Print Assumptions c101_sincos_exists.

(** ** exact products and sums *)
Definition ex (f : f32) (r : R) : Prop := is_finite f = true /\ B2R f = r.
Definition small (r : R) : Prop := Rabs r <= 1000000000.
Lemma small_big r : small r -> Rabs r <= bpow radix2 (128 - 1).
Proof. intros H. pose proof f32_big. unfold small in H. lra. Qed.
Lemma small_0 : small 0. Proof. unfold small. rewrite Rabs_R0. lra. Qed.
Lemma rnd_B2R (f : f32) : rnd 24 128 (B2R f) = B2R f.
Proof. apply (rnd_id 24 128). apply generic_format_B2R. Qed.
Lemma mul_0_l f g : ex f 0 -> is_finite g = true -> ex (fmul f g) 0.
Proof.
  intros (F & R) G. destruct (fmul_R 24 128 f g F G) as (F' & R'). { rewrite R, Rmult_0_l. apply small_big, small_0. }
  split; [exact F'|]. rewrite R', R, Rmult_0_l. apply (rnd_0 24 128).
Qed.
Lemma mul_0_r f g : is_finite f = true -> ex g 0 -> ex (fmul f g) 0.
Proof.
  intros F (G & R). destruct (fmul_R 24 128 f g F G) as (F' & R'). { rewrite R, Rmult_0_r. apply small_big, small_0. }
  split; [exact F'|]. rewrite R', R, Rmult_0_r. apply (rnd_0 24 128).
Qed.
Lemma mul_1_l f g r : ex f 1 -> ex g r -> small r -> ex (fmul f g) r.
Proof.
  intros (F & R) (G & Rg) S. destruct (fmul_R 24 128 f g F G) as (F' & R'). { rewrite R, Rmult_1_l, Rg. apply small_big, S. }
  split; [exact F'|]. rewrite R', R, Rmult_1_l, rnd_B2R. exact Rg.
Qed.
Lemma mul_1_r f g r : ex f r -> ex g 1 -> small r -> ex (fmul f g) r.
Proof.
  intros (F & Rf) (G & R) S. destruct (fmul_R 24 128 f g F G) as (F' & R'). { rewrite R, Rmult_1_r, Rf. apply small_big, S. }
  split; [exact F'|]. rewrite R', R, Rmult_1_r, rnd_B2R. exact Rf.
Qed.
Lemma add_0_r f g r : ex f r -> ex g 0 -> small r -> ex (fadd f g) r.
Proof.
  intros (F & Rf) (G & R) S. destruct (fadd_R 24 128 f g F G) as (F' & R'). { rewrite R, Rplus_0_r, Rf. apply small_big, S. }
  split; [exact F'|]. rewrite R', R, Rplus_0_r, rnd_B2R. exact Rf.
Qed.
Lemma add_0_l f g r : ex f 0 -> ex g r -> small r -> ex (fadd f g) r.
Proof.
  intros (F & R) (G & Rg) S. destruct (fadd_R 24 128 f g F G) as (F' & R'). { rewrite R, Rplus_0_l, Rg. apply small_big, S. }
  split; [exact F'|]. rewrite R', R, Rplus_0_l, rnd_B2R. exact Rg.
Qed.
Lemma ex_neg f r : ex f r -> ex (fneg f) (- r).
Proof. intros (F & R). split; [unfold fneg; rewrite is_finite_Bopp; exact F|]. unfold fneg. rewrite B2R_Bopp, R. reflexivity. Qed.
Lemma ex_0 : ex (of_int 0) 0. Proof. split; [reflexivity|vm_compute; reflexivity]. Qed.
Lemma ex_1 : ex (of_int 1) 1. Proof. exact (int32_R 1 ltac:(lia)). Qed.

(** the same with [ap] on one side *)
Lemma ap_ex f V M e : ap f V M e -> ex f (B2R f).
Proof. intros (F & _). split; [exact F|reflexivity]. Qed.
Lemma ap_transfer f g V M e : ap f V M e -> ex g (B2R f) -> ap g V M e.
Proof. intros (F & E & B) (G & R). split; [exact G|]. rewrite R. split; assumption. Qed.
Lemma ex_ap f r M : ex f r -> Rabs r <= M -> ap f r M 0.
Proof. intros (F & R) H. split; [exact F|]. rewrite R, Rminus_diag_eq, Rabs_R0 by reflexivity. split; [lra|exact H]. Qed.

(** ** the inverse of the composed projection *)
Section Inverse.
  Context (N : R) (cx cy s c : f32) (x y : Z).
  Hypothesis HN : 1 <= N <= 32768.
  Hypothesis Hcx : is_finite cx = true.
  Hypothesis Hcy : is_finite cy = true.
  Hypothesis Bcx : Rabs (B2R cx) <= N.
  Hypothesis Bcy : Rabs (B2R cy) <= N.
  Hypothesis Hs : is_finite s = true.
  Hypothesis Hc : is_finite c = true.
  Hypothesis Bs : Rabs (B2R s) <= 1.
  Hypothesis Bc : Rabs (B2R c) <= 1.
  Hypothesis Hx : (0 <= x)%Z.
  Hypothesis Hy : (0 <= y)%Z.
  Hypothesis Bx : IZR x <= N.
  Hypothesis By : IZR y <= N.

  Let p := compose num_f32 (compose num_f32 (translate num_f32 cx cy) (rotate num_f32 s c)) (translate num_f32 (fneg cx) (fneg cy)).
  Let S := B2R s.
  Let C := B2R c.
  Let X := B2R cx.
  Let Y := B2R cy.

  Lemma sm r : Rabs r <= 5 * N -> small r.
  Proof. unfold small. lra. Qed.

  Lemma pre_image : let q := apply num_f32 (invert p) (of_int x) (of_int y) in
    ap (fst q) (C * IZR x + S * IZR y + (C * - X + S * - Y + X)) (5 * N) (17 * N / 16777216) /\
    ap (snd q) (- S * IZR x + C * IZR y + (- S * - X + C * - Y + Y)) (5 * N) (17 * N / 16777216).
  Proof.
    assert (Es : ex s S) by (split; [assumption|reflexivity]). assert (Ec : ex c C) by (split; [assumption|reflexivity]).
    assert (Ex : ex cx X) by (split; [assumption|reflexivity]). assert (Ey : ex cy Y) by (split; [assumption|reflexivity]).
    pose proof (ex_neg _ _ Es) as Ens. pose proof (ex_neg _ _ Ex) as Enx. pose proof (ex_neg _ _ Ey) as Eny.
    pose proof ex_0 as E0. pose proof ex_1 as E1.
    assert (Ix : ex (of_int x) (IZR x)). { apply int32_R. split; [exact Hx|]. apply le_IZR. change (IZR (2 ^ 24)) with 16777216. lra. }
    assert (Iy : ex (of_int y) (IZR y)). { apply int32_R. split; [exact Hy|]. apply le_IZR. change (IZR (2 ^ 24)) with 16777216. lra. }
    assert (Pc : Rabs C <= 1) by exact Bc. assert (Ps : Rabs S <= 1) by exact Bs. assert (Px : Rabs X <= N) by exact Bcx. assert (Py : Rabs Y <= N) by exact Bcy.
    assert (Pns : Rabs (- S) <= 1) by (rewrite Rabs_Ropp; exact Ps).
    assert (SC : small C) by (unfold small; lra). assert (SS : small S) by (unfold small; lra). assert (SnS : small (- S)) by (unfold small; lra).
    assert (SX : small X) by (unfold small; lra). assert (SY : small Y) by (unfold small; lra). assert (S0 := small_0).
    assert (S1 : small 1) by (unfold small; rewrite Rabs_pos_eq; lra).
    (* inverse of the first two *)
    set (m := mul3x3 num_f32 (inverse (rotate num_f32 s c)) (inverse (translate num_f32 cx cy))).
    assert (M00 : ex (t00 m) C). { apply add_0_r; [apply add_0_r; [apply mul_1_r; assumption|apply mul_0_r; assumption|assumption]|apply mul_0_r; [apply E0|exact E0]|assumption]. }
    assert (M01 : ex (t01 m) S). { apply add_0_r; [apply add_0_l; [apply mul_0_r; assumption|apply mul_1_r; assumption|assumption]|apply mul_0_r; [apply E0|exact E0]|assumption]. }
    assert (M10 : ex (t10 m) (- S)). { apply add_0_r; [apply add_0_r; [apply mul_1_r; assumption|apply mul_0_r; assumption|assumption]|apply mul_0_r; [apply E0|exact E0]|assumption]. }
    assert (M11 : ex (t11 m) C). { apply add_0_r; [apply add_0_l; [apply mul_0_r; [apply Ens|exact E0]|apply mul_1_r; assumption|assumption]|apply mul_0_r; [apply E0|exact E0]|assumption]. }
    assert (M20 : ex (t20 m) 0). { apply add_0_r; [apply add_0_r; [apply mul_1_r; assumption|apply mul_0_r; [apply E0|exact E0]|assumption]|apply mul_0_r; [apply E1|exact E0]|assumption]. }
    assert (M21 : ex (t21 m) 0). { apply add_0_r; [apply add_0_r; [apply mul_0_l; [exact E0|apply E0]|apply mul_1_r; assumption|assumption]|apply mul_0_r; [apply E1|exact E0]|assumption]. }
    assert (M22 : ex (t22 m) 1). { apply add_0_l; [apply add_0_r; [apply mul_0_l; [exact E0|apply Enx]|apply mul_0_l; [exact E0|apply Eny]|assumption]|apply mul_1_r; assumption|assumption]. }
    assert (Ac : ap c C 1 0) by (apply ex_ap; assumption). assert (As : ap s S 1 0) by (apply ex_ap; assumption).
    assert (Ans : ap (fneg s) (- S) 1 0) by (apply ex_ap; assumption).
    assert (Anx : ap (fneg cx) (- X) N 0) by (apply ex_ap; [assumption|rewrite Rabs_Ropp; assumption]).
    assert (Any : ap (fneg cy) (- Y) N 0) by (apply ex_ap; [assumption|rewrite Rabs_Ropp; assumption]).
    assert (Ax : ap cx X N 0) by (apply ex_ap; assumption). assert (Ay : ap cy Y N 0) by (apply ex_ap; assumption).
    assert (Aix : ap (of_int x) (IZR x) N 0) by (apply ex_ap; [assumption|rewrite Rabs_pos_eq; [assumption|apply IZR_le; exact Hx]]).
    assert (Aiy : ap (of_int y) (IZR y) N 0) by (apply ex_ap; [assumption|rewrite Rabs_pos_eq; [assumption|apply IZR_le; exact Hy]]).
    assert (MUL : forall f g V W, ap f V 1 0 -> ap g W N 0 -> ap (fmul f g) (V * W) N (1.02 * N / 16777216)).
    { intros f g V W A B. eapply ap_weaken; [eapply ap_mul; [exact A|exact B|lra]|lra|lra]. }
    assert (ADD : forall f g V W, ap f V N (1.02 * N / 16777216) -> ap g W N (1.02 * N / 16777216) -> ap (fadd f g) (V + W) (2 * N) (4.1 * N / 16777216)).
    { intros f g V W A B. eapply ap_weaken; [eapply ap_add; [exact A|exact B|lra]|lra|lra]. }
    assert (SMALL : forall f V, ap f V (2 * N) (4.1 * N / 16777216) -> small (B2R f)).
    { intros f V A. pose proof (ap_abs _ _ _ _ A). unfold small. lra. }
    assert (M02 : ap (t02 m) (C * - X + S * - Y) (2 * N) (4.1 * N / 16777216)).
    { assert (Q := ADD _ _ _ _ (MUL _ _ _ _ Ac Anx) (MUL _ _ _ _ As Any)). eapply ap_transfer; [exact Q|]. apply add_0_r; [eapply ap_ex; exact Q|apply mul_0_l; [exact E0|apply E1]|eapply SMALL; exact Q]. }
    assert (M12 : ap (t12 m) (- S * - X + C * - Y) (2 * N) (4.1 * N / 16777216)).
    { assert (Q := ADD _ _ _ _ (MUL _ _ _ _ Ans Anx) (MUL _ _ _ _ Ac Any)). eapply ap_transfer; [exact Q|]. apply add_0_r; [eapply ap_ex; exact Q|apply mul_0_l; [exact E0|apply E1]|eapply SMALL; exact Q]. }
    (* with the last translation *)
    set (t := transform (invert p)).
    assert (Tdef : t = mul3x3 num_f32 (inverse (translate num_f32 (fneg cx) (fneg cy))) m) by reflexivity.
    assert (Ennx : ex (fneg (fneg cx)) X) by (rewrite <- (Ropp_involutive X); apply ex_neg; assumption).
    assert (Enny : ex (fneg (fneg cy)) Y) by (rewrite <- (Ropp_involutive Y); apply ex_neg; assumption).
    assert (T00 : ex (t00 t) C). { rewrite Tdef. apply add_0_r; [apply add_0_r; [apply mul_1_l; assumption|apply mul_0_l; [exact E0|apply M10]|assumption]|apply mul_0_r; [apply Ennx|exact M20]|assumption]. }
    assert (T01 : ex (t01 t) S). { rewrite Tdef. apply add_0_r; [apply add_0_r; [apply mul_1_l; assumption|apply mul_0_l; [exact E0|apply M11]|assumption]|apply mul_0_r; [apply Ennx|exact M21]|assumption]. }
    assert (T10 : ex (t10 t) (- S)). { rewrite Tdef. apply add_0_r; [apply add_0_l; [apply mul_0_l; [exact E0|apply M00]|apply mul_1_l; assumption|assumption]|apply mul_0_r; [apply Enny|exact M20]|assumption]. }
    assert (T11 : ex (t11 t) C). { rewrite Tdef. apply add_0_r; [apply add_0_l; [apply mul_0_l; [exact E0|apply M01]|apply mul_1_l; assumption|assumption]|apply mul_0_r; [apply Enny|exact M21]|assumption]. }
    assert (SUM : forall f g V W, ap f V (2 * N) (4.1 * N / 16777216) -> ap g W N 0 -> ap (fadd f g) (V + W) (3 * N) (7.2 * N / 16777216)).
    { intros f g V W A B. eapply ap_weaken; [eapply ap_add; [exact A|exact B|lra]|lra|lra]. }
    assert (T02 : ap (t02 t) (C * - X + S * - Y + X) (3 * N) (7.2 * N / 16777216)).
    { rewrite Tdef. apply SUM.
      - eapply ap_transfer; [exact M02|]. apply add_0_r; [|apply mul_0_l; [exact E0|apply M12]|eapply SMALL; exact M02].
        apply mul_1_l; [exact E1|eapply ap_ex; exact M02|eapply SMALL; exact M02].
      - apply ex_ap; [|exact Px]. apply mul_1_r; [exact Ennx|exact M22|exact SX]. }
    assert (T12 : ap (t12 t) (- S * - X + C * - Y + Y) (3 * N) (7.2 * N / 16777216)).
    { rewrite Tdef. apply SUM.
      - eapply ap_transfer; [exact M12|]. apply add_0_l; [apply mul_0_l; [exact E0|apply M02]| |eapply SMALL; exact M12].
        apply mul_1_l; [exact E1|eapply ap_ex; exact M12|eapply SMALL; exact M12].
      - apply ex_ap; [|exact Py]. apply mul_1_r; [exact Enny|exact M22|exact SY]. }
    assert (LAST : forall f g V W, ap f V (2 * N) (4.1 * N / 16777216) -> ap g W (3 * N) (7.2 * N / 16777216) -> ap (fadd f g) (V + W) (5 * N) (17 * N / 16777216)).
    { intros f g V W A B. eapply ap_weaken; [eapply ap_add; [exact A|exact B|lra]|lra|lra]. }
    cbv zeta. split.
    - apply LAST; [|exact T02]. apply ADD; apply MUL; try assumption; apply ex_ap; assumption.
    - apply LAST; [|exact T12]. apply ADD; apply MUL; try assumption; apply ex_ap; assumption.
  Qed.
End Inverse.

(** ** The full property: the output shows, at every pixel, the value of the point
    that the rotation takes there, located to within 1/16 of a pixel. *)
Local Open Scope Z_scope.
Definition shows_rotated (hi : Z) (i : WarpModel.interpolation) (im : image pixel) (t X Y tol : R) (default : pixel) (out : image pixel) : Prop :=
  forall x y, 0 <= x < iw out -> 0 <= y < ih out -> exists o u v, get out x y = Some o /\ value_at hi i im u v default o /\
    is_finite u = true /\ is_finite v = true /\
    (Rabs (B2R u - back_x t X Y (IZR x) (IZR y)) <= tol)%R /\ (Rabs (B2R v - back_y t X Y (IZR x) (IZR y)) <= tol)%R.
Definition c101_statement : Prop := forall hi n im (cx cy : f32) t s c i default,
  hi = 255 \/ hi = 65535 -> channels_ok hi n im -> iw im < 2 ^ 32 -> ih im < 2 ^ 32 ->
  is_finite cx = true -> is_finite cy = true -> sincos_ok t s c ->
  exists out, rotate_image hi im (cx, cy) s c i default = Ok out /\ wf out /\ iw out = iw im /\ ih out = ih im /\
    shows_rotated hi i im t (B2R cx) (B2R cy) (/ 16) default out.

(** An empty image panics. *)
Theorem c101_refuted : ~ c101_statement.
Proof.
  intros H. assert (SC := c101_sincos_exists 0%R). assert (OK : channels_ok 255 1 (new_image 0 1 [7])) by (apply gray_ok; lia).
  destruct (H 255 1 (new_image 0 1 [7]) (of_int 0) (of_int 0) 0%R _ _ Nearest [0] (or_introl eq_refl) OK ltac:(cbn; lia) ltac:(cbn; lia) eq_refl eq_refl SC) as (out & E & _).
  discriminate E.
Qed.
Print Assumptions c101_refuted.

Lemma back_err (N t S C X Y x y : R) (qx qy : f32) : (1 <= N)%R -> (Rabs X <= N)%R -> (Rabs Y <= N)%R -> (0 <= x <= N)%R -> (0 <= y <= N)%R ->
  (Rabs (S - sin t) <= / 4194304)%R -> (Rabs (C - cos t) <= / 4194304)%R ->
  ap qx (C * x + S * y + (C * - X + S * - Y + X)) (5 * N) (17 * N / 16777216) ->
  ap qy (- S * x + C * y + (- S * - X + C * - Y + Y)) (5 * N) (17 * N / 16777216) ->
  is_finite qx = true /\ is_finite qy = true /\ (Rabs (B2R qx - back_x t X Y x y) <= N / 500000)%R /\ (Rabs (B2R qy - back_y t X Y x y) <= N / 500000)%R.
Proof.
  intros HN HX HY Bx By Es Ec (F1 & A1 & _) (F2 & A2 & _). split; [exact F1|]. split; [exact F2|].
  assert (DX : (Rabs (x - X) <= 2 * N)%R) by (pose proof (Rabs_le_inv _ _ HX); apply Rabs_le; lra).
  assert (DY : (Rabs (y - Y) <= 2 * N)%R) by (pose proof (Rabs_le_inv _ _ HY); apply Rabs_le; lra).
  assert (PR : forall a b, (Rabs a <= 2 * N -> Rabs b <= / 4194304 -> Rabs (a * b) <= 8 * N / 16777216)%R).
  { intros a b Ha Hb. rewrite Rabs_mult. pose proof (Rabs_pos a). pose proof (Rabs_pos b). replace (8 * N / 16777216)%R with (2 * N * / 4194304)%R by field. apply Rmult_le_compat; lra. }
  unfold back_x, back_y. generalize dependent (B2R qy). generalize dependent (B2R qx). intros u A1 v A2.
  pose proof (PR _ _ DX Ec) as P1. pose proof (PR _ _ DY Es) as P2. pose proof (PR _ _ DX Es) as P3. pose proof (PR _ _ DY Ec) as P4. split.
  - replace (u - (X + (x - X) * cos t + (y - Y) * sin t))%R with
      ((u - (C * x + S * y + (C * - X + S * - Y + X))) + ((x - X) * (C - cos t) + (y - Y) * (S - sin t)))%R by ring.
    eapply Rle_trans; [apply Rabs_triang|]. eapply Rle_trans; [apply Rplus_le_compat; [exact A1|apply Rabs_triang]|]. lra.
  - replace (v - (Y - (x - X) * sin t + (y - Y) * cos t))%R with
      ((v - (- S * x + C * y + (- S * - X + C * - Y + Y))) + (- ((x - X) * (S - sin t)) + (y - Y) * (C - cos t)))%R by ring.
    eapply Rle_trans; [apply Rabs_triang|]. eapply Rle_trans; [apply Rplus_le_compat; [exact A2|apply Rabs_triang]|]. rewrite Rabs_Ropp. lra.
Qed.
Lemma finite_not_nan (x : f32) : is_finite x = true -> fis_nan x = false.
Proof. destruct x; cbn; congruence. Qed.

(** What holds: sizes and coordinates of the centre up to N <= 32768, and then to
    within N / 500000 of a pixel. *)
Theorem c101_rotate_partial : forall hi n im (cx cy : f32) t s c i default N,
  hi = 255 \/ hi = 65535 -> channels_ok hi n im -> 0 < iw im ->
  (1 <= N <= 32768)%R -> (IZR (iw im) <= N)%R -> (IZR (ih im) <= N)%R ->
  is_finite cx = true -> is_finite cy = true -> (Rabs (B2R cx) <= N)%R -> (Rabs (B2R cy) <= N)%R -> sincos_ok t s c ->
  exists out, rotate_image hi im (cx, cy) s c i default = Ok out /\ wf out /\ iw out = iw im /\ ih out = ih im /\
    shows_rotated hi i im t (B2R cx) (B2R cy) (N / 500000) default out.
Proof.
  intros hi n im cx cy t s c i default N Hhi HI Hw HN Bw Bh Fx Fy Bx By ((Fs & Bs & Es) & (Fc & Bc & Ec)).
  pose proof HI as ((W1 & W2 & _) & _).
  assert (Lw : iw im <= 2 ^ 15) by (apply le_IZR; change (IZR (2 ^ 15)) with 32768%R; lra).
  assert (Lh : ih im <= 2 ^ 15) by (apply le_IZR; change (IZR (2 ^ 15)) with 32768%R; lra).
  set (p := compose num_f32 (compose num_f32 (translate num_f32 cx cy) (rotate num_f32 s c)) (translate num_f32 (fneg cx) (fneg cy))).
  assert (PI : forall x y, 0 <= x < iw im -> 0 <= y < ih im ->
    ap (fst (apply num_f32 (invert p) (of_int x) (of_int y))) (B2R c * IZR x + B2R s * IZR y + (B2R c * - B2R cx + B2R s * - B2R cy + B2R cx)) (5 * N) (17 * N / 16777216) /\
    ap (snd (apply num_f32 (invert p) (of_int x) (of_int y))) (- B2R s * IZR x + B2R c * IZR y + (- B2R s * - B2R cx + B2R c * - B2R cy + B2R cy)) (5 * N) (17 * N / 16777216)).
  { intros x y Hx Hy. apply pre_image; try assumption; try lia; first [eapply Rle_trans; [|exact Bw]; apply IZR_le; lia|eapply Rle_trans; [|exact Bh]; apply IZR_le; lia]. }
  unfold rotate_image. fold p. clearbody p.
  destruct (c67_warp_partial hi n im p i default (new_image (iw im) (ih im) default) Hhi HI) as (r & E & Wr & Rw & Rh & P); [lia|lia|exact Hw|exact W2| |].
  { intros x y Hx Hy. destruct (PI x y Hx Hy) as ((F1 & _) & (F2 & _)). split; apply finite_not_nan; assumption. }
  exists r. split; [exact E|]. split; [exact Wr|]. split; [exact Rw|]. split; [exact Rh|].
  intros x y Hx Hy. destruct (P x y Hx Hy) as (o & G & V). rewrite Rw in Hx. rewrite Rh in Hy. cbn [iw ih new_image gen] in Hx, Hy.
  destruct (PI x y Hx Hy) as (A1 & A2). exists o. eexists _, _. split; [exact G|]. split; [exact V|].
  apply (back_err N t (B2R s) (B2R c) _ _ _ _ _ _ (proj1 HN) Bx By); try assumption.
  - split; [apply IZR_le; lia|eapply Rle_trans; [|exact Bw]; apply IZR_le; lia].
  - split; [apply IZR_le; lia|eapply Rle_trans; [|exact Bh]; apply IZR_le; lia].
Qed.
Print Assumptions c101_rotate_partial.

(** ** Half a turn.  Expected: the image upside down and back to front. *)
Definition c101_half_turn_statement : Prop := forall hi n im s c default,
  hi = 255 \/ hi = 65535 -> channels_ok hi n im -> 0 < iw im <= 32768 -> 0 < ih im <= 32768 -> sincos_ok (B2R pi32) s c ->
  exists out, rotate_about_center hi im s c Nearest default = Ok out /\
    forall x y, 0 <= x < iw im -> 0 <= y < ih im -> get out x y = get im (iw im - 1 - x) (ih im - 1 - y).

Lemma half k : 0 <= k <= 32768 -> ex (fdiv (of_int k) (of_int 2)) (IZR k / 2)%R.
Proof.
  intros H. destruct (int32_R k) as (F & R); [lia|]. destruct (int32_R 2) as (F2 & R2); [lia|].
  assert (B : (0 <= IZR k <= 32768)%R) by (split; apply IZR_le; lia).
  destruct (fdiv_R 24 128 (of_int k : f32) (of_int 2) F) as (F3 & R3). { rewrite R2. lra. }
  { rewrite R, R2. pose proof f32_big. apply Rabs_le. lra. }
  split; [exact F3|]. rewrite R3, R, R2. change (IZR 2) with 2%R. replace (IZR k / 2)%R with (F2R (Float radix2 k (-1))).
  - apply (rnd_id 24 128). apply generic_format_F2R. intros Hk. unfold cexp. cbn [Fnum Fexp]. unfold SpecFloat.fexp, SpecFloat.emin.
    assert (M : mag radix2 (F2R (Float radix2 k (-1))) <= 17); [|lia]. apply mag_le_bpow; [apply F2R_neq_0; exact Hk|].
    unfold F2R. cbn [Fnum Fexp]. change (bpow radix2 (-1)) with (/ 2)%R. change (bpow radix2 17) with 131072%R. rewrite Rabs_pos_eq; lra.
  - unfold F2R. cbn [Fnum Fexp]. change (bpow radix2 (-1)) with (/ 2)%R. reflexivity.
Qed.
Lemma half_turn_trig : (Rabs (cos (B2R pi32) + 1) <= / 4194304 /\ Rabs (sin (B2R pi32)) <= / 4194304)%R.
Proof.
  destruct pi32_R as (_ & R). rewrite R. pose proof pi_bounds as PB. unfold P32 in *. assert (P3 : (3 <= PI)%R) by lra. set (q := (13176795 / 4194304)%R) in *.
  set (d := (PI - q)%R). assert (D : (Rabs d <= / 4194304)%R) by (unfold d; apply Rabs_le; lra). replace q with (PI - d)%R by (unfold d; ring).
  assert (SB : forall e, (Rabs e <= / 4194304 -> Rabs (sin e) <= Rabs e)%R).
  { intros e He. destruct (Rtotal_order e 0) as [L|[->|L]].
    - rewrite (Rabs_left e) by exact L. replace e with (- (- e))%R by ring. rewrite sin_neg, Rabs_Ropp. rewrite Ropp_involutive. rewrite Rabs_left in He by exact L.
      rewrite Rabs_pos_eq; [left; apply sin_lt_x; lra|]. apply sin_ge_0; lra.
    - rewrite sin_0. apply Rle_refl.
    - rewrite (Rabs_pos_eq e) in * by lra. rewrite Rabs_pos_eq; [left; apply sin_lt_x; lra|]. apply sin_ge_0; lra. }
  split.
  - replace (cos (PI - d)) with (- cos d)%R by (replace (PI - d)%R with (- d + PI)%R by ring; rewrite neg_cos, cos_neg; reflexivity).
    replace d with (2 * (d / 2))%R by field. rewrite cos_2a_sin.
    assert (H : (Rabs (sin (d / 2)) <= Rabs (d / 2))%R) by (apply SB; unfold Rdiv; rewrite Rabs_mult, (Rabs_pos_eq (/ 2)) by lra; lra).
    assert (H2 : (Rabs (d / 2) <= / 8388608)%R) by (unfold Rdiv; rewrite Rabs_mult, (Rabs_pos_eq (/ 2)) by lra; lra).
    replace (- (1 - 2 * sin (d / 2) * sin (d / 2)) + 1)%R with (2 * (sin (d / 2) * sin (d / 2)))%R by ring. rewrite Rabs_mult, Rabs_mult, (Rabs_pos_eq 2) by lra.
    pose proof (Rabs_pos (sin (d / 2))). set (e := Rabs (sin (d / 2))) in *. assert (e <= / 8388608)%R by lra. nra.
  - rewrite sin_PI_x. eapply Rle_trans; [apply SB; exact D|exact D].
Qed.

(** What happens: the pixel (x, y) comes from (w - x, h - y); the first row and the
    first column are lost.  The centre w/2, h/2 is not the centre of the pixels. *)
Theorem c101_half_turn_partial : forall hi n im s c default,
  hi = 255 \/ hi = 65535 -> channels_ok hi n im -> 0 < iw im <= 32768 -> 0 < ih im <= 32768 -> sincos_ok (B2R pi32) s c ->
  exists out, rotate_about_center hi im s c Nearest default = Ok out /\ wf out /\ iw out = iw im /\ ih out = ih im /\
    forall x y, 0 <= x < iw im -> 0 <= y < ih im ->
      get out x y = if (1 <=? x) && (1 <=? y) then get im (iw im - x) (ih im - y) else Some default.
Proof.
  intros hi n im s c default Hhi HI Hw Hh SC. destruct (half (iw im)) as (F1 & R1); [lia|]. destruct (half (ih im)) as (F2 & R2); [lia|].
  assert (W1 : (1 <= IZR (iw im) <= 32768)%R) by (split; apply IZR_le; lia). assert (W2 : (1 <= IZR (ih im) <= 32768)%R) by (split; apply IZR_le; lia).
  destruct (c101_rotate_partial hi n im (fdiv (of_int (iw im)) (of_int 2)) (fdiv (of_int (ih im)) (of_int 2)) (B2R pi32) s c Nearest default 32768 Hhi HI) as (out & E & Wo & Ow & Oh & P);
    [lia|lra|lra|lra|exact F1|exact F2|rewrite R1; apply Rabs_le; lra|rewrite R2; apply Rabs_le; lra|exact SC|].
  exists out. split; [exact E|]. split; [exact Wo|]. split; [exact Ow|]. split; [exact Oh|]. intros x y Hx Hy.
  destruct (P x y) as (o & u & v & G & V & Fu & Fv & U1 & V1); [lia|lia|]. unfold value_at in V. rewrite Fu, Fv in V. cbn [andb] in V. destruct V as (i & j & Ni & Nj & ->).
  rewrite R1, R2 in U1, V1. unfold back_x, back_y in U1, V1. destruct half_turn_trig as (T1 & T2).
  assert (X : (0 <= IZR x <= IZR (iw im))%R) by (split; apply IZR_le; lia). assert (Y : (0 <= IZR y <= IZR (ih im))%R) by (split; apply IZR_le; lia).
  assert (DX : (Rabs (IZR x - IZR (iw im) / 2) <= 16384)%R) by (apply Rabs_le; lra). assert (DY : (Rabs (IZR y - IZR (ih im) / 2) <= 16384)%R) by (apply Rabs_le; lra).
  assert (PR : forall a b, (Rabs a <= 16384 -> Rabs b <= / 4194304 -> Rabs (a * b) <= / 256)%R).
  { intros a b Ha Hb. rewrite Rabs_mult. pose proof (Rabs_pos a). pose proof (Rabs_pos b). replace (/ 256)%R with (16384 * / 4194304)%R by lra. apply Rmult_le_compat; lra. }
  pose proof (PR _ _ DX T1) as P1. pose proof (PR _ _ DY T2) as P2. pose proof (PR _ _ DX T2) as P3. pose proof (PR _ _ DY T1) as P4.
  set (a := (IZR x - IZR (iw im) / 2)%R) in *. set (b := (IZR y - IZR (ih im) / 2)%R) in *.
  rewrite Rmult_plus_distr_l in P1, P4. apply Rabs_le_inv in U1, V1, P1, P2, P3, P4. unfold nearest_to in Ni, Nj.
  assert (Du : (- (1 / 8) <= B2R u - IZR (iw im - x) <= 1 / 8)%R) by (rewrite minus_IZR; unfold a in *; lra).
  assert (Dv : (- (1 / 8) <= B2R v - IZR (ih im - y) <= 1 / 8)%R) by (rewrite minus_IZR; unfold b in *; lra).
  assert (Bu : (Rabs (B2R u) <= 40000)%R) by (rewrite minus_IZR in Du; apply Rabs_le; lra). assert (Bv : (Rabs (B2R v) <= 40000)%R) by (rewrite minus_IZR in Dv; apply Rabs_le; lra).
  pose proof (Rabs_le_inv _ _ Ni) as Ni'. pose proof (Rabs_le_inv _ _ Nj) as Nj'.
  assert (i = iw im - x) as ->.
  { assert (i - (iw im - x) < 1) by (apply lt_IZR; rewrite (minus_IZR i); lra). assert (-1 < i - (iw im - x)) by (apply lt_IZR; rewrite (minus_IZR i); lra). lia. }
  assert (j = ih im - y) as ->.
  { assert (j - (ih im - y) < 1) by (apply lt_IZR; rewrite (minus_IZR j); lra). assert (-1 < j - (ih im - y)) by (apply lt_IZR; rewrite (minus_IZR j); lra). lia. }
  rewrite G. destruct HI as (Wi & _). destruct (Z.leb_spec 1 x) as [Lx|Lx]; [destruct (Z.leb_spec 1 y) as [Ly|Ly]|]; cbn [andb].
  - destruct (get_some im (iw im - x) (ih im - y) Wi) as (q & ->); [lia|lia|reflexivity].
  - destruct (get im (iw im - x) (ih im - y)) eqn:Q; [apply get_inb in Q; lia|reflexivity].
  - destruct (get im (iw im - x) (ih im - y)) eqn:Q; [apply get_inb in Q; lia|reflexivity].
Qed.
Print Assumptions c101_half_turn_partial.
Theorem c101_half_turn_refuted : ~ c101_half_turn_statement.
Proof.
  intros H. assert (SC := c101_sincos_exists (B2R pi32)). set (im := new_image 3 2 [7]).
  assert (OK : channels_ok 255 1 im) by (apply gray_ok; lia).
  destruct (H 255 1 im _ _ [0] (or_introl eq_refl) OK ltac:(cbn; lia) ltac:(cbn; lia) SC) as (out & E & P).
  destruct (c101_half_turn_partial 255 1 im _ _ [0] (or_introl eq_refl) OK ltac:(cbn; lia) ltac:(cbn; lia) SC) as (out' & E' & _ & _ & _ & P').
  rewrite E in E'. injection E' as <-. specialize (P 0 0 ltac:(cbn; lia) ltac:(cbn; lia)). rewrite P' in P by (cbn; lia). cbn in P. discriminate P.
Qed.
Print Assumptions c101_half_turn_refuted.

(** The hypotheses are met: a 3 x 2 image. *)
Example c101_nontrivial : exists out,
  rotate_about_center 255 (mkImage 3 2 [[1]; [2]; [3]; [4]; [5]; [6]]) (nearby (sin (B2R pi32))) (nearby (cos (B2R pi32))) Nearest [9] = Ok out /\
  get out 0 0 = Some [9] /\ get out 1 1 = Some [6] /\ get out 2 1 = Some [5].
Proof.
  set (im := mkImage 3 2 _).
  assert (OK : channels_ok 255 1 im).
  { split; [split; [cbn; lia|split; [cbn; lia|reflexivity]]|]. intros x y p G. unfold get in G. destruct (inb _ x y); [|discriminate G]. apply znth_In in G. cbn in G.
    repeat (destruct G as [<-|G]; [split; [reflexivity|intros v [<-|[]]; lia]|]). destruct G. }
  destruct (c101_half_turn_partial 255 1 im _ _ [9] (or_introl eq_refl) OK ltac:(cbn; lia) ltac:(cbn; lia) (c101_sincos_exists (B2R pi32))) as (out & E & _ & _ & _ & P).
  exists out. split; [exact E|]. rewrite !P by (cbn; lia). split; [reflexivity|]. split; reflexivity.
Qed.
