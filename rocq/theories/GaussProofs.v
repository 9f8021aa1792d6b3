(** Accuracy of the Gaussian kernel and of one pass of the filter. *)
From Flocq Require Import Core BinarySingleNaN.
From Coq Require Import Reals Lra Psatz.
From Verif Require Import Base BaseProofs Float FloatProofs FloatErr SuppressProofs OtsuProofs FilterModel FilterSpec ClampModel
  KapurSpec GaussModel GaussSpec.
Local Ltac Zify.zify_post_hook ::= idtac.
Local Open Scope R_scope.
Local Notation rn := (rnd 24 128).
Local Notation u := (/ 16777216).
Local Notation h60 := (/ 1152921504606846976).

(** ** sums *)
Lemma gsum_app l l' : rsum (l ++ l') = rsum l + rsum l'.
Proof. unfold rsum. induction l as [|a l IH]; cbn [app fold_right]; lra. Qed.
Lemma gsum_ext {A} (f g : A -> R) l : (forall i, In i l -> f i = g i) -> rsum (map f l) = rsum (map g l).
Proof. intros H. f_equal. apply map_ext_in. exact H. Qed.
Lemma gsum_le {A} (f g : A -> R) l : (forall i, In i l -> f i <= g i) -> rsum (map f l) <= rsum (map g l).
Proof.
  unfold rsum. induction l as [|a l IH]; intros H; cbn [map fold_right]; [lra|].
  apply Rplus_le_compat; [apply H; left; reflexivity|apply IH; intros i Hi; apply H; right; exact Hi].
Qed.
Lemma gsum_plus {A} (f g : A -> R) l : rsum (map (fun i => f i + g i) l) = rsum (map f l) + rsum (map g l).
Proof. unfold rsum. induction l as [|a l IH]; cbn [map fold_right]; lra. Qed.
Lemma gsum_scal {A} c (f : A -> R) l : rsum (map (fun i => c * f i) l) = c * rsum (map f l).
Proof. unfold rsum. induction l as [|a l IH]; cbn [map fold_right]; [lra|]. rewrite IH. ring. Qed.
Lemma gsum_const {A} c (l : list A) : rsum (map (fun _ => c) l) = c * IZR (zlen l).
Proof. unfold rsum. induction l as [|a l IH]; cbn [map fold_right]; [unfold zlen; cbn; lra|]. rewrite zlen_cons, plus_IZR, IH. lra. Qed.
Lemma gsum_nonneg {A} (f : A -> R) l : (forall i, In i l -> 0 <= f i) -> 0 <= rsum (map f l).
Proof.
  intros H. replace 0 with (rsum (map (fun _ : A => 0) l)) by (rewrite gsum_const; ring). apply gsum_le. exact H.
Qed.
Lemma gsum_abs {A} (f g : A -> R) l : (forall i, In i l -> Rabs (f i) <= g i) -> Rabs (rsum (map f l)) <= rsum (map g l).
Proof.
  unfold rsum. induction l as [|a l IH]; intros H; cbn [map fold_right]; [rewrite Rabs_R0; lra|].
  eapply Rle_trans; [apply Rabs_triang|]. apply Rplus_le_compat; [apply H; left; reflexivity|apply IH; intros i Hi; apply H; right; exact Hi].
Qed.
Lemma gsum_diff {A} (f g h : A -> R) l : (forall i, In i l -> Rabs (f i - g i) <= h i) ->
  Rabs (rsum (map f l) - rsum (map g l)) <= rsum (map h l).
Proof.
  intros H. replace (rsum (map f l) - rsum (map g l)) with (rsum (map (fun i => f i - g i) l)).
  - apply gsum_abs. exact H.
  - unfold rsum. clear. induction l as [|a l IH]; cbn [map fold_right]; [lra|]. rewrite IH. ring.
Qed.

(** ** rounding *)
Lemma f32_rel r : r = 0 \/ bpow radix2 (-126) <= Rabs r -> Rabs (rn r - r) <= 2 * u * Rabs r.
Proof.
  intros [->|H].
  - rewrite (rnd_0 24 128). rewrite Rminus_0_r, Rabs_R0. lra.
  - eapply Rle_trans; [apply rnd_err; reflexivity|]. unfold uu, eta. change (bpow radix2 (- (24))) with u.
    assert (bpow radix2 (3 - 128 - 24 - 1) <= u * Rabs r); [|lra].
    replace (bpow radix2 (3 - 128 - 24 - 1)) with (u * bpow radix2 (-126)).
    + apply Rmult_le_compat_l; [lra|exact H].
    + change u with (bpow radix2 (-24)). rewrite <- bpow_plus. reflexivity.
Qed.
Lemma f32_huge : IZR (2 ^ 120) <= bpow radix2 (128 - 1).
Proof. change (IZR (2 ^ 120)) with (bpow radix2 120). apply bpow_le. lia. Qed.

(** a float sum from the left *)
Lemma fsum_ok {A} (l : list A) (t : A -> f32) (M : A -> R) B :
  let eps := 2 * u * B + h60 in
  (forall i, In i l -> is_finite (t i) = true /\ Rabs (B2R (t i)) <= M i) ->
  rsum (map M l) <= B -> IZR (zlen l) * eps <= B -> 2 * B <= IZR (2 ^ 120) ->
  is_finite (fold_left (fun a i => fadd a (t i)) l (of_int 0)) = true /\
  Rabs (B2R (fold_left (fun a i => fadd a (t i)) l (of_int 0)) - rsum (map (fun i => B2R (t i)) l)) <= IZR (zlen l) * eps.
Proof.
  intros eps. induction l as [|i l IH] using rev_ind; intros H HM He HB.
  - cbn [fold_left]. unfold zlen, rsum. cbn [map fold_right length Z.of_nat].
    destruct (of_int_R 24 128 0) as (F0 & R0); [rewrite Rabs_R0; apply bpow_ge_0|]. split; [exact F0|].
    rewrite R0, (rnd_0 24 128). rewrite Rminus_0_r, Rabs_R0, Rmult_0_l. lra.
  - rewrite zlen_app, plus_IZR in He. change (IZR (zlen [i])) with 1 in He.
    rewrite map_app, gsum_app in HM. change (rsum (map M [i])) with (M i + 0) in HM.
    assert (Mpos : forall j, In j (l ++ [i]) -> 0 <= M j) by (intros j Hj; destruct (H j Hj) as (_ & Q); pose proof (Rabs_pos (B2R (t j))); lra).
    assert (Mi := Mpos i ltac:(apply in_or_app; right; left; reflexivity)).
    assert (Ml : 0 <= rsum (map M l)) by (apply gsum_nonneg; intros j Hj; apply Mpos; apply in_or_app; left; exact Hj).
    assert (B0 : 0 <= B) by lra. assert (E0 : 0 <= eps) by (unfold eps; lra).
    destruct IH as (F & E); [intros j Hj; apply H; apply in_or_app; left; exact Hj|lra|nra|exact HB|].
    destruct (H i ltac:(apply in_or_app; right; left; reflexivity)) as (Fi & Ti).
    rewrite fold_left_app. cbn [fold_left]. set (a := fold_left _ l _) in *.
    assert (SB : Rabs (rsum (map (fun j => B2R (t j)) l)) <= rsum (map M l)).
    { apply gsum_abs. intros j Hj. apply H. apply in_or_app; left; exact Hj. }
    assert (AB : Rabs (B2R a + B2R (t i)) <= 2 * B).
    { assert (N1 : IZR (zlen l) * eps <= B) by nra. clear - SB E Ti HM N1. revert SB E Ti HM N1.
      generalize (rsum (map (fun j => B2R (t j)) l)) (rsum (map M l)) (M i) (IZR (zlen l) * eps) (B2R a) (B2R (t i)).
      intros s m mi e x y. unfold Rabs. repeat destruct Rcase_abs; intros; lra. }
    destruct (fadd_R 24 128 a (t i) F Fi) as (F' & R'); [eapply Rle_trans; [exact AB|]; eapply Rle_trans; [exact HB|apply f32_huge]|].
    split; [exact F'|]. rewrite R'. rewrite map_app, gsum_app. change (rsum (map (fun i => B2R (t i)) [i])) with (B2R (t i) + 0).
    rewrite zlen_app, plus_IZR. change (IZR (zlen [i])) with 1.
    pose proof (f32_err (B2R a + B2R (t i))) as RE.
    assert (RE' : Rabs (rn (B2R a + B2R (t i)) - (B2R a + B2R (t i))) <= eps) by (unfold eps; lra).
    rewrite Rmult_plus_distr_r, Rmult_1_l.
    clear - RE' E. revert RE' E. generalize (rsum (map (fun j => B2R (t j)) l)) (IZR (zlen l) * eps) (rn (B2R a + B2R (t i))) (B2R a) (B2R (t i)).
    intros s e v x y. intros. unfold Rabs in *. repeat destruct Rcase_abs; lra.
Qed.

(** ** the kernel values *)
Lemma int32 z : (Z.abs z <= 2 ^ 24)%Z -> is_finite (of_int z : f32) = true /\ B2R (of_int z : f32) = IZR z.
Proof.
  intros H. destruct (of_int_R 24 128 z) as (F & E).
  - rewrite <- abs_IZR. eapply Rle_trans; [apply IZR_le; exact H|]. eapply Rle_trans; [|apply f32_huge]. apply IZR_le. lia.
  - split; [exact F|]. rewrite E. apply (rnd_int 24 128). exact H.
Qed.

Lemma ln2pi : let c := fsqrt (fmul (of_int 2) pi_f32) in is_finite c = true /\ 2 <= B2R c <= 3.
Proof.
  cbv zeta. set (c := fsqrt (fmul (of_int 2) pi_f32)). 
  assert (F : is_finite c = true) by (vm_compute; reflexivity). split; [exact F|].
  assert (A : fle (of_int 2) c = true) by (vm_compute; reflexivity).
  assert (B : fle c (of_int 3) = true) by (vm_compute; reflexivity).
  destruct (int32 2) as (F2 & R2); [lia|]. destruct (int32 3) as (F3 & R3); [lia|].
  clearbody c. unfold fle in A, B. rewrite Bleb_correct in A, B by assumption. rewrite R2 in A. rewrite R3 in B.
  split; [revert A|revert B]; case Rle_bool_spec; auto; discriminate.
Qed.

Lemma half_exp y : 0 <= y -> y * exp (- y) <= 1.
Proof.
  intros H. rewrite exp_Ropp. pose proof (exp_pos y) as P. pose proof (exp_ineq1_le y) as E.
  apply Rmult_le_reg_r with (exp y); [exact P|]. rewrite Rmult_assoc, Rinv_l by lra. lra.
Qed.

(** a relative error d of the argument *)
Lemma exp_arg t T d : 0 <= t -> 0 <= d <= / 4 -> Rabs (T - t) <= d * t -> Rabs (exp (- T) - exp (- t)) <= 2 * d.
Proof.
  intros Ht Hd HT.
  assert (L : forall a b, 0 <= a <= b -> exp (- a) - exp (- b) <= (b - a) * exp (- a)).
  { intros a b Hab. replace (exp (- b)) with (exp (- a) * exp (- (b - a))) by (rewrite <- exp_plus; f_equal; ring).
    pose proof (exp_pos (- a)). pose proof (exp_ineq1_le (- (b - a))). nra. }
  assert (M : forall a, t / 2 <= a -> t * exp (- a) <= 2).
  { intros a Ha. assert (exp (- a) <= exp (- (t / 2))) by (destruct (Rle_lt_or_eq_dec _ _ Ha) as [Q|Q]; [left; apply exp_increasing; lra|right; f_equal; lra]).
    pose proof (half_exp (t / 2) ltac:(lra)). pose proof (exp_pos (- a)). nra. }
  assert (D : - (d * t) <= T - t <= d * t) by (revert HT; unfold Rabs; destruct Rcase_abs; lra).
  destruct (Rle_lt_dec T t) as [C|C].
  - assert (T0 : t / 2 <= T) by nra. rewrite Rabs_pos_eq.
    + eapply Rle_trans; [apply L; split; [lra|exact C]|]. pose proof (M T T0). pose proof (exp_pos (- T)).
      apply Rle_trans with (d * t * exp (- T)); [apply Rmult_le_compat_r; lra|]. nra.
    + assert (exp (- t) <= exp (- T)); [|lra]. destruct (Rle_lt_or_eq_dec _ _ C) as [Q|Q]; [left; apply exp_increasing; lra|right; f_equal; lra].
  - rewrite Rabs_minus_sym. rewrite Rabs_pos_eq.
    + eapply Rle_trans; [apply L; lra|]. pose proof (M t ltac:(lra)). pose proof (exp_pos (- t)).
      apply Rle_trans with (d * t * exp (- t)); [apply Rmult_le_compat_r; lra|]. nra.
    + assert (exp (- T) < exp (- t)) by (apply exp_increasing; lra). lra.
Qed.

Lemma exp_le1 x : 0 <= x -> exp (- x) <= 1.
Proof.
  intros H. rewrite <- exp_0. destruct (Req_dec x 0) as [->|N]; [right; f_equal; ring|left; apply exp_increasing; lra].
Qed.

Section Kernel.
  Context (fexp : f32 -> f32) (Hexp : exp_ok fexp) (sigma : f32) (Fs : is_finite sigma = true).
  Let s := B2R sigma.
  Context (Hs : bpow radix2 (-40) <= s <= 500).

  Definition scale : f32 := fdiv (of_int 1) (fmul sigma (fsqrt (fmul (of_int 2) pi_f32))).
  Let C := B2R scale.

  Lemma s_pos : 0 < s.
  Proof. pose proof (bpow_gt_0 radix2 (-40)). lra. Qed.

  Lemma scale_ok : is_finite scale = true /\ / 2048 <= C <= IZR (2 ^ 62).
  Proof.
    destruct ln2pi as (F1 & R1). cbv zeta in F1, R1. pose proof s_pos as s0. fold s in s0.
    destruct (fmul_R 24 128 sigma _ Fs F1) as (F2 & R2).
    { fold s. rewrite Rabs_pos_eq by nra. apply Rle_trans with (IZR (2 ^ 120)); [|apply f32_huge]. apply Rle_trans with 1500; [nra|apply IZR_le; lia]. }
    fold s in R2. set (q := B2R (fsqrt (fmul (of_int 2) pi_f32))) in *.
    set (m := fmul sigma _) in *.
    assert (LB : bpow radix2 (-40) <= B2R m).
    { rewrite R2. replace (bpow radix2 (-40)) with (rn (bpow radix2 (-40))).
      - apply (rnd_le 24 128). nra.
      - apply (rnd_id 24 128). apply generic_format_bpow. unfold SpecFloat.fexp, SpecFloat.emin. lia. }
    assert (UB : B2R m <= 1500).
    { rewrite R2. apply Rle_trans with (rn (IZR 1500)); [apply (rnd_le 24 128); nra|rewrite (rnd_int 24 128); [lra|lia]]. }
    pose proof (bpow_gt_0 radix2 (-40)) as B0.
    destruct (int32 1) as (Fo & Ro); [lia|].
    assert (IU : / B2R m <= bpow radix2 40).
    { replace (bpow radix2 40) with (/ bpow radix2 (-40)) by (rewrite <- bpow_opp; reflexivity). apply Rinv_le; lra. }
    assert (IL : / 1500 <= / B2R m) by (apply Rinv_le; lra).
    destruct (fdiv_R 24 128 (of_int 1) m Fo) as (F3 & R3); [lra| |].
    { rewrite Ro. unfold Rdiv. rewrite Rmult_1_l, Rabs_pos_eq by lra. eapply Rle_trans; [exact IU|]. apply bpow_le. lia. }
    change (fdiv (of_int 1) m) with scale in F3, R3. fold C in R3. split; [exact F3|]. rewrite R3, Ro. unfold Rdiv. rewrite Rmult_1_l. split.
    - replace (/ 2048) with (rn (/ 2048)).
      + apply (rnd_le 24 128). lra.
      + change (/ 2048) with (bpow radix2 (-11)). apply (rnd_id 24 128). apply generic_format_bpow. unfold SpecFloat.fexp, SpecFloat.emin. lia.
    - change (IZR (2 ^ 62)) with (bpow radix2 62). replace (bpow radix2 62) with (rn (bpow radix2 62)).
      + apply (rnd_le 24 128). eapply Rle_trans; [exact IU|]. apply bpow_le. lia.
      + apply (rnd_id 24 128). apply generic_format_bpow. unfold SpecFloat.fexp, SpecFloat.emin. lia.
  Qed.

  (** the argument of the exponential *)
  Lemma arg_ok i : (0 <= i <= 1000)%Z ->
    let arg := fdiv (fneg (fmul (of_int i) (of_int i))) (fmul (of_int 2) (fmul sigma sigma)) in
    let t := IZR i * IZR i / (2 * (s * s)) in
    is_finite arg = true /\ B2R arg <= 0 /\ Rabs (- B2R arg - t) <= 8 * u * t.
  Proof.
    intros Hi arg t. pose proof s_pos as s0.
    destruct (int32 i) as (Fi & Ri); [lia|]. destruct (int32 2) as (F2 & R2); [lia|].
    destruct (fmul_R 24 128 (of_int i) (of_int i) Fi Fi) as (Fq & Rq).
    { rewrite Ri, <- mult_IZR, <- abs_IZR. apply Rle_trans with (IZR (2 ^ 120)); [apply IZR_le; nia|apply f32_huge]. }
    rewrite Ri, <- mult_IZR, (rnd_int 24 128) in Rq by nia.
    assert (Sq : bpow radix2 (-80) <= s * s <= 250000).
    { split; [|nra]. replace (bpow radix2 (-80)) with (bpow radix2 (-40) * bpow radix2 (-40)) by (rewrite <- bpow_plus; reflexivity).
      pose proof (bpow_gt_0 radix2 (-40)). apply Rmult_le_compat; lra. }
    pose proof (bpow_gt_0 radix2 (-80)) as B1.
    destruct (fmul_R 24 128 sigma sigma Fs Fs) as (Fm & Rm).
    { fold s. rewrite Rabs_pos_eq by lra. apply Rle_trans with (IZR (2 ^ 120)); [|apply f32_huge]. apply Rle_trans with 250000; [lra|apply IZR_le; lia]. }
    fold s in Rm.
    assert (E1 : Rabs (rn (s * s) - s * s) <= 2 * u * (s * s)).
    { rewrite <- (Rabs_pos_eq (s * s)) at 3 by lra. apply f32_rel. right. rewrite Rabs_pos_eq by lra. eapply Rle_trans; [|exact (proj1 Sq)]. apply bpow_le. lia. }
    rewrite <- Rm in E1. set (m := fmul sigma sigma) in *. set (mr := B2R m) in *.
    assert (M1 : s * s * (1 - 2 * u) <= mr <= s * s * (1 + 2 * u)) by (clear - E1; revert E1; unfold Rabs; destruct Rcase_abs; lra).
    destruct (fmul_R 24 128 (of_int 2) m F2 Fm) as (Fd & Rd).
    { rewrite R2. fold mr. rewrite Rabs_pos_eq by lra. apply Rle_trans with (IZR (2 ^ 120)); [|apply f32_huge]. apply Rle_trans with 1000000; [lra|apply IZR_le; lia]. }
    rewrite R2 in Rd. fold mr in Rd.
    assert (E2 : Rabs (rn (2 * mr) - 2 * mr) <= 2 * u * (2 * mr)).
    { rewrite <- (Rabs_pos_eq (2 * mr)) at 3 by lra. apply f32_rel. right. rewrite Rabs_pos_eq by lra.
      apply Rle_trans with (bpow radix2 (-80)); [apply bpow_le; lia|lra]. }
    rewrite <- Rd in E2. set (d := fmul (of_int 2) m) in *. set (dr := B2R d) in *.
    assert (M2 : 2 * mr * (1 - 2 * u) <= dr <= 2 * mr * (1 + 2 * u)) by (clear - E2; revert E2; unfold Rabs; destruct Rcase_abs; lra).
    assert (d0 : bpow radix2 (-80) <= dr) by (clear - M1 M2 Sq; lra).
    set (n := (i * i)%Z) in *. assert (n0 : (0 <= n <= 1000000)%Z) by (unfold n; nia).
    assert (Fn : is_finite (fneg (fmul (of_int i) (of_int i)) : f32) = true) by (unfold fneg; rewrite is_finite_Bopp; exact Fq).
    assert (Rn : B2R (fneg (fmul (of_int i) (of_int i)) : f32) = - IZR n) by (unfold fneg; rewrite B2R_Bopp, Rq; reflexivity).
    assert (nR : 0 <= IZR n <= 1000000) by (split; apply IZR_le; lia).
    assert (Q0 : 0 <= IZR n / dr) by (apply Rmult_le_pos; [lra|apply Rlt_le, Rinv_0_lt_compat; lra]).
    assert (Q : IZR n / dr <= IZR (2 ^ 120)).
    { apply Rdiv_le_aux; [lra|]. apply Rle_trans with (IZR (2 ^ 120) * bpow radix2 (-80)).
      - change (IZR (2 ^ 120)) with (bpow radix2 120). rewrite <- bpow_plus. apply Rle_trans with 1000000; [lra|].
        change (bpow radix2 (120 + -80)) with (IZR (2 ^ 40)). apply IZR_le. lia.
      - apply Rmult_le_compat_l; [apply IZR_le; lia|exact d0]. }
    destruct (fdiv_R 24 128 (fneg (fmul (of_int i) (of_int i))) d Fn) as (Fa & Ra).
    { fold dr. lra. }
    { rewrite Rn. fold dr. replace (- IZR n / dr) with (- (IZR n / dr)) by (field; lra). rewrite Rabs_Ropp, Rabs_pos_eq by exact Q0.
      eapply Rle_trans; [exact Q|apply f32_huge]. }
    fold arg in Fa, Ra. rewrite Rn in Ra. fold dr in Ra. replace (- IZR n / dr) with (- (IZR n / dr)) in Ra by (field; lra).
    split; [exact Fa|]. split.
    { rewrite Ra. rewrite <- (rnd_0 24 128). apply (rnd_le 24 128). lra. }
    assert (E3 : Rabs (B2R arg - - (IZR n / dr)) <= 2 * u * (IZR n / dr)).
    { rewrite Ra. rewrite <- (Rabs_pos_eq (IZR n / dr)) at 3 by exact Q0. rewrite <- (Rabs_Ropp (IZR n / dr)). apply f32_rel.
      destruct (Z.eq_dec n 0) as [->|Nn]; [left; unfold Rdiv; ring|right].
      rewrite Rabs_Ropp, Rabs_pos_eq by exact Q0. apply Rle_trans with (/ 1000000).
      - apply Rle_trans with (bpow radix2 (-20)); [apply bpow_le; lia|]. change (bpow radix2 (-20)) with (/ 1048576). lra.
      - unfold Rdiv. apply Rle_trans with (1 * / 1000000); [lra|]. apply Rmult_le_compat; [lra|lra|apply IZR_le; lia|apply Rinv_le; [lra|]]. lra. }
    assert (Et : t = IZR n / (2 * (s * s))) by (unfold t, n; rewrite mult_IZR; reflexivity).
    assert (t0 : 0 <= t) by (rewrite Et; apply Rmult_le_pos; [lra|apply Rlt_le, Rinv_0_lt_compat; lra]).
    assert (Ed : IZR n / dr = t * (2 * (s * s) / dr)) by (rewrite Et; field; lra).
    assert (X : 1 - 5 * u <= 2 * (s * s) / dr <= 1 + 5 * u).
    { split.
      - apply Rmult_le_reg_r with dr; [lra|]. unfold Rdiv. rewrite Rmult_assoc, Rinv_l by lra. clear - M1 M2 Sq B1. lra.
      - apply Rdiv_le_aux; [lra|]. clear - M1 M2 Sq B1. lra. }
    rewrite Ed in E3. set (x := 2 * (s * s) / dr) in *. clearbody x.
    assert (E4 : - (2 * u * (t * x)) <= - B2R arg - t * x <= 2 * u * (t * x)) by (clear - E3; revert E3; unfold Rabs; destruct Rcase_abs; lra).
    assert (T1 : t * x <= t * (1 + 5 * u)) by (apply Rmult_le_compat_l; lra).
    assert (T2 : t * (1 - 5 * u) <= t * x) by (apply Rmult_le_compat_l; lra).
    clear - E4 T1 T2 t0. unfold Rabs; destruct Rcase_abs; lra.
  Qed.

  (** the value before normalisation *)
  Lemma pdf_ok i : (0 <= i <= 1000)%Z ->
    let a := gaussian_pdf fexp (of_int i) sigma in
    is_finite a = true /\ 0 <= B2R a /\ Rabs (B2R a - C * gauss_weight s i) <= C * / 262144 /\ B2R a <= 2 * C.
  Proof.
    intros Hi a. destruct (arg_ok i Hi) as (Fa & Na & Ea). cbv zeta in Fa, Na, Ea. unfold a, gaussian_pdf.
    set (arg := fdiv (fneg _) _) in *. fold scale. destruct scale_ok as (Fc & Rc). fold C in Rc.
    set (t := IZR i * IZR i / (2 * (s * s))) in *.
    assert (t0 : 0 <= t). { unfold t. pose proof s_pos. apply Rmult_le_pos; [nra|]. apply Rlt_le, Rinv_0_lt_compat. nra. }
    destruct (proj2 Hexp arg Fa Na) as (Fe & Ne & Ee).
    pose proof (exp_arg t (- B2R arg) (8 * u) t0 ltac:(lra) Ea) as X. rewrite Ropp_involutive in X.
    pose proof (exp_le1 t t0) as L1. pose proof (exp_pos (- t)) as L0. unfold gauss_weight. fold t.
    set (E := B2R (fexp arg)) in *. set (w := exp (- t)) in *. set (w' := exp (B2R arg)) in *.
    assert (EW : Rabs (E - w) <= / 524288) by (clear - Ee X; revert Ee X; unfold Rabs; repeat destruct Rcase_abs; lra).
    assert (E1 : E <= 3 / 2) by (clear - EW L1; revert EW; unfold Rabs; destruct Rcase_abs; lra).
    assert (CE : 0 <= C * E <= C * (3 / 2)) by nra.
    destruct (fmul_R 24 128 scale (fexp arg) Fc Fe) as (Fm & Rm).
    { fold C E. rewrite Rabs_pos_eq by lra. apply Rle_trans with (IZR (2 ^ 120)); [|apply f32_huge].
      apply Rle_trans with (IZR (2 ^ 62) * (3 / 2)); [nra|]. apply Rle_trans with (IZR (2 ^ 63)); [|apply IZR_le; lia].
      replace (IZR (2 ^ 63)) with (IZR (2 ^ 62) * 2) by (rewrite <- mult_IZR; reflexivity). pose proof (IZR_le 0 (2 ^ 62) ltac:(lia)). lra. }
    fold C E in Rm. split; [exact Fm|]. rewrite Rm. split.
    { rewrite <- (rnd_0 24 128). apply (rnd_le 24 128). lra. }
    pose proof (f32_err (C * E)) as RE. rewrite (Rabs_pos_eq (C * E)) in RE by lra.
    assert (CW : Rabs (C * E - C * w) <= C * / 524288) by (rewrite <- Rmult_minus_distr_l, Rabs_mult, Rabs_pos_eq by lra; apply Rmult_le_compat_l; lra).
    clear - RE CW CE Rc L1 L0. assert (C * w <= C) by nra. revert RE CW. unfold Rabs; repeat destruct Rcase_abs; intros; split; lra.
  Qed.

  (** ** the window *)
  Let r := gauss_radius s.
  Let e := gauss_weight s.
  Let win := gauss_window s.

  Lemma radius_range : (1 <= r <= 1000)%Z /\ IZR r - 1 < 2 * s <= IZR r.
  Proof.
    pose proof s_pos as s0. unfold r, gauss_radius. pose proof (Zceil_ub (2 * s)) as U.
    assert (L : IZR (Zceil (2 * s)) - 1 < 2 * s).
    { unfold Zceil in *. rewrite opp_IZR in *. pose proof (Zfloor_ub (- (2 * s))). lra. }
    split; [|lra]. split.
    - apply lt_IZR with (m := 0%Z) in s0 || idtac. assert (0 < Zceil (2 * s))%Z; [|lia]. apply lt_IZR. lra.
    - assert (Zceil (2 * s) < 1001)%Z; [|lia]. apply lt_IZR. lra.
  Qed.

  Lemma win_len : zlen win = (2 * r + 1)%Z.
  Proof. unfold win, gauss_window. fold r. rewrite zlen_zrange. pose proof radius_range. lia. Qed.

  Lemma weight_range i : 0 < e i <= 1.
  Proof. unfold e, gauss_weight. split; [apply exp_pos|]. apply exp_le1. pose proof s_pos. apply Rmult_le_pos; [nra|]. apply Rlt_le, Rinv_0_lt_compat. nra. Qed.

  Lemma weight_sum : IZR (zlen win) <= 10 * rsum (map e win).
  Proof.
    rewrite win_len. pose proof radius_range as (Hr & R1). pose proof s_pos as s0.
    set (m := Zfloor s). pose proof (Zfloor_lb s) as L1. pose proof (Zfloor_ub s) as L2. fold m in L1, L2.
    assert (m0 : (0 <= m)%Z) by (apply Zfloor_lub; simpl; lra).
    assert (rm : (r <= 2 * m + 2)%Z). { assert (r < 2 * m + 3)%Z; [|lia]. apply lt_IZR. rewrite plus_IZR, mult_IZR. lra. }
    assert (mr : (m <= r)%Z). { apply le_IZR. pose proof (IZR_le 0 m m0). lra. }
    assert (S : IZR (2 * m + 1) * / 2 <= rsum (map e win)).
    { unfold win, gauss_window. fold r. rewrite (zrange_split (- r) (- m) (r + 1)), (zrange_split (- m) (m + 1) (r + 1)), !map_app, !gsum_app by lia.
      assert (P : forall l, 0 <= rsum (map e l)) by (intros l; apply gsum_nonneg; intros i _; pose proof (weight_range i); lra).
      pose proof (P (zrange (- r) (- m))). pose proof (P (zrange (m + 1) (r + 1))).
      assert (/ 2 * IZR (zlen (zrange (- m) (m + 1))) <= rsum (map e (zrange (- m) (m + 1)))).
      { rewrite <- gsum_const. apply gsum_le. intros i Hi. apply in_zrange in Hi. unfold e, gauss_weight.
        assert (I2 : IZR i * IZR i <= s * s).
        { rewrite <- mult_IZR. apply Rle_trans with (IZR (m * m)); [apply IZR_le; nia|]. rewrite mult_IZR. pose proof (IZR_le 0 m m0). nra. }
        assert (IZR i * IZR i / (2 * (s * s)) <= / 2) by (apply Rdiv_le_aux; nra).
        pose proof (exp_ineq1_le (- (IZR i * IZR i / (2 * (s * s))))). lra. }
      rewrite zlen_zrange in *. replace (Z.max 0 (m + 1 - - m)) with (2 * m + 1)%Z in * by lia. lra. }
    assert (IZR (2 * r + 1) <= 5 * IZR (2 * m + 1)); [|lra]. rewrite <- mult_IZR. apply IZR_le. lia.
  Qed.
End Kernel.
