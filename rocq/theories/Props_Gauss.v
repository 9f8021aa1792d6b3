(** C91: Gaussian blur averages the window; C92: Gaussian sharpening. *)
From Flocq Require Import Core BinarySingleNaN.
From Coq Require Import Reals Lra Psatz.
From Verif Require Import Base BaseProofs RasterProofs Float FloatProofs FloatErr SuppressProofs OtsuProofs FilterModel FilterSpec FilterProofs Props_Filter
  ClampModel Props_Clamp KapurSpec GaussModel GaussSpec GaussProofs GaussProofs2.
Local Ltac Zify.zify_post_hook ::= idtac.
Open Scope Z_scope.

(** every channel value is a u8 *)
Definition u8_channels (ch : Z) (im : image (list Z)) : Prop :=
  channels ch im /\ forall x y p v, get im x y = Some p -> In v p -> is_u8 v.

(** ** averages *)
Section Avg.
Local Open Scope R_scope.
Context (sigma : R).
Hypothesis Hs : 0 < sigma.

Lemma sum_pos : 0 < rsum (map (gauss_weight sigma) (gauss_window sigma)).
Proof.
  assert (In 0%Z (gauss_window sigma)).
  { unfold gauss_window, gauss_radius. apply in_zrange. assert (0 < Zceil (2 * sigma))%Z; [|lia].
    apply lt_IZR. pose proof (Zceil_ub (2 * sigma)). lra. }
  apply in_split in H. destruct H as (l1 & l2 & ->). rewrite map_app, gsum_app. cbn [map]. unfold rsum at 2. cbn [fold_right].
  assert (P : forall l, 0 <= rsum (map (gauss_weight sigma) l)) by (intros l; apply gsum_nonneg; intros i _; apply Rlt_le, exp_pos).
  pose proof (P l1). pose proof (P l2). unfold rsum in *. assert (0 < gauss_weight sigma 0) by apply exp_pos. lra.
Qed.
Lemma avg_diff f g lo hi : (forall i, In i (gauss_window sigma) -> lo <= f i - g i <= hi) -> lo <= gauss_avg sigma f - gauss_avg sigma g <= hi.
Proof.
  intros H. pose proof sum_pos as P. unfold gauss_avg. set (W := rsum (map (gauss_weight sigma) (gauss_window sigma))) in *.
  assert (E : rsum (map (fun i => gauss_weight sigma i * f i) (gauss_window sigma)) - rsum (map (fun i => gauss_weight sigma i * g i) (gauss_window sigma)) =
    rsum (map (fun i => gauss_weight sigma i * (f i - g i)) (gauss_window sigma))).
  { rewrite (gsum_ext (fun i => gauss_weight sigma i * (f i - g i)) (fun i => gauss_weight sigma i * f i + - 1 * (gauss_weight sigma i * g i))) by (intros; ring).
    rewrite gsum_plus, gsum_scal. ring. }
  replace (_ / W - _ / W) with (rsum (map (fun i => gauss_weight sigma i * (f i - g i)) (gauss_window sigma)) / W) by (rewrite <- E; field; lra).
  assert (wp : forall i, 0 < gauss_weight sigma i) by (intros; apply exp_pos).
  split.
  - apply Rmult_le_reg_r with W; [exact P|]. unfold Rdiv. rewrite Rmult_assoc, Rinv_l, Rmult_1_r by lra. unfold W.
    rewrite <- gsum_scal. apply gsum_le. intros i Hi. specialize (H i Hi). specialize (wp i). nra.
  - apply Rdiv_le_aux; [exact P|]. unfold W. rewrite <- gsum_scal. apply gsum_le. intros i Hi. specialize (H i Hi). specialize (wp i). nra.
Qed.
Lemma avg_const c : gauss_avg sigma (fun _ => c) = c.
Proof.
  pose proof sum_pos as P. unfold gauss_avg. rewrite (gsum_ext _ (fun i => c * gauss_weight sigma i)) by (intros; ring). rewrite gsum_scal. field. lra.
Qed.
Lemma avg_range f lo hi : (forall i, In i (gauss_window sigma) -> lo <= f i <= hi) -> lo <= gauss_avg sigma f <= hi.
Proof.
  intros H. pose proof (avg_diff f (fun _ => 0) lo hi) as D. rewrite avg_const in D.
  assert (lo <= gauss_avg sigma f - 0 <= hi) by (apply D; intros i Hi; specialize (H i Hi); lra). lra.
Qed.
End Avg.

(** ** one pass over a list of source values *)
Lemma weighted_ok fexp sigma {S} (into : S -> f32) (src : Z -> S) :
  (bpow radix2 (-40) <= B2R sigma <= 500)%R ->
  let r := gauss_radius (B2R sigma) in
  weighted_sum (of_int 0) fadd fmul into (map (fun j => ker_at fexp sigma (j - r)) (zrange 0 (2 * r + 1))) src =
  fold_left (fun a i => fadd a (fmul (into (src (i + r))) (ker_at fexp sigma i))) (gauss_window (B2R sigma)) (of_int 0).
Proof.
  intros Hs r. pose proof (radius_range sigma Hs) as (Rr & _). fold r in Rr.
  unfold weighted_sum. rewrite zlen_map, zlen_zrange. replace (Z.max 0 (2 * r + 1 - 0)) with (2 * r + 1) by lia.
  rewrite combine_map_self, fold_left_map. unfold gauss_window. fold r.
  replace (zrange 0 (2 * r + 1)) with (zrange (- r + r) (r + 1 + r)) by (f_equal; lia). rewrite zrange_shift, fold_left_map.
  apply fold_left_ext. intros a b _. cbv beta iota. do 3 f_equal. lia.
Qed.

Lemma trunc_ok (x : f32) (a : R) : is_finite x = true -> (0 <= a <= 255)%R -> (Rabs (B2R x - a) <= / 4)%R ->
  0 <= clamp_f32_u8 x <= 255 /\ (a - 5 / 4 < IZR (clamp_f32_u8 x) <= a + / 4)%R.
Proof.
  intros F Ha Hx. destruct (c61_floats x (of_int 0)) as (N & _).
  assert (E : clamp_f32_u8 x = Ztrunc (Rmax 0 (Rmin 255 (B2R x)))) by (destruct x; try discriminate F; exact N).
  set (M := Rmax 0 (Rmin 255 (B2R x))) in *.
  assert (HM : (0 <= M <= 255 /\ a - / 4 <= M <= a + / 4)%R).
  { revert Hx. unfold M, Rmax, Rmin, Rabs. repeat destruct Rle_dec; destruct Rcase_abs; lra. }
  rewrite E, Ztrunc_floor by lra. pose proof (Zfloor_lb M). pose proof (Zfloor_ub M). split; [split|lra].
  - apply Zfloor_lub. lra.
  - apply le_IZR. lra.
Qed.

Lemma rep_u8 ch (im : image (list Z)) c x y : u8_channels ch im -> 0 <= rep_chan 0 im c x y <= 255.
Proof.
  intros (_ & U). unfold rep_chan. destruct (get im _ _) as [p|] eqn:G; [|lia]. destruct (znth p c) as [v|] eqn:E; [|lia].
  apply znth_In in E. exact (U _ _ _ _ G E).
Qed.
Lemma u8_f32 v : 0 <= v <= 255 -> is_finite (of_int v : f32) = true /\ (B2R (of_int v : f32) = IZR v).
Proof. intros H. apply int32. lia. Qed.

(** The full property: the blur succeeds for every positive sigma, and every
    channel is less than 1 away from the Gaussian average. *)
Definition c91_statement : Prop :=
  forall (fexp : f32 -> f32) ch (im : image (list Z)) (sigma : f32),
  exp_ok fexp -> 0 <= ch -> u8_channels ch im -> is_finite sigma = true -> (0 < B2R sigma)%R ->
  exists out v, gaussian_blur_u8 fexp ch im sigma = Ok out /\ image_of ch (iw im) (ih im) out v /\
    forall c x y, 0 <= x < iw im -> 0 <= y < ih im -> 0 <= c < ch -> (Rabs (IZR (v c x y) - gauss_blur (B2R sigma) im c x y) < 1)%R.

(** Proved: sigma between 2^-40 and 500; both passes drop fractions, so the
    result may be two levels too dark, but never too bright.  Missing: the bound
    of 1 (refuted below), tiny sigma (refuted below) and larger sigma, where
    rounding errors of the sums add up. *)
Theorem c91_blur_partial (fexp : f32 -> f32) ch (im : image (list Z)) (sigma : f32) :
  exp_ok fexp -> 0 <= ch -> u8_channels ch im -> is_finite sigma = true -> (bpow radix2 (-40) <= B2R sigma <= 500)%R ->
  exists out v, gaussian_blur_u8 fexp ch im sigma = Ok out /\ image_of ch (iw im) (ih im) out v /\
    forall c x y, 0 <= x < iw im -> 0 <= y < ih im -> 0 <= c < ch ->
      0 <= v c x y <= 255 /\
      (gauss_blur (B2R sigma) im c x y - 5 / 2 < IZR (v c x y) <= gauss_blur (B2R sigma) im c x y + / 2)%R.
Proof.
  intros He Hc HU Fs Hs. unfold gaussian_blur_u8, gaussian_blur. pose proof (s_pos sigma Hs) as s0.
  assert (flt (of_int 0) sigma = true) as ->.
  { destruct (int32 0) as (F0 & R0); [lia|]. unfold flt. rewrite Bltb_correct by assumption. rewrite R0. apply Rlt_bool_true. exact s0. }
  unfold assert. cbn [bind]. rewrite (kernel_ok fexp sigma Fs Hs). cbn [bind]. unfold separable_filter_equal.
  set (r := gauss_radius (B2R sigma)). set (k := map _ _).
  pose proof (radius_range sigma Hs) as (Rr & _). fold r in Rr.
  assert (Lk : zlen k / 2 = r). { unfold k. rewrite zlen_map, zlen_zrange. replace (Z.max 0 (2 * r + 1 - 0)) with (1 + r * 2) by lia. rewrite Z.div_add by lia. reflexivity. }
  destruct (c29_separable_two_passes Z f32 (of_int 0) fadd fmul of_int clamp_f32_u8 0 ch im k k Hc (proj1 HU) eq_refl) as (out & E & I).
  eexists; eexists; split; [exact E|]. split; [exact I|]. intros c x y Hx Hy Hcc. cbv beta. rewrite !Lk.
  set (inner := fun j => clamp_f32_u8 (weighted_sum (of_int 0) fadd fmul of_int k (fun i => rep_chan 0 im c (x + i - r) (y + j - r)))).
  set (g := fun j => gauss_avg (B2R sigma) (fun i => IZR (rep_chan 0 im c (x + i) (y + j)))).
  assert (Gr : forall j, (0 <= g j <= 255)%R).
  { intros j. apply avg_range; [exact s0|]. intros i _. pose proof (rep_u8 ch im c (x + i) (y + j) HU). split; apply IZR_le; lia. }
  assert (A : forall j, 0 <= inner (j + r) <= 255 /\ (g j - 5 / 4 < IZR (inner (j + r)%Z) <= g j + / 4)%R).
  { intros j. unfold inner, k, r. rewrite weighted_ok by exact Hs. fold r.
    match goal with |- context [fold_left (fun a i => fadd a (fmul (of_int (@?s i)) _)) _ _] =>
      destruct (pass_ok fexp He sigma Fs Hs (fun i => of_int (s i))) as (F & B) end.
    { intros i _. cbv beta. pose proof (rep_u8 ch im c (x + (i + r) - r) (y + (j + r) - r) HU) as Q. destruct (u8_f32 _ Q) as (F & R). split; [exact F|].
      rewrite R, <- abs_IZR. apply IZR_le. lia. }
    cbv beta in F, B. apply trunc_ok; [exact F|apply Gr|].
    replace (g j) with (gauss_avg (B2R sigma) (fun i => B2R (of_int (rep_chan 0 im c (x + (i + r) - r) (y + (j + r) - r)) : f32))); [exact B|].
    unfold g, gauss_avg. f_equal. apply gsum_ext. intros i _. f_equal. pose proof (rep_u8 ch im c (x + (i + r) - r) (y + (j + r) - r) HU) as Q.
    rewrite (proj2 (u8_f32 _ Q)). do 2 f_equal; lia. }
  change (fun j => clamp_f32_u8 (weighted_sum (of_int 0) fadd fmul of_int k (fun i => rep_chan 0 im c (x + i - r) (y + j - r)))) with inner.
  unfold k, r. rewrite weighted_ok by exact Hs. fold r.
  destruct (pass_ok fexp He sigma Fs Hs (fun i => of_int (inner (i + r)))) as (F & B).
  { intros i _. destruct (A i) as (Q & _). destruct (u8_f32 _ Q) as (F & R). split; [exact F|]. rewrite R, <- abs_IZR. apply IZR_le. lia. }
  cbv beta in F, B. set (m := gauss_avg (B2R sigma) (fun i => IZR (inner (i + r)%Z))).
  assert (Mr : (0 <= m <= 255)%R) by (apply avg_range; [exact s0|]; intros i _; destruct (A i) as (Q & _); split; apply IZR_le; lia).
  assert (Em : gauss_avg (B2R sigma) (fun i => B2R (of_int (inner (i + r)) : f32)) = m).
  { unfold m, gauss_avg. f_equal. apply gsum_ext. intros i _. f_equal. destruct (A i) as (Q & _). exact (proj2 (u8_f32 _ Q)). }
  rewrite Em in B. destruct (trunc_ok _ m F Mr B) as (T1 & T2). split; [exact T1|].
  pose proof (avg_diff (B2R sigma) s0 (fun i => IZR (inner (i + r)%Z)) g (- (5 / 4)) (/ 4)) as D. fold m in D.
  change (gauss_avg (B2R sigma) g) with (gauss_blur (B2R sigma) im c x y) in D.
  assert (D' : (- (5 / 4) <= m - gauss_blur (B2R sigma) im c x y <= / 4)%R) by (apply D; intros i _; destruct (A i) as (_ & Q); lra).
  lra.
Qed.
Print Assumptions c91_blur_partial.

(** Hence every output lies between the darkest value of the window, minus 2,
    and the brightest. *)
Theorem c91_window_partial (fexp : f32 -> f32) ch (im : image (list Z)) (sigma : f32) :
  exp_ok fexp -> 0 <= ch -> u8_channels ch im -> is_finite sigma = true -> (bpow radix2 (-40) <= B2R sigma <= 500)%R ->
  exists out v, gaussian_blur_u8 fexp ch im sigma = Ok out /\ image_of ch (iw im) (ih im) out v /\
    forall c x y lo hi, 0 <= x < iw im -> 0 <= y < ih im -> 0 <= c < ch ->
      (forall i j, Z.abs i <= gauss_radius (B2R sigma) -> Z.abs j <= gauss_radius (B2R sigma) -> lo <= rep_chan 0 im c (x + i) (y + j) <= hi) ->
      lo - 2 <= v c x y <= hi.
Proof.
  intros He Hc HU Fs Hs. destruct (c91_blur_partial fexp ch im sigma He Hc HU Fs Hs) as (out & v & E & I & V).
  exists out, v. split; [exact E|]. split; [exact I|]. intros c x y lo hi Hx Hy Hcc H.
  destruct (V c x y Hx Hy Hcc) as (_ & V2). pose proof (s_pos sigma Hs) as s0.
  assert (B : (IZR lo <= gauss_blur (B2R sigma) im c x y <= IZR hi)%R).
  { apply avg_range; [exact s0|]. intros j Hj. apply avg_range; [exact s0|]. intros i Hi. unfold gauss_window in Hi, Hj. apply in_zrange in Hi, Hj.
    destruct (H i j) as (H1 & H2); [lia|lia|]. split; apply IZR_le; assumption. }
  split.
  - assert (lo - 3 < v c x y); [|lia]. apply lt_IZR. rewrite minus_IZR. lra.
  - assert (v c x y < hi + 1); [|lia]. apply lt_IZR. rewrite plus_IZR. lra.
Qed.
Print Assumptions c91_window_partial.

(** The kernel is symmetric, non-negative, and its exact sum is within 1/2000 of 1. *)
Theorem c91_kernel_partial (fexp : f32 -> f32) (sigma : f32) :
  exp_ok fexp -> is_finite sigma = true -> (bpow radix2 (-40) <= B2R sigma <= 500)%R ->
  exists k, gaussian_kernel fexp sigma = Ok k /\ zlen k = 2 * gauss_radius (B2R sigma) + 1 /\
    (forall j w, znth k j = Some w -> is_finite w = true /\ (0 <= B2R w)%R /\ znth k (zlen k - 1 - j) = Some w) /\
    (Rabs (rsum (map B2R k) - 1) <= / 2000)%R.
Proof.
  intros He Fs Hs. rewrite (kernel_ok fexp sigma Fs Hs). set (r := gauss_radius (B2R sigma)). eexists; split; [reflexivity|].
  pose proof (radius_range sigma Hs) as (Rr & _). fold r in Rr.
  assert (L : zlen (map (fun j => ker_at fexp sigma (j - r)) (zrange 0 (2 * r + 1))) = 2 * r + 1) by (rewrite zlen_map, zlen_zrange; lia).
  split; [exact L|]. split.
  - intros j w E. pose proof (znth_range _ _ _ E) as Rj. rewrite L in *. rewrite znth_map, znth_zrange in * by lia. cbn [option_map] in *.
    injection E as <-. assert (In (0 + j - r) (gauss_window (B2R sigma))) as W by (unfold gauss_window; fold r; apply in_zrange; lia).
    destruct (ker_ok fexp He sigma Fs Hs _ W) as (K1 & K2 & _). split; [exact K1|]. split; [apply K2|].
    f_equal. unfold ker_at, pdf_at. do 3 f_equal. lia.
  - pose proof (K_range fexp He sigma Fs Hs) as K.
    replace (rsum (map B2R (map (fun j => ker_at fexp sigma (j - r)) (zrange 0 (2 * r + 1))))) with
      (rsum (map (fun i => B2R (ker_at fexp sigma i)) (gauss_window (B2R sigma)))); [exact K|].
    unfold gauss_window. fold r. replace (zrange 0 (2 * r + 1)) with (zrange (- r + r) (r + 1 + r)) by (f_equal; lia). rewrite zrange_shift, !map_map.
    apply gsum_ext. intros i _. do 2 f_equal. lia.
Qed.
Print Assumptions c91_kernel_partial.

(** ** the hypotheses are met: an exponential in fixed point *)
Definition exp24 (x : f32) : f32 :=
  if is_nan x then x else fdiv (of_int (Zfloor (exp (B2R x) * 16777216))) (of_int 16777216).
Lemma exp24_ok : exp_ok exp24.
Proof.
  unfold exp_ok, exp24. split; [intros x Hx; rewrite Hx; exact Hx|]. intros x Fx Nx.
  replace (is_nan x) with false by (destruct x; try discriminate Fx; reflexivity).
  set (e := exp (B2R x)). assert (e0 : (0 < e)%R) by apply exp_pos.
  assert (e1 : (e <= 1)%R) by (unfold e; replace (B2R x) with (- (- B2R x))%R by ring; apply exp_le1; lra).
  set (m := Zfloor (e * 16777216)). pose proof (Zfloor_lb (e * 16777216)) as L. pose proof (Zfloor_ub (e * 16777216)) as U. fold m in L, U.
  assert (m0 : 0 <= m) by (apply Zfloor_lub; cbn; lra). assert (m1 : m <= 16777216) by (apply le_IZR; lra).
  destruct (int32 m) as (Fm & Rm); [lia|]. destruct (int32 16777216) as (Fd & Rd); [lia|].
  assert (Q0 : (0 <= IZR m / 16777216 <= 1)%R) by (pose proof (IZR_le 0 m m0); pose proof (IZR_le m 16777216 m1); lra).
  destruct (fdiv_R 24 128 (of_int m) (of_int 16777216) Fm) as (F & R).
  { rewrite Rd. lra. }
  { rewrite Rm, Rd, Rabs_pos_eq by lra. apply Rle_trans with (IZR (2 ^ 120)); [|apply f32_huge]. apply Rle_trans with 1%R; [lra|apply IZR_le; lia]. }
  rewrite Rm, Rd in R. split; [exact F|]. rewrite R. split.
  - rewrite <- (rnd_0 24 128). apply (rnd_le 24 128). lra.
  - pose proof (f32_err (IZR m / 16777216)) as E. rewrite (Rabs_pos_eq (IZR m / 16777216)) in E by lra. clear - E L U Q0.
    assert (e - / 16777216 <= IZR m / 16777216 <= e)%R by lra. revert E. unfold Rabs; repeat destruct Rcase_abs; lra.
Qed.

(** ** refutations *)
Definition one_px (v : Z) : image (list Z) := mkImage 1 1 [[v]].
Lemma one_px_ok v : 0 <= v <= 255 -> u8_channels 1 (one_px v).
Proof.
  intros H. split; [split; [unfold wf, zlen; simpl; lia|]|].
  - intros x y p G. apply get_In in G. simpl in G. destruct G as [<-|[]]. reflexivity.
  - intros x y p w G Hw. apply get_In in G. simpl in G. destruct G as [<-|[]]. simpl in Hw. destruct Hw as [<-|[]]. unfold is_u8. lia.
Qed.
Lemma one_px_rep v x y : rep_chan 0 (one_px v) 0 x y = v.
Proof.
  unfold rep_chan, border, one_px. cbn [iw ih]. replace (zclamp 0 (1 - 1) x) with 0 by (unfold zclamp; lia).
  replace (zclamp 0 (1 - 1) y) with 0 by (unfold zclamp; lia). reflexivity.
Qed.
Lemma one_px_blur s v : (0 < s)%R -> gauss_blur s (one_px v) 0 0 0 = IZR v.
Proof.
  intros H. unfold gauss_blur.
  assert (E : forall j, gauss_avg s (fun i => IZR (rep_chan 0 (one_px v) 0 (0 + i) (0 + j))) = IZR v).
  { intros j. transitivity (gauss_avg s (fun _ => IZR v)); [|apply avg_const; exact H]. unfold gauss_avg. f_equal. apply gsum_ext.
    intros i _. rewrite one_px_rep. reflexivity. }
  transitivity (gauss_avg s (fun _ => IZR v)); [|apply avg_const; exact H]. unfold gauss_avg at 1 3. f_equal. apply gsum_ext.
  intros j _. rewrite E. reflexivity.
Qed.

Definition tiny : f32 := of_dyadic 1 (-80).
Lemma tiny_kernel fexp : (forall x, is_nan x = true -> is_nan (fexp x) = true) -> gaussian_kernel fexp tiny = Ok [B754_nan; B754_nan; B754_nan].
Proof.
  intros H. unfold gaussian_kernel. replace (to_int 0 (2 ^ 64 - 1) (fceil (fmul (of_int 2) tiny))) with 1 by (vm_compute; reflexivity).
  change (chk_u 64 (2 * 1)) with (Ok 2). cbn [bind]. change (chk_u 64 (2 + 1)) with (Ok 3). cbn [bind].
  change (4 * 3 <=? 2 ^ 63 - 1) with true. unfold assert. cbn [bind].
  set (v0 := gaussian_pdf fexp (of_int 0) tiny). set (v1 := gaussian_pdf fexp (of_int 1) tiny).
  assert (N0 : v0 = B754_nan).
  { unfold v0, gaussian_pdf. set (a := fdiv (fneg _) _). assert (Na : is_nan a = true) by (vm_compute; reflexivity).
    apply H in Na. destruct (fexp a); try discriminate Na. set (c := fdiv _ _). destruct c; reflexivity. }
  replace (for_range 0 (1 + 1) _ _) with (Ok [v1; v0; v1]) by (unfold v0, v1; reflexivity). cbn [bind fold_left map].
  rewrite N0. set (a := fadd (of_int 0) v1). clearbody a. clearbody v1. f_equal.
  assert (A1 : fadd a (B754_nan : f32) = B754_nan) by (destruct a; reflexivity). rewrite A1.
  assert (A2 : fadd (B754_nan : f32) v1 = B754_nan) by (destruct v1; reflexivity). rewrite A2.
  assert (A3 : forall x : f32, fdiv x (B754_nan : f32) = B754_nan) by (intros x; destruct x; reflexivity). rewrite !A3. reflexivity.
Qed.

(** A tiny sigma turns the image white: sigma^2 underflows, the kernel is NaN,
    and NaN is clamped to the maximum. *)
Theorem c91_tiny_white (fexp : f32 -> f32) v : (forall x, is_nan x = true -> is_nan (fexp x) = true) -> 0 <= v <= 255 ->
  gaussian_blur_u8 fexp 1 (one_px v) tiny = Ok (one_px 255).
Proof.
  intros H Hv. unfold gaussian_blur_u8, gaussian_blur. replace (flt (of_int 0) tiny) with true by (vm_compute; reflexivity).
  unfold assert. cbn [bind]. rewrite (tiny_kernel fexp H). cbn [bind]. unfold separable_filter_equal.
  set (k := [B754_nan; B754_nan; B754_nan] : list f32).
  destruct (c29_separable_two_passes Z f32 (of_int 0) fadd fmul of_int clamp_f32_u8 0 1 (one_px v) k k ltac:(lia) (proj1 (one_px_ok v Hv)) eq_refl) as (out & E & (I1 & I2 & (I3 & I4) & I5)).
  rewrite E. f_equal. cbn [iw ih one_px] in I1, I2, I5. destruct (I5 0 0 ltac:(lia) ltac:(lia)) as (p & G & P). pose proof (I4 _ _ _ G) as L.
  specialize (P 0 ltac:(lia)). cbv beta in P. unfold weighted_sum at 1 in P.
  change (combine (zrange 0 (zlen k)) k) with [(0, B754_nan : f32); (1, B754_nan); (2, B754_nan)] in P. cbn [fold_left] in P.
  assert (A0 : forall x : f32, fmul x (B754_nan : f32) = B754_nan) by (intros x; destruct x; reflexivity). rewrite !A0 in P.
  assert (A1 : forall x : f32, fadd x (B754_nan : f32) = B754_nan) by (intros x; destruct x; reflexivity). rewrite !A1 in P.
  change (clamp_f32_u8 B754_nan) with 255 in P. apply (image_ext out (one_px 255)); [exact I3|apply one_px_ok; lia|cbn; congruence|cbn; congruence|].
  intros x y Hx Hy. rewrite I1 in Hx. rewrite I2 in Hy. assert (x = 0) as -> by lia. assert (y = 0) as -> by lia. rewrite G.
  change (get (one_px 255) 0 0) with (Some [255]). f_equal. destruct p as [|p0 [|p1 p]]; [discriminate L| |rewrite !zlen_cons in L; pose proof (zlen_nonneg p); lia].
  rewrite znth_cons_0 in P. injection P as ->. reflexivity.
Qed.
Print Assumptions c91_tiny_white.

Theorem c91_refuted : ~ c91_statement.
Proof.
  intros S. assert (Ft : is_finite tiny = true) by (vm_compute; reflexivity).
  assert (Pt : (0 < B2R tiny)%R).
  { assert (L : flt (of_int 0) tiny = true) by (vm_compute; reflexivity). destruct (int32 0) as (F0 & R0); [lia|].
    unfold flt in L. rewrite Bltb_correct in L by assumption. rewrite R0 in L. revert L. case Rlt_bool_spec; [auto|discriminate]. }
  destruct (S exp24 1 (one_px 7) tiny exp24_ok ltac:(lia) (one_px_ok 7 ltac:(lia)) Ft Pt) as (out & v & E & I & V).
  rewrite (c91_tiny_white exp24 7 (proj1 exp24_ok) ltac:(lia)) in E. injection E as <-.
  destruct I as (_ & _ & _ & I). cbn [iw ih one_px] in I, V. destruct (I 0 0 ltac:(lia) ltac:(lia)) as (p & G & P).
  change (get (one_px 255) 0 0) with (Some [255]) in G. injection G as <-. specialize (P 0 ltac:(lia)). rewrite znth_cons_0 in P. injection P as P.
  specialize (V 0 0 0 ltac:(lia) ltac:(lia) ltac:(lia)). rewrite (one_px_blur _ 7 Pt), <- P in V.
  rewrite <- minus_IZR in V. rewrite Rabs_pos_eq in V by (apply IZR_le; lia). cbn in V. lra.
Qed.
Print Assumptions c91_refuted.

(** Constant images are not preserved: for sigma = 1/4 and any exponential with
    the correctly rounded value at -8 (and 1 at 0), the level 2 becomes 0. *)
Definition lit (m e : Z) : f32 := of_dyadic m e.
Theorem c91_constant_darkens (fexp : f32 -> f32) :
  (forall x, feq x (of_int (-8)) = true -> fexp x = lit 11526408 (-35)) -> (forall x, feq x (of_int 0) = true -> fexp x = of_int 1) ->
  gaussian_blur_u8 fexp 1 (one_px 2) (lit 1 (-2)) = Ok (one_px 0).
Proof.
  intros H8 H0. unfold gaussian_blur_u8, gaussian_blur. replace (flt (of_int 0) (lit 1 (-2))) with true by (vm_compute; reflexivity).
  unfold assert. cbn [bind].
  assert (K : gaussian_kernel fexp (lit 1 (-2)) =
    gaussian_kernel (fun x => if feq x (of_int (-8)) then lit 11526408 (-35) else of_int 1) (lit 1 (-2))).
  { unfold gaussian_kernel. replace (to_int 0 (2 ^ 64 - 1) (fceil (fmul (of_int 2) (lit 1 (-2))))) with 1 by (vm_compute; reflexivity).
    change (chk_u 64 (2 * 1)) with (Ok 2). cbn [bind]. change (chk_u 64 (2 + 1)) with (Ok 3). cbn [bind].
    change (4 * 3 <=? 2 ^ 63 - 1) with true. unfold assert. cbn [bind].
    set (f' := fun x => if feq x (of_int (-8)) then lit 11526408 (-35) else of_int 1).
    assert (P0 : gaussian_pdf fexp (of_int 0) (lit 1 (-2)) = gaussian_pdf f' (of_int 0) (lit 1 (-2))).
    { unfold gaussian_pdf. f_equal. set (a := fdiv (fneg _) _). rewrite (H0 a) by (vm_compute; reflexivity).
      unfold f'. replace (feq a (of_int (-8))) with false by (vm_compute; reflexivity). reflexivity. }
    assert (P1 : gaussian_pdf fexp (of_int 1) (lit 1 (-2)) = gaussian_pdf f' (of_int 1) (lit 1 (-2))).
    { unfold gaussian_pdf. f_equal. set (a := fdiv (fneg _) _). rewrite (H8 a) by (vm_compute; reflexivity).
      unfold f'. replace (feq a (of_int (-8))) with true by (vm_compute; reflexivity). reflexivity. }
    assert (FR : forall g, for_range 0 (1 + 1) (fun i d => d <- vset d (1 + i) (gaussian_pdf g (of_int i) (lit 1 (-2))) ;; vset d (1 - i) (gaussian_pdf g (of_int i) (lit 1 (-2))))
      (map (fun _ => of_int 0) (zrange 0 3)) = Ok [gaussian_pdf g (of_int 1) (lit 1 (-2)); gaussian_pdf g (of_int 0) (lit 1 (-2)); gaussian_pdf g (of_int 1) (lit 1 (-2))]) by (intros; reflexivity).
    rewrite !FR. rewrite P0, P1. reflexivity. }
  rewrite K. vm_compute. reflexivity.
Qed.
Print Assumptions c91_constant_darkens.

Example c91_nontrivial : exp_ok exp24 /\ u8_channels 1 (one_px 7) /\ is_finite (lit 3 (-1)) = true /\ (bpow radix2 (-40) <= B2R (lit 3 (-1)) <= 500)%R.
Proof.
  split; [exact exp24_ok|]. split; [apply one_px_ok; lia|]. split; [vm_compute; reflexivity|].
  assert (L : fle (of_int 1) (lit 3 (-1)) = true) by (vm_compute; reflexivity). assert (U : fle (lit 3 (-1)) (of_int 2) = true) by (vm_compute; reflexivity).
  assert (F : is_finite (lit 3 (-1)) = true) by (vm_compute; reflexivity).
  destruct (int32 1) as (F1 & R1); [lia|]. destruct (int32 2) as (F2 & R2); [lia|].
  unfold fle in L, U. rewrite Bleb_correct in L, U by assumption. rewrite R1 in L. rewrite R2 in U.
  revert L U. repeat case Rle_bool_spec; try discriminate. intros.
  assert (bpow radix2 (-40) <= bpow radix2 0)%R by (apply bpow_le; lia). change (bpow radix2 0) with 1%R in *. lra.
Qed.
