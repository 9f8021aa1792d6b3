(** Proofs about [canny]. *)
From Flocq Require Import Core BinarySingleNaN.
From Coq Require Import Reals Lra Psatz.
From Verif Require Import Base BaseProofs RasterProofs Float FloatProofs FloatErr LineModel LineProofs FilterModel FilterSpec FilterProofs Props_Filter.
From Verif Require Import TemplateProofs GradientModel GradientSpec GradientProofs ClampModel KapurSpec GaussModel GaussSpec GaussProofs GaussProofs2 Props_Gauss.
From Verif Require Import EdgesModel EdgesSpec EdgesProofs Props_Edges WuProofs HogCellsModel HogCellsSpec HogCellsProofs HogCellsProofs4 CannyModel CannySpec.
Local Ltac Zify.zify_post_hook ::= idtac.
Open Scope Z_scope.

(** ** the blur *)
Lemma sigma_R : is_finite canny_sigma = true /\ B2R canny_sigma = (11744051 / 8388608)%R.
Proof.
  split; [reflexivity|]. unfold canny_sigma.
  transitivity (F2R (Float radix2 11744051 (-23))); [vm_compute; reflexivity|].
  unfold F2R, Fnum, Fexp. change (bpow radix2 (-23)) with (/ 8388608)%R. reflexivity.
Qed.
Lemma sigma_range : (bpow radix2 (-40) <= B2R canny_sigma <= 500)%R.
Proof. rewrite (proj2 sigma_R). assert (bpow radix2 (-40) <= bpow radix2 0)%R by (apply bpow_le; lia). change (bpow radix2 0) with 1%R in H. lra. Qed.
Lemma sigma_radius : gauss_radius (B2R canny_sigma) = 3.
Proof.
  pose proof (radius_range canny_sigma sigma_range) as (_ & H). rewrite (proj2 sigma_R) in *. set (r := gauss_radius _) in *.
  assert (r < 4) by (apply lt_IZR; lra). assert (2 < r) by (apply lt_IZR; lra). lia.
Qed.

Lemma weighted_ext {S K} (zero : K) add mul (into : S -> K) ws src src' :
  (forall i, 0 <= i < zlen ws -> src i = src' i) -> weighted_sum zero add mul into ws src = weighted_sum zero add mul into ws src'.
Proof.
  intros H. unfold weighted_sum. apply fold_left_ext. intros a [i w] Hi. apply in_combine_l in Hi. apply in_zrange in Hi. rewrite H by lia. reflexivity.
Qed.

(** the blurred image, with its values determined by the windows *)
Lemma blur_ok fexp im : exp_ok fexp -> u8_channels 1 im ->
  exists b, gaussian_blur_u8 fexp 1 im canny_sigma = Ok b /\ iw b = iw im /\ ih b = ih im /\ channels 1 b /\ u8_image b /\
    (forall x y, 0 <= x < iw im -> 0 <= y < ih im ->
      (gauss_blur (B2R canny_sigma) im 0 x y - 5 / 2 < IZR (rep_chan 0%Z b 0 x y) <= gauss_blur (B2R canny_sigma) im 0 x y + / 2)%R) /\
    (forall x y x' y', 0 <= x < iw im -> 0 <= y < ih im -> 0 <= x' < iw im -> 0 <= y' < ih im ->
      (forall i j, -3 <= i <= 3 -> -3 <= j <= 3 -> rep_chan 0 im 0 (x + i) (y + j) = rep_chan 0 im 0 (x' + i) (y' + j)) ->
      rep_chan 0 b 0 x y = rep_chan 0 b 0 x' y').
Proof.
  intros He U. destruct (c91_blur_partial fexp 1 im canny_sigma He ltac:(lia) U (proj1 sigma_R) sigma_range) as (b & v & E & (B1 & B2 & B3 & B4) & V).
  assert (RC : forall x y, 0 <= x < iw im -> 0 <= y < ih im -> rep_chan 0 b 0 x y = v 0 x y).
  { intros x y Hx Hy. destruct (B4 x y Hx Hy) as (p & G & P). unfold rep_chan, border.
    replace (zclamp 0 (iw b - 1) x) with x by (unfold zclamp; lia). replace (zclamp 0 (ih b - 1) y) with y by (unfold zclamp; lia).
    rewrite G, P by lia. reflexivity. }
  exists b. split; [exact E|]. split; [exact B1|]. split; [exact B2|]. split; [exact B3|]. split; [|split].
  - intros x y p w G I. pose proof (get_inb _ _ _ _ G) as R. destruct (B4 x y) as (p' & G' & P); [lia|lia|]. rewrite G in G'. injection G' as <-.
    destruct B3 as (_ & L). specialize (L x y p G). destruct p as [|a [|a' p]]; [destruct I| |cbn in L; unfold zlen in L; cbn in L; lia].
    destruct I as [<-|[]]. specialize (P 0 ltac:(lia)). cbn in P. injection P as ->. apply (V 0 x y); lia.
  - intros x y Hx Hy. rewrite RC by assumption. apply (V 0 x y); lia.
  - intros x y x' y' Hx Hy Hx' Hy' W. rewrite !RC by assumption.
    unfold gaussian_blur_u8, gaussian_blur in E. pose proof sigma_R as (Fs & _). pose proof sigma_range as Hs.
    assert (flt (of_int 0) canny_sigma = true) as T by (vm_compute; reflexivity). rewrite T in E. cbn [assert bind] in E. rewrite (kernel_ok fexp canny_sigma Fs Hs) in E. cbn [bind] in E.
    unfold separable_filter_equal in E. rewrite sigma_radius in E. set (k := map _ _) in E.
    assert (Lk : zlen k = 7) by (unfold k; rewrite zlen_map, zlen_zrange; lia).
    destruct (c29_separable_two_passes Z f32 (of_int 0) fadd fmul of_int clamp_f32_u8 0 1 im k k ltac:(lia) (proj1 U) eq_refl) as (b' & E' & (_ & _ & _ & I)).
    rewrite E in E'. injection E' as <-.
    destruct (I x y Hx Hy) as (p & G & P). destruct (B4 x y Hx Hy) as (p2 & G2 & P2). rewrite G in G2. injection G2 as <-.
    destruct (I x' y' Hx' Hy') as (q & G3 & P3). destruct (B4 x' y' Hx' Hy') as (q2 & G4 & P4). rewrite G3 in G4. injection G4 as <-.
    specialize (P 0 ltac:(lia)). specialize (P2 0 ltac:(lia)). specialize (P3 0 ltac:(lia)). specialize (P4 0 ltac:(lia)).
    rewrite P in P2. rewrite P3 in P4. injection P2 as <-. injection P4 as <-. rewrite Lk. f_equal. apply weighted_ext. intros j Hj. f_equal. apply weighted_ext. intros i Hi.
    rewrite Lk in Hi, Hj. change (7 / 2) with 3.
    replace (x + i - 3) with (x + (i - 3)) by lia. replace (y + j - 3) with (y + (j - 3)) by lia.
    replace (x' + i - 3) with (x' + (i - 3)) by lia. replace (y' + j - 3) with (y' + (j - 3)) by lia. apply W; lia.
Qed.

(** ** the gradients *)
Lemma filter_i16_ok (b : image (list Z)) data : channels 1 b -> zlen data = 9 -> (forall x y, Z.abs (corr3 b data 0 x y) <= 1020) ->
  exists k out, kernel_new data 3 3 = Ok k /\ filter_clamped_i16 1 b k = Ok out /\ iw out = iw b /\ ih out = ih b /\ wf out /\
    forall x y, 0 <= x < iw b -> 0 <= y < ih b -> get out x y = Some [corr3 b data 0 x y].
Proof.
  intros C L B. assert (K : kernel_new data 3 3 = Ok (mkKernel data 3 3)) by (unfold kernel_new; rewrite L; reflexivity).
  destruct (c27_filter_integer clamp_i16 1 b data 3 3 _ ltac:(lia) C ltac:(lia) ltac:(lia) ltac:(lia) K) as (out & E & (O1 & O2 & (W & O3) & O4)).
  exists (mkKernel data 3 3), out. split; [exact K|]. split; [exact E|]. split; [exact O1|]. split; [exact O2|]. split; [exact W|].
  intros x y Hx Hy. destruct (O4 x y Hx Hy) as (p & G & P). rewrite G. f_equal. specialize (O3 x y p G). specialize (P 0 ltac:(lia)).
  destruct p as [|a [|a' p]]; unfold zlen in O3; cbn in O3; [lia| |lia]. cbn in P. injection P as ->. f_equal.
  match goal with |- ?l = _ => change l with (clamp_i16 (corr3 b data 0 x y)) end. specialize (B x y). set (c := corr3 b data 0 x y) in *. unfold clamp_i16, zclamp. clear - B. idtac. lia.
Qed.
Lemma dx_bound b x y : wf b -> u8_image b -> Z.abs (sobel_dx b x y) <= 1020.
Proof. intros W U. unfold sobel_dx. pose proof (deriv_x_bound b 1 2 0 x y W U ltac:(lia) ltac:(lia)). lia. Qed.
Lemma dy_bound b x y : wf b -> u8_image b -> Z.abs (sobel_dy b x y) <= 1020.
Proof. intros W U. unfold sobel_dy. pose proof (deriv_y_bound b 1 2 0 x y W U ltac:(lia) ltac:(lia)). lia. Qed.
Lemma corr_h b x y : corr3 b sobel_h 0 x y = sobel_dx b x y.
Proof. change sobel_h with [- (1); 0; 1; - (2); 0; 2; - (1); 0; 1]. apply corr_dx. Qed.
Lemma corr_v b x y : corr3 b sobel_v 0 x y = sobel_dy b x y.
Proof. change sobel_v with [- (1); - (2); - (1); 0; 0; 0; 1; 2; 1]. apply corr_dy. Qed.

(** nine values in an interval of length d *)
Lemma gradient2_le b x y lo hi :
  (forall i j, -1 <= i <= 1 -> -1 <= j <= 1 -> lo <= rep_chan 0 b 0 (x + i) (y + j) <= hi) ->
  gradient2 b x y <= 20 * ((hi - lo) * (hi - lo)).
Proof.
  intros H. unfold gradient2, sobel_dx, sobel_dy, deriv_x, deriv_y, px_rep.
  pose proof (H (-1) (-1) ltac:(lia) ltac:(lia)) as H1. pose proof (H 0 (-1) ltac:(lia) ltac:(lia)) as H2. pose proof (H 1 (-1) ltac:(lia) ltac:(lia)) as H3.
  pose proof (H (-1) 0 ltac:(lia) ltac:(lia)) as H4. pose proof (H 1 0 ltac:(lia) ltac:(lia)) as H6.
  pose proof (H (-1) 1 ltac:(lia) ltac:(lia)) as H7. pose proof (H 0 1 ltac:(lia) ltac:(lia)) as H8. pose proof (H 1 1 ltac:(lia) ltac:(lia)) as H9.
  clear H. change (x - 1) with (x + -1). change (y - 1) with (y + -1). rewrite !Z.add_0_r in *.
  set (tl := rep_chan 0 b 0 (x + -1) (y + -1)) in *. set (t := rep_chan 0 b 0 x (y + -1)) in *. set (tr := rep_chan 0 b 0 (x + 1) (y + -1)) in *.
  set (l := rep_chan 0 b 0 (x + -1) y) in *. set (r := rep_chan 0 b 0 (x + 1) y) in *.
  set (bl := rep_chan 0 b 0 (x + -1) (y + 1)) in *. set (bo := rep_chan 0 b 0 x (y + 1)) in *. set (br := rep_chan 0 b 0 (x + 1) (y + 1)) in *.
  set (d := hi - lo). set (u := br - tl). set (w := tr - bl). set (p := r - l). set (q := bo - t).
  replace (1 * (tr - tl) + 2 * p + 1 * (br - bl)) with (u + w + 2 * p) by (unfold u, w, p; ring).
  replace (1 * (bl - tl) + 2 * q + 1 * (br - tr)) with (u - w + 2 * q) by (unfold u, w, q; ring).
  assert (U : - d <= u <= d) by (unfold u, d; lia). assert (W : - d <= w <= d) by (unfold w, d; lia).
  assert (P : - d <= p <= d) by (unfold p, d; lia). assert (Q : - d <= q <= d) by (unfold q, d; lia).
  clearbody d u w p q. clear - U W P Q.
  assert (S : Z.abs (u + w) + Z.abs (u - w) <= 2 * d) by lia.
  assert (A : p * (u + w) <= d * Z.abs (u + w)) by nia.
  assert (B : q * (u - w) <= d * Z.abs (u - w)) by nia.
  assert (C : d * (Z.abs (u + w) + Z.abs (u - w)) <= d * (2 * d)) by (apply Z.mul_le_mono_nonneg_l; lia).
  assert (u * u <= d * d) by nia. assert (w * w <= d * d) by nia. assert (p * p <= d * d) by nia. assert (q * q <= d * d) by nia.
  replace ((u + w + 2 * p) * (u + w + 2 * p) + (u - w + 2 * q) * (u - w + 2 * q)) with
    (2 * (u * u) + 2 * (w * w) + 4 * (p * (u + w)) + 4 * (q * (u - w)) + 4 * (p * p) + 4 * (q * q)) by ring.
  rewrite Z.mul_add_distr_l in C. replace (d * (2 * d)) with (2 * (d * d)) in C by ring.
  set (da := d * Z.abs (u + w)) in *. set (db := d * Z.abs (u - w)) in *. clearbody da db.
  set (pu := p * (u + w)) in *. set (qu := q * (u - w)) in *. set (dd := d * d) in *. clearbody pu qu dd. clear S. lia.
Qed.
Lemma gradient2_max b x y : wf b -> u8_image b -> 0 <= gradient2 b x y <= 1300500.
Proof.
  intros W U. split; [unfold gradient2; nia|]. apply (gradient2_le b x y 0 255). intros i j _ _. apply px_rep_u8; assumption.
Qed.

(** ** strengths *)
Lemma sqrt_step n m : 0 <= n -> n < m -> m <= 2080800 -> (sqrt (IZR n) + 3 / 10000 <= sqrt (IZR m))%R.
Proof.
  intros H0 H1 H2.
  assert (Hn : (0 <= IZR n)%R) by (apply IZR_le; lia). assert (Hm : (IZR n + 1 <= IZR m)%R) by (rewrite <- plus_IZR; apply IZR_le; lia).
  assert (Hm2 : (IZR m <= 2080800)%R) by (apply IZR_le; lia).
  pose proof (sqrt_pos (IZR n)) as P. pose proof (sqrt_sqrt (IZR n) Hn) as Q.
  assert (B : (sqrt (IZR n) <= 1443)%R).
  { rewrite <- (sqrt_square 1443) by lra. apply sqrt_le_1_alt. lra. }
  rewrite <- (sqrt_square (sqrt (IZR n) + 3 / 10000)) by lra. apply sqrt_le_1_alt. nra.
Qed.
Lemma round_err r : (0 <= r <= 1443)%R -> (Rabs (rnd 24 128 r - r) <= / 10000)%R.
Proof. intros H. pose proof (f32_err r) as E. rewrite (Rabs_pos_eq r) in E by lra. lra. Qed.
Lemma strength_order n m : 0 <= n <= 2080800 -> 0 <= m <= 2080800 ->
  ((rnd 24 128 (sqrt (IZR n)) < rnd 24 128 (sqrt (IZR m)))%R <-> n < m).
Proof.
  intros Hn Hm.
  assert (B : forall k, 0 <= k <= 2080800 -> (0 <= sqrt (IZR k) <= 1443)%R).
  { intros k Hk. split; [apply sqrt_pos|]. rewrite <- (sqrt_square 1443) by lra. apply sqrt_le_1_alt. assert (IZR k <= 2080800)%R by (apply IZR_le; lia). lra. }
  pose proof (round_err _ (B n Hn)) as E1. pose proof (round_err _ (B m Hm)) as E2.
  apply Rabs_le_inv in E1. apply Rabs_le_inv in E2. split.
  - intros L. destruct (Z_lt_dec n m) as [|N]; [assumption|]. exfalso. destruct (Z.eq_dec n m) as [->|]; [lra|].
    pose proof (sqrt_step m n ltac:(lia) ltac:(lia) ltac:(lia)). lra.
  - intros L. pose proof (sqrt_step n m ltac:(lia) L ltac:(lia)). lra.
Qed.

Section Stages.
  Context (hypot atan2 : f32 -> f32 -> f32) (Hh : hypot_ok hypot) (Ha : atan2_ok atan2) (b : image (list Z)).
  Hypothesis C : channels 1 b.
  Hypothesis U : u8_image b.
  Let W : wf b := proj1 C.

  Lemma strengths_ok gx gy :
    iw gx = iw b -> ih gx = ih b -> wf gx -> iw gy = iw b -> ih gy = ih b -> wf gy ->
    (forall x y, 0 <= x < iw b -> 0 <= y < ih b -> get gx x y = Some [sobel_dx b x y]) ->
    (forall x y, 0 <= x < iw b -> 0 <= y < ih b -> get gy x y = Some [sobel_dy b x y]) ->
    exists g, strengths hypot (iw b) (ih b) gx gy = Ok g /\ wf g /\ iw g = iw b /\ ih g = ih b /\
      forall x y, 0 <= x < iw b -> 0 <= y < ih b -> get g x y = Some (hypot (of_int (sobel_dx b x y)) (of_int (sobel_dy b x y))).
  Proof.
    intros X1 X2 (X3 & X4 & X5) Y1 Y2 (Y3 & Y4 & Y5) GX GY. pose proof W as (W1 & W2 & W3).
    set (f := fun pq : list Z * list Z => let '(p, q) := pq in a <- luma p ;; c <- luma q ;; Ok (hypot (of_int a) (of_int c))).
    assert (Lc : zlen (combine (idata gx) (idata gy)) = iw b * ih b).
    { unfold zlen. rewrite combine_length. unfold zlen in X5, Y5. rewrite X1, X2 in X5. rewrite Y1, Y2 in Y5. lia. }
    assert (N : forall x y, 0 <= x < iw b -> 0 <= y < ih b -> znth (combine (idata gx) (idata gy)) (y * iw b + x) = Some ([sobel_dx b x y], [sobel_dy b x y])).
    { intros x y Hx Hy. specialize (GX x y Hx Hy). specialize (GY x y Hx Hy). unfold get in GX, GY. rewrite X1 in GX. rewrite Y1 in GY.
      rewrite (proj2 (inb_spec gx x y)) in GX by lia. rewrite (proj2 (inb_spec gy x y)) in GY by lia.
      unfold znth in *. destruct (0 <=? y * iw b + x) eqn:P; [|discriminate]. clear - GX GY. revert GX GY. generalize (Z.to_nat (y * iw b + x)) as n. generalize (idata gx) (idata gy).
      intros l l' n. revert l l'. induction n; intros [|a l] [|a' l'] E1 E2; cbn in *; try discriminate; [congruence|auto]. }
    assert (S : forall i, 0 <= i < iw b * ih b -> exists x y, 0 <= x < iw b /\ 0 <= y < ih b /\ i = y * iw b + x).
    { intros i Hi. exists (i mod iw b), (i / iw b). assert (0 < iw b) by nia. pose proof (Z.mod_pos_bound i (iw b) ltac:(lia)). pose proof (Z.div_mod i (iw b) ltac:(lia)).
      split; [lia|]. split; [split; [apply Z.div_pos; lia|apply Z.div_lt_upper_bound; lia]|]. lia. }
    destruct (mapM_exists f (fun _ _ => True) (combine (idata gx) (idata gy))) as (d & D & _).
    { intros pq J. destruct (In_nth_error _ _ J) as (n & En).
      assert (Hn : znth (combine (idata gx) (idata gy)) (Z.of_nat n) = Some pq) by (unfold znth; rewrite (proj2 (Z.leb_le 0 (Z.of_nat n))) by lia; rewrite Nat2Z.id; exact En).
      pose proof (znth_range _ _ _ Hn) as R. rewrite Lc in R. destruct (S _ R) as (x & y & Hx & Hy & E). rewrite E, N in Hn by assumption. injection Hn as <-.
      eexists. split; [reflexivity|exact I]. }
    unfold strengths. fold f. rewrite D. cbn [bind]. pose proof (mapM_length _ _ _ D) as Ld.
    assert (Ld' : zlen d = iw b * ih b) by (rewrite <- Lc; unfold zlen; lia).
    rewrite Ld', (proj2 (Z.leb_le _ _)) by lia. cbn [assert bind]. eexists. split; [reflexivity|]. split; [split; [|split]; cbn [iw ih idata]; assumption|].
    split; [reflexivity|]. split; [reflexivity|]. intros x y Hx Hy. unfold get. rewrite (proj2 (inb_spec _ x y)) by (cbn [iw ih]; lia). cbn [iw idata].
    assert (Hi : 0 <= y * iw b + x < zlen d) by (rewrite Ld'; nia).
    destruct (mapM_nth _ _ _ _ _ D (N x y Hx Hy)) as (w & Ew & F). rewrite Ew. cbn in F. congruence.
  Qed.

  Lemma angle_range h v : Z.abs h <= 1020 -> Z.abs v <= 1020 -> (- PI <= angle h v <= PI)%R.
  Proof.
    intros Bh Bv. pose proof pi_bounds as PB. unfold P32 in PB. destruct (Z.lt_trichotomy v 0) as [L|[->|L]].
    - destruct (angle_down h v Bh ltac:(lia)). lra.
    - rewrite angle_axis. destruct (h <? 0); lra.
    - destruct (angle_up h v Bh ltac:(lia)). lra.
  Qed.
  (** the rounded directions *)
  Lemma direction_ok gx gy x y : get gx x y = Some [sobel_dx b x y] -> get gy x y = Some [sobel_dy b x y] ->
    nearest_direction b (degrees (direction_at atan2 gx gy x y)) x y.
  Proof.
    intros GX GY. split; [destruct (direction_at atan2 gx gy x y); cbn; auto|]. unfold direction_at. rewrite GX, GY.
    set (h := sobel_dx b x y). set (v := sobel_dy b x y).
    pose proof (dx_bound b x y W U) as Bh. pose proof (dy_bound b x y W U) as Bv. fold h in Bh. fold v in Bv.
    destruct (Ha h v Bh Bv) as (F & E & _). set (a := atan2 (of_int v) (of_int h)) in *.
    pose proof pi_bounds as PB. unfold P32 in PB.
    assert (FR : is_finite radians_to_degrees = true) by (vm_compute; reflexivity).
    assert (RR : B2R radians_to_degrees = (15019744 / 262144)%R).
    { transitivity (F2R (Float radix2 15019744 (-18))); [vm_compute; reflexivity|]. unfold F2R, Fnum, Fexp. change (bpow radix2 (-18)) with (/ 262144)%R. reflexivity. }
    assert (BA : (- PI <= angle h v <= PI)%R) by (apply angle_range; assumption).
    assert (Bd : (- 4 <= B2R a <= 4)%R).
    { assert (Rabs (angle h v) <= PI)%R by (apply Rabs_le; lra). apply Rabs_le_inv in E. lra. }
    destruct (fmul_R 24 128 a radians_to_degrees F FR) as (Fm & Rm).
    { rewrite RR. pose proof f32_big. apply Rabs_le. lra. }
    assert (Em : (Rabs (B2R (fmul a radians_to_degrees) - angle h v * 180 / PI) <= / 2000)%R).
    { rewrite Rm, RR. set (p := (B2R a * (15019744 / 262144))%R). pose proof (f32_err p) as E1.
      assert (E2 : (Rabs (p - angle h v * 180 / PI) <= / 2500)%R).
      { unfold p. assert (K : (Rabs (15019744 / 262144 - 180 / PI) <= / 100000)%R).
        { assert (180 / PI * PI = 180)%R by (field; lra). set (k := (180 / PI)%R) in *. apply Rabs_le. nra. }
        replace (B2R a * (15019744 / 262144) - angle h v * 180 / PI)%R with ((B2R a - angle h v) * (15019744 / 262144) + angle h v * (15019744 / 262144 - 180 / PI))%R by (field; lra).
        eapply Rle_trans; [apply Rabs_triang|]. rewrite !Rabs_mult. rewrite (Rabs_pos_eq (15019744 / 262144)) by lra.
        assert (Rabs (angle h v) <= 3.2)%R by (apply Rabs_le; lra). pose proof (Rabs_pos (angle h v)). pose proof (Rabs_pos (15019744 / 262144 - 180 / PI)).
        set (e := Rabs (B2R a - angle h v)) in *. set (an := Rabs (angle h v)) in *. set (kk := Rabs (_ - _)) in *. nra. }
      assert (P : (Rabs p <= 240)%R) by (unfold p; apply Rabs_le; lra).
      replace (rnd 24 128 p - angle h v * 180 / PI)%R with ((rnd 24 128 p - p) + (p - angle h v * 180 / PI))%R by ring.
      eapply Rle_trans; [apply Rabs_triang|]. lra. }
    assert (Bm : (-200 <= B2R (fmul a radians_to_degrees) <= 200)%R).
    { assert (- 180 <= angle h v * 180 / PI <= 180)%R.
      { split; [apply Rmult_le_reg_r with PI; [lra|]; replace (angle h v * 180 / PI * PI)%R with (angle h v * 180)%R by (field; lra); nra|].
        apply Rmult_le_reg_r with PI; [lra|]; replace (angle h v * 180 / PI * PI)%R with (angle h v * 180)%R by (field; lra); nra. }
      apply Rabs_le_inv in Em. lra. }
    destruct (c60_direction _ Fm Bm) as (m & K). exists m.
    replace (angle h v * 180 / PI - IZR (degrees (dir_of_angle (fmul a radians_to_degrees))) - 180 * IZR m)%R with
      ((B2R (fmul a radians_to_degrees) - IZR (degrees (dir_of_angle (fmul a radians_to_degrees))) - 180 * IZR m) - (B2R (fmul a radians_to_degrees) - angle h v * 180 / PI))%R by ring.
    unfold Rminus at 1. eapply Rle_trans; [apply Rabs_triang|]. rewrite Rabs_Ropp. lra.
  Qed.
End Stages.
