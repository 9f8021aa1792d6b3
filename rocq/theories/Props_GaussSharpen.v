(** C92: sharpening with a Gaussian. *)
From Flocq Require Import Core BinarySingleNaN.
From Coq Require Import Reals Lra Psatz.
From Verif Require Import Base BaseProofs RasterProofs UtilsProofs Float FloatProofs FloatErr SuppressProofs OtsuProofs FilterModel FilterSpec FilterProofs Props_Filter
  ClampModel Props_Clamp KapurSpec GaussModel GaussSpec GaussProofs GaussProofs2 Props_Gauss.
Local Ltac Zify.zify_post_hook ::= idtac.
Open Scope Z_scope.

(** input + amount * (input - blurred input), limited to 0..255 *)
Definition sharpened (sigma amount : R) (im : image (list Z)) (x y : Z) : R :=
  (let p := IZR (rep_chan 0%Z im 0 x y) in Rmax 0 (Rmin 255 (p + amount * (p - gauss_blur sigma im 0 x y))))%R.

Lemma trunc_near (x : f32) (a d : R) : is_finite x = true -> (Rabs (B2R x - a) <= d)%R ->
  let t := Rmax 0 (Rmin 255 a) in
  0 <= clamp_f32_u8 x <= 255 /\ (t - 1 - d < IZR (clamp_f32_u8 x) <= t + d)%R.
Proof.
  intros F Hx t. destruct (c61_floats x (of_int 0)) as (N & _).
  assert (E : clamp_f32_u8 x = Ztrunc (Rmax 0 (Rmin 255 (B2R x)))) by (destruct x; try discriminate F; exact N).
  set (M := Rmax 0 (Rmin 255 (B2R x))) in *.
  assert (HM : (0 <= M <= 255 /\ t - d <= M <= t + d)%R).
  { revert Hx. unfold t, M, Rmax, Rmin, Rabs. repeat destruct Rle_dec; destruct Rcase_abs; lra. }
  rewrite E, Ztrunc_floor by lra. pose proof (Zfloor_lb M). pose proof (Zfloor_ub M). split; [split|lra].
  - apply Zfloor_lub. lra.
  - apply le_IZR. lra.
Qed.

Definition f32_image (im : image (list Z)) : image (list f32) := mkImage (iw im) (ih im) (map (map of_int) (idata im)).
Lemma f32_image_get im x y : get (f32_image im) x y = option_map (map of_int) (get im x y).
Proof. unfold get, inb, f32_image. cbn [iw ih idata]. destruct (_ && _); [|reflexivity]. apply znth_map. Qed.
Lemma f32_image_rep im c x y : rep_chan (of_int 0) (f32_image im) c x y = of_int (rep_chan 0 im c x y).
Proof.
  unfold rep_chan. rewrite f32_image_get. cbn [f32_image iw ih]. destruct (get im _ _) as [p|]; [|reflexivity]. cbn [option_map].
  rewrite znth_map. destruct (znth p c); reflexivity.
Qed.
Lemma f32_image_channels ch im : channels ch im -> channels ch (f32_image im).
Proof.
  intros ((W1 & W2 & W3) & C). split.
  - split; [exact W1|]. split; [exact W2|]. cbn [f32_image idata iw ih]. rewrite zlen_map. exact W3.
  - intros x y p G. rewrite f32_image_get in G. destruct (get im x y) as [q|] eqn:E; [|discriminate]. cbn [option_map] in G.
    injection G as <-. rewrite zlen_map. exact (C _ _ _ E).
Qed.

(** the blur of an f32 image keeps fractions: within 1/2 of the average *)
Theorem c92_blur_f32 (fexp : f32 -> f32) ch (im : image (list Z)) (sigma : f32) :
  exp_ok fexp -> 0 <= ch -> u8_channels ch im -> is_finite sigma = true -> (bpow radix2 (-40) <= B2R sigma <= 500)%R ->
  exists out v, gaussian_blur_f fexp ch (f32_image im) sigma = Ok out /\ image_of ch (iw im) (ih im) out v /\
    forall c x y, 0 <= x < iw im -> 0 <= y < ih im -> 0 <= c < ch ->
      is_finite (v c x y) = true /\ (Rabs (B2R (v c x y) - gauss_blur (B2R sigma) im c x y) <= / 2)%R /\
      (0 <= gauss_blur (B2R sigma) im c x y <= 255)%R.
Proof.
  intros He Hc HU Fs Hs. unfold gaussian_blur_f, gaussian_blur. pose proof (s_pos sigma Hs) as s0.
  assert (flt (of_int 0) sigma = true) as ->.
  { destruct (int32 0) as (F0 & R0); [lia|]. unfold flt. rewrite Bltb_correct by assumption. rewrite R0. apply Rlt_bool_true. exact s0. }
  unfold assert. cbn [bind]. rewrite (kernel_ok fexp sigma Fs Hs). cbn [bind]. unfold separable_filter_equal.
  set (r := gauss_radius (B2R sigma)). set (k := map _ _).
  pose proof (radius_range sigma Hs) as (Rr & _). fold r in Rr.
  assert (Lk : zlen k / 2 = r). { unfold k. rewrite zlen_map, zlen_zrange. replace (Z.max 0 (2 * r + 1 - 0)) with (1 + r * 2) by lia. rewrite Z.div_add by lia. reflexivity. }
  destruct (c29_separable_two_passes f32 f32 (of_int 0) fadd fmul (fun v => v) clamp_same (of_int 0) ch (f32_image im) k k Hc (f32_image_channels _ _ (proj1 HU)) eq_refl) as (out & E & I).
  eexists; eexists; split; [exact E|]. split; [exact I|]. intros c x y Hx Hy Hcc. cbv beta. rewrite !Lk. unfold clamp_same.
  set (inner := fun j => weighted_sum (of_int 0) fadd fmul (fun v => v) k (fun i => rep_chan (of_int 0) (f32_image im) c (x + i - r) (y + j - r))).
  set (g := fun j => gauss_avg (B2R sigma) (fun i => IZR (rep_chan 0 im c (x + i) (y + j)))).
  assert (Gr : forall j, (0 <= g j <= 255)%R).
  { intros j. apply avg_range; [exact s0|]. intros i _. pose proof (rep_u8 ch im c (x + i) (y + j) HU). split; apply IZR_le; lia. }
  assert (A : forall j, is_finite (inner (j + r)) = true /\ (Rabs (B2R (inner (j + r)%Z) - g j) <= / 4)%R).
  { intros j. unfold inner, k, r. rewrite weighted_ok by exact Hs. fold r.
    match goal with |- context [fold_left (fun a i => fadd a (fmul (@?s i) _)) _ _] =>
      destruct (pass_ok fexp He sigma Fs Hs s) as (F & B) end.
    { intros i _. cbv beta. rewrite f32_image_rep. pose proof (rep_u8 ch im c (x + (i + r) - r) (y + (j + r) - r) HU) as Q. destruct (u8_f32 _ Q) as (F & R). split; [exact F|].
      rewrite R, <- abs_IZR. apply IZR_le. lia. }
    cbv beta in F, B. split; [exact F|].
    replace (g j) with (gauss_avg (B2R sigma) (fun i => B2R (rep_chan (of_int 0) (f32_image im) c (x + (i + r) - r) (y + (j + r) - r)))); [exact B|].
    unfold g, gauss_avg. f_equal. apply gsum_ext. intros i _. f_equal. pose proof (rep_u8 ch im c (x + (i + r) - r) (y + (j + r) - r) HU) as Q.
    rewrite f32_image_rep, (proj2 (u8_f32 _ Q)). do 2 f_equal; lia. }
  change (fun j => weighted_sum (of_int 0) fadd fmul (fun v => v) k (fun i => rep_chan (of_int 0) (f32_image im) c (x + i - r) (y + j - r))) with inner.
  unfold k, r. rewrite weighted_ok by exact Hs. fold r.
  destruct (pass_ok fexp He sigma Fs Hs (fun i => inner (i + r))) as (F & B).
  { intros i _. destruct (A i) as (F & Q). split; [exact F|]. pose proof (Gr i). revert Q. unfold Rabs. repeat destruct Rcase_abs; lra. }
  cbv beta in F, B. split; [exact F|].
  pose proof (avg_diff (B2R sigma) s0 (fun i => B2R (inner (i + r)%Z)) g (- (/ 4)) (/ 4)) as D.
  change (gauss_avg (B2R sigma) g) with (gauss_blur (B2R sigma) im c x y) in D.
  set (m := gauss_avg (B2R sigma) (fun i => B2R (inner (i + r)%Z))) in *.
  assert (D' : (- (/ 4) <= m - gauss_blur (B2R sigma) im c x y <= / 4)%R).
  { apply D. intros i _. destruct (A i) as (_ & Q). revert Q. unfold Rabs. destruct Rcase_abs; lra. }
  split.
  - revert B. unfold Rabs. repeat destruct Rcase_abs; lra.
  - apply avg_range; [exact s0|]. intros j _. apply (Gr j).
Qed.
Print Assumptions c92_blur_f32.

(** the float expression of the last step *)
Lemma combine_ok (am p q : f32) (B : R) : is_finite am = true -> (Rabs (B2R am) <= IZR (2 ^ 60))%R ->
  is_finite p = true -> (0 <= B2R p <= 255)%R -> is_finite q = true -> (Rabs (B2R q - B) <= / 2)%R -> (0 <= B <= 255)%R ->
  let v := fsub (fmul (fadd (of_int 1) am) p) (fmul am q) in
  is_finite v = true /\ (Rabs (B2R v - (B2R p + B2R am * (B2R p - B))) <= Rabs (B2R am) / 2 + (1 + Rabs (B2R am)) / 5000)%R.
Proof.
  intros Fa Ha Fp Hp Fq Hq HB v. set (a := B2R am) in *. set (pr := B2R p) in *. set (qr := B2R q) in *. set (N := Rabs a) in *.
  assert (N0 : (0 <= N)%R) by apply Rabs_pos. assert (Na : (- N <= a <= N)%R) by (unfold N, Rabs; destruct Rcase_abs; lra).
  assert (P60 : (IZR (2 ^ 60) * 1024 <= IZR (2 ^ 120))%R) by (rewrite <- mult_IZR; apply IZR_le; lia).
  assert (P1 : (1 <= IZR (2 ^ 60))%R) by (apply IZR_le; lia).
  assert (Q1 : (- 1 <= qr <= 256)%R) by (revert Hq; unfold Rabs; destruct Rcase_abs; lra).
  pose proof f32_huge as HH.
  destruct (int32 1) as (F1 & R1); [lia|].
  destruct (fadd_R 24 128 (of_int 1) am F1 Fa) as (Fs & Rs).
  { rewrite R1. fold a. unfold Rabs; destruct Rcase_abs; lra. }
  rewrite R1 in Rs. fold a in Rs. pose proof (f32_err (1 + a)) as E1. rewrite <- Rs in E1. set (s := fadd (of_int 1) am) in *. set (sr := B2R s) in *.
  assert (S1 : (- ((1 + N) / 16000000) <= sr - (1 + a) <= (1 + N) / 16000000)%R) by (revert E1; unfold Rabs; repeat destruct Rcase_abs; lra).
  assert (SB : (- (2 * (1 + N)) <= sr <= 2 * (1 + N))%R) by lra.
  assert (SP : (Rabs (sr * pr) <= 510 * (1 + N))%R).
  { rewrite Rabs_mult, (Rabs_pos_eq pr) by lra. replace (510 * (1 + N))%R with (2 * (1 + N) * 255)%R by ring.
    apply Rmult_le_compat; [apply Rabs_pos|lra| |lra]. revert SB; unfold Rabs; destruct Rcase_abs; lra. }
  destruct (fmul_R 24 128 s p Fs Fp) as (Fm & Rm).
  { fold sr pr. lra. }
  fold sr pr in Rm. pose proof (f32_err (sr * pr)) as E2. rewrite <- Rm in E2. set (m := fmul s p) in *. set (mr := B2R m) in *.
  assert (AQ : (Rabs (a * qr) <= 256 * N)%R).
  { rewrite Rabs_mult. fold N. rewrite Rmult_comm. apply Rmult_le_compat_r; [lra|]. unfold Rabs; destruct Rcase_abs; lra. }
  destruct (fmul_R 24 128 am q Fa Fq) as (Fn & Rn).
  { fold a qr. lra. }
  fold a qr in Rn. pose proof (f32_err (a * qr)) as E3. rewrite <- Rn in E3. set (n := fmul am q) in *. set (nr := B2R n) in *.
  assert (MB : (Rabs mr <= 511 * (1 + N))%R) by (revert E2 SP; unfold Rabs; repeat destruct Rcase_abs; lra).
  assert (NB : (Rabs nr <= 257 * (1 + N))%R) by (revert E3 AQ; unfold Rabs; repeat destruct Rcase_abs; lra).
  assert (DB : (Rabs (mr - nr) <= 768 * (1 + N))%R) by (revert MB NB; unfold Rabs; repeat destruct Rcase_abs; lra).
  destruct (fsub_R 24 128 m n Fm Fn) as (Fv & Rv).
  { fold mr nr. lra. }
  fold mr nr in Rv. pose proof (f32_err (mr - nr)) as E4. rewrite <- Rv in E4. fold v in Fv, E4. split; [exact Fv|]. set (vr := B2R v) in *.
  assert (T1 : (Rabs (sr * pr - (1 + a) * pr) <= (1 + N) / 62000)%R).
  { rewrite <- Rmult_minus_distr_r, Rabs_mult, (Rabs_pos_eq pr) by lra. apply Rle_trans with ((1 + N) / 16000000 * 255)%R; [|lra].
    apply Rmult_le_compat; [apply Rabs_pos|lra| |lra]. revert S1; unfold Rabs; destruct Rcase_abs; lra. }
  assert (T2 : (Rabs (a * qr - a * B) <= N / 2)%R).
  { rewrite <- Rmult_minus_distr_l, Rabs_mult. fold N. unfold Rdiv. apply Rmult_le_compat_l; [exact N0|exact Hq]. }
  assert (G2 : (Rabs (mr - sr * pr) <= (1 + N) / 30000)%R) by lra.
  assert (G3 : (Rabs (nr - a * qr) <= (1 + N) / 60000)%R) by lra.
  assert (G4 : (Rabs (vr - (mr - nr)) <= (1 + N) / 20000 * (15 / 16))%R) by lra.
  replace (vr - (pr + a * (pr - B)))%R with ((vr - (mr - nr)) + (mr - sr * pr) - (nr - a * qr) + (sr * pr - (1 + a) * pr) - (a * qr - a * B))%R by ring.
  revert T1 T2 G2 G3 G4. generalize (vr - (mr - nr))%R (mr - sr * pr)%R (nr - a * qr)%R (sr * pr - (1 + a) * pr)%R (a * qr - a * B)%R. clear - N0.
  intros e1 e2 e3 e4 e5 T1 T2 G2 G3 G4. apply Rabs_le_inv in T1, T2, G2, G3, G4. apply Rabs_le. lra.
Qed.

(** the whole function, given the blurred float image *)
Lemma sharpen_out (fexp : f32 -> f32) (im : image (list Z)) (sigma am : f32) smooth v :
  channels 1 im -> gaussian_blur_f fexp 1 (f32_image im) sigma = Ok smooth -> image_of 1 (iw im) (ih im) smooth v ->
  exists out, sharpen_gaussian fexp im sigma am = Ok out /\ channels 1 out /\ iw out = iw im /\ ih out = ih im /\
    forall x y, 0 <= x < iw im -> 0 <= y < ih im ->
      get out x y = Some [clamp_f32_u8 (fsub (fmul (fadd (of_int 1) am) (of_int (rep_chan 0 im 0 x y))) (fmul am (v 0 x y)))].
Proof.
  intros C E (I1 & I2 & I3 & I4). unfold sharpen_gaussian. fold (f32_image im). rewrite E. cbn [bind].
  pose proof (f32_image_channels 1 im C) as CF. set (fim := f32_image im) in *.
  set (g := fun pq : list f32 * list f32 => match fst pq, snd pq with
    | p0 :: _, q0 :: _ => [clamp_f32_u8 (fsub (fmul (fadd (of_int 1) am) p0) (fmul am q0))] | _, _ => [] end).
  assert (One : forall (i : image (list f32)) p, channels 1 i -> In p (idata i) -> exists a, p = [a]).
  { intros i p (W & L) Hp. destruct (In_get _ _ W Hp) as (x & y & G). apply L in G.
    destruct p as [|a [|b p]]; [discriminate G|eauto|rewrite !zlen_cons in G; pose proof (zlen_nonneg p); lia]. }
  rewrite (mapM_ok _ g).
  2:{ intros (p & q) Hin. destruct (One fim p CF (in_combine_l _ _ _ _ Hin)) as (a & ->).
      destruct (One smooth q I3 (in_combine_r _ _ _ _ Hin)) as (b & ->). reflexivity. }
  cbn [bind]. set (out := mkImage _ _ _). exists out.
  assert (L : zlen (combine (idata fim) (idata smooth)) = iw im * ih im).
  { destruct CF as ((_ & _ & W1) & _). destruct I3 as ((_ & _ & W2) & _). rewrite I1, I2 in W2.
    unfold zlen in *. rewrite combine_length. change (iw fim) with (iw im) in W1. change (ih fim) with (ih im) in W1. lia. }
  assert (Wo : wf out).
  { destruct C as ((W1 & W2 & _) & _). split; [exact W1|]. split; [exact W2|]. cbn [out idata iw ih]. rewrite zlen_map. exact L. }
  assert (Gt : forall x y, 0 <= x < iw im -> 0 <= y < ih im ->
      get out x y = Some [clamp_f32_u8 (fsub (fmul (fadd (of_int 1) am) (of_int (rep_chan 0 im 0 x y))) (fmul am (v 0 x y)))]).
  { intros x y Hx Hy. destruct (I4 x y Hx Hy) as (q & Gq & Q). specialize (Q 0 ltac:(lia)).
    assert (Ip : inb im x y = true) by (apply inb_spec; lia).
    destruct (get_some im x y (proj1 C) ltac:(lia) ltac:(lia)) as (p & Gp).
    assert (Gf : get fim x y = Some (map of_int p)) by (unfold fim; rewrite f32_image_get, Gp; reflexivity).
    assert (Hr : rep_chan 0 im 0 x y = match znth p 0 with Some w => w | None => 0 end).
    { unfold rep_chan, border. replace (zclamp 0 (iw im - 1) x) with x by (unfold zclamp; lia).
      replace (zclamp 0 (ih im - 1) y) with y by (unfold zclamp; lia). rewrite Gp. reflexivity. }
    pose proof (proj2 C _ _ _ Gp) as Lp. pose proof (proj2 I3 _ _ _ Gq) as Lq.
    unfold get in Gf, Gq |- *. unfold inb in *. cbn [out iw ih idata] in *. change (iw fim) with (iw im) in Gf. change (ih fim) with (ih im) in Gf.
    rewrite I1, I2 in Gq. rewrite Ip in *. rewrite znth_map, znth_combine, Gf, Gq. cbn [option_map]. f_equal. unfold g. cbn [fst snd].
    destruct p as [|a p]; [discriminate Lp|]. destruct q as [|b q]; [discriminate Lq|]. cbn [map]. rewrite znth_cons_0 in Q. rewrite znth_cons_0 in Hr. injection Q as ->.
    rewrite Hr. reflexivity. }
  split; [reflexivity|]. split; [|split; [reflexivity|split; [reflexivity|exact Gt]]].
  split; [exact Wo|]. intros x y p G. assert (I : inb out x y = true) by (unfold get in G; destruct (inb out x y); [reflexivity|discriminate]).
  apply inb_spec in I. cbn [out iw ih] in I. rewrite Gt in G by lia. injection G as <-. reflexivity.
Qed.

(** The full property: for every positive sigma and finite amount the result is
    input + amount * (input - blur), limited to 0..255, with an error below 1. *)
Definition c92_statement : Prop :=
  forall (fexp : f32 -> f32) (im : image (list Z)) (sigma am : f32),
  exp_ok fexp -> u8_channels 1 im -> is_finite sigma = true -> (0 < B2R sigma)%R -> is_finite am = true ->
  exists out v, sharpen_gaussian fexp im sigma am = Ok out /\ image_of 1 (iw im) (ih im) out v /\
    forall x y, 0 <= x < iw im -> 0 <= y < ih im ->
      (Rabs (IZR (v 0%Z x y) - sharpened (B2R sigma) (B2R am) im x y) < 1)%R.

(** Proved: sigma between 2^-40 and 500 and amounts up to 2^60, with an error
    that grows with the amount (rounding of the blur is amplified by it).
    Missing: other sigmas and amounts, and the error bound of 1. *)
Theorem c92_sharpen_partial (fexp : f32 -> f32) (im : image (list Z)) (sigma am : f32) :
  exp_ok fexp -> u8_channels 1 im -> is_finite sigma = true -> (bpow radix2 (-40) <= B2R sigma <= 500)%R ->
  is_finite am = true -> (Rabs (B2R am) <= IZR (2 ^ 60))%R ->
  exists out v, sharpen_gaussian fexp im sigma am = Ok out /\ image_of 1 (iw im) (ih im) out v /\
    forall x y, 0 <= x < iw im -> 0 <= y < ih im ->
      let ideal := sharpened (B2R sigma) (B2R am) im x y in
      let d := (Rabs (B2R am) / 2 + (1 + Rabs (B2R am)) / 5000)%R in
      0 <= v 0 x y <= 255 /\ (ideal - 1 - d < IZR (v 0%Z x y) <= ideal + d)%R.
Proof.
  intros He HU Fs Hs Fa Ha.
  destruct (c92_blur_f32 fexp 1 im sigma He ltac:(lia) HU Fs Hs) as (sm & q & E & I & V).
  destruct (sharpen_out fexp im sigma am sm q (proj1 HU) E I) as (out & Eo & Co & W & H & G).
  exists out, (fun _ x y => clamp_f32_u8 (fsub (fmul (fadd (of_int 1) am) (of_int (rep_chan 0 im 0 x y))) (fmul am (q 0 x y)))).
  split; [exact Eo|]. split.
  { split; [exact W|]. split; [exact H|]. split; [exact Co|]. intros x y Hx Hy. eexists. split; [exact (G x y Hx Hy)|].
    intros c Hc. assert (c = 0) as -> by lia. apply znth_cons_0. }
  intros x y Hx Hy. cbv zeta beta. destruct (V 0 x y Hx Hy ltac:(lia)) as (Fq & Hq & HB).
  pose proof (rep_u8 1 im 0 x y HU) as Q. destruct (u8_f32 _ Q) as (Fp & Rp).
  destruct (combine_ok am (of_int (rep_chan 0 im 0 x y)) (q 0 x y) _ Fa Ha Fp ltac:(rewrite Rp; split; apply IZR_le; lia) Fq Hq HB) as (F & B).
  rewrite Rp in B. exact (trunc_near _ _ _ F B).
Qed.
Print Assumptions c92_sharpen_partial.

(** amount 0 changes nothing *)
Theorem c92_zero_amount (fexp : f32 -> f32) (im : image (list Z)) (sigma am : f32) :
  exp_ok fexp -> u8_channels 1 im -> is_finite sigma = true -> (bpow radix2 (-40) <= B2R sigma <= 500)%R ->
  is_finite am = true -> B2R am = 0%R -> sharpen_gaussian fexp im sigma am = Ok im.
Proof.
  intros He HU Fs Hs Fa Ha.
  destruct (c92_blur_f32 fexp 1 im sigma He ltac:(lia) HU Fs Hs) as (sm & q & E & I & V).
  destruct (sharpen_out fexp im sigma am sm q (proj1 HU) E I) as (out & Eo & Co & W & H & G). rewrite Eo. f_equal.
  apply image_ext; [exact (proj1 Co)|exact (proj1 (proj1 HU))|exact W|exact H|]. rewrite W, H. intros x y Hx Hy. rewrite (G x y Hx Hy).
  destruct (V 0 x y Hx Hy ltac:(lia)) as (Fq & Hq & HB). pose proof (rep_u8 1 im 0 x y HU) as Q. destruct (u8_f32 _ Q) as (Fp & Rp).
  assert (Ip : inb im x y = true) by (apply inb_spec; lia).
  destruct (get_some im x y (proj1 (proj1 HU)) ltac:(lia) ltac:(lia)) as (p & Gp). rewrite Gp. f_equal.
  assert (Hr : rep_chan 0 im 0 x y = match znth p 0 with Some w => w | None => 0 end).
  { unfold rep_chan, border. replace (zclamp 0 (iw im - 1) x) with x by (unfold zclamp; lia).
    replace (zclamp 0 (ih im - 1) y) with y by (unfold zclamp; lia). rewrite Gp. reflexivity. }
  pose proof (proj2 (proj1 HU) _ _ _ Gp) as Lp. destruct p as [|a [|b p]]; [discriminate Lp| |rewrite !zlen_cons in Lp; pose proof (zlen_nonneg p); lia].
  rewrite znth_cons_0 in Hr. rewrite Hr in *. f_equal.
  destruct (int32 1) as (F1 & R1); [lia|]. pose proof f32_huge as HH.
  assert (P1 : (512 <= IZR (2 ^ 120))%R) by (apply IZR_le; lia).
  destruct (fadd_R 24 128 (of_int 1) am F1 Fa) as (Fs1 & Rs). { rewrite R1, Ha, Rplus_0_r, Rabs_pos_eq; lra. }
  rewrite R1, Ha, Rplus_0_r, (rnd_int 24 128 1) in Rs by lia.
  assert (Pa : (0 <= IZR a <= 255)%R) by (split; apply IZR_le; lia).
  destruct (fmul_R 24 128 _ _ Fs1 Fp) as (Fm & Rm). { rewrite Rs, Rp, Rmult_1_l, Rabs_pos_eq; lra. }
  rewrite Rs, Rp, Rmult_1_l, (rnd_int 24 128 a) in Rm by lia.
  destruct (fmul_R 24 128 am (q 0 x y) Fa Fq) as (Fn & Rn). { rewrite Ha, Rmult_0_l, Rabs_R0. lra. }
  rewrite Ha, Rmult_0_l, (rnd_0 24 128) in Rn.
  destruct (fsub_R 24 128 _ _ Fm Fn) as (Fv & Rv). { rewrite Rm, Rn, Rminus_0_r, Rabs_pos_eq; lra. }
  rewrite Rm, Rn, Rminus_0_r, (rnd_int 24 128 a) in Rv by lia.
  match goal with |- clamp_f32_u8 ?z = _ => destruct (c61_floats z (of_int 0)) as (N & _);
    assert (Ez : clamp_f32_u8 z = Ztrunc (Rmax 0 (Rmin 255 (B2R z)))) by (destruct z; try discriminate Fv; exact N) end.
  rewrite Ez, Rv. rewrite Rmin_right, Rmax_right by lra. apply Ztrunc_IZR.
Qed.
Print Assumptions c92_zero_amount.

(** Tiny sigma: the weights are NaN, and every pixel becomes white, even with
    amount 0. *)
Theorem c92_tiny_white (fexp : f32 -> f32) v am : (forall x, is_nan x = true -> is_nan (fexp x) = true) -> 0 <= v <= 255 ->
  sharpen_gaussian fexp (one_px v) tiny am = Ok (one_px 255).
Proof.
  intros H Hv. pose proof (one_px_ok v Hv) as HU.
  assert (T : exists sm q, gaussian_blur_f fexp 1 (f32_image (one_px v)) tiny = Ok sm /\ image_of 1 1 1 sm q /\ q 0 0 0 = B754_nan).
  { unfold gaussian_blur_f, gaussian_blur. replace (flt (of_int 0) tiny) with true by (vm_compute; reflexivity).
    unfold assert. cbn [bind]. rewrite (tiny_kernel fexp H). cbn [bind]. unfold separable_filter_equal.
    set (k := [B754_nan; B754_nan; B754_nan] : list f32).
    destruct (c29_separable_two_passes f32 f32 (of_int 0) fadd fmul (fun v => v) clamp_same (of_int 0) 1 (f32_image (one_px v)) k k ltac:(lia)
      (f32_image_channels _ _ (proj1 HU)) eq_refl) as (out & E & I).
    eexists; eexists; split; [exact E|]. split; [exact I|]. cbv beta. unfold clamp_same. unfold weighted_sum at 1.
    change (combine (zrange 0 (zlen k)) k) with [(0, B754_nan : f32); (1, B754_nan); (2, B754_nan)]. cbn [fold_left].
    assert (A0 : forall x : f32, fmul x (B754_nan : f32) = B754_nan) by (intros x; destruct x; reflexivity). rewrite !A0.
    assert (A1 : forall x : f32, fadd x (B754_nan : f32) = B754_nan) by (intros x; destruct x; reflexivity). rewrite !A1. reflexivity. }
  destruct T as (sm & q & E & I & N). destruct (sharpen_out fexp (one_px v) tiny am sm q (proj1 HU) E I) as (out & Eo & Co & W & Hh & G).
  rewrite Eo. f_equal. cbn [iw ih one_px] in W, Hh, G. apply image_ext; [exact (proj1 Co)|exact (proj1 (proj1 (one_px_ok 255 ltac:(lia))))|exact W|exact Hh|].
  rewrite W, Hh. intros x y Hx Hy. assert (x = 0) as -> by lia. assert (y = 0) as -> by lia. rewrite (G 0 0) by lia. rewrite N.
  change (get (one_px 255) 0 0) with (Some [255]). do 2 f_equal.
  assert (A0 : fmul am (B754_nan : f32) = B754_nan) by (destruct am; reflexivity). rewrite A0.
  match goal with |- clamp_f32_u8 (fsub ?a _) = _ => destruct a; reflexivity end.
Qed.
Print Assumptions c92_tiny_white.

Theorem c92_refuted : ~ c92_statement.
Proof.
  intros S. assert (Ft : is_finite tiny = true) by (vm_compute; reflexivity).
  assert (Pt : (0 < B2R tiny)%R).
  { assert (L : flt (of_int 0) tiny = true) by (vm_compute; reflexivity). destruct (int32 0) as (F0 & R0); [lia|].
    unfold flt in L. rewrite Bltb_correct in L by assumption. rewrite R0 in L. revert L. case Rlt_bool_spec; [auto|discriminate]. }
  destruct (int32 0) as (F0 & R0); [lia|].
  destruct (S exp24 (one_px 7) tiny (of_int 0) exp24_ok (one_px_ok 7 ltac:(lia)) Ft Pt F0) as (out & v & E & I & V).
  rewrite (c92_tiny_white exp24 7 _ (proj1 exp24_ok) ltac:(lia)) in E. injection E as <-.
  destruct I as (_ & _ & _ & I). cbn [iw ih one_px] in I, V. destruct (I 0 0 ltac:(lia) ltac:(lia)) as (p & G & P).
  change (get (one_px 255) 0 0) with (Some [255]) in G. injection G as <-. specialize (P 0 ltac:(lia)). rewrite znth_cons_0 in P. injection P as P.
  specialize (V 0 0 ltac:(lia) ltac:(lia)). unfold sharpened in V. rewrite one_px_rep, R0, <- P, Rmult_0_l, Rplus_0_r in V.
  rewrite Rmin_right, Rmax_right in V by lra. unfold Rabs in V. destruct Rcase_abs in V; lra.
Qed.
Print Assumptions c92_refuted.

(** a 3x1 step, sharpened with sigma 1 and amount 2: the hypotheses hold *)
Example c92_nontrivial : let im := mkImage 3 1 [[10]; [10]; [200]] in
  u8_channels 1 im /\ (bpow radix2 (-40) <= B2R (of_int 1 : f32) <= 500)%R /\ is_finite (of_int 1 : f32) = true /\
  (Rabs (B2R (of_int 2 : f32)) <= IZR (2 ^ 60))%R /\ is_finite (of_int 2 : f32) = true /\ exp_ok exp24.
Proof.
  cbv zeta. split; [split; [split; [unfold wf, zlen; simpl; lia|]|]|].
  - intros x y p G. apply get_In in G. simpl in G. destruct G as [<-|[<-|[<-|[]]]]; reflexivity.
  - intros x y p w G Hw. apply get_In in G. simpl in G. destruct G as [<-|[<-|[<-|[]]]]; simpl in Hw; destruct Hw as [<-|[]]; unfold is_u8; lia.
  - destruct (int32 1) as (F1 & R1); [lia|]. destruct (int32 2) as (F2 & R2); [lia|]. rewrite R1, R2. split; [split; [|lra]|].
    + apply (bpow_le radix2 (-40) 0). lia.
    + split; [exact F1|]. split; [|split; [exact F2|exact exp24_ok]].
      rewrite Rabs_pos_eq by lra. apply IZR_le. lia.
Qed.
