From Flocq Require Import Core BinarySingleNaN.
From Coq Require Import Reals Lra Psatz.
From Verif Require Import Base BaseProofs RasterProofs IntegralProofs Float FloatProofs FloatErr FilterModel FilterSpec
  FilterProofs Props_Filter GradientModel GradientSpec.
Local Ltac Zify.zify_post_hook ::= idtac.

(** The f32 square root of a small integer truncates to the integer square root. *)
Lemma sqrt_trunc (x : f32) n : 0 <= n <= 2 ^ 22 -> is_finite x = true -> B2R x = IZR n ->
  to_int 0 (2 ^ 16 - 1) (fsqrt x) = Z.sqrt n.
Proof.
  intros Hn Fx Rx. pose proof (Z.sqrt_spec n ltac:(lia)) as (S1 & S2).
  set (k := Z.sqrt n) in *. assert (K0 : 0 <= k) by apply Z.sqrt_nonneg.
  assert (K1 : k <= 2048) by nia.
  destruct (fsqrt_R 24 128 x Fx) as (Fs & Rs). { rewrite Rx. apply IZR_le. lia. }
  rewrite (to_int_R 24 128) by (try assumption; reflexivity).
  rewrite Rs, Rx.
  assert (L : (IZR k <= rnd 24 128 (sqrt (IZR n)))%R).
  { rewrite <- (rnd_int 24 128 k) by lia. apply rnd_le; try reflexivity.
    rewrite <- (sqrt_square (IZR k)) by (apply IZR_le; lia). apply sqrt_le_1_alt. rewrite <- mult_IZR. apply IZR_le. lia. }
  assert (U : (rnd 24 128 (sqrt (IZR n)) < IZR (k + 1))%R).
  { pose proof (f32_err (sqrt (IZR n))) as ER. set (s := sqrt (IZR n)) in *.
    assert (S0 : (0 <= s)%R) by apply sqrt_pos.
    assert (SS : (s * s = IZR n)%R) by (apply sqrt_sqrt; apply IZR_le; lia).
    rewrite (Rabs_right s) in ER by lra. apply Rabs_def2b in ER || apply Rabs_le_inv in ER.
    assert (N1 : (IZR n <= IZR (k + 1) * IZR (k + 1) - 1)%R).
    { rewrite <- mult_IZR, <- minus_IZR. apply IZR_le. lia. }
    set (q := IZR (k + 1)) in *.
    assert (Q0 : (1 <= q <= 2049)%R) by (unfold q; split; apply IZR_le; lia).
    (* s < q, (q - s) (q + s) >= 1, so q - s >= 1 / (2 q) *)
    assert (SQ : (s < q)%R) by nra.
    assert (D : (1 <= (q - s) * (2 * q))%R) by nra.
    assert (E1 : (s / 16777216 <= 2049 / 16777216)%R) by lra.
    assert (D2 : (/ 4098 <= q - s)%R).
    { apply Rmult_le_reg_r with 4098%R; [lra|]. rewrite Rinv_l by lra. nra. }
    lra. }
  rewrite Ztrunc_floor by (apply Rle_trans with (2 := L); apply IZR_le; lia).
  rewrite (Zfloor_imp k) by (rewrite plus_IZR in *; split; lra).
  unfold zclamp. lia.
Qed.

Lemma magnitude_ok a b : a * a + b * b <= 2 ^ 22 ->
  gradient_magnitude a b = Z.sqrt (a * a + b * b).
Proof.
  intros H. assert (Z.abs a <= 2048 /\ Z.abs b <= 2048) by nia.
  unfold gradient_magnitude.
  assert (D0 : dyk 24 128 0) by (split; lia).
  assert (Da : dy 0 a (of_int a : f32)) by (apply dy_int; [exact D0|lia]).
  assert (Db : dy 0 b (of_int b : f32)) by (apply dy_int; [exact D0|lia]).
  assert (Ma : dy (0 + 0) (a * a) (fmul (of_int a) (of_int a) : f32)) by (apply dy_mul; [exact D0|nia|assumption|assumption]).
  assert (Mb : dy (0 + 0) (b * b) (fmul (of_int b) (of_int b) : f32)) by (apply dy_mul; [exact D0|nia|assumption|assumption]).
  assert (A : dy (0 + 0) (a * a + b * b)
    (fadd (fmul (of_int a) (of_int a) : f32) (fmul (of_int b) (of_int b) : f32))) by (apply dy_add; [exact D0|lia| |]; assumption).
  destruct A as (Fa & Ra). apply sqrt_trunc; [nia|exact Fa|].
  rewrite Ra. change (bpow radix2 (0 + 0)) with 1%R. ring.
Qed.

(** the correlation with a 3 x 3 kernel, written out *)
Definition corr3 (im : image (list Z)) (k : list Z) (c x y : Z) : Z :=
  correlation_Z im (fun i j => match znth k (j * 3 + i) with Some v => v | None => 0 end) 3 3 c x y.

Lemma gradients_ok {Q} ch (im : image (list Z)) hk vk kh kv (zq : Q) f (F : Z -> Z -> Q) :
  0 <= ch -> channels ch im -> kernel_new hk 3 3 = Ok kh -> kernel_new vk 3 3 = Ok kv ->
  zlen hk = 9 -> zlen vk = 9 ->
  (forall x y, 0 <= x < iw im -> 0 <= y < ih im ->
     f (map (fun c => gradient_magnitude (clamp_i16 (corr3 im hk c x y)) (clamp_i16 (corr3 im vk c x y))) (zrange 0 ch))
     = Ok (F x y)) ->
  gradients ch im kh kv zq f = Ok (gen (iw im) (ih im) F).
Proof.
  intros Hch Him Eh Ev Lh Lv HF. unfold gradients, filter_clamped_i16.
  destruct (c27_filter_integer clamp_i16 ch im hk 3 3 kh) as (oh & E1 & (A1 & A2 & A3 & A4)); auto; try lia.
  destruct (c27_filter_integer clamp_i16 ch im vk 3 3 kv) as (ov & E2 & (B1 & B2 & B3 & B4)); auto; try lia.
  rewrite E1. cbn [bind]. rewrite E2. cbn [bind].
  pose proof Him as ((W1 & W2 & _) & _).
  apply raster_fill; [apply wf_gen; auto|reflexivity|reflexivity|].
  intros x y o Hx Hy Wo Ew Eh' _ _.
  destruct (A4 x y Hx Hy) as (p & Gp & Hp). destruct (B4 x y Hx Hy) as (q & Gq & Hq).
  rewrite (proj2 (get_pixel_ok oh x y p) Gp). cbn [bind].
  rewrite (proj2 (get_pixel_ok ov x y q) Gq). cbn [bind].
  assert (Lp : zlen p = ch) by (apply (proj2 A3) with (1 := Gp)).
  assert (Lq : zlen q = ch) by (apply (proj2 B3) with (1 := Gq)).
  replace (map (fun '(h, v) => gradient_magnitude h v) (combine p q))
    with (map (fun c => gradient_magnitude (clamp_i16 (corr3 im hk c x y)) (clamp_i16 (corr3 im vk c x y))) (zrange 0 ch)).
  - rewrite HF by auto. cbn [bind]. rewrite put_pixel_ok by (rewrite ?Ew, ?Eh'; lia). eauto.
  - rewrite (list_as_map_d 0 p ch Lp), (list_as_map_d 0 q ch Lq).
    rewrite combine_map, map_map. apply map_ext_in. intros c Hc. apply in_zrange in Hc.
    unfold nth_d. rewrite Hp, Hq by lia. reflexivity.
Qed.

Lemma corr3_eq im k0 k1 k2 k3 k4 k5 k6 k7 k8 c x y :
  corr3 im [k0; k1; k2; k3; k4; k5; k6; k7; k8] c x y =
  px_rep im c (x - 1) (y - 1) * k0 + px_rep im c x (y - 1) * k1 + px_rep im c (x + 1) (y - 1) * k2 +
  px_rep im c (x - 1) y * k3 + px_rep im c x y * k4 + px_rep im c (x + 1) y * k5 +
  px_rep im c (x - 1) (y + 1) * k6 + px_rep im c x (y + 1) * k7 + px_rep im c (x + 1) (y + 1) * k8.
Proof.
  unfold corr3, correlation_Z.
  assert (Z3 : forall f, zsum 0 3 f = f 0 + f 1 + f 2).
  { intros f. rewrite !zsum_cons by lia. rewrite zsum_empty by lia. change (0 + 1) with 1. change (1 + 1) with 2. lia. }
  rewrite Z3. rewrite !Z3. unfold px_rep. change (3 / 2) with 1.
  replace (x + 0 - 1) with (x - 1) by lia. replace (y + 0 - 1) with (y - 1) by lia.
  replace (x + 1 - 1) with x by lia. replace (y + 1 - 1) with y by lia.
  replace (x + 2 - 1) with (x + 1) by lia. replace (y + 2 - 1) with (y + 1) by lia.
  change (znth [k0; k1; k2; k3; k4; k5; k6; k7; k8] (0 * 3 + 0)) with (Some k0).
  change (znth [k0; k1; k2; k3; k4; k5; k6; k7; k8] (0 * 3 + 1)) with (Some k1).
  change (znth [k0; k1; k2; k3; k4; k5; k6; k7; k8] (0 * 3 + 2)) with (Some k2).
  change (znth [k0; k1; k2; k3; k4; k5; k6; k7; k8] (1 * 3 + 0)) with (Some k3).
  change (znth [k0; k1; k2; k3; k4; k5; k6; k7; k8] (1 * 3 + 1)) with (Some k4).
  change (znth [k0; k1; k2; k3; k4; k5; k6; k7; k8] (1 * 3 + 2)) with (Some k5).
  change (znth [k0; k1; k2; k3; k4; k5; k6; k7; k8] (2 * 3 + 0)) with (Some k6).
  change (znth [k0; k1; k2; k3; k4; k5; k6; k7; k8] (2 * 3 + 1)) with (Some k7).
  change (znth [k0; k1; k2; k3; k4; k5; k6; k7; k8] (2 * 3 + 2)) with (Some k8).
  ring.
Qed.

Lemma corr_dx im a b c x y : corr3 im [-a; 0; a; -b; 0; b; -a; 0; a] c x y = deriv_x a b im c x y.
Proof. rewrite corr3_eq. unfold deriv_x. ring. Qed.
Lemma corr_dy im a b c x y : corr3 im [-a; -b; -a; 0; 0; 0; a; b; a] c x y = deriv_y a b im c x y.
Proof. rewrite corr3_eq. unfold deriv_y. ring. Qed.

Lemma px_rep_u8 im c x y : wf im -> u8_image im -> 0 <= px_rep im c x y <= 255.
Proof.
  intros W U. unfold px_rep, rep_chan.
  destruct (get im (border (iw im) x) (border (ih im) y)) as [p|] eqn:G; [|lia].
  destruct (znth p c) as [v|] eqn:E; [|lia]. apply (U _ _ _ _ G). eapply znth_In; eauto.
Qed.
Lemma deriv_x_bound im a b c x y : wf im -> u8_image im -> 0 <= a -> 0 <= b ->
  Z.abs (deriv_x a b im c x y) <= 255 * (2 * a + b).
Proof.
  intros W U Ha Hb. unfold deriv_x.
  pose proof (px_rep_u8 im c (x + 1) (y - 1) W U). pose proof (px_rep_u8 im c (x - 1) (y - 1) W U).
  pose proof (px_rep_u8 im c (x + 1) y W U). pose proof (px_rep_u8 im c (x - 1) y W U).
  pose proof (px_rep_u8 im c (x + 1) (y + 1) W U). pose proof (px_rep_u8 im c (x - 1) (y + 1) W U). nia.
Qed.
Lemma deriv_y_bound im a b c x y : wf im -> u8_image im -> 0 <= a -> 0 <= b ->
  Z.abs (deriv_y a b im c x y) <= 255 * (2 * a + b).
Proof.
  intros W U Ha Hb. unfold deriv_y.
  pose proof (px_rep_u8 im c (x - 1) (y + 1) W U). pose proof (px_rep_u8 im c (x - 1) (y - 1) W U).
  pose proof (px_rep_u8 im c x (y + 1) W U). pose proof (px_rep_u8 im c x (y - 1) W U).
  pose proof (px_rep_u8 im c (x + 1) (y + 1) W U). pose proof (px_rep_u8 im c (x + 1) (y - 1) W U). nia.
Qed.
Lemma clamp_i16_id z : - 2 ^ 15 <= z < 2 ^ 15 -> clamp_i16 z = z.
Proof. unfold clamp_i16, zclamp. lia. Qed.

Lemma mag_deriv im a b c x y : wf im -> u8_image im -> 0 <= a -> 0 <= b -> 2 * a + b <= 4 ->
  gradient_magnitude (clamp_i16 (deriv_x a b im c x y)) (clamp_i16 (deriv_y a b im c x y))
  = Z.sqrt (deriv_x a b im c x y ^ 2 + deriv_y a b im c x y ^ 2).
Proof.
  intros W U Ha Hb Hab.
  pose proof (deriv_x_bound im a b c x y W U Ha Hb). pose proof (deriv_y_bound im a b c x y W U Ha Hb).
  rewrite !clamp_i16_id by lia. rewrite magnitude_ok by nia. f_equal. ring.
Qed.
