(** C86 (error statistics), C87 (3x3 sharpening and Laplacian), C88 (channel
    conversions). *)
From Flocq Require Import Core BinarySingleNaN.
From Coq Require Import Reals Lra.
From Verif Require Import Base BaseProofs GeomProofs RasterProofs FilterModel FilterSpec Float FloatProofs FloatErr EuclidProofs
  MapModel MapProofs Props_Map SharpenModel SharpenSpec SharpenProofs.
Local Ltac Zify.zify_post_hook ::= idtac.

(** ** C86.  Full statement: for any two images of the same size with values
    0..max in [ch] channels, the mean squared error is the mean of the squared
    channel differences, correctly rounded. *)
Definition c86_statement : Prop := forall ch max left right,
  1 <= ch -> 0 <= max -> pixels_ok ch max left -> pixels_ok ch max right ->
  iw left = iw right -> ih left = ih right -> 0 < iw left * ih left ->
  exists m, mean_squared_error ch left right = Ok m /\ is_finite m = true /\
    B2R m = rnd 53 1024 (IZR (squared_error left right) / IZR (iw left * ih left * ch)).

Theorem c86_huge_panics : forall ch left right, 0 <= iw left -> 0 <= ih left -> 1 <= ch ->
  2 ^ 32 <= iw left * ih left * ch -> mean_squared_error ch left right = Panic.
Proof.
  intros ch left right Hw Hh Hc H. unfold mean_squared_error, assert. destruct (_ && _); [|reflexivity]. cbn [bind]. cbv zeta.
  unfold chk_u, u_fits. destruct ((0 <=? iw left * ih left) && (iw left * ih left <? 2 ^ 32)); [|reflexivity]. cbn [bind].
  destruct ((0 <=? iw left * ih left * ch) && (iw left * ih left * ch <? 2 ^ 32)) eqn:E; [lia|reflexivity].
Qed.
Print Assumptions c86_huge_panics.

(** images of different sizes are refused *)
Theorem c86_size_panics : forall ch left right, iw left <> iw right \/ ih left <> ih right ->
  mean_squared_error ch left right = Panic /\ root_mean_squared_error ch left right = Panic.
Proof.
  intros ch left right H. unfold root_mean_squared_error, mean_squared_error, assert.
  replace ((iw left =? iw right) && (ih left =? ih right)) with false by (destruct (Z.eqb_spec (iw left) (iw right)), (Z.eqb_spec (ih left) (ih right)); tauto || reflexivity).
  split; reflexivity.
Qed.
Print Assumptions c86_size_panics.

(** Proved when the images have fewer than 2^32 channel values and the sum of
    squares cannot exceed 2^53: always for 8-bit images, and for 16-bit images
    with at most 2^21 values.  What is missing: sums above 2^53, which are not
    exact in f64, and the panic above. *)
Theorem c86_mean_squared_error_partial : forall ch max left right,
  1 <= ch -> 0 <= max <= 2 ^ 26 -> pixels_ok ch max left -> pixels_ok ch max right ->
  iw left = iw right -> ih left = ih right ->
  iw left * ih left * ch < 2 ^ 32 -> iw left * ih left * ch * (max * max) <= 2 ^ 53 ->
  exists m, mean_squared_error ch left right = Ok m /\
    (iw left * ih left = 0 -> fis_nan m = true) /\
    (0 < iw left * ih left -> is_finite m = true /\
       B2R m = rnd 53 1024 (IZR (squared_error left right) / IZR (iw left * ih left * ch))).
Proof.
  intros ch max left right Hc Hm (Wl & Pl) (Wr & Pr) Ew Eh Hn HB.
  pose proof Wl as (Hw & Hh & Ll). pose proof Wr as (Hw' & Hh' & Lr).
  assert (N0 : 0 <= iw left * ih left) by nia.
  assert (BS : 0 <= squared_error left right <= 2 ^ 53).
  { split; [apply sum_sq_nonneg|]. unfold squared_error.
    pose proof (sum_bound max Hm ch (idata left) (idata right) Pl (fun p Hp => proj2 (Pr p Hp))) as B. rewrite Ll in B. lia. }
  assert (I : iz (flt_sum (combine (idata left) (idata right)) (of_int 0)) (0 + squared_error left right)).
  { apply (img_sum max Hm); [intros p Hp; exact (proj2 (Pl p Hp))|intros p Hp; exact (proj2 (Pr p Hp))|apply iz_int; lia|lia|fold (squared_error left right); lia]. }
  rewrite Z.add_0_l in I. unfold mean_squared_error, assert. rewrite Ew, Eh, !Z.eqb_refl. cbn [andb bind]. rewrite <- Ew, <- Eh. cbv zeta.
  change (fold_left _ (combine (idata left) (idata right)) (of_int 0)) with (flt_sum (combine (idata left) (idata right)) (of_int 0)).
  rewrite SuppressProofs.chk_u_ok by nia. cbn [bind]. rewrite SuppressProofs.chk_u_ok by nia. cbn [bind]. eexists; split; [reflexivity|].
  set (s := flt_sum _ _) in *. clearbody s. destruct I as (Fs & Rs). set (n := iw left * ih left) in *. split.
  - intros Z0. rewrite Z0, Z.mul_0_l. assert (S0 : squared_error left right = 0).
    { unfold squared_error. assert (idata left = []) as -> by (destruct (idata left) as [|a l]; [reflexivity|]; exfalso; rewrite zlen_cons in Ll; pose proof (zlen_nonneg l); lia). reflexivity. }
    rewrite S0 in Rs. destruct s as [b|b| |b mm e He]; try discriminate Fs; [reflexivity|]. exfalso. cbn [B2R] in Rs.
    apply eq_0_F2R in Rs. destruct b; discriminate.
  - intros P0. assert (In0 : iz (of_int (n * ch)) (n * ch)) by (apply iz_int; lia). destruct In0 as (Fn & Rn).
    destruct (fdiv_R 53 1024 s (of_int (n * ch)) Fs) as (F & R).
    + rewrite Rn. apply IZR_neq. nia.
    + rewrite Rs, Rn. apply Rle_trans with (Rabs (IZR (squared_error left right))); [|apply big53; lia].
      unfold Rdiv. rewrite Rabs_mult. rewrite <- (Rmult_1_r (Rabs (IZR (squared_error left right)))) at 2. apply Rmult_le_compat_l; [apply Rabs_pos|].
      rewrite Rabs_pos_eq. { rewrite <- Rinv_1. apply Rinv_le; [lra|]. apply IZR_le. nia. }
      left. apply Rinv_0_lt_compat. apply IZR_lt. nia.
    + split; [exact F|]. rewrite R, Rs, Rn. reflexivity.
Qed.
Print Assumptions c86_mean_squared_error_partial.

Lemma c86_new w h (p : list Z) ch max : 0 <= w -> 0 <= h -> zlen p = ch -> (forall c, In c p -> 0 <= c <= max) -> pixels_ok ch max (new_image w h p).
Proof.
  intros Hw Hh L B. split; [apply wf_new; lia|]. unfold new_image, gen. cbn [idata]. intros q Hq.
  apply in_flat_map in Hq as (y & _ & Hq). apply in_map_iff in Hq as (x & <- & _). auto.
Qed.
Theorem c86_refuted : ~ c86_statement.
Proof.
  intros S. pose (im := new_image 65536 65536 [0]).
  assert (P : pixels_ok 1 0 im) by (apply c86_new; [lia|lia|reflexivity|intros c [<- | []]; lia]).
  assert (Ew : iw im = 65536) by (apply iw_new). assert (Eh : ih im = 65536) by (apply ih_new). clearbody im.
  destruct (S 1 0 im im ltac:(lia) ltac:(lia) P P eq_refl eq_refl ltac:(rewrite Ew, Eh; lia)) as (m & E & _).
  rewrite c86_huge_panics in E; [discriminate| | | |]; rewrite ?Ew, ?Eh; lia.
Qed.
Print Assumptions c86_refuted.

Lemma c86_img_eq (l r : image (list Z)) : iw l = iw r -> ih l = ih r -> idata l = idata r -> l = r.
Proof. destruct l, r; cbn; intros; subst; reflexivity. Qed.

(** it is zero exactly for equal images, never negative, and symmetric; the
    root mean squared error is its correctly rounded square root *)
Theorem c86_distance_partial : forall ch max left right,
  1 <= ch -> 0 <= max <= 2 ^ 26 -> pixels_ok ch max left -> pixels_ok ch max right ->
  iw left = iw right -> ih left = ih right -> 0 < iw left * ih left ->
  iw left * ih left * ch < 2 ^ 32 -> iw left * ih left * ch * (max * max) <= 2 ^ 53 ->
  exists m m' s,
    mean_squared_error ch left right = Ok m /\ mean_squared_error ch right left = Ok m' /\
    root_mean_squared_error ch left right = Ok s /\
    is_finite m = true /\ is_finite m' = true /\ is_finite s = true /\
    (0 <= B2R m)%R /\ B2R m' = B2R m /\ B2R s = rnd 53 1024 (sqrt (B2R m)) /\
    (B2R m = 0%R <-> left = right).
Proof.
  intros ch max left right Hc Hm Pl Pr Ew Eh P0 Hn HB.
  destruct (c86_mean_squared_error_partial ch max left right Hc Hm Pl Pr Ew Eh Hn HB) as (m & E & _ & H1). destruct (H1 P0) as (F1 & R1).
  rewrite Ew, Eh in P0, Hn, HB.
  destruct (c86_mean_squared_error_partial ch max right left Hc Hm Pr Pl (eq_sym Ew) (eq_sym Eh) Hn HB) as (m' & E' & _ & H2). destruct (H2 P0) as (F2 & R2).
  pose proof (sum_sq_nonneg (idata left) (idata right)) as NN. fold (squared_error left right) in NN.
  rewrite <- Ew, <- Eh in P0, Hn, HB, R2. set (n := iw left * ih left * ch) in *.
  assert (Pn : 1 <= n) by (unfold n; nia).
  assert (Pinv : (0 < / IZR n)%R) by (apply Rinv_0_lt_compat, IZR_lt; lia).
  assert (NNm : (0 <= B2R m)%R).
  { rewrite R1. rewrite <- (rnd_0 53 1024). apply (rnd_le 53 1024). apply Rmult_le_pos; [apply IZR_le; exact NN|lra]. }
  destruct (fsqrt_R 53 1024 m F1 NNm) as (F3 & R3).
  exists m, m', (fsqrt m). split; [exact E|]. split; [exact E'|]. split; [unfold root_mean_squared_error; rewrite E; reflexivity|].
  split; [exact F1|]. split; [exact F2|]. split; [exact F3|]. split; [exact NNm|]. split; [|split; [exact R3|]].
  - rewrite R1, R2. unfold squared_error. rewrite sum_sym. reflexivity.
  - assert (Z0 : squared_error left right = 0 <-> left = right).
    { unfold squared_error. destruct Pl as (Wl & Pl). destruct Pr as (Wr & Pr).
      rewrite sum_zero.
      - split; [apply c86_img_eq; assumption|intros ->; reflexivity].
      - destruct Wl as (_ & _ & ->). destruct Wr as (_ & _ & ->). rewrite Ew, Eh. reflexivity.
      - intros p q Hp Hq. rewrite (proj1 (Pl p Hp)), (proj1 (Pr q Hq)). reflexivity. }
    rewrite <- Z0, R1. split; intros H.
    + destruct (Z.eq_dec (squared_error left right) 0) as [|NZ]; [assumption|exfalso].
      assert (0 < rnd 53 1024 (IZR (squared_error left right) / IZR n))%R; [|lra].
      apply rnd_pos_nonzero. apply Rle_trans with (/ IZR n)%R.
      * apply Rinv_le; [apply IZR_lt; lia|apply IZR_le; lia].
      * unfold Rdiv. rewrite <- (Rmult_1_l (/ IZR n)) at 1. apply Rmult_le_compat_r; [lra|]. apply IZR_le. lia.
    + rewrite H. unfold Rdiv. rewrite Rmult_0_l. apply (rnd_0 53 1024).
Qed.
Print Assumptions c86_distance_partial.

(** the peak signal-to-noise ratio of equal images is +infinity, whatever the
    logarithm does elsewhere *)
Theorem c86_psnr_equal : forall (log10 : f64 -> f64) ch max im,
  (forall b, log10 (B754_zero b) = B754_infinity true) ->
  is_finite (fmul (of_int 20 : f64) (log10 (of_int max))) = true ->
  1 <= ch -> 0 <= max <= 2 ^ 26 -> pixels_ok ch max im -> 0 < iw im * ih im ->
  iw im * ih im * ch < 2 ^ 32 -> iw im * ih im * ch * (max * max) <= 2 ^ 53 ->
  peak_signal_to_noise_ratio log10 max ch im im = Ok (B754_infinity false).
Proof.
  intros log10 ch max im L0 LF Hc Hm P P0 Hn HB.
  destruct (c86_distance_partial ch max im im Hc Hm P P eq_refl eq_refl P0 Hn HB) as (m & _ & _ & E & _ & _ & F & _ & _ & _ & _ & _ & Z0).
  unfold peak_signal_to_noise_ratio. rewrite E. cbn [bind]. pose proof (proj2 Z0 eq_refl) as R0.
  assert (exists b, m = B754_zero b) as (b & ->).
  { destruct m as [b|b| |b mm e He]; try discriminate F; [eauto|]. exfalso. cbn [B2R] in R0. apply eq_0_F2R in R0. destruct b; discriminate. }
  rewrite L0. destruct (fmul (of_int 20 : f64) (log10 (of_int max))) as [c|c| |c mm e He]; try discriminate LF; reflexivity.
Qed.
Print Assumptions c86_psnr_equal.

Example c86_nontrivial :
  exists l r, pixels_ok 3 255 l /\ pixels_ok 3 255 r /\ l <> r /\ iw l = iw r /\ ih l = ih r /\ 0 < iw l * ih l /\
    iw l * ih l * 3 < 2 ^ 32 /\ iw l * ih l * 3 * (255 * 255) <= 2 ^ 53 /\ squared_error l r = 4.
Proof.
  exists (new_image 3 2 [1; 2; 255]), (mkImage 3 2 [[1; 2; 255]; [1; 2; 255]; [1; 2; 255]; [1; 2; 255]; [1; 2; 255]; [1; 4; 255]]).
  split; [apply c86_new; [lia|lia|reflexivity|]; intros c Hc; cbn in Hc; lia|].
  split. { split; [split; [cbn; lia|split; [cbn; lia|reflexivity]]|]. cbn [idata]. intros p Hp. cbn in Hp.
    repeat destruct Hp as [<- | Hp]; try contradiction; (split; [reflexivity|]); intros c Hc; cbn in Hc; lia. }
  split; [discriminate|]. vm_compute. repeat split; congruence.
Qed.

(** ** C87.  At every pixel the sharpened value is five times the pixel minus
    its four neighbours, clamped to 0..255, with coordinates clamped to the
    image; the Laplacian is the sum of the neighbours minus four times the
    pixel, without clamping.  The parallel versions return the same image.  *)
Theorem c87_sharpen3x3 : forall im, gray8 im ->
  let out := gen (iw im) (ih im) (fun x y => zclamp 0 255 (5 * gray_rep im x y - cross_sum im x y)) in
  sharpen3x3 im = Ok out /\ sharpen3x3_parallel im = Ok out.
Proof.
  intros im G. exact (filter3_ok 32 (zclamp 0 255) sharpen_kernel im G ltac:(lia) (or_introl eq_refl)).
Qed.
Print Assumptions c87_sharpen3x3.

Theorem c87_laplacian : forall im, gray8 im ->
  let out := gen (iw im) (ih im) (fun x y => cross_sum im x y - 4 * gray_rep im x y) in
  laplacian_filter im = Ok out /\ laplacian_filter_parallel im = Ok out /\
  all_px (fun v => -1020 <= v <= 1020) out.
Proof.
  intros im G out. destruct (filter3_ok 16 (fun v => v) four_laplacian im G ltac:(lia) (or_intror eq_refl)) as (A & B).
  split; [exact A|]. split; [exact B|]. intros x y v Hv.
  assert (W : wf out) by (apply wf_gen; destruct G as ((Hw & Hh & _) & _); lia).
  destruct (get_inb out x y v Hv) as (Hx & Hy). unfold out in Hv. rewrite get_gen_in in Hv by assumption. apply (f_equal (fun o => match o with Some z => z | None => 0 end)) in Hv. cbv beta iota in Hv. symmetry in Hv.
  pose proof (gray_rep_u8 im x y G). unfold cross_sum.
  pose proof (gray_rep_u8 im x (y - 1) G). pose proof (gray_rep_u8 im x (y + 1) G).
  pose proof (gray_rep_u8 im (x - 1) y G). pose proof (gray_rep_u8 im (x + 1) y G). cbv beta. rewrite Hv. unfold cross_sum. lia.
Qed.
Print Assumptions c87_laplacian.

Example c87_nontrivial :
  let im := mkImage 3 2 [10; 20; 30; 200; 0; 255] in
  gray8 im /\ sharpen3x3 im = Ok (mkImage 3 2 [0; 40; 0; 255; 0; 255]) /\
  laplacian_filter im = Ok (mkImage 3 2 [200; -20; 215; -390; 475; -480]).
Proof. split; [apply gray8b_ok; reflexivity|]. vm_compute. split; reflexivity. Qed.

(** ** C88.  [into_channel d i] extracts channel [i], [from_channel 0 i] embeds
    a grey image in channel [i] (i = 0, 1, 2: red, green, blue). *)
Lemma c88_len {C} (r : raw C) x y : rwf r -> 0 <= x < rw r -> 0 <= y < rh r -> zlen (rpixel r x y) = rc r.
Proof. intros W Hx Hy. apply nth_pixel_zlen; [exact W|nia]. Qed.

Theorem c88_into_channel : forall (C : Type) (d : C) i r, rwf r -> rc r = 3 -> 0 <= i < 3 ->
  exists out, into_channel d i r = Ok out /\ rwf out /\ rw out = rw r /\ rh out = rh r /\ rc out = 1 /\
    forall x y, 0 <= x < rw r -> 0 <= y < rh r ->
      exists v, znth (rpixel r x y) i = Some v /\ rpixel out x y = [v].
Proof.
  intros C d i r W R Hi. unfold into_channel.
  destruct (c07_map_pixels_pointwise C C 1 r (fun p => [match znth p i with Some v => v | None => d end]) W ltac:(lia) ltac:(reflexivity))
    as (out & E & Wo & Ew & Eh & Ec & P). exists out. split; [exact E|]. split; [exact Wo|]. split; [exact Ew|]. split; [exact Eh|]. split; [exact Ec|].
  intros x y Hx Hy. rewrite P by assumption. pose proof (c88_len r x y W Hx Hy) as L.
  destruct (znth_some (rpixel r x y) i ltac:(lia)) as (v & ->). eauto.
Qed.
Print Assumptions c88_into_channel.

Theorem c88_from_channel : forall (C : Type) (zero : C) i r, rwf r -> rc r = 1 -> 0 <= i < 3 ->
  exists out, from_channel zero i r = Ok out /\ rwf out /\ rw out = rw r /\ rh out = rh r /\ rc out = 3 /\
    forall x y, 0 <= x < rw r -> 0 <= y < rh r -> exists v, rpixel r x y = [v] /\
      forall c, 0 <= c < 3 -> znth (rpixel out x y) c = Some (if c =? i then v else zero).
Proof.
  intros C zero i r W R Hi. unfold from_channel.
  destruct (c07_map_pixels_pointwise C C 3 r (fun p => zupd [zero; zero; zero] i (match znth p 0 with Some v => v | None => zero end)) W ltac:(lia) ltac:(intros; cbv beta; apply zupd_zlen))
    as (out & E & Wo & Ew & Eh & Ec & P). exists out. split; [exact E|]. split; [exact Wo|]. split; [exact Ew|]. split; [exact Eh|]. split; [exact Ec|].
  intros x y Hx Hy. rewrite P by assumption. pose proof (c88_len r x y W Hx Hy) as L. rewrite R in L.
  destruct (rpixel r x y) as [|v [|v' l]]; [discriminate L| |exfalso; rewrite !zlen_cons in L; pose proof (zlen_nonneg l); lia].
  exists v. split; [reflexivity|]. change (znth [v] 0) with (Some v). cbv iota. intros c Hc.
  assert (c = 0 \/ c = 1 \/ c = 2) as [-> | [-> | ->]] by lia; assert (i = 0 \/ i = 1 \/ i = 2) as [-> | [-> | ->]] by lia; reflexivity.
Qed.
Print Assumptions c88_from_channel.

(** embedding then extracting the same channel returns the grey image; another
    channel is zero everywhere *)
Theorem c88_round_trip : forall (C : Type) (zero d : C) i j r, rwf r -> rc r = 1 -> 0 <= i < 3 -> 0 <= j < 3 ->
  exists rgb out, from_channel zero i r = Ok rgb /\ into_channel d j rgb = Ok out /\
    rw out = rw r /\ rh out = rh r /\ rc out = 1 /\
    forall x y, 0 <= x < rw r -> 0 <= y < rh r -> rpixel out x y = if j =? i then rpixel r x y else [zero].
Proof.
  intros C zero d i j r W R Hi Hj. destruct (c88_from_channel C zero i r W R Hi) as (rgb & E & Wo & Ew & Eh & Ec & P).
  destruct (c88_into_channel C d j rgb Wo Ec Hj) as (out & E' & _ & Ew' & Eh' & Ec' & P').
  exists rgb, out. split; [exact E|]. split; [exact E'|]. split; [congruence|]. split; [congruence|]. split; [exact Ec'|].
  intros x y Hx Hy. destruct (P x y Hx Hy) as (v & Ev & Hv). destruct (P' x y) as (v' & Ev' & Hv'); try congruence.
  rewrite Hv', Ev. specialize (Hv j Hj). rewrite Ev' in Hv. injection Hv as ->. destruct (j =? i); reflexivity.
Qed.
Print Assumptions c88_round_trip.

Example c88_nontrivial :
  from_channel 0 1 (mkRaw 2 1 1 [5; 9]) = Ok (mkRaw 2 1 3 [0; 5; 0; 0; 9; 0]) /\
  into_channel 0 2 (mkRaw 2 1 3 [1; 2; 3; 4; 5; 6]) = Ok (mkRaw 2 1 1 [3; 6]) /\ rwf (mkRaw 2 1 3 [1; 2; 3; 4; 5; 6]).
Proof. vm_compute. repeat split; congruence. Qed.
