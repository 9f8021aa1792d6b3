(** C12, C13, C14: integral images and running sums. *)
From Verif Require Import Base BaseProofs GeomProofs IntegralModel IntegralSpec IntegralProofs.

Lemma chan_map out ch x y (g : Z -> Z) c :
  get out x y = Some (map g (zrange 0 ch)) -> 0 <= c < ch -> chan out c x y = g c.
Proof.
  intros E Hc. unfold chan. rewrite E, znth_map, znth_zrange by lia. cbn [option_map].
  f_equal; lia.
Qed.

(** C12: entry (x, y) of channel c is the sum over all pixels above and to the
    left, provided the total fits the n-bit accumulator; no panic. *)
Theorem c12_integral_image : forall n ch im,
  8 <= n -> 0 <= ch -> channels8 ch im -> iw im + 1 < 2 ^ 32 -> ih im + 1 < 2 ^ 32 ->
  (forall c, 0 <= c < ch -> rect_sum (chan im c) 0 (iw im) 0 (ih im) < 2 ^ n) ->
  exists out, integral_image Debug n ch im = Ok out /\ wf out /\ iw out = iw im + 1 /\ ih out = ih im + 1 /\
    forall x y c, 0 <= x <= iw im -> 0 <= y <= ih im -> 0 <= c < ch ->
      chan out c x y = rect_sum (chan im c) 0 x 0 y.
Proof.
  intros n ch im Hn Hch Him Hw Hh Hfit.
  destruct (integral_ok Debug n ch im false Hn Him) as (out & E & Wo & Ew & Eh & HG); auto.
  exists out. splits; auto. intros x y c Hx Hy Hc.
  rewrite (chan_map out ch x y _ c (HG x y Hx Hy) Hc). reflexivity.
Qed.

Theorem c12_integral_squared_image : forall n ch im,
  8 <= n -> 0 <= ch -> channels8 ch im -> iw im + 1 < 2 ^ 32 -> ih im + 1 < 2 ^ 32 ->
  (forall c, 0 <= c < ch -> rect_sum (fun x y => chan im c x y ^ 2) 0 (iw im) 0 (ih im) < 2 ^ n) ->
  exists out, integral_squared_image Debug n ch im = Ok out /\ wf out /\ iw out = iw im + 1 /\ ih out = ih im + 1 /\
    forall x y c, 0 <= x <= iw im -> 0 <= y <= ih im -> 0 <= c < ch ->
      chan out c x y = rect_sum (fun x y => chan im c x y ^ 2) 0 x 0 y.
Proof.
  intros n ch im Hn Hch Him Hw Hh Hfit.
  assert (SQ : forall c x y, IntegralProofs.S im true c x y = rect_sum (fun x y => chan im c x y ^ 2) 0 x 0 y).
  { intros c x y. unfold IntegralProofs.S, rect_sum. apply zsum_ext; intros; apply zsum_ext; intros. unfold F, val. lia. }
  destruct (integral_ok Debug n ch im true Hn Him) as (out & E & Wo & Ew & Eh & HG); auto.
  { intros _ c Hc. rewrite SQ. auto. }
  exists out. splits; auto. intros x y c Hx Hy Hc.
  rewrite (chan_map out ch x y _ c (HG x y Hx Hy) Hc). simpl. apply SQ.
Qed.

(** In a release build nothing panics and entries are correct modulo 2^n. *)
Theorem c12_integral_image_release : forall n ch im,
  8 <= n -> 0 <= ch -> channels8 ch im -> iw im + 1 < 2 ^ 32 -> ih im + 1 < 2 ^ 32 ->
  exists out, integral_image Release n ch im = Ok out /\ iw out = iw im + 1 /\ ih out = ih im + 1 /\
    forall x y c, 0 <= x <= iw im -> 0 <= y <= ih im -> 0 <= c < ch ->
      chan out c x y = rect_sum (chan im c) 0 x 0 y mod 2 ^ n.
Proof.
  intros n ch im Hn Hch Him Hw Hh.
  destruct (integral_ok Release n ch im false Hn Him) as (out & E & Wo & Ew & Eh & HG); auto; [discriminate|].
  exists out. splits; auto. intros x y c Hx Hy Hc.
  rewrite (chan_map out ch x y _ c (HG x y Hx Hy) Hc). reflexivity.
Qed.

Definition rgb22 : image (list Z) := mkImage 2 2 [[1;2;3];[4;5;6];[7;8;9];[250;251;252]].
Example rgb22_ok : channels8 3 rgb22.
Proof.
  split; [unfold wf; cbn; unfold zlen; cbn; lia|].
  intros x y p H. pose proof (get_inb _ _ _ _ H) as (Hx & Hy). cbn in Hx, Hy.
  rewrite get_wf_nth in H by (cbn; lia). apply znth_In in H. cbn [idata rgb22] in H.
  simpl in H. unfold is_u8. decompose [or] H; try contradiction; subst p; (split; [reflexivity|]);
  intros v Hv; simpl in Hv; lia.
Qed.
Example c12_ex : exists out, integral_image Debug 16 3 rgb22 = Ok out /\ get out 2 2 = Some [262;266;270].
Proof. eexists; split; vm_compute; reflexivity. Qed.

(** C13 as one would want it: whenever the integral image itself could be
    computed, every rectangle inside the image is summed without a panic. *)
Definition c13_statement : Prop :=
  forall n ch im ii l t r b,
    8 <= n -> 0 <= ch -> channels8 ch im -> integral_image Debug n ch im = Ok ii ->
    0 <= l <= r -> r < iw im -> 0 <= t <= b -> b < ih im ->
    sum_image_pixels Debug n ii l t r b =
      Ok (map (fun c => rect_sum (chan im c) l (r + 1) t (b + 1)) (zrange 0 ch)).

Definition white13 : image (list Z) := new_image 13 13 [255].
Lemma white13_ok : channels8 1 white13.
Proof.
  split; [apply wf_new; lia|]. intros x y p H. pose proof (get_inb _ _ _ _ H) as (Hx & Hy).
  unfold white13, new_image in H. cbn in Hx, Hy. rewrite get_gen_in in H by lia. inversion H; subst.
  split; [reflexivity|]. intros v [<-|[]]. unfold is_u8; lia.
Qed.

(** False: a + b overflows before c and d are subtracted (u16 accumulator,
    13x13 white image, bottom right pixel). *)
Theorem c13_no_overflow_refuted : ~ c13_statement.
Proof.
  intros H. destruct (integral_image Debug 16 1 white13) as [ii| |] eqn:E; try (vm_compute in E; discriminate).
  specialize (H 16 1 white13 ii 12 12 12 12 ltac:(lia) ltac:(lia) white13_ok E).
  assert (X : sum_image_pixels Debug 16 ii 12 12 12 12 = Panic).
  { vm_compute in E. inversion E. vm_compute. reflexivity. }
  rewrite X in H. cut (@Panic (list Z) = Ok (map (fun c => rect_sum (chan white13 c) 12 (12 + 1) 12 (12 + 1)) (zrange 0 1))); [discriminate|].
  apply H; simpl; lia.
Qed.

(** It does hold when the total is at most half of the accumulator's range. *)
Theorem c13_rectangle_sum_partial : forall n ch im l t r b,
  8 <= n -> 0 <= ch -> channels8 ch im -> iw im + 1 < 2 ^ 32 -> ih im + 1 < 2 ^ 32 ->
  (forall c, 0 <= c < ch -> rect_sum (chan im c) 0 (iw im) 0 (ih im) < 2 ^ (n - 1)) ->
  0 <= l <= r -> r < iw im -> 0 <= t <= b -> b < ih im ->
  exists ii, integral_image Debug n ch im = Ok ii /\
    sum_image_pixels Debug n ii l t r b =
      Ok (map (fun c => rect_sum (chan im c) l (r + 1) t (b + 1)) (zrange 0 ch)).
Proof.
  intros n ch im l t r b Hn Hch Him Hw Hh Hfit Hl Hr Ht Hb.
  assert (P2 : 2 ^ n = 2 * 2 ^ (n - 1)) by (rewrite <- Z.pow_succ_r by lia; f_equal; lia).
  assert (Hf' : Debug = Debug -> forall c, 0 <= c < ch -> IntegralProofs.S im false c (iw im) (ih im) < 2 ^ n).
  { intros _ c Hc. specialize (Hfit c Hc). unfold IntegralProofs.S, F, val. fold (chan im c).
    assert (0 < 2 ^ (n - 1)) by (apply Z.pow_pos_nonneg; lia).
    change (rect_sum (chan im c) 0 (iw im) 0 (ih im) < 2 ^ n). lia. }
  destruct (integral_ok Debug n ch im false Hn Him Hf') as (ii & E & _ & _ & _ & HG); auto.
  exists ii. split; auto.
  rewrite (sum_ok Debug n ch im false Hn Him Hf' ii l t r b HG); auto.
  intros _ c Hc. specialize (Hfit c Hc).
  assert (IntegralProofs.S im false c (r + 1) (b + 1) <= IntegralProofs.S im false c (iw im) (ih im)).
  { apply (rect_mono ch im false Him); lia. }
  assert (IntegralProofs.S im false c l t <= IntegralProofs.S im false c (iw im) (ih im)).
  { apply (rect_mono ch im false Him); lia. }
  change (IntegralProofs.S im false c (iw im) (ih im) < 2 ^ (n - 1)) in Hfit. lia.
Qed.

(** In a release build the wrapped intermediate values cancel: the result is the
    rectangle sum whenever that sum itself fits. *)
Theorem c13_rectangle_sum_release : forall n ch im l t r b,
  8 <= n -> 0 <= ch -> channels8 ch im -> iw im + 1 < 2 ^ 32 -> ih im + 1 < 2 ^ 32 ->
  0 <= l <= r -> r < iw im -> 0 <= t <= b -> b < ih im ->
  (forall c, 0 <= c < ch -> rect_sum (chan im c) l (r + 1) t (b + 1) < 2 ^ n) ->
  exists ii, integral_image Release n ch im = Ok ii /\
    sum_image_pixels Release n ii l t r b =
      Ok (map (fun c => rect_sum (chan im c) l (r + 1) t (b + 1)) (zrange 0 ch)).
Proof.
  intros n ch im l t r b Hn Hch Him Hw Hh Hl Hr Ht Hb Hfit.
  assert (Hf' : Release = Debug -> forall c, 0 <= c < ch -> IntegralProofs.S im false c (iw im) (ih im) < 2 ^ n) by discriminate.
  destruct (integral_ok Release n ch im false Hn Him Hf') as (ii & E & _ & _ & _ & HG); auto.
  exists ii. split; auto.
  rewrite (sum_ok Release n ch im false Hn Him Hf' ii l t r b HG); auto; [|discriminate].
  f_equal. apply map_ext_in. intros c Hc. apply in_zrange in Hc. simpl. apply Z.mod_small. split; [|apply Hfit; auto].
  apply (rect_nonneg ch im false Him).
Qed.

(** C14: entry i of the buffer is the prefix sum, up to i - padding, of the row
    extended by repeating its end pixels. *)
Theorem c14_row_running_sum : forall im row buffer padding,
  gray8 im -> 0 <= row < ih im -> 0 < iw im -> 0 <= padding ->
  iw im + 2 * padding <= zlen buffer -> zlen buffer * 255 < 2 ^ 32 ->
  exists buf, row_running_sum im row buffer padding = Ok buf /\ zlen buf = zlen buffer /\
    forall i, 0 <= i < zlen buffer ->
      znth buf i = Some (zsum 0 (i + 1) (fun j => replicate (fun x => px im x row) (iw im) (j - padding))).
Proof.
  intros im row buffer padding (Hwf & Hu) Hr Hw Hp Hb Hs. unfold row_running_sum, assert.
  assert (iw im + 2 * padding <=? zlen buffer = true) as -> by lia.
  assert (row <? ih im = true) as -> by lia. assert (0 <? iw im = true) as -> by lia. cbn [bind].
  assert (V : forall x, 0 <= x < iw im -> vget (idata im) (iw im * row + x) = Ok (px im x row)).
  { intros x Hx. unfold px. destruct (get_some im x row Hwf Hx Hr) as (v & E). rewrite E.
    rewrite get_wf_nth in E by auto. unfold vget. replace (iw im * row + x) with (row * iw im + x) by lia. rewrite E. reflexivity. }
  pose proof (V 0 ltac:(lia)) as V0. replace (iw im * row + 0) with (iw im * row) in V0 by lia.
  rewrite V0, V by lia. cbn [bind].
  apply (running_sum_ok (fun x => px im x row) (iw im) padding buffer); auto.
  - intros x Hx. unfold px. destruct (get_some im x row Hwf Hx Hr) as (v & E). rewrite E. apply (Hu x row v E).
  - intros i Hi. apply V. lia.
Qed.

Theorem c14_column_running_sum : forall im column buffer padding,
  gray8 im -> 0 <= column < iw im -> 0 < ih im -> 0 <= padding ->
  ih im + 2 * padding <= zlen buffer -> zlen buffer * 255 < 2 ^ 32 ->
  exists buf, column_running_sum im column buffer padding = Ok buf /\ zlen buf = zlen buffer /\
    forall i, 0 <= i < zlen buffer ->
      znth buf i = Some (zsum 0 (i + 1) (fun j => replicate (fun y => px im column y) (ih im) (j - padding))).
Proof.
  intros im col buffer padding (Hwf & Hu) Hr Hw Hp Hb Hs. unfold column_running_sum, assert.
  assert (ih im + 2 * padding <=? zlen buffer = true) as -> by lia.
  assert (col <? iw im = true) as -> by lia. assert (0 <? ih im = true) as -> by lia. cbn [bind].
  assert (V : forall y, 0 <= y < ih im -> get_pixel im col y = Ok (px im col y)).
  { intros y Hy. unfold px, get_pixel. destruct (get_some im col y Hwf Hr Hy) as (v & E). rewrite E. reflexivity. }
  rewrite !V by lia. cbn [bind].
  apply (running_sum_ok (fun y => px im col y) (ih im) padding buffer); auto.
  - intros y Hy. unfold px. destruct (get_some im col y Hwf Hr Hy) as (v & E). rewrite E. apply (Hu col y v E).
  - intros i Hi. apply V. lia.
Qed.

(** differences of entries 2*padding+1 apart are centred window sums *)
Theorem c14_window_sums : forall (f : Z -> Z) buf len padding x,
  0 <= padding -> 0 <= x -> x + 2 * padding < zlen buf ->
  (forall i, 0 <= i < zlen buf -> znth buf i = Some (zsum 0 (i + 1) (fun j => replicate f len (j - padding)))) ->
  exists hi, znth buf (x + 2 * padding) = Some hi /\
    (x = 0 -> hi = zsum (x - padding) (x + padding + 1) (replicate f len)) /\
    (0 < x -> exists lo, znth buf (x - 1) = Some lo /\
       hi - lo = zsum (x - padding) (x + padding + 1) (replicate f len)).
Proof.
  intros f buf len p x Hp Hx Hl H. eexists; split; [apply H; lia|].
  assert (E : zsum x (x + 2 * p + 1) (fun j => replicate f len (j - p)) = zsum (x - p) (x + p + 1) (replicate f len)).
  { pose proof (zsum_shift x (x + 2 * p + 1) (- p) (replicate f len)) as Z.
    replace (x + 2 * p + 1 + - p) with (x + p + 1) in Z by lia.
    replace (x + - p) with (x - p) in Z by lia. rewrite <- Z. reflexivity. }
  split.
  - intros ->. rewrite <- E. reflexivity.
  - intros Hx0. eexists; split; [apply H; lia|]. replace (x - 1 + 1) with x by lia.
    rewrite (zsum_split 0 x (x + 2 * p + 1)) by lia. lia.
Qed.

(** the documented panics, and only those (for buffers short enough for u32 sums) *)
Theorem c14_row_panics : forall im row buffer padding,
  zlen buffer < iw im + 2 * padding \/ ih im <= row \/ iw im = 0 ->
  row_running_sum im row buffer padding = Panic.
Proof.
  intros im row buffer p H. unfold row_running_sum, assert.
  destruct (iw im + 2 * p <=? zlen buffer) eqn:E1; auto. cbn [bind].
  destruct (row <? ih im) eqn:E2; auto. cbn [bind].
  destruct (0 <? iw im) eqn:E3; auto. lia.
Qed.

Example c14_ex : row_running_sum (mkImage 3 2 [1;2;3;4;5;6]) 0 [0;0;0;0;0] 1 = Ok [1;2;4;7;10].
Proof. vm_compute. reflexivity. Qed.
Example c14_ex2 : column_running_sum (mkImage 2 3 [1;4;2;5;3;6]) 1 [0;0;0;0;0;0] 1 = Ok [4;8;13;19;25;31].
Proof. vm_compute. reflexivity. Qed.

Print Assumptions c12_integral_image.
Print Assumptions c12_integral_squared_image.
Print Assumptions c12_integral_image_release.
Print Assumptions c13_no_overflow_refuted.
Print Assumptions c13_rectangle_sum_partial.
Print Assumptions c13_rectangle_sum_release.
Print Assumptions c14_row_running_sum.
Print Assumptions c14_column_running_sum.
Print Assumptions c14_window_sums.
Print Assumptions c14_row_panics.
