(** C19 (histogram, cumulative_histogram, percentile) and C77 (min_max). *)
From Verif Require Import Base BaseProofs IntegralSpec IntegralProofs StatsModel StatsSpec StatsProofs RasterProofs ContrastProofs.
Ltac Zify.zify_post_hook ::= Z.div_mod_to_equations.

Lemma channels_img_ok ch im : 0 <= ch -> channels8 ch im -> iw im * ih im < 2 ^ 32 -> img_ok ch im.
Proof.
  intros Hch (W & Hp) Hs. pose proof W as (_ & _ & L). split; [|split]; auto; [|lia].
  intros p Hin. destruct (In_get im p W Hin) as (x & y & G). apply (Hp x y p G).
Qed.

(** Entry v of channel c of the histogram is the number of pixels whose channel
    c has level v; of the cumulative histogram, at most v. *)
Theorem c19_histogram : forall ch im,
  0 <= ch -> channels8 ch im -> iw im * ih im < 2 ^ 32 ->
  exists h, histogram ch im = Ok h /\ zlen h = ch /\
    forall c, 0 <= c < ch -> exists row, znth h c = Some row /\ zlen row = 256 /\
      forall v, 0 <= v < 256 -> znth row v = Some (count_px im (has_level c v)).
Proof.
  intros ch im Hch Him Hs. pose proof (channels_img_ok ch im Hch Him Hs) as Hi.
  rewrite histogram_ok by auto. eexists; split; [reflexivity|]. split. { rewrite zlen_map, zlen_zrange; lia. }
  intros c Hc. eexists; split. { rewrite znth_map, znth_zrange by lia. reflexivity. }
  split. { rewrite zlen_map, zlen_zrange; lia. }
  intros v Hv. rewrite znth_map, znth_zrange by lia. reflexivity.
Qed.

Theorem c19_cumulative_histogram : forall ch im,
  0 <= ch -> channels8 ch im -> iw im * ih im < 2 ^ 32 ->
  exists h, cumulative_histogram ch im = Ok h /\ zlen h = ch /\
    forall c, 0 <= c < ch -> exists row, znth h c = Some row /\ zlen row = 256 /\
      (forall v, 0 <= v < 256 -> znth row v = Some (count_px im (at_most c v))) /\
      znth row 255 = Some (iw im * ih im).
Proof.
  intros ch im Hch Him Hs. pose proof (channels_img_ok ch im Hch Him Hs) as Hi.
  rewrite cumulative_ok by auto. eexists; split; [reflexivity|]. split. { rewrite zlen_map, zlen_zrange; lia. }
  intros c Hc. eexists; split. { rewrite znth_map, znth_zrange by lia. reflexivity. }
  split. { rewrite zlen_map, zlen_zrange; lia. }
  split. { intros v Hv. rewrite znth_map, znth_zrange by lia. reflexivity. }
  rewrite znth_map, znth_zrange by lia. cbn [option_map]. rewrite !Z.add_0_l. f_equal.
  rewrite (at_most_255 ch) by auto. apply Him.
Qed.

(** The cumulative histogram is the prefix sum of the histogram. *)
Theorem c19_prefix_sums : forall ch im c v,
  0 <= ch -> channels8 ch im -> iw im * ih im < 2 ^ 32 -> 0 <= c < ch -> 0 <= v < 256 ->
  zsum 0 (v + 1) (fun u => count_px im (has_level c u)) = count_px im (at_most c v).
Proof. intros. apply (at_most_sum ch); auto. apply channels_img_ok; auto. Qed.

(** percentile(img, p) is the least level v such that at least p percent of
    the pixels are at most v; the counts are compared exactly. *)
Theorem c19_percentile : forall im p,
  gray8 im -> iw im * ih im < 2 ^ 32 -> 0 < iw im * ih im -> 0 <= p <= 100 ->
  exists v, percentile (luma im) p = Ok v /\ 0 <= v <= 255 /\
    p * (iw im * ih im) <= 100 * count_px (luma im) (at_most 0 v) /\
    forall u, 0 <= u < v -> 100 * count_px (luma im) (at_most 0 u) < p * (iw im * ih im).
Proof.
  intros im p Hg Hs Hpos Hp. pose proof (luma_channels im Hg) as HL.
  pose proof (channels_img_ok 1 (luma im) ltac:(lia) HL Hs) as Hi.
  unfold percentile, assert. assert (p <=? 100 = true) as -> by lia. cbn [bind].
  rewrite cumulative_ok by auto. cbn [bind]. rewrite vget_mapz by lia. cbn [bind]. rewrite vget_mapz by lia. cbn [bind].
  assert (T : count_px (luma im) (at_most 0 255) = iw im * ih im).
  { rewrite (at_most_255 1) by (auto; lia). apply HL. }
  rewrite T.
  pose proof (percentile_scan_ok (fun v => count_px (luma im) (at_most 0 v)) (iw im * ih im) p Hpos 256 0 ltac:(lia) ltac:(lia)) as Q.
  destruct (percentile_scan 256 0 _ _ _) as [v| |].
  - exists v. destruct Q as (Q1 & Q2 & Q3). splits; auto; try lia.
  - exfalso. specialize (Q 255 ltac:(lia)). rewrite T in Q. nia.
  - destruct Q.
Qed.

(** ... and it panics on p > 100 and on an empty image. *)
Theorem c19_percentile_panics : forall im p,
  gray8 im -> iw im * ih im < 2 ^ 32 -> 0 <= p ->
  percentile (luma im) p = Panic <-> (p > 100 \/ iw im * ih im = 0).
Proof.
  intros im p Hg Hs Hp0. split.
  - intros E. destruct (Z_gt_dec p 100); auto. right.
    assert (0 <= iw im * ih im) by (destruct Hg as ((A & B & _) & _); nia).
    destruct (Z.eq_dec (iw im * ih im) 0); auto. exfalso.
    destruct (c19_percentile im p Hg Hs) as (v & Ev & _); try lia. congruence.
  - intros [H|H].
    + unfold percentile, assert. assert (p <=? 100 = false) as -> by lia. reflexivity.
    + unfold percentile, assert. destruct (p <=? 100); auto. cbn [bind].
      pose proof (luma_channels im Hg) as HL.
      pose proof (channels_img_ok 1 (luma im) ltac:(lia) HL Hs) as Hi.
      rewrite cumulative_ok by auto. cbn [bind]. rewrite vget_mapz by lia. cbn [bind]. rewrite vget_mapz by lia. cbn [bind].
      assert (T : count_px (luma im) (at_most 0 255) = 0).
      { rewrite (at_most_255 1) by (auto; lia). rewrite <- H. apply HL. }
      rewrite T. change 256%nat with (Datatypes.S 255). cbn [percentile_scan]. rewrite vget_mapz by lia. reflexivity.
Qed.

Example c19_nontrivial :
  let im := mkImage 5 1 [10; 20; 20; 30; 200] in
  percentile (luma im) 50 = Ok 20 /\ percentile (luma im) 61 = Ok 30 /\ percentile (luma im) 100 = Ok 200 /\
  gray8 im.
Proof.
  split; [reflexivity|split;[reflexivity|split;[reflexivity|]]].
  apply gray8b_ok; reflexivity.
Qed.

(** ** C77 *)
Theorem c77_min_max : forall ch im,
  0 <= ch -> wf im -> (forall x y p, get im x y = Some p -> zlen p = ch) -> 0 < iw im * ih im ->
  exists rs, min_max ch im = Ok rs /\ zlen rs = ch /\
    forall c, 0 <= c < ch -> exists mn mx, znth rs c = Some (mn, mx) /\
      (exists x y p, get im x y = Some p /\ znth p c = Some mn) /\
      (exists x y p, get im x y = Some p /\ znth p c = Some mx) /\
      (forall x y p v, get im x y = Some p -> znth p c = Some v -> mn <= v <= mx).
Proof.
  intros ch im Hch W Hp Hne.
  assert (IN : forall p, In p (idata im) -> exists x y, get im x y = Some p) by (intros; apply In_get; auto).
  destruct (min_max_ok ch im Hch) as (rs & E & L & HR).
  - intros p Hin. destruct (IN p Hin) as (x & y & G). eauto.
  - destruct W as (_ & _ & L). intros C. rewrite C in L. unfold zlen in L; simpl in L. lia.
  - exists rs. splits; auto. intros c Hc. destruct (HR c Hc) as ((mn & mx) & En & R1 & R2 & R3).
    exists mn, mx. splits; auto.
    + destruct R1 as (p & Hin & Ep). destruct (IN p Hin) as (x & y & G). eauto 6.
    + destruct R2 as (p & Hin & Ep). destruct (IN p Hin) as (x & y & G). eauto 6.
    + intros x y p v G Ev. apply get_In in G. apply (R3 p v G Ev).
Qed.

Theorem c77_min_max_empty : forall ch im, wf im -> iw im * ih im = 0 -> min_max ch im = Panic.
Proof. intros ch im (_ & _ & L) H. unfold min_max, assert. rewrite L, H. reflexivity. Qed.

Example c77_nontrivial :
  min_max 2 (mkImage 3 1 [[1; 9]; [4; 2]; [0; 7]]) = Ok [(0, 4); (2, 9)].
Proof. reflexivity. Qed.

Print Assumptions c19_histogram.
Print Assumptions c19_cumulative_histogram.
Print Assumptions c19_prefix_sums.
Print Assumptions c19_percentile.
Print Assumptions c19_percentile_panics.
Print Assumptions c77_min_max.
Print Assumptions c77_min_max_empty.
