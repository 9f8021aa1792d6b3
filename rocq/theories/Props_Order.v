(** C110: brighter images give brighter results, and the negative of an image gives the
    negative of the result. *)
From Verif Require Import Base BaseProofs RasterProofs.
From Verif Require Import FilterModel FilterSpec GradientModel GradientSpec Props_Filter Props_Gradient.
From Verif Require Import IntegralSpec MedianModel MedianSpec MedianProofs Props_Median.
From Verif Require Import CornerModel CornerSpec Props_Corner MaskModel MaskSpec Props_Mask SymProofs.
Local Ltac Zify.zify_post_hook ::= idtac.

(** ** Specification *)
(** images of the same size, every channel of every pixel of the second at least as bright *)
Definition channels_le (a b : image (list Z)) : Prop :=
  iw a = iw b /\ ih a = ih b /\
  forall x y p q c u v, get a x y = Some p -> get b x y = Some q -> znth p c = Some u -> znth q c = Some v -> u <= v.

(** the negative: v becomes 255 - v *)
Definition negative (a b : image Z) : Prop :=
  wf a /\ wf b /\ iw b = iw a /\ ih b = ih a /\ forall x y, get b x y = option_map (fun v => 255 - v) (get a x y).
Definition negative_channels (a b : image (list Z)) : Prop :=
  wf a /\ wf b /\ iw b = iw a /\ ih b = ih a /\ forall x y, get b x y = option_map (map (fun v => 255 - v)) (get a x y).

(** ** Counting *)
Lemma one_hot lo hi r : zsum lo hi (fun v => if r =? v then 1 else 0) = if (lo <=? r) && (r <? hi) then 1 else 0.
Proof.
  destruct (Z_le_dec lo r) as [L|L]; [destruct (Z_lt_dec r hi) as [H|H]|].
  - rewrite (zsum_split lo r hi), (zsum_cons r hi) by lia. rewrite Z.eqb_refl.
    rewrite (zsum_ext lo r _ (fun _ => 0)) by (intros i Hi; destruct (Z.eqb_spec r i); lia).
    rewrite (zsum_ext (r + 1) hi _ (fun _ => 0)) by (intros i Hi; destruct (Z.eqb_spec r i); lia).
    rewrite !zsum_const by lia. assert ((lo <=? r) && (r <? hi) = true) as -> by lia. lia.
  - rewrite (zsum_ext lo hi _ (fun _ => 0)) by (intros i Hi; destruct (Z.eqb_spec r i); lia).
    assert ((lo <=? r) && (r <? hi) = false) as -> by lia. destruct (Z_le_dec lo hi); [rewrite zsum_const by lia; lia|now rewrite zsum_empty by lia].
  - rewrite (zsum_ext lo hi _ (fun _ => 0)) by (intros i Hi; destruct (Z.eqb_spec r i); lia).
    assert ((lo <=? r) && (r <? hi) = false) as -> by lia. destruct (Z_le_dec lo hi); [rewrite zsum_const by lia; lia|now rewrite zsum_empty by lia].
Qed.
Lemma count_between im rx ry x y c lo hi :
  zsum lo hi (window_count im rx ry x y c) =
  zsum (x - rx) (x + rx + 1) (fun a => zsum (y - ry) (y + ry + 1) (fun b => if (lo <=? rep_chan 0 im c a b) && (rep_chan 0 im c a b <? hi) then 1 else 0)).
Proof.
  unfold window_count. rewrite zsum_swap. apply zsum_ext. intros a _. rewrite zsum_swap. apply zsum_ext. intros b _. apply one_hot.
Qed.

(** ** The replicated image *)
Lemma rep_is {S} (d : S) ch im c a b : channels ch im -> 0 < iw im -> 0 < ih im -> 0 <= c < ch ->
  exists p, get im (border (iw im) a) (border (ih im) b) = Some p /\ znth p c = Some (rep_chan d im c a b).
Proof.
  intros (W & L) Hw Hh Hc. destruct (get_some im (border (iw im) a) (border (ih im) b) W) as (p & G); [unfold border, zclamp; lia..|].
  exists p. split; [exact G|]. unfold rep_chan. rewrite G. destruct (znth_some p c) as (v & ->); [rewrite (L _ _ _ G); exact Hc|]. reflexivity.
Qed.
Lemma channels8_channels ch im : channels8 ch im -> channels ch im.
Proof. intros (W & H). split; [exact W|]. intros x y p G. apply (H x y p G). Qed.
Lemma rep_le ch a b c i j : channels ch a -> channels ch b -> 0 < iw a -> 0 < ih a -> 0 <= c < ch -> channels_le a b ->
  rep_chan 0 a c i j <= rep_chan 0 b c i j.
Proof.
  intros Ca Cb Hw Hh Hc (E1 & E2 & H). destruct (rep_is 0 ch a c i j Ca Hw Hh Hc) as (p & G & V).
  destruct (rep_is 0 ch b c i j Cb ltac:(lia) ltac:(lia) Hc) as (q & G' & V'). rewrite <- E1, <- E2 in G'. exact (H _ _ _ _ _ _ _ G G' V V').
Qed.
Lemma rep_negative ch a b c i j : channels ch a -> 0 < iw a -> 0 < ih a -> 0 <= c < ch -> negative_channels a b ->
  rep_chan 0 b c i j = 255 - rep_chan 0 a c i j.
Proof.
  intros Ca Hw Hh Hc (_ & _ & E1 & E2 & H). destruct (rep_is 0 ch a c i j Ca Hw Hh Hc) as (p & G & V).
  unfold rep_chan at 1. rewrite E1, E2, H, G. cbn [option_map]. rewrite znth_map, V. reflexivity.
Qed.
Lemma negative_channels8 ch a b : channels8 ch a -> negative_channels a b -> channels8 ch b.
Proof.
  intros (_ & H) (_ & W & _ & _ & N). split; [exact W|]. intros x y p G. rewrite N in G.
  destruct (get a x y) as [q|] eqn:E; [|discriminate]. cbn [option_map] in G. assert (p = map (fun v => 255 - v) q) as -> by congruence. destruct (H _ _ _ E) as (L & U). rewrite zlen_map. split; [exact L|].
  intros v Hv. apply in_map_iff in Hv. destruct Hv as (u & <- & Hu). specialize (U u Hu). cbv beta. unfold is_u8 in *. lia.
Qed.

(** ** Medians *)
Theorem c110_median_monotone : forall ch (a b : image (list Z)) rx ry,
  0 <= ch -> channels8 ch a -> channels8 ch b -> 0 < iw a -> 0 < ih a -> 0 <= rx -> 0 <= ry ->
  iw a + rx < 2 ^ 31 -> ih a + ry < 2 ^ 31 -> (2 * rx + 1) * (2 * ry + 1) < 2 ^ 31 -> channels_le a b ->
  exists oa ob, median_filter ch a rx ry = Ok oa /\ median_filter ch b rx ry = Ok ob /\ channels_le oa ob.
Proof.
  intros ch a b rx ry Hch Ca Cb Hw Hh Hx Hy Bx By BN LE. pose proof LE as (E1 & E2 & _).
  rewrite (median_ok ch a Ca Hch rx ry) by auto. rewrite (median_ok ch b Cb Hch rx ry) by (auto; lia).
  eexists. eexists. split; [reflexivity|]. split; [reflexivity|]. split; [exact E1|]. split; [exact E2|].
  intros x y p q c u v Gp Gq Zu Zv. destruct (get_inb _ _ _ _ Gp) as (I1 & I2). cbn [gen iw ih] in I1, I2.
  rewrite get_gen_in in Gp by auto. rewrite get_gen_in in Gq by lia. injection Gp as <-. injection Gq as <-.
  unfold medpx in Zu, Zv. rewrite znth_map in Zu, Zv.
  destruct (znth (zrange 0 ch) c) as [c'|] eqn:Ec; [|discriminate]. cbn [option_map] in Zu, Zv. injection Zu as <-. injection Zv as <-.
  apply znth_In in Ec. apply in_zrange in Ec.
  destruct (proj2 (medc_ok ch a Ca rx ry Hx Hy BN x y c')) as (U & _ & L1 & _).
  destruct (proj2 (medc_ok ch b Cb rx ry Hx Hy BN x y c')) as (U' & _ & _ & L2).
  set (m := medc a rx ry x y c') in *. set (m' := medc b rx ry x y c') in *.
  pose proof (W_total ch a Ca rx ry Hx Hy x y c') as Tot.
  destruct (Z_le_dec m m') as [|N]; [assumption|]. exfalso. unfold is_u8 in U, U'.
  rewrite (zsum_split 0 m 256) in Tot by lia.
  assert (K : zsum m 256 (window_count a rx ry x y c') <= zsum (m' + 1) 256 (window_count b rx ry x y c')).
  { rewrite !count_between. apply zsum_le. intros i _. apply zsum_le. intros j _.
    pose proof (rep_le ch a b c' i j (channels8_channels ch a Ca) (channels8_channels ch b Cb) Hw Hh Ec LE) as R.
    destruct (rep_is 0 ch b c' i j (channels8_channels ch b Cb) ltac:(lia) ltac:(lia) Ec) as (q & G & Z).
    pose proof (proj2 (proj2 Cb _ _ _ G) _ (znth_In _ _ _ Z)) as B. unfold is_u8 in B. clear - R B N.
    destruct ((m <=? rep_chan 0 a c' i j) && (rep_chan 0 a c' i j <? 256)) eqn:D1; destruct ((m' + 1 <=? rep_chan 0 b c' i j) && (rep_chan 0 b c' i j <? 256)) eqn:D2; lia. }
  change (MedianProofs.W a rx ry x y c') with (window_count a rx ry x y c') in *. change (MedianProofs.W b rx ry x y c') with (window_count b rx ry x y c') in *.
  lia.
Qed.

Lemma median_reversed cnt n m : (forall v, 0 <= cnt v) -> is_median cnt n m -> is_median (fun v => cnt (255 - v)) n (255 - m).
Proof.
  intros _ (U & P & L & H). unfold is_u8 in *. split; [unfold is_u8; lia|]. split; [now replace (255 - (255 - m)) with m by ring|].
  rewrite !(zsum_mirror _ _ 255 cnt). replace (255 - (255 - m) + 1) with (m + 1) by ring. replace (255 - 0 + 1) with 256 by ring.
  replace (255 - 256 + 1) with 0 by ring. replace (255 - (255 - m + 1) + 1) with m by ring. auto.
Qed.
Theorem c110_median_negative : forall ch (a b : image (list Z)) rx ry,
  0 <= ch -> channels8 ch a -> 0 < iw a -> 0 < ih a -> 0 <= rx -> 0 <= ry ->
  iw a + rx < 2 ^ 31 -> ih a + ry < 2 ^ 31 -> (2 * rx + 1) * (2 * ry + 1) < 2 ^ 31 -> negative_channels a b ->
  exists oa ob, median_filter ch a rx ry = Ok oa /\ median_filter ch b rx ry = Ok ob /\ negative_channels oa ob.
Proof.
  intros ch a b rx ry Hch Ca Hw Hh Hx Hy Bx By BN NE. pose proof (negative_channels8 ch a b Ca NE) as Cb. pose proof NE as (_ & _ & E1 & E2 & _).
  rewrite (median_ok ch a Ca Hch rx ry) by auto. rewrite (median_ok ch b Cb Hch rx ry) by (auto; lia).
  eexists. eexists. split; [reflexivity|]. split; [reflexivity|].
  split; [apply wf_gen; lia|]. split; [apply wf_gen; lia|]. split; [exact E1|]. split; [exact E2|].
  intros x y.
  destruct (get (gen (iw a) (ih a) (fun i j => medpx ch a rx ry i j)) x y) as [p|] eqn:G.
  - destruct (get_inb _ _ _ _ G) as (I1 & I2). cbn [gen iw ih] in I1, I2. rewrite get_gen_in in G by auto. injection G as <-.
    rewrite get_gen_in by lia. cbn [option_map]. f_equal. unfold medpx. rewrite map_map. apply map_ext_in. intros c Hc. apply in_zrange in Hc.
    pose proof (proj2 (medc_ok ch a Ca rx ry Hx Hy BN x y c)) as Q. pose proof (proj2 (medc_ok ch b Cb rx ry Hx Hy BN x y c)) as Q'.
    apply (c26_median_unique (window_count b rx ry x y c) ((2 * rx + 1) * (2 * ry + 1))).
    + intros v. apply (W_nonneg b rx ry x y c v).
    + apply (W_total ch b Cb rx ry Hx Hy x y c).
    + exact Q'.
    + apply (median_reversed (window_count a rx ry x y c)) in Q; [|intros v; apply (W_nonneg a rx ry x y c v)].
      assert (EX : forall v, window_count a rx ry x y c (255 - v) = window_count b rx ry x y c v).
      { intros v. unfold window_count. apply zsum_ext. intros i _. apply zsum_ext. intros j _.
        rewrite (rep_negative ch a b c i j (channels8_channels ch a Ca) Hw Hh Hc NE).
        destruct (Z.eqb_spec (rep_chan 0 a c i j) (255 - v)); destruct (Z.eqb_spec (255 - rep_chan 0 a c i j) v); lia. }
      destruct Q as (Q1 & Q2 & Q3 & Q4). split; [exact Q1|]. rewrite <- EX. split; [exact Q2|].
      split; [rewrite (zsum_ext _ _ _ (fun v => window_count a rx ry x y c (255 - v))); [exact Q3|]; intros; symmetry; apply EX|].
      rewrite (zsum_ext _ _ _ (fun v => window_count a rx ry x y c (255 - v))); [exact Q4|]; intros; symmetry; apply EX.
  - cbn [option_map]. destruct (get (gen (iw b) (ih b) _) x y) as [q|] eqn:G'; [|reflexivity].
    destruct (get_inb _ _ _ _ G') as (I1 & I2). cbn [gen iw ih] in I1, I2. rewrite get_gen_in in G by lia. discriminate.
Qed.

(** ** Means and sums with weights that are not negative *)
Theorem c110_box_monotone : forall (a b : image Z) rx ry,
  gray8 a -> gray8 b -> 0 < iw a -> 0 < ih a -> 0 <= rx -> 0 <= ry ->
  (iw a + 2 * rx) * 255 < 2 ^ 32 -> (ih a + 2 * ry) * 255 < 2 ^ 32 -> image_le a b ->
  exists oa ob, box_filter a rx ry = Ok oa /\ box_filter b rx ry = Ok ob /\ image_le oa ob.
Proof.
  intros a b rx ry Ga Gb Hw Hh Hx Hy Bx By (E1 & E2 & H).
  rewrite (FilterProofs.box_ok a) by auto. rewrite (FilterProofs.box_ok b) by (rewrite <- ?E1, <- ?E2; auto).
  eexists. eexists. split; [reflexivity|]. split; [reflexivity|]. split; [exact E1|]. split; [exact E2|].
  intros x y p q Gp Gq. destruct (get_inb _ _ _ _ Gp) as (I1 & I2). cbn [gen iw ih] in I1, I2.
  rewrite get_gen_in in Gp by auto. rewrite get_gen_in in Gq by lia. injection Gp as <-. injection Gq as <-.
  assert (R : forall i j, gray_rep a i j <= gray_rep b i j).
  { intros i j. unfold gray_rep. rewrite <- E1, <- E2.
    destruct (get_some a (border (iw a) i) (border (ih a) j) (proj1 Ga)) as (u & Gu); [unfold border, zclamp; lia..|].
    destruct (get_some b (border (iw a) i) (border (ih a) j) (proj1 Gb)) as (v & Gv); [unfold border, zclamp; lia..|].
    rewrite Gu, Gv. exact (H _ _ _ _ Gu Gv). }
  unfold box_mean, row_mean. apply Z.div_le_mono; [lia|]. apply zsum_le. intros j _. apply Z.div_le_mono; [lia|]. apply zsum_le. intros i _. apply R.
Qed.

Theorem c110_filter_monotone : forall (f : Z -> Z) ch (a b : image (list Z)) data kw kh k,
  (forall s t, s <= t -> f s <= f t) -> (forall w, In w data -> 0 <= w) ->
  0 <= ch -> channels ch a -> channels ch b -> zlen data < 2 ^ 32 -> 0 <= kw -> 0 <= kh -> kernel_new data kw kh = Ok k -> channels_le a b ->
  exists oa ob, filter2d Z Z Z 0 Z.add Z.mul (fun v => v) f ch ch 0 a k = Ok oa /\ filter2d Z Z Z 0 Z.add Z.mul (fun v => v) f ch ch 0 b k = Ok ob /\
    channels_le oa ob.
Proof.
  intros f ch a b data kw kh k Mf Pos Hch Ca Cb Hd Hkw Hkh Ek LE. pose proof LE as (E1 & E2 & _).
  destruct (c27_filter_integer f ch a data kw kh k Hch Ca Hd Hkw Hkh Ek) as (oa & Ea & D1 & D2 & (_ & La) & Va).
  destruct (c27_filter_integer f ch b data kw kh k Hch Cb Hd Hkw Hkh Ek) as (ob & Eb & D1' & D2' & _ & Vb).
  exists oa, ob. split; [exact Ea|]. split; [exact Eb|]. split; [lia|]. split; [lia|].
  intros x y p q c u v Gp Gq Zu Zv. destruct (get_inb _ _ _ _ Gp) as (I1 & I2).
  destruct (Va x y ltac:(lia) ltac:(lia)) as (p' & Gp' & P). destruct (Vb x y ltac:(lia) ltac:(lia)) as (q' & Gq' & Q).
  rewrite Gp in Gp'. injection Gp' as <-. rewrite Gq in Gq'. injection Gq' as <-.
  assert (Hc : 0 <= c < ch) by (rewrite <- (La _ _ _ Gp); apply znth_range with u; exact Zu).
  rewrite P in Zu by auto. rewrite Q in Zv by auto. injection Zu as <-. injection Zv as <-. apply Mf.
  unfold correlation_Z. apply zsum_le. intros j _. apply zsum_le. intros i _. apply Z.mul_le_mono_nonneg_r.
  - destruct (znth data (j * kw + i)) as [w|] eqn:Ew; [|lia]. apply Pos. exact (znth_In _ _ _ Ew).
  - apply (rep_le ch a b c); auto; lia.
Qed.

(** ** Gradients and corners do not change in the negative *)
Theorem c110_gradients_negative : forall (a b : image (list Z)), channels 1 a -> u8_image a -> negative_channels a b ->
  sobel_gradients b = sobel_gradients a /\ prewitt_gradients b = prewitt_gradients a.
Proof.
  intros a b Ca Ua NE. pose proof NE as (_ & Wb & E1 & E2 & N).
  assert (Cb : channels 1 b). { split; [exact Wb|]. intros x y p G. rewrite N in G. destruct (get a x y) as [q|] eqn:E; [|discriminate].
    cbn [option_map] in G. assert (p = map (fun v => 255 - v) q) as -> by congruence. rewrite zlen_map. exact (proj2 Ca _ _ _ E). }
  assert (Ub : u8_image b). { intros x y p v G Hv. rewrite N in G. destruct (get a x y) as [q|] eqn:E; [|discriminate].
    cbn [option_map] in G. assert (p = map (fun v => 255 - v) q) as -> by congruence. apply in_map_iff in Hv. destruct Hv as (u & <- & Hu). pose proof (Ua _ _ _ _ E Hu). cbv beta. lia. }
  assert (D : forall s t x y, 0 < iw a -> 0 < ih a -> deriv_x s t b 0 x y = - deriv_x s t a 0 x y /\ deriv_y s t b 0 x y = - deriv_y s t a 0 x y).
  { intros s t x y Hw Hh. unfold deriv_x, deriv_y, px_rep. rewrite !(rep_negative 1 a b 0 _ _ Ca Hw Hh ltac:(lia) NE). split; ring. }
  rewrite !c62_sobel_gradients, !c62_prewitt_gradients by auto. rewrite E1, E2.
  split; f_equal; apply gen_ext; intros x y Hx Hy; do 2 f_equal.
  - destruct (D 1 2 x y ltac:(lia) ltac:(lia)) as (-> & ->). ring.
  - destruct (D 1 1 x y ltac:(lia) ltac:(lia)) as (-> & ->). ring.
Qed.

Lemma circle_negative a b x y i : negative a b -> on_circle b x y i = option_map (fun v => 255 - v) (on_circle a x y i).
Proof. intros (_ & _ & _ & _ & N). unfold on_circle. destruct (znth circle_offsets (i mod 16)) as [(dx, dy)|]; [apply N|reflexivity]. Qed.
Lemma bright_negative a b t x y i : negative a b -> (brighter_by b t x y i <-> darker_by a t x y i) /\ (darker_by b t x y i <-> brighter_by a t x y i).
Proof.
  intros NE. pose proof NE as (_ & _ & _ & _ & N). unfold brighter_by, darker_by. rewrite (circle_negative a b x y i NE), N.
  destruct (get a x y) as [c|], (on_circle a x y i) as [p|]; cbn [option_map];
    (split; split; intros (c' & p' & P1 & P2 & P3); try discriminate);
    first [assert (c' = 255 - c) as -> by congruence; assert (p' = 255 - p) as -> by congruence | assert (c' = c) as -> by congruence; assert (p' = p) as -> by congruence];
    eexists; eexists; (split; [reflexivity|]; split; [reflexivity|lia]).
Qed.
Lemma fast_negative len a b t x y : negative a b -> (fast_corner len b t x y <-> fast_corner len a t x y).
Proof.
  intros NE. pose proof NE as (_ & _ & E1 & E2 & _). unfold fast_corner, away. rewrite E1, E2. apply and_iff_compat_l.
  split; intros (s & Hs & Q); exists s; (split; [exact Hs|]); (destruct Q as [Q|Q]; [right|left]); intros k Hk; specialize (Q k Hk);
    now apply (bright_negative a b t x y (s + k) NE).
Qed.
Theorem c110_fast9_negative : forall (a b : image Z) t, valid a -> 0 <= t <= 255 -> negative a b ->
  exists l l', corners_fast Nine a t = Ok l /\ corners_fast Nine b t = Ok l' /\ forall k, In k l' <-> In k l.
Proof.
  intros a b t V Ht NE. pose proof NE as (_ & Wb & E1 & E2 & _).
  assert (V' : valid b) by (destruct V as (_ & V1 & V2); split; [exact Wb|]; rewrite E1, E2; auto).
  destruct (c53_corners_fast9 a t V Ht) as (l & E & _ & H). destruct (c53_corners_fast9 b t V' Ht) as (l' & E' & _ & H').
  exists l, l'. split; [exact E|]. split; [exact E'|]. intros ((x, y), v). rewrite H, H'. unfold largest_threshold.
  rewrite !(fast_negative 9 a b _ x y NE).
  split; intros (A & B & D & F); (split; [exact A|]; split; [exact B|]; split; [exact D|]); intros u Hu Q; apply (F u Hu);
    apply (fast_negative 9 a b u x y NE); exact Q.
Qed.

(** ** Grayscale dilation and erosion exchange *)
Lemma negative_sym a b : negative a b -> negative b a.
Proof.
  intros (Wa & Wb & E1 & E2 & N). split; [exact Wb|]. split; [exact Wa|]. split; [auto|]. split; [auto|]. intros x y. rewrite N.
  destruct (get a x y); [|reflexivity]. cbn [option_map]. f_equal. ring.
Qed.
Lemma extreme_negative a b m x y : negative a b ->
  (forall r, window_min a m x y r -> window_max b m x y (255 - r)) /\ (forall r, window_max a m x y r -> window_min b m x y (255 - r)).
Proof.
  intros (_ & _ & E1 & E2 & N). unfold window_min, window_max, covered. rewrite E1, E2.
  split; intros r (U & A); (split;
    [intros u v p C G; rewrite N in G; destruct (get a u v) as [q|] eqn:E; [|discriminate]; cbn [option_map] in G; assert (p = 255 - q) as -> by congruence; pose proof (U _ _ _ C E); lia
    |destruct A as [(u & v & C & G)|(None_ & ->)]; [left; exists u, v; split; [exact C|]; rewrite N, G; reflexivity|right; split; [exact None_|lia]]]).
Qed.
Lemma max_unique im m x y r r' : window_max im m x y r -> window_max im m x y r' -> r = r'.
Proof.
  intros (U & A) (U' & A'). destruct A as [(u & v & C & G)|(N & ->)], A' as [(u' & v' & C' & G')|(N' & ->)].
  - pose proof (U _ _ _ C' G'). pose proof (U' _ _ _ C G). lia.
  - exfalso. exact (N' _ _ C).
  - exfalso. exact (N _ _ C').
  - reflexivity.
Qed.
Lemma min_unique im m x y r r' : window_min im m x y r -> window_min im m x y r' -> r = r'.
Proof.
  intros (U & A) (U' & A'). destruct A as [(u & v & C & G)|(N & ->)], A' as [(u' & v' & C' & G')|(N' & ->)].
  - pose proof (U _ _ _ C' G'). pose proof (U' _ _ _ C G). lia.
  - exfalso. exact (N' _ _ C).
  - exfalso. exact (N _ _ C').
  - reflexivity.
Qed.
Theorem c110_morphology_negative : forall (a b : image Z) m, gray8 a -> 0 < iw a -> negative a b ->
  exists da ea db eb, grayscale_dilate a m = Ok da /\ grayscale_erode a m = Ok ea /\ grayscale_dilate b m = Ok db /\ grayscale_erode b m = Ok eb /\
    negative ea db /\ negative da eb.
Proof.
  intros a b m Ga Hw NE. pose proof NE as (_ & Wb & E1 & E2 & N).
  assert (Gb : gray8 b). { split; [exact Wb|]. intros x y p G. rewrite N in G. destruct (get a x y) as [q|] eqn:E; [|discriminate]. cbn [option_map] in G. assert (p = 255 - q) as -> by congruence.
    pose proof (proj2 Ga _ _ _ E) as U. unfold is_u8 in *. lia. }
  destruct (c24_grayscale_dilate a m Ga Hw) as (da & Da & (Wda & _) & A1 & A2 & HDa).
  destruct (c24_grayscale_erode a m Ga Hw) as (ea & Ea & (Wea & _) & A3 & A4 & HEa).
  destruct (c24_grayscale_dilate b m Gb ltac:(lia)) as (db & Db & (Wdb & _) & B1 & B2 & HDb).
  destruct (c24_grayscale_erode b m Gb ltac:(lia)) as (eb & Eb & (Web & _) & B3 & B4 & HEb).
  exists da, ea, db, eb. do 4 (split; [assumption|]).
  split; (split; [assumption|]; split; [assumption|]; split; [lia|]; split; [lia|]; intros x y).
  - destruct (get ea x y) as [r|] eqn:G.
    + destruct (get_inb _ _ _ _ G) as (I1 & I2). destruct (HEa x y ltac:(lia) ltac:(lia)) as (r1 & G1 & M1). rewrite G in G1. injection G1 as <-.
      destruct (HDb x y ltac:(lia) ltac:(lia)) as (s & Gs & Ms). rewrite Gs. cbn [option_map]. f_equal.
      exact (max_unique b m x y _ _ Ms (proj1 (extreme_negative a b m x y NE) r M1)).
    + cbn [option_map]. destruct (get db x y) as [q|] eqn:G'; [|reflexivity]. destruct (get_inb _ _ _ _ G') as (I1 & I2).
      destruct (get_some ea x y Wea ltac:(lia) ltac:(lia)) as (z & Gz). rewrite Gz in G. discriminate.
  - destruct (get da x y) as [r|] eqn:G.
    + destruct (get_inb _ _ _ _ G) as (I1 & I2). destruct (HDa x y ltac:(lia) ltac:(lia)) as (r1 & G1 & M1). rewrite G in G1. injection G1 as <-.
      destruct (HEb x y ltac:(lia) ltac:(lia)) as (s & Gs & Ms). rewrite Gs. cbn [option_map]. f_equal.
      exact (min_unique b m x y _ _ Ms (proj2 (extreme_negative a b m x y NE) r M1)).
    + cbn [option_map]. destruct (get eb x y) as [q|] eqn:G'; [|reflexivity]. destruct (get_inb _ _ _ _ G') as (I1 & I2).
      destruct (get_some da x y Wda ltac:(lia) ltac:(lia)) as (z & Gz). rewrite Gz in G. discriminate.
Qed.

(** means are rounded down, so the mean of the negative is not always the negative of the mean *)
Theorem c110_box_negative_refuted : ~ forall a b rx ry, gray8 a -> negative a b -> 0 <= rx <= 1 -> 0 <= ry <= 1 ->
  exists oa ob, box_filter a rx ry = Ok oa /\ box_filter b rx ry = Ok ob /\ negative oa ob.
Proof.
  intros H. destruct (H (mkImage 2 1 [0; 1]) (mkImage 2 1 [255; 254]) 1 0) as (oa & ob & Ea & Eb & (_ & _ & _ & _ & N)); try lia.
  - apply gray8b_ok. reflexivity.
  - split; [unfold wf; cbn; lia|]. split; [unfold wf; cbn; lia|]. split; [reflexivity|]. split; [reflexivity|].
    intros x y. change (mkImage 2 1 [255; 254]) with (mkImage (iw (mkImage 2 1 [0; 1])) (ih (mkImage 2 1 [0; 1])) (map (fun v => 255 - v) (idata (mkImage 2 1 [0; 1])))).
    apply get_map_data.
  - vm_compute in Ea. vm_compute in Eb. injection Ea as <-. injection Eb as <-. specialize (N 0 0). vm_compute in N. discriminate.
Qed.

(** ** Concrete cases *)
Example c110_nontrivial :
  let a := mkImage 3 1 [[10]; [200]; [30]] in let b := mkImage 3 1 [[245]; [55]; [225]] in let c := mkImage 3 1 [[10]; [220]; [90]] in
  channels8 1 a /\ channels8 1 c /\ negative_channels a b /\ channels_le a c /\
  median_filter 1 a 1 0 = Ok (mkImage 3 1 [[10]; [30]; [30]]) /\ median_filter 1 b 1 0 = Ok (mkImage 3 1 [[245]; [225]; [225]]) /\
  median_filter 1 c 1 0 = Ok (mkImage 3 1 [[10]; [90]; [90]]).
Proof.
  intros a b c.
  assert (K : forall u v w, is_u8 u -> is_u8 v -> is_u8 w -> channels8 1 (mkImage 3 1 [[u]; [v]; [w]])).
  { intros u v w U V W. split; [unfold wf; cbn; lia|]. intros x y p G. apply get_In in G. cbn [idata In] in G.
    destruct G as [<-|[<-|[<-|[]]]]; (split; [reflexivity|]); intros z [<-|[]]; assumption. }
  split; [apply K; unfold is_u8; lia|]. split; [apply K; unfold is_u8; lia|]. split.
  { split; [unfold wf; cbn; lia|]. split; [unfold wf; cbn; lia|]. split; [reflexivity|]. split; [reflexivity|].
    intros x y. change b with (mkImage (iw a) (ih a) (map (map (fun v => 255 - v)) (idata a))). apply get_map_data. }
  split; [|vm_compute; auto].
  split; [reflexivity|]. split; [reflexivity|]. intros x y p q k u v Gp Gq Zu Zv. destruct (get_inb _ _ _ _ Gp) as (I1 & I2). cbn [iw ih a] in I1, I2.
  assert (y = 0) as -> by lia. assert (Hx : x = 0 \/ x = 1 \/ x = 2) by lia.
  assert (Hk : k = 0). { destruct Hx as [-> | [-> | ->]]; injection Gp as <-; apply znth_range in Zu; unfold zlen in Zu; cbn in Zu; lia. }
  subst k. destruct Hx as [-> | [-> | ->]]; injection Gp as <-; injection Gq as <-; injection Zu as <-; injection Zv as <-; lia.
Qed.

Print Assumptions c110_median_monotone. Print Assumptions c110_median_negative. Print Assumptions c110_box_monotone. Print Assumptions c110_filter_monotone.
Print Assumptions c110_gradients_negative. Print Assumptions c110_fast9_negative. Print Assumptions c110_morphology_negative. Print Assumptions c110_box_negative_refuted.
