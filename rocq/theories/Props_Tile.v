(** C109: a tile of an image can be processed on its own; away from the cuts the result is the
    same as that of processing the whole image. *)
From Verif Require Import Base BaseProofs RasterProofs ComposeModel ComposeSpec ComposeProofs.
From Verif Require Import FilterModel FilterSpec GradientModel GradientSpec Props_Filter Props_Gradient.
From Verif Require Import DistanceModel DistanceSpec Props_Distance IntegralSpec MedianModel MedianSpec MedianProofs Props_Median.
From Verif Require Import CornerModel CornerSpec Props_Corner ContrastModel ContrastSpec Props_Contrast MaskModel MaskSpec Props_Mask.
Local Ltac Zify.zify_post_hook ::= idtac.

(** ** Specification *)
(** [tile] shows the pixels of [im] from (rx, ry) on *)
Definition tile_of {A} (im tile : image A) (rx ry : Z) : Prop :=
  wf im /\ wf tile /\ 0 <= rx /\ 0 <= ry /\ rx + iw tile <= iw im /\ ry + ih tile <= ih im /\
  forall x y, 0 <= x < iw tile -> 0 <= y < ih tile -> get tile x y = get im (rx + x) (ry + y).

(** (x, y) is a pixel of the tile at least kx columns and ky rows away from every side of the
    tile that is not also a side of the image *)
Definition clear_of_cuts {A} (im tile : image A) (rx ry kx ky x y : Z) : Prop :=
  0 <= x < iw tile /\ 0 <= y < ih tile /\
  (kx <= x \/ rx = 0) /\ (x + kx < iw tile \/ rx + iw tile = iw im) /\
  (ky <= y \/ ry = 0) /\ (y + ky < ih tile \/ ry + ih tile = ih im).

(** both runs succeed with results of the sizes of their inputs, and agree clear of the cuts *)
Definition agree {A B} (im tile : image A) (rx ry kx ky : Z) (r r' : res (image B)) : Prop :=
  exists out out', r = Ok out /\ r' = Ok out' /\
    iw out = iw im /\ ih out = ih im /\ iw out' = iw tile /\ ih out' = ih tile /\
    forall x y, clear_of_cuts im tile rx ry kx ky x y -> get out' x y = get out (rx + x) (ry + y).

(** [crop] makes tiles *)
Theorem c109_crop : forall (A : Type) (im : image A) rx ry rw rh,
  wf im -> u32_dims im -> 0 <= rx -> 0 <= ry -> 0 <= rw -> 0 <= rh -> rx + rw <= iw im -> ry + rh <= ih im ->
  exists tile, crop im rx ry rw rh = Ok tile /\ iw tile = rw /\ ih tile = rh /\ tile_of im tile rx ry.
Proof.
  intros A im rx ry rw rh W U Hx Hy Hw Hh Fx Fy.
  destruct (crop_correct im rx ry rw rh W U Hx Hy Hw Hh) as (C & _). destruct (C (conj Fx Fy)) as (t & E & Wt & D1 & D2 & G).
  exists t. split; [exact E|]. split; [exact D1|]. split; [exact D2|]. unfold tile_of. rewrite D1, D2. auto 10.
Qed.

Lemma tile_px {A} (P : A -> Prop) im tile rx ry : tile_of im tile rx ry -> all_px P im -> all_px P tile.
Proof. intros (_ & _ & _ & _ & _ & _ & G) H x y a E. destruct (get_inb tile x y a E). rewrite G in E by auto. exact (H _ _ _ E). Qed.
Lemma tile_gray8 im tile rx ry : tile_of im tile rx ry -> gray8 im -> gray8 tile.
Proof. intros T (_ & H). split; [apply T|]. exact (tile_px _ im tile rx ry T H). Qed.
Lemma tile_channels {S} ch (im tile : image (list S)) rx ry : tile_of im tile rx ry -> channels ch im -> channels ch tile.
Proof. intros T (_ & H). split; [apply T|]. exact (tile_px (fun p => zlen p = ch) im tile rx ry T H). Qed.
Lemma tile_channels8 ch im tile rx ry : tile_of im tile rx ry -> channels8 ch im -> channels8 ch tile.
Proof. intros T (_ & H). split; [apply T|]. exact (tile_px (fun p => zlen p = ch /\ forall v, In v p -> is_u8 v) im tile rx ry T H). Qed.
Lemma tile_u8 im tile rx ry : tile_of im tile rx ry -> u8_image im -> u8_image tile.
Proof.
  intros T H x y p v E. refine (tile_px (fun p => forall v, In v p -> 0 <= v <= 255) im tile rx ry T _ x y p E v).
  intros a b q Eq u. exact (H a b q u Eq).
Qed.

(** ** Replicated borders *)
Lemma border_tile w W rx k x a : 0 <= rx -> rx + w <= W -> 0 <= x < w -> (k <= x \/ rx = 0) -> (x + k < w \/ rx + w = W) ->
  x - k <= a <= x + k -> rx + border w a = border W (rx + a) /\ 0 <= border w a < w.
Proof. intros. unfold border, zclamp. lia. Qed.
Section Near.
  Context {A : Type} (im tile : image A) (rx ry kx ky x y : Z) (T : tile_of im tile rx ry) (C : clear_of_cuts im tile rx ry kx ky x y).
  Lemma get_border a b : x - kx <= a <= x + kx -> y - ky <= b <= y + ky ->
    get tile (border (iw tile) a) (border (ih tile) b) = get im (border (iw im) (rx + a)) (border (ih im) (ry + b)).
  Proof using T C.
    intros Ha Hb. destruct T as (_ & _ & R1 & R2 & F1 & F2 & G). destruct C as (X & Y & C1 & C2 & C3 & C4).
    destruct (border_tile (iw tile) (iw im) rx kx x a) as (<- & I1); auto.
    destruct (border_tile (ih tile) (ih im) ry ky y b) as (<- & I2); auto.
  Qed.
  (** pixels around (x, y) exist in both or in neither *)
  Lemma get_near a b : x - kx <= a <= x + kx -> y - ky <= b <= y + ky -> get tile a b = get im (rx + a) (ry + b).
  Proof using T C.
    intros Ha Hb. destruct T as (Wi & Wt & R1 & R2 & F1 & F2 & G). destruct C as (X & Y & C1 & C2 & C3 & C4).
    destruct (get tile a b) as [p|] eqn:E.
    - destruct (get_inb tile a b p E). rewrite <- E. now apply G.
    - destruct (get im (rx + a) (ry + b)) as [q|] eqn:E'; [|reflexivity]. destruct (get_inb im _ _ _ E').
      assert (I : 0 <= a < iw tile /\ 0 <= b < ih tile) by lia. rewrite G in E by apply I. rewrite E in E'. discriminate.
  Qed.
End Near.
Lemma rep_near {S} (d : S) im tile rx ry kx ky x y c a b : tile_of im tile rx ry -> clear_of_cuts im tile rx ry kx ky x y ->
  x - kx <= a <= x + kx -> y - ky <= b <= y + ky -> rep_chan d tile c a b = rep_chan d im c (rx + a) (ry + b).
Proof. intros T C Ha Hb. unfold rep_chan. now rewrite (get_border im tile rx ry kx ky x y T C a b Ha Hb). Qed.
Lemma gray_near im tile rx ry kx ky x y a b : tile_of im tile rx ry -> clear_of_cuts im tile rx ry kx ky x y ->
  x - kx <= a <= x + kx -> y - ky <= b <= y + ky -> gray_rep tile a b = gray_rep im (rx + a) (ry + b).
Proof. intros T C Ha Hb. unfold gray_rep. now rewrite (get_border im tile rx ry kx ky x y T C a b Ha Hb). Qed.
Lemma clear_in {A} (im tile : image A) rx ry kx ky x y : tile_of im tile rx ry -> clear_of_cuts im tile rx ry kx ky x y ->
  0 <= rx + x < iw im /\ 0 <= ry + y < ih im.
Proof. intros (_ & _ & R1 & R2 & F1 & F2 & _) (X & Y & _). lia. Qed.

Lemma agree_gen {A B} (im tile : image A) rx ry kx ky (f g : Z -> Z -> B) r r' : tile_of im tile rx ry ->
  r = Ok (gen (iw im) (ih im) f) -> r' = Ok (gen (iw tile) (ih tile) g) ->
  (forall x y, clear_of_cuts im tile rx ry kx ky x y -> g x y = f (rx + x) (ry + y)) -> agree im tile rx ry kx ky r r'.
Proof.
  intros T E E' H. exists (gen (iw im) (ih im) f), (gen (iw tile) (ih tile) g). split; [exact E|]. split; [exact E'|].
  cbn [gen iw ih]. do 4 (split; [reflexivity|]). intros x y C. destruct (clear_in im tile rx ry kx ky x y T C) as (I1 & I2).
  pose proof C as (X & Y & _). rewrite !get_gen_in by auto. f_equal. now apply H.
Qed.
Lemma agree_image_of {S B} ch (im tile : image (list S)) rx ry kx ky (f g : Z -> Z -> Z -> B) r r' : tile_of im tile rx ry ->
  (exists out, r = Ok out /\ image_of ch (iw im) (ih im) out f) -> (exists out, r' = Ok out /\ image_of ch (iw tile) (ih tile) out g) ->
  (forall c x y, clear_of_cuts im tile rx ry kx ky x y -> g c x y = f c (rx + x) (ry + y)) -> agree im tile rx ry kx ky r r'.
Proof.
  intros T (o & E & D1 & D2 & (_ & L) & P) (o' & E' & D1' & D2' & (_ & L') & P') H.
  exists o, o'. do 6 (split; [assumption|]). intros x y C. destruct (clear_in im tile rx ry kx ky x y T C) as (I1 & I2).
  pose proof C as (X & Y & _). destruct (P _ _ I1 I2) as (p & G & V). destruct (P' _ _ X Y) as (p' & G' & V').
  rewrite G, G'. f_equal. pose proof (L _ _ _ G) as Lp. pose proof (L' _ _ _ G') as Lp'.
  apply znth_ext; [unfold zlen in *; lia|]. intros c Hc. rewrite V, V' by lia. f_equal. now apply H.
Qed.

(** ** Filters *)
Lemma weighted_ext {S K} zero add mul (into : S -> K) ws src src' : (forall i, 0 <= i < zlen ws -> src i = src' i) ->
  weighted_sum zero add mul into ws src = weighted_sum zero add mul into ws src'.
Proof.
  intros H. unfold weighted_sum.
  assert (G : forall l a, (forall i w, In (i, w) l -> src i = src' i) ->
    fold_left (fun acc '(i, w) => add acc (mul (into (src i)) w)) l a = fold_left (fun acc '(i, w) => add acc (mul (into (src' i)) w)) l a).
  { induction l as [|(i, w) l IH]; intros a Hl; [reflexivity|]. cbn [fold_left]. rewrite (Hl i w) by (left; reflexivity).
    apply IH. intros j v Hj. apply (Hl j v). now right. }
  apply G. intros i w Hi. apply in_combine_l in Hi. apply in_zrange in Hi. now apply H.
Qed.

(** any kernel, any arithmetic: reach kw/2 and kh/2 *)
Theorem c109_filter : forall (S K T : Type) (zero : K) (add mul : K -> K -> K) (into : S -> K) (f : K -> T)
    (d : S) (zt : T) ch (im tile : image (list S)) rx ry data kw kh k,
  0 <= ch -> channels ch im -> zlen data < 2 ^ 32 -> 0 <= kw -> 0 <= kh -> kernel_new data kw kh = Ok k -> tile_of im tile rx ry ->
  agree im tile rx ry (kw / 2) (kh / 2) (filter2d S K T zero add mul into f ch ch zt im k) (filter2d S K T zero add mul into f ch ch zt tile k).
Proof.
  intros S K T zero add mul into f d zt ch im tile rx ry data kw kh k Hch Hi Hd Hkw Hkh Ek Ti.
  pose proof (tile_channels ch im tile rx ry Ti Hi) as Ht.
  eapply (agree_image_of ch im tile rx ry); [exact Ti|now apply (c27_filter S K T zero add mul into f d zt ch im data kw kh k)
    |now apply (c27_filter S K T zero add mul into f d zt ch tile data kw kh k)|].
  assert (B : 0 < kw /\ 0 < kh /\ kw * kh = zlen data).
  { unfold kernel_new, assert in Ek. destruct ((0 <? kw) && (0 <? kh)) eqn:E1; [|discriminate]. cbn [bind] in Ek.
    unfold chk_u, u_fits in Ek. destruct ((0 <=? kw * kh) && (kw * kh <? 2 ^ 32)) eqn:E2; [|discriminate]. cbn [bind] in Ek.
    pose proof (zlen_nonneg data). rewrite Z.mod_small in Ek by lia.
    destruct (kw * kh =? zlen data) eqn:E3; [|discriminate]. lia. }
  destruct B as (B1 & B2 & B3). intros c x y C. cbv beta. f_equal. apply weighted_ext. intros i Hii.
  pose proof (Z.mod_pos_bound i kw B1). assert (0 <= i / kw < kh) by (split; [apply Z.div_pos; lia|apply Z.div_lt_upper_bound; lia]).
  pose proof (Z.div_mod kw 2 ltac:(lia)). pose proof (Z.mod_pos_bound kw 2 ltac:(lia)).
  pose proof (Z.div_mod kh 2 ltac:(lia)). pose proof (Z.mod_pos_bound kh 2 ltac:(lia)).
  rewrite (rep_near d im tile rx ry (kw / 2) (kh / 2) x y c _ _ Ti C) by lia. f_equal; lia.
Qed.

(** separable filters *)
Theorem c109_separable : forall (S K : Type) (zero : K) (add mul : K -> K -> K) (into : S -> K) (clamp : K -> S)
    (d : S) ch (im tile : image (list S)) rx ry hk vk,
  0 <= ch -> channels ch im -> zlen hk = zlen vk -> tile_of im tile rx ry ->
  agree im tile rx ry (zlen hk / 2) (zlen vk / 2) (separable_filter zero add mul into clamp ch d im hk vk) (separable_filter zero add mul into clamp ch d tile hk vk).
Proof.
  intros S K zero add mul into clamp d ch im tile rx ry hk vk Hch Hi El Ti.
  pose proof (tile_channels ch im tile rx ry Ti Hi) as Ht.
  eapply (agree_image_of ch im tile rx ry); [exact Ti|now apply c29_separable_two_passes|now apply c29_separable_two_passes|].
  intros c x y C. cbv beta. f_equal. apply weighted_ext. intros j Hj. f_equal. apply weighted_ext. intros i Hii.
  pose proof (Z.div_mod (zlen hk) 2 ltac:(lia)). pose proof (Z.mod_pos_bound (zlen hk) 2 ltac:(lia)).
  pose proof (Z.div_mod (zlen vk) 2 ltac:(lia)). pose proof (Z.mod_pos_bound (zlen vk) 2 ltac:(lia)).
  rewrite (rep_near d im tile rx ry (zlen hk / 2) (zlen vk / 2) x y c _ _ Ti C) by lia. f_equal; lia.
Qed.

Theorem c109_gradients : forall (im tile : image (list Z)) rx ry, channels 1 im -> u8_image im -> tile_of im tile rx ry ->
  agree im tile rx ry 1 1 (sobel_gradients im) (sobel_gradients tile) /\ agree im tile rx ry 1 1 (prewitt_gradients im) (prewitt_gradients tile).
Proof.
  intros im tile rx ry Ci Ui Ti. pose proof (tile_channels 1 im tile rx ry Ti Ci) as Ct. pose proof (tile_u8 im tile rx ry Ti Ui) as Ut.
  assert (D : forall a b x y, clear_of_cuts im tile rx ry 1 1 x y ->
    deriv_x a b tile 0 x y = deriv_x a b im 0 (rx + x) (ry + y) /\ deriv_y a b tile 0 x y = deriv_y a b im 0 (rx + x) (ry + y)).
  { intros a b x y C. unfold deriv_x, deriv_y, px_rep.
    rewrite !(rep_near 0 im tile rx ry 1 1 x y 0 _ _ Ti C) by lia.
    rewrite !Z.add_assoc, !Z.add_sub_assoc. auto. }
  split.
  - eapply agree_gen; [exact Ti|now apply c62_sobel_gradients|now apply c62_sobel_gradients|].
    intros x y C. cbv beta. destruct (D 1 2 x y C) as (-> & ->). reflexivity.
  - eapply agree_gen; [exact Ti|now apply c62_prewitt_gradients|now apply c62_prewitt_gradients|].
    intros x y C. cbv beta. destruct (D 1 1 x y C) as (-> & ->). reflexivity.
Qed.

Lemma zsum_moved lo hi k f g : (forall i, lo <= i < hi -> f i = g (k + i)) -> zsum lo hi f = zsum (k + lo) (k + hi) g.
Proof.
  intros H. rewrite (zsum_ext lo hi f (fun i => g (i + k))).
  - rewrite (zsum_shift lo hi k g). f_equal; lia.
  - intros i Hi. rewrite H by auto. f_equal. lia.
Qed.

Theorem c109_box : forall (im tile : image Z) kx ky rx ry,
  gray8 im -> 0 < iw tile -> 0 < ih tile -> 0 <= kx -> 0 <= ky ->
  (iw im + 2 * kx) * 255 < 2 ^ 32 -> (ih im + 2 * ky) * 255 < 2 ^ 32 -> tile_of im tile rx ry ->
  agree im tile rx ry kx ky (box_filter im kx ky) (box_filter tile kx ky).
Proof.
  intros im tile kx ky rx ry Gi Hw Hh Hx Hy Bx By Ti. pose proof (tile_gray8 im tile rx ry Ti Gi) as Gt.
  pose proof Ti as (_ & _ & R1 & R2 & F1 & F2 & _).
  eapply agree_gen; [exact Ti|apply FilterProofs.box_ok; auto; lia|apply FilterProofs.box_ok; auto; lia|].
  intros x y C. unfold box_mean. f_equal.
  rewrite (zsum_moved (y - ky) (y + ky + 1) ry _ (fun j => row_mean im kx (rx + x) j)); [f_equal; lia|].
  intros j Hj. unfold row_mean. f_equal.
  rewrite (zsum_moved (x - kx) (x + kx + 1) rx _ (fun i => gray_rep im i (ry + j))); [f_equal; lia|].
  intros i Hii. apply (gray_near im tile rx ry kx ky x y i j Ti C); lia.
Qed.

Lemma is_median_ext cnt cnt' n m : (forall v, cnt v = cnt' v) -> is_median cnt' n m -> is_median cnt n m.
Proof.
  intros H (A & B & D & F). split; [exact A|]. rewrite H. split; [exact B|].
  rewrite !(zsum_ext _ _ cnt cnt') by (intros; apply H). auto.
Qed.
Theorem c109_median : forall ch (im tile : image (list Z)) kx ky rx ry,
  0 <= ch -> channels8 ch im -> 0 < iw tile -> 0 < ih tile -> 0 <= kx -> 0 <= ky ->
  iw im + kx < 2 ^ 31 -> ih im + ky < 2 ^ 31 -> (2 * kx + 1) * (2 * ky + 1) < 2 ^ 31 -> tile_of im tile rx ry ->
  agree im tile rx ry kx ky (median_filter ch im kx ky) (median_filter ch tile kx ky).
Proof.
  intros ch im tile kx ky rx ry Hch Ci Hw Hh Hx Hy Bx By BN Ti. pose proof (tile_channels8 ch im tile rx ry Ti Ci) as Ct.
  pose proof Ti as (_ & _ & R1 & R2 & F1 & F2 & _).
  eapply agree_gen; [exact Ti|apply (median_ok ch im Ci Hch kx ky); auto; lia|apply (median_ok ch tile Ct Hch kx ky); auto; lia|].
  intros x y C. unfold medpx. apply map_ext. intros c.
  pose proof (proj2 (medc_ok ch im Ci kx ky Hx Hy BN (rx + x) (ry + y) c)) as Q.
  pose proof (proj2 (medc_ok ch tile Ct kx ky Hx Hy BN x y c)) as Q'.
  apply (c26_median_unique (window_count im kx ky (rx + x) (ry + y) c) ((2 * kx + 1) * (2 * ky + 1))).
  - intros v. apply (W_nonneg im kx ky (rx + x) (ry + y) c v).
  - apply (W_total ch im Ci kx ky Hx Hy (rx + x) (ry + y) c).
  - apply (is_median_ext _ (window_count tile kx ky x y c)); [|exact Q']. intros v. symmetry. unfold window_count.
    rewrite (zsum_moved (x - kx) (x + kx + 1) rx _ (fun a => zsum (ry + y - ky) (ry + y + ky + 1) (fun b => if rep_chan 0 im c a b =? v then 1 else 0))); [f_equal; lia|].
    intros a Ha. rewrite (zsum_moved (y - ky) (y + ky + 1) ry _ (fun b => if rep_chan 0 im c (rx + a) b =? v then 1 else 0)); [f_equal; lia|].
    intros b Hb. rewrite (rep_near 0 im tile rx ry kx ky x y c a b Ti C) by lia. reflexivity.
  - exact Q.
Qed.

(** ** Grayscale morphology: the reach of the mask *)
Definition reach (mask : list (Z * Z)) (kx ky : Z) : Prop :=
  forall a b, In (a, b) mask -> Z.abs a <= kx /\ Z.abs b <= ky.
Section Covered.
  Context (im tile : image Z) (rx ry kx ky x y : Z) (m : list (Z * Z)) (R : reach m kx ky)
    (T : tile_of im tile rx ry) (C : clear_of_cuts im tile rx ry kx ky x y).
  Lemma covered_tile u v : covered tile m x y u v -> covered im m (rx + x) (ry + y) (rx + u) (ry + v) /\ get tile u v = get im (rx + u) (ry + v).
  Proof using T.
    intros (I & U & V). pose proof T as (_ & _ & R1 & R2 & F1 & F2 & G). split; [|now apply G].
    split; [|lia]. replace (rx + u - (rx + x)) with (u - x) by ring. now replace (ry + v - (ry + y)) with (v - y) by ring.
  Qed.
  Lemma covered_image u v : covered im m (rx + x) (ry + y) u v -> covered tile m x y (u - rx) (v - ry) /\ get tile (u - rx) (v - ry) = get im u v.
  Proof using R T C.
    intros (I & U & V). pose proof T as (_ & _ & R1 & R2 & F1 & F2 & G). destruct (R _ _ I) as (A & B).
    destruct C as (X & Y & C1 & C2 & C3 & C4).
    assert (J : 0 <= u - rx < iw tile /\ 0 <= v - ry < ih tile) by lia. split.
    - split; [|exact J]. replace (u - rx - x) with (u - (rx + x)) by ring. now replace (v - ry - y) with (v - (ry + y)) by ring.
    - rewrite G by apply J. f_equal; ring.
  Qed.
  Lemma max_tile r r' : window_max im m (rx + x) (ry + y) r -> window_max tile m x y r' -> r' = r.
  Proof using R T C.
    intros (U1 & A1) (U2 & A2).
    destruct A1 as [(u & v & K & G)|(N & ->)], A2 as [(u' & v' & K' & G')|(N' & ->)].
    - pose proof (covered_image u v K) as (Kt & Gt). pose proof (covered_tile u' v' K') as (Ki & Gi).
      rewrite Gi in G'. rewrite <- Gt in G. pose proof (U1 _ _ _ Ki G'). pose proof (U2 _ _ _ Kt G). lia.
    - exfalso. exact (N' _ _ (proj1 (covered_image u v K))).
    - exfalso. exact (N _ _ (proj1 (covered_tile u' v' K'))).
    - reflexivity.
  Qed.
  Lemma min_tile r r' : window_min im m (rx + x) (ry + y) r -> window_min tile m x y r' -> r' = r.
  Proof using R T C.
    intros (U1 & A1) (U2 & A2).
    destruct A1 as [(u & v & K & G)|(N & ->)], A2 as [(u' & v' & K' & G')|(N' & ->)].
    - pose proof (covered_image u v K) as (Kt & Gt). pose proof (covered_tile u' v' K') as (Ki & Gi).
      rewrite Gi in G'. rewrite <- Gt in G. pose proof (U1 _ _ _ Ki G'). pose proof (U2 _ _ _ Kt G). lia.
    - exfalso. exact (N' _ _ (proj1 (covered_image u v K))).
    - exfalso. exact (N _ _ (proj1 (covered_tile u' v' K'))).
    - reflexivity.
  Qed.
End Covered.
Theorem c109_grayscale : forall (im tile : image Z) m kx ky rx ry, gray8 im -> 0 < iw tile -> reach m kx ky -> tile_of im tile rx ry ->
  agree im tile rx ry kx ky (grayscale_dilate im m) (grayscale_dilate tile m) /\
  agree im tile rx ry kx ky (grayscale_erode im m) (grayscale_erode tile m).
Proof.
  intros im tile m kx ky rx ry Gi Hw R T. pose proof (tile_gray8 im tile rx ry T Gi) as Gt. pose proof T as (_ & _ & R1 & R2 & F1 & F2 & _).
  split.
  - destruct (c24_grayscale_dilate im m Gi ltac:(lia)) as (o & E & _ & D1 & D2 & H).
    destruct (c24_grayscale_dilate tile m Gt Hw) as (o' & E' & _ & D1' & D2' & H').
    exists o, o'. do 6 (split; [assumption|]). intros x y C. destruct (clear_in im tile rx ry kx ky x y T C) as (I1 & I2).
    pose proof C as (X & Y & _). destruct (H _ _ I1 I2) as (r & G & M). destruct (H' _ _ X Y) as (r' & G' & M').
    rewrite G, G'. f_equal. exact (max_tile im tile rx ry kx ky x y m R T C r r' M M').
  - destruct (c24_grayscale_erode im m Gi ltac:(lia)) as (o & E & _ & D1 & D2 & H).
    destruct (c24_grayscale_erode tile m Gt Hw) as (o' & E' & _ & D1' & D2' & H').
    exists o, o'. do 6 (split; [assumption|]). intros x y C. destruct (clear_in im tile rx ry kx ky x y T C) as (I1 & I2).
    pose proof C as (X & Y & _). destruct (H _ _ I1 I2) as (r & G & M). destruct (H' _ _ X Y) as (r' & G' & M').
    rewrite G, G'. f_equal. exact (min_tile im tile rx ry kx ky x y m R T C r r' M M').
Qed.

(** ** Binary morphology: the radius *)
Lemma dist_reach l a b u v k : dist l a b u v <= k -> a - k <= u <= a + k /\ b - k <= v <= b + k.
Proof. unfold dist. destruct l; lia. Qed.
Lemma dist_shift l a b u v rx ry : dist l (rx + a) (ry + b) (rx + u) (ry + v) = dist l a b u v.
Proof. unfold dist. destruct l; do 2 f_equal; lia. Qed.
Lemma within_tile l from im tile rx ry k x y : tile_of im tile rx ry -> clear_of_cuts im tile rx ry k k x y ->
  (within l (source from tile) k x y <-> within l (source from im) k (rx + x) (ry + y)).
Proof.
  intros T C. assert (S : forall u v, dist l x y u v <= k -> (source from tile u v <-> source from im (rx + u) (ry + v))).
  { intros u v D. apply dist_reach in D. destruct from; unfold source, is_fg, is_bg; now rewrite (get_near im tile rx ry k k x y T C u v) by lia. }
  split; intros (u & v & P & D).
  - exists (rx + u), (ry + v). split; [now apply S|]. now rewrite dist_shift.
  - replace u with (rx + (u - rx)) in D, P by ring. replace v with (ry + (v - ry)) in D, P by ring. rewrite dist_shift in D.
    exists (u - rx), (v - ry). split; [now apply S|exact D].
Qed.
Lemma decided (a b : option Z) (P Q : Prop) (u v : Z) : (P <-> Q) -> (P -> a = Some u) -> (~ P -> a = Some v) -> (Q -> b = Some u) -> (~ Q -> b = Some v) -> a = b.
Proof.
  intros PQ P1 P2 Q1 Q2. assert (D : {a = b} + {a <> b}) by (repeat decide equality). destruct D as [D|D]; [exact D|].
  assert (N : ~ P). { intros p. apply D. rewrite P1 by auto. symmetry. apply Q1. now apply PQ. }
  rewrite P2 by auto. symmetry. apply Q2. intros q. apply N. now apply PQ.
Qed.
Theorem c109_morphology : forall linf k (im tile : image Z) rx ry,
  gray8 im -> iw im + ih im < 2 ^ 32 -> 0 <= k < 255 -> k < iw tile + ih tile -> tile_of im tile rx ry ->
  agree im tile rx ry k k (dilate linf im k) (dilate linf tile k) /\ agree im tile rx ry k k (erode linf im k) (erode linf tile k).
Proof.
  intros l k im tile rx ry Gi B Hk Hs T. pose proof (tile_gray8 im tile rx ry T Gi) as Gt. pose proof T as (_ & _ & R1 & R2 & F1 & F2 & _).
  destruct (c22_dilate_erode_partial l im k Gi B Hk) as (D & E). destruct (c22_dilate_erode_partial l tile k Gt ltac:(lia) Hk) as (D' & E').
  split.
  - destruct D as (o & Eo & _ & O1 & O2 & H); [left; lia|]. destruct D' as (o' & Eo' & _ & O1' & O2' & H'); [left; lia|].
    exists o, o'. do 6 (split; [assumption|]). intros x y C. destruct (clear_in im tile rx ry k k x y T C) as (I1 & I2). pose proof C as (X & Y & _).
    destruct (H _ _ I1 I2) as (P1 & P2). destruct (H' _ _ X Y) as (Q1 & Q2).
    exact (decided _ _ _ _ 255 0 (within_tile l Foreground im tile rx ry k x y T C) Q1 Q2 P1 P2).
  - destruct E as (o & Eo & _ & O1 & O2 & H); [left; lia|]. destruct E' as (o' & Eo' & _ & O1' & O2' & H'); [left; lia|].
    exists o, o'. do 6 (split; [assumption|]). intros x y C. destruct (clear_in im tile rx ry k k x y T C) as (I1 & I2). pose proof C as (X & Y & _).
    destruct (H _ _ I1 I2) as (P1 & P2). destruct (H' _ _ X Y) as (Q1 & Q2).
    exact (decided _ _ _ _ 0 255 (within_tile l Background im tile rx ry k x y T C) Q1 Q2 P1 P2).
Qed.

(** ** Adaptive thresholds: the radius *)
Theorem c109_adaptive : forall (im tile : image Z) r delta rx ry,
  gray8 im -> iw im < 2 ^ 31 -> ih im < 2 ^ 31 -> 255 * (iw im * ih im) < 2 ^ 31 ->
  0 < r < 2 ^ 31 -> 256 - 2 ^ 31 <= delta < 2 ^ 31 -> tile_of im tile rx ry ->
  agree im tile rx ry r r (adaptive_threshold im r delta) (adaptive_threshold tile r delta).
Proof.
  intros im tile r delta rx ry Gi Hw Hh Ha Hr Hd T. pose proof (tile_gray8 im tile rx ry T Gi) as Gt. pose proof T as ((W1 & W2 & _) & (W3 & W4 & _) & R1 & R2 & F1 & F2 & _).
  assert (Ha' : iw tile * ih tile <= iw im * ih im) by (apply Z.mul_le_mono_nonneg; lia).
  eapply agree_gen; [exact T|apply c15_adaptive_partial; auto|apply c15_adaptive_partial; auto; lia|].
  intros x y C. pose proof C as (X & Y & C1 & C2 & C3 & C4).
  assert (P : forall a b, x - r <= a <= x + r -> y - r <= b <= y + r -> px tile a b = px im (rx + a) (ry + b)).
  { intros a b A B. unfold px. now rewrite (get_near im tile rx ry r r x y T C a b A B). }
  assert (L1 : lo_ (rx + x) r = rx + lo_ x r) by (unfold lo_; lia). assert (L2 : lo_ (ry + y) r = ry + lo_ y r) by (unfold lo_; lia).
  assert (H1 : hi_ (iw im) (rx + x) r = rx + hi_ (iw tile) x r) by (unfold hi_; lia). assert (H2 : hi_ (ih im) (ry + y) r = ry + hi_ (ih tile) y r) by (unfold hi_; lia).
  assert (S : window_total tile r x y = window_total im r (rx + x) (ry + y)).
  { unfold window_total, rect_sum. rewrite L1, L2, H1, H2, <- !Z.add_assoc.
    assert (lo_ x r >= x - r /\ lo_ y r >= y - r /\ hi_ (iw tile) x r <= x + r /\ hi_ (ih tile) y r <= y + r) by (unfold lo_, hi_; lia).
    apply zsum_moved. intros j Hj. apply zsum_moved. intros i Hi. apply P; lia. }
  assert (N : window_area tile r x y = window_area im r (rx + x) (ry + y)).
  { unfold window_area. rewrite L1, L2, H1, H2. f_equal; ring. }
  unfold adaptive_spec. rewrite S, N, P by lia. reflexivity.
Qed.

(** ** FAST-9 corners: three pixels *)
Lemma circle_reach i dx dy : znth circle_offsets i = Some (dx, dy) -> -3 <= dx <= 3 /\ -3 <= dy <= 3.
Proof.
  intros E. apply znth_In in E. unfold circle_offsets in E. cbn [In] in E.
  repeat (destruct E as [E|E]; [injection E as <- <-; lia|]). destruct E.
Qed.
Lemma circle_tile im tile rx ry x y i : tile_of im tile rx ry -> clear_of_cuts im tile rx ry 3 3 x y ->
  on_circle tile x y i = on_circle im (rx + x) (ry + y) i.
Proof.
  intros T C. unfold on_circle. destruct (znth circle_offsets (i mod 16)) as [(dx, dy)|] eqn:E; [|reflexivity].
  apply circle_reach in E. rewrite (get_near im tile rx ry 3 3 x y T C) by lia. f_equal; ring.
Qed.
Lemma fast_tile len im tile rx ry t x y : tile_of im tile rx ry -> clear_of_cuts im tile rx ry 3 3 x y ->
  (fast_corner len tile t x y <-> fast_corner len im t (rx + x) (ry + y)).
Proof.
  intros T C. unfold fast_corner, brighter_by, darker_by.
  assert (A : away tile x y <-> away im (rx + x) (ry + y)).
  { unfold away. pose proof T as (_ & _ & R1 & R2 & F1 & F2 & _). destruct C as (X & Y & C1 & C2 & C3 & C4). lia. }
  assert (G : get tile x y = get im (rx + x) (ry + y)) by (apply (get_near im tile rx ry 3 3 x y T C); lia).
  rewrite A, G. apply and_iff_compat_l.
  split; intros (s & Hs & Q); exists s; (split; [exact Hs|]); destruct Q as [Q|Q]; [left|right|left|right]; intros k Hk; destruct (Q k Hk) as (c & p & P1 & P2 & P3);
    exists c, p; (split; [exact P1|]; split; [|exact P3]); [rewrite <- (circle_tile im tile rx ry x y _ T C)..|rewrite (circle_tile im tile rx ry x y _ T C)|rewrite (circle_tile im tile rx ry x y _ T C)]; exact P2.
Qed.
Theorem c109_fast9 : forall (im tile : image Z) t rx ry, valid im -> 0 <= t <= 255 -> tile_of im tile rx ry ->
  exists l l', corners_fast Nine im t = Ok l /\ corners_fast Nine tile t = Ok l' /\
    forall x y v, clear_of_cuts im tile rx ry 3 3 x y -> (In (x, y, v) l' <-> In (rx + x, ry + y, v) l).
Proof.
  intros im tile t rx ry V Ht T. pose proof T as (_ & Wt & R1 & R2 & F1 & F2 & _).
  assert (V' : valid tile) by (destruct V as (_ & V1 & V2); split; [exact Wt|lia]).
  destruct (c53_corners_fast9 im t V Ht) as (l & E & _ & H). destruct (c53_corners_fast9 tile t V' Ht) as (l' & E' & _ & H').
  exists l, l'. split; [exact E|]. split; [exact E'|]. intros x y v C. rewrite H, H'. unfold largest_threshold.
  rewrite !(fast_tile 9 im tile rx ry _ x y T C).
  split; intros (A & B & D & F); (split; [exact A|]; split; [exact B|]; split; [exact D|]); intros u Hu Q; apply (F u Hu);
    apply (fast_tile 9 im tile rx ry u x y T C); exact Q.
Qed.

(** ** Concrete cases: the left half of a 6x3 image; only its last column differs *)
Definition scene : image Z := gen 6 3 (fun x y => (x * x * 7 + y * 50) mod 256).
Definition left_half : image Z := gen 3 3 (fun x y => (x * x * 7 + y * 50) mod 256).
Example c109_nontrivial :
  gray8 scene /\ tile_of scene left_half 0 0 /\ crop scene 0 0 3 3 = Ok left_half /\
  clear_of_cuts scene left_half 0 0 1 1 1 0 /\ clear_of_cuts scene left_half 0 0 1 1 0 2 /\ ~ clear_of_cuts scene left_half 0 0 1 1 2 1 /\
  box_filter scene 1 1 = Ok (mkImage 6 3 [18; 27; 48; 83; 132; 170; 52; 61; 82; 117; 137; 147; 85; 94; 115; 150; 142; 123]) /\
  box_filter left_half 1 1 = Ok (mkImage 3 3 [18; 27; 37; 52; 61; 71; 85; 94; 104]).
Proof.
  assert (T : tile_of scene left_half 0 0).
  { split; [apply wf_gen; lia|]. split; [apply wf_gen; lia|]. unfold scene, left_half. cbn [gen iw ih]. do 4 (split; [lia|]).
    intros x y Hx Hy. fold (gen 6 3 (fun x y => (x * x * 7 + y * 50) mod 256)). rewrite !Z.add_0_l. rewrite !get_gen_in by lia. reflexivity. }
  split; [apply gray8b_ok; reflexivity|]. split; [exact T|]. split; [reflexivity|].
  unfold clear_of_cuts. cbn [scene left_half gen iw ih]. split; [lia|]. split; [lia|]. split; [lia|]. vm_compute. auto.
Qed.

Print Assumptions c109_crop. Print Assumptions c109_filter. Print Assumptions c109_separable. Print Assumptions c109_gradients.
Print Assumptions c109_box. Print Assumptions c109_median. Print Assumptions c109_grayscale. Print Assumptions c109_morphology. Print Assumptions c109_adaptive. Print Assumptions c109_fast9.
