(** C107: mirroring or turning the image mirrors or turns the result. *)
From Verif Require Import Base BaseProofs RasterProofs ComposeModel ComposeSpec ComposeProofs GeomModel GeomSpec GeomProofs.
From Verif Require Import FilterModel FilterSpec GradientModel GradientSpec Props_Filter Props_Gradient.
From Verif Require Import DistanceModel DistanceSpec Props_Distance IntegralSpec MedianModel MedianSpec MedianProofs Props_Median.
From Verif Require Import StatsSpec StatsModel Props_Stats FContrastModel KapurModel CornerModel CornerSpec Props_Corner.
From Verif Require Import SymSpec SymProofs SymProofs2.
Local Ltac Zify.zify_post_hook ::= idtac.

(** ** The library's own operations are such symmetries *)
Theorem c107_symmetries : forall (A : Type) (zero : A) (im : image A), wf im ->
  (exists out, flip_horizontal im = Ok out /\ moved mirror_sym im out) /\
  (exists out, flip_vertical im = Ok out /\ moved upside_down_sym im out) /\
  (exists out, rotate180 im = Ok out /\ moved half_turn_sym im out) /\
  (exists out, rotate90 zero im = Ok out /\ moved quarter_turn_sym im out) /\
  (exists out, rotate270 zero im = Ok out /\ moved quarter_turn_ccw_sym im out).
Proof.
  intros A zero im W. splits.
  - destruct (flip_horizontal_correct im W) as (o & E & Wo & (S1 & S2) & H). exists o. split; [exact E|].
    split; [exact W|]. split; [exact Wo|]. cbn. split; [exact S1|]. split; [exact S2|]. intros x y Hx Hy. rewrite H by lia. f_equal. lia.
  - destruct (flip_vertical_correct im W) as (o & E & Wo & (S1 & S2) & H). exists o. split; [exact E|].
    split; [exact W|]. split; [exact Wo|]. cbn. split; [exact S1|]. split; [exact S2|]. intros x y Hx Hy. rewrite H by lia. f_equal. lia.
  - destruct (rotate180_correct im W) as (o & E & Wo & S1 & S2 & H). exists o. split; [exact E|].
    split; [exact W|]. split; [exact Wo|]. cbn. split; [exact S1|]. split; [exact S2|]. intros x y Hx Hy. now apply H.
  - destruct (rotate90_correct zero im W) as (o & E & Wo & S1 & S2 & H). exists o. split; [exact E|].
    split; [exact W|]. split; [exact Wo|]. cbn. split; [exact S1|]. split; [exact S2|]. intros x y Hx Hy. now apply H.
  - destruct (rotate270_correct zero im W) as (o & E & Wo & S1 & S2 & H). exists o. split; [exact E|].
    split; [exact W|]. split; [exact Wo|]. cbn. split; [exact S1|]. split; [exact S2|]. intros x y Hx Hy. now apply H.
Qed.

(** ** Distance transforms and binary morphology *)
Theorem c107_distance : forall s linf (im im' : image Z), gray8 im -> iw im + ih im < 2 ^ 32 -> moved s im im' ->
  both_moved s (distance_transform linf im) (distance_transform linf im').
Proof. intros s l im im' G B M. now apply dt_moved. Qed.

Lemma gray8_bits f (im : image Z) : wf im -> (forall v, is_u8 (f v)) -> gray8 (map_data f im).
Proof.
  intros W H. split; [now apply wf_map_data|]. intros x y a E. unfold map_data in E. rewrite get_map_data in E.
  destruct (get im x y); [|discriminate]. injection E as <-. apply H.
Qed.
Lemma dilate_moved s l k im im' : gray8 im -> iw im + ih im < 2 ^ 32 -> moved s im im' ->
  exists o o', dilate l im k = Ok o /\ dilate l im' k = Ok o' /\ moved s o o' /\ gray8 o /\ iw o + ih o < 2 ^ 32.
Proof.
  intros G B M. destruct (dt_moved s im im' M l Foreground G B) as (d & d' & E & E' & D).
  destruct (dt_char l Foreground im G B) as (d1 & Ed & _ & Dw & Dh & _). rewrite E in Ed. injection Ed as <-.
  unfold dilate. rewrite E, E'. cbn [bind]. eexists. eexists. split; [reflexivity|]. split; [reflexivity|].
  split; [now apply moved_map|]. split; [|cbn [map_data iw ih]; lia].
  apply gray8_bits; [apply D|]. intros v. unfold is_u8. destruct (v <=? k); lia.
Qed.
Lemma erode_moved s l k im im' : gray8 im -> iw im + ih im < 2 ^ 32 -> moved s im im' ->
  exists o o', erode l im k = Ok o /\ erode l im' k = Ok o' /\ moved s o o' /\ gray8 o /\ iw o + ih o < 2 ^ 32.
Proof.
  intros G B M. destruct (dt_moved s im im' M l Background G B) as (d & d' & E & E' & D).
  destruct (dt_char l Background im G B) as (d1 & Ed & _ & Dw & Dh & _). rewrite E in Ed. injection Ed as <-.
  unfold erode. rewrite E, E'. cbn [bind]. eexists. eexists. split; [reflexivity|]. split; [reflexivity|].
  split; [now apply moved_map|]. split; [|cbn [map_data iw ih]; lia].
  apply gray8_bits; [apply D|]. intros v. unfold is_u8. destruct (v <=? k); lia.
Qed.
Theorem c107_morphology : forall s linf k (im im' : image Z), gray8 im -> iw im + ih im < 2 ^ 32 -> moved s im im' ->
  both_moved s (dilate linf im k) (dilate linf im' k) /\ both_moved s (erode linf im k) (erode linf im' k) /\
  both_moved s (open linf im k) (open linf im' k) /\ both_moved s (close linf im k) (close linf im' k).
Proof.
  intros s l k im im' G B M.
  destruct (dilate_moved s l k im im' G B M) as (d & d' & D & D' & DM & DG & DB).
  destruct (erode_moved s l k im im' G B M) as (e & e' & E & E' & EM & EG & EB).
  destruct (dilate_moved s l k e e' EG EB EM) as (o & o' & O & O' & OM & _).
  destruct (erode_moved s l k d d' DG DB DM) as (c & c' & C & C' & CM & _).
  split; [exists d, d'; auto|]. split; [exists e, e'; auto|]. unfold open, close. rewrite D, D', E, E'. cbn [bind].
  split; [exists o, o'; auto|]. exists c, c'; auto.
Qed.

(** ** Gradients *)
Theorem c107_gradients : forall s (im im' : image (list Z)), channels 1 im -> u8_image im -> moved s im im' ->
  both_moved s (sobel_gradients im) (sobel_gradients im') /\ both_moved s (prewitt_gradients im) (prewitt_gradients im').
Proof.
  intros s im im' (W & C) U M. pose proof M as (_ & W' & E1 & E2 & _).
  assert (C' : channels 1 im') by (split; [exact W'|]; intros x y p E; rewrite (moved_back s im im' M) in E; exact (C _ _ _ E)).
  assert (U' : u8_image im') by (intros x y p v E; rewrite (moved_back s im im' M) in E; exact (U _ _ _ _ E)).
  assert (W0 : 0 <= iw im /\ 0 <= ih im) by (destruct W as (? & ? & _); lia).
  split; eexists; eexists.
  - split; [apply c62_sobel_gradients; [split; auto|auto]|]. split; [apply c62_sobel_gradients; auto|].
    apply moved_gen; [lia|lia|exact E1|exact E2|]. intros x y Hx Hy. do 2 f_equal. apply (deriv_place s im im' 1 2 0 x y M); lia.
  - split; [apply c62_prewitt_gradients; [split; auto|auto]|]. split; [apply c62_prewitt_gradients; auto|].
    apply moved_gen; [lia|lia|exact E1|exact E2|]. intros x y Hx Hy. do 2 f_equal. apply (deriv_place s im im' 1 1 0 x y M); lia.
Qed.

Lemma is_median_ext cnt cnt' n m : (forall v, cnt v = cnt' v) -> is_median cnt' n m -> is_median cnt n m.
Proof.
  intros H (A & B & D & F). split; [exact A|]. rewrite H. split; [exact B|].
  rewrite !(zsum_ext _ _ cnt cnt') by (intros; apply H). auto.
Qed.
(** ** Medians; the radii are exchanged with the axes *)
Theorem c107_median : forall s ch (im im' : image (list Z)) rx ry,
  0 <= ch -> channels8 ch im -> 0 < iw im -> 0 < ih im -> 0 <= rx -> 0 <= ry ->
  iw im + rx < 2 ^ 31 -> ih im + ry < 2 ^ 31 -> (2 * rx + 1) * (2 * ry + 1) < 2 ^ 31 -> moved s im im' ->
  both_moved s (median_filter ch im rx ry)
    (if transposed s then median_filter ch im' ry rx else median_filter ch im' rx ry).
Proof.
  intros s ch im im' rx ry Hch C Hw Hh Hx Hy Bx By BN M. pose proof M as (_ & _ & E1 & E2 & _).
  pose proof (moved_channels8 ch s im im' M C) as C'.
  replace (if transposed s then median_filter ch im' ry rx else median_filter ch im' rx ry)
    with (median_filter ch im' (fst (turned s rx ry)) (snd (turned s rx ry))) by (unfold turned; destruct (transposed s); reflexivity).
  set (rX := fst (turned s rx ry)). set (rY := snd (turned s rx ry)).
  assert (R : 0 <= rX /\ 0 <= rY /\ iw im' + rX < 2 ^ 31 /\ ih im' + rY < 2 ^ 31 /\ 0 < iw im' /\ 0 < ih im' /\
    (2 * rX + 1) * (2 * rY + 1) = (2 * rx + 1) * (2 * ry + 1)).
  { rewrite E1, E2. unfold rX, rY, turned. destruct (transposed s); cbn [fst snd]; splits; try lia; ring. }
  destruct R as (R1 & R2 & R3 & R4 & R5 & R6 & RN).
  rewrite (median_ok ch im C Hch rx ry) by auto. rewrite (median_ok ch im' C' Hch rX rY) by (auto; lia).
  eexists. eexists. split; [reflexivity|]. split; [reflexivity|].
  apply moved_gen; [lia|lia|exact E1|exact E2|]. intros x y Hxx Hyy. unfold medpx. apply map_ext. intros c.
  pose proof (proj2 (medc_ok ch im C rx ry Hx Hy BN x y c)) as Q.
  pose proof (proj2 (medc_ok ch im' C' rX rY R1 R2 ltac:(rewrite RN; exact BN) (fst (place s (iw im) (ih im) x y)) (snd (place s (iw im) (ih im) x y)) c)) as Q'.
  rewrite RN in Q'.
  apply (c26_median_unique (window_count im rx ry x y c) ((2 * rx + 1) * (2 * ry + 1))).
  - intros v. apply (W_nonneg im rx ry x y c v).
  - apply (W_total ch im C rx ry Hx Hy x y c).
  - apply (is_median_ext _ (window_count im' rX rY (fst (place s (iw im) (ih im) x y)) (snd (place s (iw im) (ih im) x y)) c));
      [|exact Q']. intros v. symmetry. apply (window_count_place s im im' rx ry x y c v M Hw Hh).
  - exact Q.
Qed.

(** ** Box filters: mirrors and half turns only, because the rows are averaged
    and rounded before the columns *)
Theorem c107_box : forall s (im im' : image Z) rx ry, upright s ->
  gray8 im -> 0 < iw im -> 0 < ih im -> 0 <= rx -> 0 <= ry ->
  (iw im + 2 * rx) * 255 < 2 ^ 32 -> (ih im + 2 * ry) * 255 < 2 ^ 32 -> moved s im im' ->
  both_moved s (box_filter im rx ry) (box_filter im' rx ry).
Proof.
  intros s im im' rx ry U G Hw Hh Hx Hy Bx By M. pose proof M as (_ & _ & E1 & E2 & _). pose proof (moved_gray8 s im im' M G) as G'.
  pose proof U as U0. unfold upright in U0. rewrite U0 in E1, E2.
  rewrite (FilterProofs.box_ok im) by auto. rewrite (FilterProofs.box_ok im') by (rewrite ?E1, ?E2; auto).
  eexists. eexists. split; [reflexivity|]. split; [reflexivity|].
  apply moved_gen; rewrite ?U0; [lia|lia|exact E1|exact E2|]. intros x y Hxx Hyy. now apply box_mean_place.
Qed.
Definition tilted : image Z := mkImage 2 2 [0; 1; 2; 1].
Definition tilted' : image Z := mkImage 2 2 [0; 2; 1; 1].
Theorem c107_box_transposed_refuted : gray8 tilted /\ moved (mkSym true false false) tilted tilted' /\
  ~ both_moved (mkSym true false false) (box_filter tilted 1 1) (box_filter tilted' 1 1).
Proof.
  split; [apply gray8b_ok; reflexivity|]. split.
  - split; [unfold wf; cbn; lia|]. split; [unfold wf; cbn; lia|]. split; [reflexivity|]. split; [reflexivity|].
    cbn [iw ih tilted]. intros x y Hx Hy. assert (x = 0 \/ x = 1) as [-> | ->] by lia; assert (y = 0 \/ y = 1) as [-> | ->] by lia; reflexivity.
  - intros (o & o' & E & E' & M).
    assert (B : box_filter tilted 1 1 = Ok (mkImage 2 2 [0; 0; 0; 0])) by (vm_compute; reflexivity).
    assert (B' : box_filter tilted' 1 1 = Ok (mkImage 2 2 [0; 1; 0; 1])) by (vm_compute; reflexivity).
    rewrite B in E. rewrite B' in E'. injection E as <-. injection E' as <-.
    destruct M as (_ & _ & _ & _ & H). specialize (H 0 1 ltac:(cbn; lia) ltac:(cbn; lia)). vm_compute in H. discriminate.
Qed.

(** ** Histograms and the thresholds taken from them *)
Theorem c107_histograms : forall s ch (im im' : image (list Z)), 0 <= ch -> channels8 ch im -> iw im * ih im < 2 ^ 32 ->
  moved s im im' -> histogram ch im' = histogram ch im.
Proof. intros s ch im im' Hch C B M. now apply (histogram_moved ch s). Qed.
Theorem c107_levels : forall s (im im' : image Z), gray8 im -> iw im * ih im < 2 ^ 32 -> moved s im im' ->
  otsu_level im' = otsu_level im /\ forall T (K : reckon T), kapur_level K im' = kapur_level K im.
Proof.
  intros s im im' G B M. pose proof M as (_ & _ & E1 & E2 & _).
  assert (H : histogram 1 (luma im') = histogram 1 (luma im)).
  { apply (histogram_moved 1 s); [lia|now apply luma_channels8|exact B|now apply moved_luma]. }
  assert (P : iw im' * ih im' = iw im * ih im) by (rewrite E1, E2; destruct (transposed s); lia).
  unfold otsu_level, kapur_level. rewrite H, P. split; reflexivity.
Qed.

(** ** FAST-9 corners *)
Theorem c107_fast9 : forall s (im im' : image Z) t x y, valid im -> 0 <= t <= 255 -> moved s im im' ->
  let X := fst (place s (iw im) (ih im) x y) in let Y := snd (place s (iw im) (ih im) x y) in
  is_corner Nine im' t X Y = is_corner Nine im t x y /\
  fast_corner_score im' t X Y Nine = fast_corner_score im t x y Nine.
Proof.
  intros s im im' t x y V Ht M X Y. pose proof M as (_ & W' & E1 & E2 & _).
  assert (V' : valid im').
  { destruct V as (_ & V1 & V2). split; [exact W'|]. rewrite E1, E2. destruct (transposed s); auto. }
  assert (I : forall t, 0 <= t <= 255 -> is_corner Nine im' t X Y = is_corner Nine im t x y).
  { intros u Hu. destruct (c52_fast9 im u x y V Hu) as (b & E & B). destruct (c52_fast9 im' u X Y V' Hu) as (b' & E' & B').
    rewrite E, E'. f_equal. cbn [section_length] in B, B'.
    assert (Q : b' = true <-> b = true) by (rewrite B, B'; apply fast_iff; [exact M|lia]).
    destruct Q as (Q1 & Q2). destruct b, b'; try reflexivity; [now specialize (Q2 eq_refl)|now specialize (Q1 eq_refl)]. }
  split; [now apply I|]. unfold fast_corner_score.
  assert (S : forall n mx mn, 0 <= mx <= 255 -> 0 <= mn <= 255 -> score_loop n im' X Y Nine mx mn = score_loop n im x y Nine mx mn).
  { induction n as [|n IH]; intros mx mn H1 H2; [reflexivity|]. cbn [score_loop].
    destruct (mx =? mn); [reflexivity|]. cbv zeta. destruct (chk_u 8 (mn + 1)) as [m1| |]; cbn [bind]; try reflexivity.
    set (pr := if mx =? m1 then mx else (mx + mn) / 2).
    assert (Hp : 0 <= pr <= 255).
    { unfold pr. destruct (mx =? m1); [lia|]. split; [apply Z.div_pos; lia|]. apply Z.div_le_upper_bound; lia. }
    rewrite (I pr Hp). destruct (is_corner Nine im pr x y) as [[|]| |]; cbn [bind]; try reflexivity; [now apply IH|].
    unfold chk_u. destruct (u_fits 8 (pr - 1)) eqn:E; cbn [bind]; [|reflexivity]. unfold u_fits in E. change (2 ^ 8) with 256 in E. apply IH; lia. }
  apply S; lia.
Qed.
Theorem c107_fast9_list : forall s (im im' : image Z) t, valid im -> 0 <= t <= 255 -> moved s im im' ->
  exists l l', corners_fast Nine im t = Ok l /\ corners_fast Nine im' t = Ok l' /\
    forall x y v, In (x, y, v) l <-> In (fst (place s (iw im) (ih im) x y), snd (place s (iw im) (ih im) x y), v) l'.
Proof.
  intros s im im' t V Ht M. pose proof M as (_ & W' & E1 & E2 & _).
  assert (V' : valid im').
  { destruct V as (_ & V1 & V2). split; [exact W'|]. rewrite E1, E2. destruct (transposed s); auto. }
  destruct (c53_corners_fast9 im t V Ht) as (l & E & _ & H). destruct (c53_corners_fast9 im' t V' Ht) as (l' & E' & _ & H').
  exists l, l'. split; [exact E|]. split; [exact E'|]. intros x y v. rewrite H, H'. unfold largest_threshold.
  rewrite !(fast_iff s 9 im im' _ x y M) by lia.
  split; intros (A & B & D & F); (split; [exact A|]; split; [exact B|]; split; [exact D|]); intros u Hu Q; apply (F u Hu);
    apply (fast_iff s 9 im im' u x y M); auto; lia.
Qed.

(** ** Concrete cases *)
Definition ramp : image Z := gen 3 2 (fun x y => 10 * x + y).
Definition turned_ramp : image Z := gen 2 3 (fun x y => 10 * y + (1 - x)).
Example c107_nontrivial :
  moved quarter_turn_sym ramp turned_ramp /\ gray8 ramp /\ rotate90 0 ramp = Ok turned_ramp /\
  dilate true ramp 1 = Ok (mkImage 3 2 [255; 255; 255; 255; 255; 255]) /\
  distance_transform false (mkImage 2 3 [0; 0; 0; 0; 0; 9]) = Ok (mkImage 2 3 [3; 2; 2; 1; 1; 0]).
Proof.
  split; [apply moved_gen; try lia; try reflexivity; intros x y Hx Hy; unfold place, quarter_turn_sym; cbn [transposed mirror_x mirror_y fst snd]; lia|].
  split; [apply gray8b_ok; reflexivity|]. vm_compute. auto.
Qed.

Print Assumptions c107_symmetries.
Print Assumptions c107_distance.
Print Assumptions c107_morphology.
Print Assumptions c107_gradients.
Print Assumptions c107_median.
Print Assumptions c107_box.
Print Assumptions c107_box_transposed_refuted.
Print Assumptions c107_histograms.
Print Assumptions c107_levels.
Print Assumptions c107_fast9.
Print Assumptions c107_fast9_list.
