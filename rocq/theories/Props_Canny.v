(** C100: Canny edge detection, from the image to the edge map. *)
From Flocq Require Import Core BinarySingleNaN.
From Coq Require Import Reals Lra Psatz.
From Verif Require Import Base BaseProofs Float FloatProofs FloatErr LineModel LineProofs FilterModel FilterSpec TemplateProofs.
From Verif Require Import GradientModel GradientSpec GradientProofs GaussModel GaussSpec Props_Gauss EdgesModel EdgesSpec EdgesProofs Props_Edges.
From Verif Require Import HogCellsModel HogCellsSpec Props_HogCells CannyModel CannySpec CannyProofs.
Local Ltac Zify.zify_post_hook ::= idtac.
Local Open Scope Z_scope.

(** [b] is an 8-bit image of the size of [im], between 5/2 below and 1/2 above the
    Gaussian average (standard deviation 1.4) of [im] at every pixel *)
Definition blur_of (im b : image (list Z)) : Prop :=
  iw b = iw im /\ ih b = ih im /\ channels 1 b /\ u8_image b /\
  forall x y, 0 <= x < iw im -> 0 <= y < ih im ->
    (gauss_blur (B2R canny_sigma) im 0 x y - 5 / 2 < IZR (rep_chan 0%Z b 0 x y) <= gauss_blur (B2R canny_sigma) im 0 x y + / 2)%R.

(** [out] has the size of [im], 255 where P holds and 0 elsewhere *)
Definition marks_edges (im : image (list Z)) (out : image Z) (P : Z -> Z -> Prop) : Prop :=
  wf out /\ iw out = iw im /\ ih out = ih im /\
  forall x y, 0 <= x < iw im -> 0 <= y < ih im ->
    (get out x y = Some 255 \/ get out x y = Some 0) /\ (get out x y = Some 255 <-> P x y).

(** Images with at least [least] rows and columns; edges are followed along the
    steps [nb]. *)
Definition c100_for (least : Z) (nb : Z -> Z -> Prop) : Prop :=
  forall fexp hypot atan2 (im : image (list Z)) (low high : f32),
  exp_ok fexp -> hypot_ok hypot -> atan2_ok atan2 -> u8_channels 1 im ->
  least <= iw im -> least <= ih im -> iw im * ih im < 2 ^ 32 ->
  is_finite low = true -> is_finite high = true -> (0 < B2R low <= B2R high)%R ->
  exists b deg out, canny fexp hypot atan2 im low high = Ok out /\ blur_of im b /\
    (forall x y, 0 <= x < iw im -> 0 <= y < ih im -> nearest_direction b (deg x y) x y) /\
    marks_edges im out (canny_edge nb b deg (B2R low) (B2R high)).

(** The full property: all sizes, all eight neighbours. *)
Definition c100_statement : Prop := c100_for 0 eight.

(** ** functions as required exist *)
Definition some_hypot (h v : f32) : f32 :=
  let a := i32_of_f32 h in let b := i32_of_f32 v in fsqrt (of_int (a * a + b * b)).
Theorem c100_hypot_exists : hypot_ok some_hypot.
Proof.
  intros h v Hh Hv. cbv zeta. unfold some_hypot. rewrite !round_trip by lia.
  assert (B : 0 <= h * h + v * v <= 2080800) by nia. set (n := h * h + v * v) in *.
  destruct (WuProofs.int32_R n) as (F & R); [lia|].
  destruct (fsqrt_R 24 128 (of_int n : f32) F) as (Fs & Rs). { rewrite R. apply IZR_le. lia. }
  split; [exact Fs|]. rewrite Rs, R. reflexivity.
Qed.
Print Assumptions c100_hypot_exists.

(** ** the stages together *)
Lemma unit_step_in deg : deg = 0 \/ deg = 45 \/ deg = 90 \/ deg = 135 ->
  let '(sx, sy) := unit_step deg in -1 <= sx <= 1 /\ -1 <= sy <= 1.
Proof. intros [->|[->|[->| ->]]]; cbn; lia. Qed.

Lemma canny_ok fexp hypot atan2 (im : image (list Z)) (low high : f32) :
  exp_ok fexp -> hypot_ok hypot -> atan2_ok atan2 -> u8_channels 1 im ->
  1 <= iw im -> 1 <= ih im -> iw im * ih im < 2 ^ 32 ->
  is_finite low = true -> is_finite high = true -> (0 < B2R low <= B2R high)%R ->
  exists b deg out, canny fexp hypot atan2 im low high = Ok out /\ gaussian_blur_u8 fexp 1 im canny_sigma = Ok b /\
    (forall x y, 0 <= x < iw im -> 0 <= y < ih im -> nearest_direction b (deg x y) x y) /\
    marks_edges im out (canny_edge eight_but_two b deg (B2R low) (B2R high)).
Proof.
  intros He Hy Ha U W1 H1 A Fl Fh T.
  destruct (blur_ok fexp im He U) as (b & Eb & Bw & Bh & Cb & Ub & _). pose proof (proj1 Cb) as Wb.
  destruct (filter_i16_ok b sobel_h Cb eq_refl) as (hk & gx & Ek & Ex & Xw & Xh & Wx & GX). { intros. rewrite corr_h. apply dx_bound; assumption. }
  destruct (filter_i16_ok b sobel_v Cb eq_refl) as (vk & gy & Ek' & Ey & Yw & Yh & Wy & GY). { intros. rewrite corr_v. apply dy_bound; assumption. }
  setoid_rewrite corr_h in GX. setoid_rewrite corr_v in GY.
  destruct (strengths_ok hypot b Cb gx gy Xw Xh Wx Yw Yh Wy GX GY) as (g & Eg & Wg & Gw & Gh & G).
  rewrite Bw, Bh in Eg.
  assert (D : forall x y, 0 <= x < iw b -> 0 <= y < ih b -> nearest_direction b (degrees (direction_at atan2 gx gy x y)) x y).
  { intros x y Hx Hyy. apply direction_ok; auto. }
  destruct (c60_suppression g (direction_at atan2 gx gy) Wg) as (thin & Et & Wt & Tw & Th & ZB & S); [nia|nia|].
  assert (Tn : thin_image thin). { split; [exact Wt|]. split; [nia|]. split; [nia|]. split; [nia|exact ZB]. }
  assert (F0 : is_finite (of_int 0 : f32) = true /\ B2R (of_int 0 : f32) = 0%R) by (split; [reflexivity|vm_compute; reflexivity]). destruct F0 as (F0 & R0).
  assert (Tt : thresholds low high).
  { split; [rewrite flt32_R by assumption; rewrite R0; apply Rlt_bool_true; lra|]. unfold fle. rewrite Bleb_correct by assumption. apply Rle_bool_true. lra. }
  destruct (c60_hysteresis_partial thin low high Tn Tt) as (out & Eo & Wo & Ow & Oh & M).
  set (deg := fun x y => degrees (direction_at atan2 gx gy x y)).
  assert (Rg : forall x y, 0 <= x < iw b -> 0 <= y < ih b -> exists v, get g x y = Some v /\ is_finite v = true /\ B2R v = strength b x y).
  { intros x y Hx Hyy. eexists. split; [apply G; assumption|]. apply Hy; [apply dx_bound|apply dy_bound]; assumption. }
  assert (SO : forall x y x' y', (strength b x y < strength b x' y')%R <-> gradient2 b x y < gradient2 b x' y').
  { intros x y x' y'. unfold strength. apply strength_order; [pose proof (gradient2_max b x y Wb Ub)|pose proof (gradient2_max b x' y' Wb Ub)]; lia. }
  assert (AL : forall t x y, is_finite t = true -> (0 < B2R t)%R -> (at_least thin t x y <-> ridge b deg x y /\ (B2R t <= strength b x y)%R)).
  { intros t x y Ft Pt. destruct (Z_lt_dec 0 x) as [x0|]; [destruct (Z_lt_dec x (iw b - 1)) as [x1|]; [destruct (Z_lt_dec 0 y) as [y0|]; [destruct (Z_lt_dec y (ih b - 1)) as [y1|]|]|]|].
    2-5: (split; [|intros ((? & ? & _) & _); lia]; intros (v & Gv & L); exfalso; pose proof (get_inb _ _ _ _ Gv) as Rv; assert (Q := ZB x y v Gv ltac:(lia));
      assert (Z0 : flt (of_int 0) t = true) by (rewrite flt32_R by assumption; rewrite R0; apply Rlt_bool_true; assumption);
      rewrite (zero_low v t Q Z0) in L; discriminate L).
    pose proof (unit_step_in (deg x y) (proj1 (D x y ltac:(lia) ltac:(lia)))) as Us. fold (deg x y) in Us.
    destruct (Rg x y) as (p & Gp & Fp & Rp); [lia|lia|].
    specialize (S x y p). unfold ridge. fold (deg x y) in S. destruct (unit_step (deg x y)) as (sx, sy).
    destruct (Rg (x + sx) (y + sy)) as (a & Ga & Fa & Ra); [lia|lia|]. destruct (Rg (x - sx) (y - sy)) as (c & Gc & Fc & Rc); [lia|lia|].
    specialize (S a c ltac:(lia) ltac:(lia) Gp Ga Gc). unfold at_least. rewrite S.
    rewrite !flt32_R by assumption. rewrite Rp, Ra, Rc.
    assert (K : forall v, is_finite v = true -> ((exists w, Some v = Some w /\ fle t w = true) <-> (B2R t <= B2R v)%R)).
    { intros v Fv. split.
      - intros (w & [= <-] & L). unfold fle in L. rewrite Bleb_correct in L by assumption. destruct (Rle_bool_spec (B2R t) (B2R v)); [assumption|discriminate].
      - intros L. exists v. split; [reflexivity|]. unfold fle. rewrite Bleb_correct by assumption. apply Rle_bool_true. exact L. }
    destruct (Rlt_bool_spec (strength b x y) (strength b (x + sx) (y + sy))) as [L1|L1].
    { cbn [orb]. rewrite (K _ F0), R0. apply SO in L1. split; [intros; exfalso; lra|]. intros ((_ & _ & Q & _) & _). lia. }
    destruct (Rlt_bool_spec (strength b x y) (strength b (x - sx) (y - sy))) as [L2|L2].
    { cbn [orb]. rewrite (K _ F0), R0. apply SO in L2. split; [intros; exfalso; lra|]. intros ((_ & _ & _ & Q) & _). lia. }
    cbn [orb]. rewrite (K _ Fp), Rp. split; [|intros (_ & Q); exact Q]. intros Q. split; [|exact Q].
    assert (~ gradient2 b x y < gradient2 b (x + sx) (y + sy)) by (intros N; apply SO in N; lra).
    assert (~ gradient2 b x y < gradient2 b (x - sx) (y - sy)) by (intros N; apply SO in N; lra). lia. }
  exists b, deg, out. split; [|split; [exact Eb|split]].
  - unfold canny. destruct Tt as (_ & ->). cbn [assert bind]. rewrite Eb. cbn [bind]. rewrite Ek. cbn [bind]. rewrite Ek'. cbn [bind]. rewrite Ex. cbn [bind]. rewrite Ey. cbn [bind].
    rewrite Eg. cbn [bind]. rewrite Et. cbn [bind]. exact Eo.
  - intros x y Hx Hyy. apply D; lia.
  - split; [exact Wo|]. split; [lia|]. split; [lia|]. intros x y Hx Hyy. destruct (M x y) as (M1 & M2); [lia|lia|]. split; [exact M1|]. rewrite M2. split.
    + intros L. clear - L AL T Fl Fh Tw Gw. induction L as [x y _ _ Hs|x y x' y' L IH Hn Hl].
      * apply AL in Hs; [|assumption|lra]. destruct Hs. apply e_strong; assumption.
      * apply AL in Hl; [|assumption|lra]. destruct Hl. apply (e_step _ _ _ _ _ x y); assumption.
    + intros L. clear - L AL T Fl Fh Tw Th Gw Gh. induction L as [x y Hr Hs|x y x' y' L IH Hn Hr Hl].
      * assert (Q := conj Hr Hs). apply AL in Q; [|assumption|lra]. destruct Hr as (? & ? & _). apply l_strong; [lia|lia|exact Q].
      * assert (Q := conj Hr Hl). apply AL in Q; [|assumption|lra]. apply (l_step _ _ _ _ x y); assumption.
Qed.

(** The full property is false: an empty image makes the program subtract 1 from 0. *)
Theorem c100_refuted : ~ c100_statement.
Proof.
  intros H. set (im := mkImage 0 0 (nil : list (list Z))).
  assert (W : wf im) by (split; [cbn; lia|split; [cbn; lia|reflexivity]]).
  assert (U : u8_channels 1 im).
  { split; [split; [exact W|]|]; intros x y p; [|intros v]; intros G; pose proof (get_inb _ _ _ _ G) as R; cbn in R; lia. }
  destruct (H exp24 some_hypot some_atan2 im (of_int 1) (of_int 2) exp24_ok c100_hypot_exists c99_atan2_exists U) as (b & deg & out & E & _); [cbn; lia|cbn; lia|cbn; lia|reflexivity|reflexivity| |].
  { rewrite (proj2 (WuProofs.int32_R 1 ltac:(lia))), (proj2 (WuProofs.int32_R 2 ltac:(lia))). lra. }
  unfold canny in E. destruct (blur_ok exp24 im exp24_ok U) as (b' & Eb & Bw & Bh & Cb & Ub & _). cbn [iw ih im] in Bw, Bh.
  rewrite Eb in E. assert (Fl : fle (of_int 1 : f32) (of_int 2) = true) by (vm_compute; reflexivity). rewrite Fl in E. cbn [assert bind] in E.
  destruct (filter_i16_ok b' sobel_h Cb eq_refl) as (hk & gx & Ek & Ex & Xw & Xh & Wx & GX). { intros. rewrite corr_h. apply dx_bound; [apply Cb|assumption]. }
  destruct (filter_i16_ok b' sobel_v Cb eq_refl) as (vk & gy & Ek' & Ey & Yw & Yh & Wy & GY). { intros. rewrite corr_v. apply dy_bound; [apply Cb|assumption]. }
  setoid_rewrite corr_h in GX. setoid_rewrite corr_v in GY.
  rewrite Ek in E. cbn [bind] in E. rewrite Ek' in E. cbn [bind] in E. rewrite Ex in E. cbn [bind] in E. rewrite Ey in E. cbn [bind] in E.
  destruct (strengths_ok some_hypot b' Cb gx gy Xw Xh Wx Yw Yh Wy GX GY) as (g & Eg & Wg & Gw & Gh & G). rewrite Bw, Bh in *.
  cbn [iw ih im] in E. rewrite Eg in E. cbn [bind] in E. unfold non_maximum_suppression in E. rewrite Gh in E.
  change (chk_u 32 (0 - 1)) with (@Panic Z) in E. cbn [bind] in E. clear - E. discriminate E.
Qed.
Print Assumptions c100_refuted.

(** What holds: non-empty images, and six of the eight neighbours (C60 shows that
    the other two are not followed). *)
Theorem c100_canny_partial : c100_for 1 eight_but_two.
Proof.
  intros fexp hypot atan2 im low high He Hy Ha U W1 H1 A Fl Fh T.
  destruct (canny_ok fexp hypot atan2 im low high He Hy Ha U W1 H1 A Fl Fh T) as (b & deg & out & E & Eb & D & M).
  destruct (blur_ok fexp im He U) as (b' & Eb' & Bw & Bh & Cb & Ub & V & _). rewrite Eb in Eb'. injection Eb' as <-.
  exists b, deg, out. split; [exact E|]. split; [|split; assumption]. unfold blur_of. auto.
Qed.
Print Assumptions c100_canny_partial.

(** ** Consequences *)
Lemma edge_weak nb b deg low high x y : (low <= high)%R -> canny_edge nb b deg low high x y -> ridge b deg x y /\ (low <= strength b x y)%R.
Proof. intros H [x0 y0 R S|x0 y0 x1 y1 _ _ R S]; split; auto. lra. Qed.
Lemma has_strong nb b deg low high x y : canny_edge nb b deg low high x y -> exists x y, (high <= strength b x y)%R.
Proof. induction 1; eauto. Qed.

(** Every edge needs contrast: around a marked pixel, the 9 x 9 window (borders
    replicated) is not confined to an interval of length d when the low threshold
    exceeds sqrt 20 * (d + 2); when the window has a single value, the pixel is
    never marked.  The border is never marked. *)
Theorem c100_contrast : forall fexp hypot atan2 (im : image (list Z)) (low high : f32),
  exp_ok fexp -> hypot_ok hypot -> atan2_ok atan2 -> u8_channels 1 im ->
  1 <= iw im -> 1 <= ih im -> iw im * ih im < 2 ^ 32 ->
  is_finite low = true -> is_finite high = true -> (0 < B2R low <= B2R high)%R ->
  exists out, canny fexp hypot atan2 im low high = Ok out /\ forall x y, 0 <= x < iw im -> 0 <= y < ih im ->
    ((x = 0 \/ y = 0 \/ x = iw im - 1 \/ y = ih im - 1) -> get out x y = Some 0) /\
    (forall a, (forall i j, -4 <= i <= 4 -> -4 <= j <= 4 -> rep_chan 0 im 0 (x + i) (y + j) = a) -> get out x y = Some 0) /\
    (forall lo hi, (forall i j, -4 <= i <= 4 -> -4 <= j <= 4 -> lo <= rep_chan 0 im 0 (x + i) (y + j) <= hi) ->
      (sqrt 20 * IZR (hi - lo + 2) + / 10000 < B2R low)%R -> get out x y = Some 0).
Proof.
  intros fexp hypot atan2 im low high He Hy Ha U W1 H1 A Fl Fh T.
  destruct (canny_ok fexp hypot atan2 im low high He Hy Ha U W1 H1 A Fl Fh T) as (b & deg & out & E & Eb & D & (Wo & Ow & Oh & M)).
  destruct (blur_ok fexp im He U) as (b' & Eb' & Bw & Bh & Cb & Ub & _ & V). rewrite Eb in Eb'. injection Eb' as <-.
  destruct (c91_window_partial fexp 1 im canny_sigma He ltac:(lia) U (proj1 sigma_R) sigma_range) as (b' & v & Eb' & (_ & _ & _ & I) & Wi). rewrite Eb in Eb'. injection Eb' as <-.
  exists out. split; [exact E|]. intros x y Hx Hyy. destruct (M x y Hx Hyy) as ([M1|M1] & M2); [|auto].
  destruct (edge_weak _ _ _ _ _ _ _ (proj2 T) (proj1 M2 M1)) as ((Ix & Iy & _) & S). rewrite Bw in Ix. rewrite Bh in Iy.
  assert (RV : forall i j, -1 <= i <= 1 -> -1 <= j <= 1 -> rep_chan 0 b 0 (x + i) (y + j) = v 0 (x + i) (y + j)).
  { intros i j Hi Hj. destruct (I (x + i) (y + j)) as (p & G & P); [lia|lia|]. unfold rep_chan, border.
    replace (zclamp 0 (iw b - 1) (x + i)) with (x + i) by (unfold zclamp; lia). replace (zclamp 0 (ih b - 1) (y + j)) with (y + j) by (unfold zclamp; lia).
    rewrite G, P by lia. reflexivity. }
  split; [lia|]. split; [intros a Hc|intros lo hi Hc Hl]; exfalso.
  - assert (Z0 : gradient2 b x y <= 0).
    { replace 0 with (20 * ((rep_chan 0 b 0 x y - rep_chan 0 b 0 x y) * (rep_chan 0 b 0 x y - rep_chan 0 b 0 x y))) by ring.
      apply gradient2_le. intros i j Hi Hj. rewrite (V (x + i) (y + j) x y); [lia|lia|lia|lia|lia|].
      intros i' j' Hi' Hj'. replace (x + i + i') with (x + (i + i')) by lia. replace (y + j + j') with (y + (j + j')) by lia. rewrite !Hc by lia. reflexivity. }
    assert (Z1 : gradient2 b x y = 0) by (pose proof (gradient2_max b x y (proj1 Cb) Ub); lia).
    unfold strength in S. rewrite Z1, sqrt_0, (rnd_0 24 128) in S. lra.
  - assert (Z0 : gradient2 b x y <= 20 * ((hi - (lo - 2)) * (hi - (lo - 2)))).
    { apply gradient2_le. intros i j Hi Hj. rewrite RV by assumption. apply Wi; [lia|lia|lia|].
      intros i' j' Hi' Hj'. rewrite sigma_radius in *. replace (x + i + i') with (x + (i + i')) by lia. replace (y + j + j') with (y + (j + j')) by lia. apply Hc; lia. }
    assert (D0 : 0 <= hi - lo + 2) by (specialize (Hc 0 0 ltac:(lia) ltac:(lia)); lia).
    pose proof (gradient2_max b x y (proj1 Cb) Ub) as GM.
    assert (Q : (sqrt (IZR (gradient2 b x y)) <= sqrt 20 * IZR (hi - lo + 2))%R).
    { rewrite <- (sqrt_square (IZR (hi - lo + 2))) by (apply IZR_le; lia). rewrite <- sqrt_mult_alt by lra. apply sqrt_le_1_alt.
      rewrite <- mult_IZR. rewrite <- (mult_IZR 20). apply IZR_le. replace (hi - lo + 2) with (hi - (lo - 2)) by ring. exact Z0. }
    assert (B : (0 <= sqrt (IZR (gradient2 b x y)) <= 1443)%R).
    { split; [apply sqrt_pos|]. rewrite <- (sqrt_square 1443) by lra. apply sqrt_le_1_alt. assert (IZR (gradient2 b x y) <= 1300500)%R by (apply IZR_le; lia). lra. }
    pose proof (round_err _ B) as RE. apply Rabs_le_inv in RE. unfold strength in S. lra.
Qed.
Print Assumptions c100_contrast.

(** The greatest edge strength is sqrt 5 * 2 * 255, as documented: with a high
    threshold of 1140.4 nothing is marked.  The bound is reached. *)
Theorem c100_greatest_strength : (forall fexp hypot atan2 (im : image (list Z)) (low high : f32),
    exp_ok fexp -> hypot_ok hypot -> atan2_ok atan2 -> u8_channels 1 im ->
    1 <= iw im -> 1 <= ih im -> iw im * ih im < 2 ^ 32 ->
    is_finite low = true -> is_finite high = true -> (0 < B2R low <= B2R high)%R -> (1140.4 <= B2R high)%R ->
    exists out, canny fexp hypot atan2 im low high = Ok out /\ forall x y, 0 <= x < iw im -> 0 <= y < ih im -> get out x y = Some 0) /\
  (exists b, channels 1 b /\ u8_image b /\ sqrt (IZR (gradient2 b 1 1)) = (sqrt 5 * 2 * 255)%R).
Proof.
  split.
  - intros fexp hypot atan2 im low high He Hy Ha U W1 H1 A Fl Fh T TH.
    destruct (canny_ok fexp hypot atan2 im low high He Hy Ha U W1 H1 A Fl Fh T) as (b & deg & out & E & Eb & D & (Wo & Ow & Oh & M)).
    destruct (blur_ok fexp im He U) as (b' & Eb' & Bw & Bh & Cb & Ub & _). rewrite Eb in Eb'. injection Eb' as <-.
    exists out. split; [exact E|]. intros x y Hx Hyy. destruct (M x y Hx Hyy) as ([M1|M1] & M2); [exfalso|exact M1].
    destruct (has_strong _ _ _ _ _ _ _ (proj1 M2 M1)) as (x' & y' & S). pose proof (gradient2_max b x' y' (proj1 Cb) Ub) as GM.
    assert (B : (0 <= sqrt (IZR (gradient2 b x' y')) <= 1140.395)%R).
    { split; [apply sqrt_pos|]. rewrite <- (sqrt_square 1140.395) by lra. apply sqrt_le_1_alt. assert (IZR (gradient2 b x' y') <= 1300500)%R by (apply IZR_le; lia). lra. }
    pose proof (round_err (sqrt (IZR (gradient2 b x' y'))) ltac:(lra)) as RE. apply Rabs_le_inv in RE. unfold strength in S. lra.
  - exists (mkImage 3 3 [[0]; [0]; [255]; [0]; [0]; [255]; [0]; [255]; [255]]).
    split; [|split].
    + split; [split; [cbn; lia|split; [cbn; lia|reflexivity]]|]. intros x y p G. unfold get in G. destruct (inb _ x y); [|discriminate G]. apply znth_In in G. cbn in G.
      repeat (destruct G as [<-|G]; [reflexivity|]). destruct G.
    + intros x y p v G I. unfold get in G. destruct (inb _ x y); [|discriminate G]. apply znth_In in G. cbn in G.
      repeat (destruct G as [<-|G]; [destruct I as [<-|[]]; lia|]). destruct G.
    + assert (gradient2 (mkImage 3 3 [[0]; [0]; [255]; [0]; [0]; [255]; [0]; [255]; [255]]) 1 1 = 1300500) as -> by (vm_compute; reflexivity).
      replace (IZR 1300500) with (5 * ((2 * 255) * (2 * 255)))%R by lra. rewrite sqrt_mult_alt, sqrt_square by lra. ring.
Qed.
Print Assumptions c100_greatest_strength.

(** A step is found: when the columns up to s have value a, the columns after s
    have value c, and the high threshold is at most |c - a| - 2, every row but the
    first and last has a marked pixel within 4 columns of the step. *)
Lemma argmax (f : Z -> Z) lo : forall n : nat, exists m, lo <= m <= lo + Z.of_nat n /\ forall x, lo <= x <= lo + Z.of_nat n -> f x <= f m.
Proof.
  induction n as [|n (m & Hm & M)].
  - exists lo. split; [lia|]. intros x Hx. assert (x = lo) as -> by lia. lia.
  - destruct (Z_le_dec (f (lo + Z.of_nat (S n))) (f m)) as [L|L].
    + exists m. split; [lia|]. intros x Hx. destruct (Z.eq_dec x (lo + Z.of_nat (S n))) as [->|]; [exact L|apply M; lia].
    + exists (lo + Z.of_nat (S n)). split; [lia|]. intros x Hx. destruct (Z.eq_dec x (lo + Z.of_nat (S n))) as [->|]; [lia|]. specialize (M x ltac:(lia)). lia.
Qed.
Lemma sqrt_sq_Z z : sqrt (IZR (z * z)) = IZR (Z.abs z).
Proof. rewrite abs_IZR, mult_IZR. apply sqrt_Rsqr_abs. Qed.

Theorem c100_step_found : forall fexp hypot atan2 (im : image (list Z)) (low high : f32) s a c,
  exp_ok fexp -> hypot_ok hypot -> atan2_ok atan2 -> u8_channels 1 im -> 1 <= ih im -> iw im * ih im < 2 ^ 32 ->
  is_finite low = true -> is_finite high = true -> (0 < B2R low <= B2R high)%R ->
  5 <= s <= iw im - 7 -> (forall x y, 0 <= x < iw im -> 0 <= y < ih im -> get im x y = Some [if x <=? s then a else c]) ->
  (B2R high <= IZR (Z.abs (c - a) - 2))%R ->
  exists out, canny fexp hypot atan2 im low high = Ok out /\
    forall y, 1 <= y < ih im - 1 -> exists x, s - 3 <= x <= s + 4 /\ get out x y = Some 255.
Proof.
  intros fexp hypot atan2 im low high s a c He Hy Ha U H1 A Fl Fh T Hs Step Hd.
  destruct (canny_ok fexp hypot atan2 im low high He Hy Ha U ltac:(lia) H1 A Fl Fh T) as (b & deg & out & E & Eb & D & (Wo & Ow & Oh & M)).
  destruct (blur_ok fexp im He U) as (b' & Eb' & Bw & Bh & Cb & Ub & _ & V). rewrite Eb in Eb'. injection Eb' as <-.
  destruct (c91_window_partial fexp 1 im canny_sigma He ltac:(lia) U (proj1 sigma_R) sigma_range) as (b' & v & Eb' & (_ & _ & _ & I) & Wi). rewrite Eb in Eb'. injection Eb' as <-.
  assert (RS : forall x y, rep_chan 0 im 0 x y = if x <=? s then a else c).
  { intros x y. unfold rep_chan, border. rewrite Step by (unfold zclamp; lia). cbn. unfold zclamp.
    destruct (Z.leb_spec (Z.max 0 (Z.min (iw im - 1) x)) s), (Z.leb_spec x s); try reflexivity; lia. }
  assert (RV : forall x y, 0 <= x < iw im -> 0 <= y < ih im -> rep_chan 0 b 0 x y = v 0 x y).
  { intros x y Hx Hyy. destruct (I x y Hx Hyy) as (p & G & P). unfold rep_chan, border.
    replace (zclamp 0 (iw b - 1) x) with x by (unfold zclamp; lia). replace (zclamp 0 (ih b - 1) y) with y by (unfold zclamp; lia).
    rewrite G, P by lia. reflexivity. }
  set (B := fun x => rep_chan 0 b 0 x 0).
  assert (RB : forall x y, 0 <= x < iw im -> 0 <= y < ih im -> rep_chan 0 b 0 x y = B x).
  { intros x y Hx Hyy. apply V; [lia|lia|lia|lia|]. intros i j _ _. rewrite !RS. reflexivity. }
  assert (BL : forall x, 0 <= x <= s - 3 -> B x = B 0).
  { intros x Hx. apply V; [lia|lia|lia|lia|]. intros i j Hi _. rewrite !RS, !(proj2 (Z.leb_le _ _)) by lia. reflexivity. }
  assert (BR : forall x, s + 4 <= x < iw im -> B x = B (s + 4)).
  { intros x Hx. apply V; [lia|lia|lia|lia|]. intros i j Hi _. rewrite !RS, !(proj2 (Z.leb_gt _ _)) by lia. reflexivity. }
  assert (B0 : a - 2 <= B 0 <= a).
  { unfold B. rewrite RV by lia. apply Wi; [lia|lia|lia|]. intros i j Hi Hj. rewrite sigma_radius in *. rewrite RS, (proj2 (Z.leb_le _ _)) by lia. lia. }
  assert (B1 : c - 2 <= B (s + 4) <= c).
  { unfold B. rewrite RV by lia. apply Wi; [lia|lia|lia|]. intros i j Hi Hj. rewrite sigma_radius in *. rewrite RS, (proj2 (Z.leb_gt _ _)) by lia. lia. }
  set (d := fun x => B (x + 1) - B (x - 1)).
  assert (DX : forall x y, 1 <= x < iw im - 1 -> 1 <= y < ih im - 1 -> sobel_dx b x y = 4 * d x /\ sobel_dy b x y = 0).
  { intros x y Hx Hyy. unfold sobel_dx, sobel_dy, deriv_x, deriv_y, px_rep, d. rewrite !RB by lia. split; ring. }
  assert (G2 : forall x y, 1 <= x < iw im - 1 -> 1 <= y < ih im - 1 -> gradient2 b x y = (4 * d x) * (4 * d x)).
  { intros x y Hx Hyy. unfold gradient2. destruct (DX x y Hx Hyy) as (-> & ->). ring. }
  destruct (argmax (fun x => d x * d x) (s - 3) 7) as (m & Hm & Mx). change (Z.of_nat 7) with 7 in *. replace (s - 3 + 7) with (s + 4) in * by ring.
  assert (Big : Z.abs (c - a) - 2 <= Z.abs (4 * d m)).
  { assert (Q : forall x, s - 3 <= x <= s + 4 -> - Z.abs (d m) <= d x <= Z.abs (d m)). { intros x Hx. specialize (Mx x Hx). cbn beta in Mx. apply Z.abs_le, Z.square_le_simpl_nonneg; [lia|]. rewrite !Z.abs_square. exact Mx. }
    assert (Sum : d (s - 3) + d (s - 2) + d (s - 1) + d s + d (s + 1) + d (s + 2) + d (s + 3) + d (s + 4) = 2 * (B (s + 4) - B 0)).
    { unfold d. replace (s - 3 + 1) with (s - 2) by ring. replace (s - 3 - 1) with (s - 4) by ring. replace (s - 2 + 1) with (s - 1) by ring. replace (s - 2 - 1) with (s - 3) by ring.
      replace (s - 1 + 1) with s by ring. replace (s - 1 - 1) with (s - 2) by ring. replace (s + 1 + 1) with (s + 2) by ring. replace (s + 1 - 1) with s by ring.
      replace (s + 2 + 1) with (s + 3) by ring. replace (s + 2 - 1) with (s + 1) by ring. replace (s + 3 + 1) with (s + 4) by ring. replace (s + 3 - 1) with (s + 2) by ring.
      replace (s + 4 + 1) with (s + 5) by ring. replace (s + 4 - 1) with (s + 3) by ring.
      rewrite (BL (s - 3)), (BL (s - 4)), (BR (s + 5)) by lia. ring. }
    pose proof (Q (s - 3) ltac:(lia)). pose proof (Q (s - 2) ltac:(lia)). pose proof (Q (s - 1) ltac:(lia)). pose proof (Q s ltac:(lia)).
    pose proof (Q (s + 1) ltac:(lia)). pose proof (Q (s + 2) ltac:(lia)). pose proof (Q (s + 3) ltac:(lia)). pose proof (Q (s + 4) ltac:(lia)).
    rewrite Z.abs_mul. change (Z.abs 4) with 4. set (k := Z.abs (d m)) in *. set (B4 := B (s + 4)) in *. set (Bz := B 0) in *. clearbody k B4 Bz.
    generalize dependent (d (s - 3)). generalize dependent (d (s - 2)). generalize dependent (d (s - 1)). generalize dependent (d s).
    generalize dependent (d (s + 1)). generalize dependent (d (s + 2)). generalize dependent (d (s + 3)). generalize dependent (d (s + 4)). clear - B0 B1. intros. lia. }
  assert (Nz : d m <> 0). { intros Z. rewrite Z in Big. assert (0 < Z.abs (c - a) - 2); [|lia]. apply lt_IZR. lra. }
  exists out. split; [exact E|]. intros y Hyy. exists m. split; [exact Hm|].
  assert (Rm : 2 <= m < iw im - 2) by (clear - Hm Hs; lia). assert (Rm1 : 1 <= m < iw im - 1) by (clear - Rm; lia). assert (Rm0 : 0 <= m < iw im) by (clear - Rm; lia).
  assert (Ry : 0 <= y < ih im) by (clear - Hyy; lia). destruct (DX m y Rm1 Hyy) as (X & Y).
  apply (M m y Rm0 Ry). apply e_strong.
  - assert (Dg : deg m y = 0).
    { destruct (D m y Rm0 Ry) as (Dc & k & K). rewrite X, Y, HogCellsProofs.angle_axis in K. clear - Dc K.
      assert (P0 : (0 < PI)%R) by apply PI_RGT_0.
      assert (exists e : Z, (e = 0 \/ e = 180)%Z /\ (Rabs (IZR (e - deg m y - 180 * k)) <= 22.5 + / 1000)%R) as (e & Ee & Ke).
      { destruct (4 * d m <? 0).
        - exists 180. split; [auto|]. rewrite !minus_IZR, mult_IZR. replace (PI * 180 / PI)%R with 180%R in K by (field; lra). exact K.
        - exists 0. split; [auto|]. rewrite !minus_IZR, mult_IZR. replace (0 * 180 / PI)%R with 0%R in K by (field; lra). exact K. }
      rewrite <- abs_IZR in Ke. assert (Z.abs (e - deg m y - 180 * k) < 23) by (apply lt_IZR; lra). clear - Dc Ee H. lia. }
    split; [rewrite Bw; exact Rm1|]. split; [rewrite Bh; exact Hyy|]. rewrite Dg. change (unit_step 0) with (1, 0). cbn beta iota. rewrite Z.add_0_r, Z.sub_0_r.
    assert (N : forall x, 1 <= x < iw im - 1 -> gradient2 b x y <= gradient2 b m y).
    { intros x Hx. rewrite (G2 x y Hx Hyy), (G2 m y Rm1 Hyy). destruct (Z_le_dec (s - 3) x) as [X0|X0]; [destruct (Z_le_dec x (s + 4)) as [X1|X1]|].
      - specialize (Mx x (conj X0 X1)). cbn beta in Mx. clear - Mx. lia.
      - assert (d x = 0) as ->. { unfold d. rewrite (BR (x + 1)), (BR (x - 1)) by (clear - X1 Hx; lia). ring. } clear. nia.
      - assert (d x = 0) as ->. { unfold d. rewrite (BL (x + 1)), (BL (x - 1)) by (clear - X0 Hx; lia). ring. } clear. nia. }
    split; apply N; clear - Rm; lia.
  - unfold strength. rewrite (G2 m y Rm1 Hyy), sqrt_sq_Z. pose proof (dx_bound b m y (proj1 Cb) Ub) as Bd. rewrite X in Bd.
    rewrite (rnd_int 24 128) by (clear - Bd; lia). eapply Rle_trans; [exact Hd|]. apply IZR_le. exact Big.
Qed.
Print Assumptions c100_step_found.

(** The hypotheses are met: a step from 10 to 200, thresholds 50 and 188. *)
Example c100_nontrivial :
  let im := gen 16 5 (fun x _ => [if x <=? 7 then 10 else 200]) in
  exists out, canny exp24 some_hypot some_atan2 im (of_int 50) (of_int 188) = Ok out /\
    (exists x, 4 <= x <= 11 /\ get out x 2 = Some 255) /\ get out 2 2 = Some 0.
Proof.
  intros im.
  assert (G : forall x y, 0 <= x < 16 -> 0 <= y < 5 -> get im x y = Some [if x <=? 7 then 10 else 200]) by (intros x y Hx Hy; unfold im; rewrite get_gen_in by lia; reflexivity).
  assert (U : u8_channels 1 im).
  { split; [split; [apply wf_gen; lia|]|]; intros x y p; [|intros v]; intros E; pose proof (get_inb _ _ _ _ E) as R; cbn in R; rewrite G in E by lia; injection E as <-.
    - reflexivity.
    - intros [<-|[]]. destruct (x <=? 7); unfold is_u8; lia. }
  assert (F : forall z, 0 <= z <= 1000 -> is_finite (of_int z : f32) = true /\ B2R (of_int z : f32) = IZR z) by (intros z Hz; apply WuProofs.int32_R; lia).
  destruct (F 50 ltac:(lia)) as (F1 & R1). destruct (F 188 ltac:(lia)) as (F2 & R2).
  assert (T : (0 < B2R (of_int 50 : f32) <= B2R (of_int 188 : f32))%R) by (rewrite R1, R2; lra).
  assert (Hd : (B2R (of_int 188 : f32) <= IZR (Z.abs (200 - 10) - 2))%R) by (rewrite R2; apply IZR_le; lia).
  assert (D1 : iw im = 16) by reflexivity. assert (D2 : ih im = 5) by reflexivity. rewrite <- D1, <- D2 in G. clearbody im.
  destruct (c100_step_found exp24 some_hypot some_atan2 im (of_int 50) (of_int 188) 7 10 200 exp24_ok c100_hypot_exists c99_atan2_exists U
    ltac:(lia) ltac:(lia) F1 F2 T ltac:(lia) G Hd) as (out & E & P).
  destruct (c100_contrast exp24 some_hypot some_atan2 im (of_int 50) (of_int 188) exp24_ok c100_hypot_exists c99_atan2_exists U
    ltac:(lia) ltac:(lia) ltac:(lia) F1 F2 T) as (out' & E' & Q).
  rewrite E in E'. injection E' as <-. exists out. split; [exact E|]. clear E F1 F2 R1 R2 T Hd F. split.
  - destruct (P 2) as (x & Hx & Gx); [lia|]. exists x. split; [lia|exact Gx].
  - destruct (Q 2 2) as (_ & Q' & _); [lia|lia|]. apply (Q' 10). intros i j Hi Hj. unfold rep_chan, border.
    rewrite G by (unfold zclamp; lia). replace (zclamp 0 (iw im - 1) (2 + i) <=? 7) with true; [reflexivity|]. symmetry. apply Z.leb_le. unfold zclamp. lia.
Qed.
