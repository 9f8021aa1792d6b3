(** C18 (equalize_histogram) and C75 (match_histogram). *)
From Flocq Require Import Core BinarySingleNaN.
From Coq Require Import Reals Lra.
From Verif Require Import Base BaseProofs RasterProofs Float FloatProofs FloatErr StatsSpec StatsModel StatsProofs Props_Stats
  ContrastProofs TemplateProofs FContrastModel FContrastSpec FContrastProofs MatchProofs.
Local Ltac Zify.zify_post_hook ::= idtac.
Local Open Scope Z_scope.

Lemma count_at_luma (im : image Z) v : count_px (luma im) (has_level 0 v) = count_at im v.
Proof.
  unfold count_px, count_at. cbn [idata luma]. induction (idata im) as [|p l IH]; [reflexivity|].
  cbn [map filter]. unfold has_level at 1. rewrite znth_cons_0. destruct (p =? v)%Z; [rewrite !zlen_cons|]; rewrite IH; reflexivity.
Qed.
Lemma count_le_sum (im : image Z) v : gray8 im -> iw im * ih im < 2 ^ 32 -> 0 <= v < 256 ->
  count_le im v = zsum 0 (v + 1) (count_at im).
Proof.
  intros G H Hv. rewrite <- count_luma. rewrite <- (at_most_sum 1);
    [|apply channels_img_ok; [lia|apply luma_channels; assumption|exact H]|lia|lia].
  apply zsum_ext. intros u _. apply count_at_luma.
Qed.
Lemma count_le_255 (im : image Z) : gray8 im -> count_le im 255 = iw im * ih im.
Proof.
  intros (W & P). apply count_le_max; [assumption|]. intros x y p G. apply P in G. unfold is_u8 in G. lia.
Qed.
Lemma same_counts (im im' : image Z) : gray8 im -> gray8 im' -> iw im * ih im < 2 ^ 32 -> iw im' * ih im' < 2 ^ 32 ->
  (forall v, 0 <= v < 256 -> count_at im v = count_at im' v) ->
  (forall v, 0 <= v < 256 -> count_le im v = count_le im' v) /\ iw im * ih im = iw im' * ih im'.
Proof.
  intros G G' H H' E. assert (K : forall v, 0 <= v < 256 -> count_le im v = count_le im' v).
  { intros v Hv. rewrite !count_le_sum by assumption. apply zsum_ext. intros u Hu. apply E. lia. }
  split; [assumption|]. rewrite <- !count_le_255 by assumption. apply K. lia.
Qed.
Lemma get_mapped {A B} (f : A -> B) (im : image A) x y : get (mkImage (iw im) (ih im) (map f (idata im))) x y = option_map f (get im x y).
Proof. apply get_map_data. Qed.

(** ** C18 *)
(** Equal pixels stay equal, the order of two pixels is never inverted, the
    brightest pixels become 255, and every output is within 1.001 of 255 times
    the share of pixels that are no brighter. *)
Theorem c18_equalize : forall im, gray8 im -> 0 < iw im * ih im < 2 ^ 32 ->
  exists o, equalize_histogram im = Ok o /\ gray8 o /\ iw o = iw im /\ ih o = ih im /\
    (forall x y x' y' p p' q q',
       get im x y = Some p -> get im x' y' = Some p' -> get o x y = Some q -> get o x' y' = Some q' ->
       (p = p' -> q = q') /\ (p <= p' -> q <= q')) /\
    (forall x y p, get im x y = Some p -> (forall x' y' p', get im x' y' = Some p' -> p' <= p) -> get o x y = Some 255) /\
    (forall x y p q, get im x y = Some p -> get o x y = Some q ->
       - (iw im * ih im) <= 1000 * (255 * count_le im p - iw im * ih im * q) <= 1001 * (iw im * ih im)).
Proof.
  intros im G H. pose proof G as (W & P). eexists. split; [apply equalize_ok; [assumption|lia]|].
  assert (C : forall p, 0 <= count_le im p <= iw im * ih im).
  { intros p. split; [apply count_le_nonneg|apply count_le_total; assumption]. }
  split; [|split; [reflexivity|split; [reflexivity|split; [|split]]]].
  - split.
    + destruct W as (A & B & L). split; [exact A|]. split; [exact B|]. cbn [iw ih idata]. rewrite zlen_map. exact L.
    + intros x y q Gq. rewrite get_mapped in Gq. destruct (get im x y) as [p|]; [|discriminate]. cbn [option_map] in Gq.
      inversion Gq; subst. unfold is_u8. apply eq_of_range; [apply C|lia].
  - intros x y x' y' p p' q q' G1 G2 G3 G4. rewrite get_mapped, G1 in G3. rewrite get_mapped, G2 in G4.
    cbn [option_map] in G3, G4. inversion G3; inversion G4; subst. split; [intros ->; reflexivity|].
    intros L. apply eq_of_mono; [|apply C|lia]. split; [apply C|]. apply count_le_mono. assumption.
  - intros x y p G1 Hm. rewrite get_mapped, G1. cbn [option_map]. f_equal. rewrite (count_le_max im p) by assumption.
    apply eq_of_full. assumption.
  - intros x y p q G1 G3. rewrite get_mapped, G1 in G3. cbn [option_map] in G3. inversion G3; subst.
    apply eq_of_close; [apply C|lia].
Qed.

(** The new level of a pixel depends on its old level and the histogram only. *)
Theorem c18_histogram_only : forall im im' x y x' y' p, gray8 im -> gray8 im' ->
  0 < iw im * ih im < 2 ^ 32 -> 0 < iw im' * ih im' < 2 ^ 32 ->
  (forall v, 0 <= v < 256 -> count_at im v = count_at im' v) ->
  get im x y = Some p -> get im' x' y' = Some p ->
  exists o o' q, equalize_histogram im = Ok o /\ equalize_histogram im' = Ok o' /\ get o x y = Some q /\ get o' x' y' = Some q.
Proof.
  intros im im' x y x' y' p G G' H H' E Gp Gp'. destruct (same_counts im im' G G') as (K & T); [lia|lia|assumption|].
  do 2 eexists. exists (eq_of (count_le im p) (iw im * ih im)).
  split; [apply equalize_ok; [assumption|lia]|]. split; [apply equalize_ok; [assumption|lia]|].
  rewrite !get_mapped, Gp, Gp'. cbn [option_map]. split; [reflexivity|].
  rewrite T, K; [reflexivity|]. pose proof (proj2 G _ _ _ Gp) as U. unfold is_u8 in U. lia.
Qed.

(** An image without pixels is returned unchanged. *)
Theorem c18_empty : forall im, wf im -> iw im * ih im = 0 -> equalize_histogram im = Ok im.
Proof.
  intros [w h d] (A & B & L) E. cbn [iw ih idata] in *. rewrite E in L. destruct d; [reflexivity|].
  rewrite zlen_cons in L. pose proof (zlen_nonneg d). lia.
Qed.

Example c18_nontrivial : equalize_histogram (mkImage 4 2 [10; 10; 20; 20; 20; 30; 200; 10]) =
  Ok (mkImage 4 2 [95; 95; 191; 191; 191; 223; 255; 95]).
Proof. vm_compute. reflexivity. Qed.

(** ** C75 *)
Lemma count_side (im : image Z) : gray8 im -> 0 < iw im * ih im < 2 ^ 32 ->
  (forall i j, 0 <= i <= j -> j <= 255 -> 0 <= count_le im i <= count_le im j) /\ count_le im 255 = iw im * ih im.
Proof.
  intros G H. split; [|apply count_le_255; assumption].
  intros i j A B. split; [apply count_le_nonneg|apply count_le_mono; lia].
Qed.

Lemma apply_lut im lut : gray8 im -> zlen lut = 256 -> (forall s v, znth lut s = Some v -> 0 <= v <= 255) ->
  mapM (fun p => v <- vget lut p ;; Ok (v mod 256)) (idata im) =
  Ok (map (fun p => match znth lut p with Some v => v | None => 0 end) (idata im)).
Proof.
  intros G L R. apply mapM_ok. intros p Hp. apply (In_get im) in Hp; [|apply G]. destruct Hp as (x & y & Gp). apply (proj2 G) in Gp.
  unfold is_u8 in Gp. destruct (znth_some lut p) as (v & E); [lia|]. rewrite (proj2 (vget_ok _ _ _) E), E. cbn [bind].
  f_equal. apply Z.mod_small. specialize (R _ _ E). lia.
Qed.

Lemma match_ok im target lut : gray8 im -> gray8 target -> iw im * ih im < 2 ^ 32 -> iw target * ih target < 2 ^ 32 ->
  histogram_lut (map (count_le im) (zrange 0 256)) (map (count_le target) (zrange 0 256)) = Ok lut ->
  zlen lut = 256 -> (forall s v, znth lut s = Some v -> 0 <= v <= 255) ->
  match_histogram im target = Ok (mkImage (iw im) (ih im) (map (fun p => match znth lut p with Some v => v | None => 0 end) (idata im))).
Proof.
  intros G G' H H' E L R. unfold match_histogram. rewrite cum_gray by assumption. cbn [bind].
  rewrite (proj2 (vget_ok _ 0 (map (count_le im) (zrange 0 256)))) by reflexivity. cbn [bind].
  rewrite cum_gray by assumption. cbn [bind].
  rewrite (proj2 (vget_ok _ 0 (map (count_le target) (zrange 0 256)))) by reflexivity. cbn [bind].
  rewrite E. cbn [bind]. rewrite apply_lut by assumption. reflexivity.
Qed.

Lemma fle32_of_R (a b : f32) : is_finite a = true -> is_finite b = true -> (B2R a <= B2R b)%R -> fle a b = true.
Proof.
  intros Fa Fb H. unfold fle. rewrite (Bleb_correct 24 128 a b Fa Fb). apply Rle_bool_true; assumption.
Qed.

(** The output is the image sent through a 256-entry table of u8 levels.  The
    table is monotone, and for each level s it holds a target level whose share
    of no-brighter pixels is nearest (in f32 arithmetic) to the share of s. *)
Theorem c75_match : forall im target, gray8 im -> gray8 target ->
  0 < iw im * ih im < 2 ^ 32 -> 0 < iw target * ih target < 2 ^ 32 ->
  exists lut : Z -> Z,
    (exists o, match_histogram im target = Ok o /\ gray8 o /\ iw o = iw im /\ ih o = ih im /\
       forall x y p, get im x y = Some p -> get o x y = Some (lut p)) /\
    (forall s, 0 <= s <= 255 -> 0 <= lut s <= 255) /\
    (forall s s', 0 <= s <= s' -> s' <= 255 -> lut s <= lut s') /\
    (forall s l, 0 <= s <= 255 -> 0 <= l <= 255 ->
       fle (fabs (fsub (share target (lut s)) (share im s))) (fabs (fsub (share target l) (share im s))) = true).
Proof.
  intros im target G G' H H'. destruct (count_side im G H) as (M & T). destruct (count_side target G' H') as (M' & T').
  destruct (lut_ok (count_le im) (count_le target) (iw im * ih im) (iw target * ih target) M M' T T' H H') as (lut & ys & E & L & K).
  assert (R : forall s v, znth lut s = Some v -> 0 <= v <= 255).
  { intros s v Es. pose proof (znth_range _ _ _ Es). destruct (K s) as (Rs & Ev); [lia|]. rewrite Ev in Es. inversion Es; subst.
    eapply choice_range; eassumption. }
  exists (fun p => match znth lut p with Some v => v | None => 0 end).
  split; [|split; [|split]].
  - eexists. split; [apply (match_ok im target lut); first [exact E|assumption|lia]|]. split; [|split; [reflexivity|split; [reflexivity|]]].
    + split.
      * destruct (proj1 G) as (A & B & C). split; [exact A|]. split; [exact B|]. cbn [iw ih idata]. rewrite zlen_map. exact C.
      * intros x y q Gq. rewrite get_mapped in Gq. destruct (get im x y) as [p|] eqn:Gp; [|discriminate]. cbn [option_map] in Gq.
        inversion Gq; subst. apply (proj2 G) in Gp. unfold is_u8 in *. destruct (znth lut p) eqn:Ep; [eapply R; eassumption|lia].
    + intros x y p Gp. rewrite get_mapped, Gp. reflexivity.
  - intros s Hs. destruct (znth lut s) eqn:Es; [eapply R; eassumption|lia].
  - intros s s' A B. destruct (K s) as (Rs & ->); [lia|]. destruct (K s') as (Rs' & ->); [lia|].
    eapply choice_mono; try eassumption; lia.
  - intros s l Hs Hl. destruct (K s) as (Rs & ->); [lia|].
    assert (Cr : 0 <= choice (count_le im) (count_le target) (iw im * ih im) (iw target * ih target) s (ys s) <= 255)
      by (eapply choice_range; eassumption).
    apply fle32_of_R.
    + eapply (dist_R (count_le im) (count_le target) (iw im * ih im) (iw target * ih target)); try eassumption; lia.
    + eapply (dist_R (count_le im) (count_le target) (iw im * ih im) (iw target * ih target)); try eassumption; lia.
    + eapply (choice_near (count_le im) (count_le target) (iw im * ih im) (iw target * ih target)); try eassumption; lia.
Qed.

(** The table depends on the two histograms only. *)
Theorem c75_histograms_only : forall im im' target target', gray8 im -> gray8 im' -> gray8 target -> gray8 target' ->
  0 < iw im * ih im < 2 ^ 32 -> 0 < iw im' * ih im' < 2 ^ 32 ->
  0 < iw target * ih target < 2 ^ 32 -> 0 < iw target' * ih target' < 2 ^ 32 ->
  (forall v, 0 <= v < 256 -> count_at im v = count_at im' v) ->
  (forall v, 0 <= v < 256 -> count_at target v = count_at target' v) ->
  exists o o', match_histogram im target = Ok o /\ match_histogram im' target' = Ok o' /\
    forall x y x' y' p, get im x y = Some p -> get im' x' y' = Some p ->
      exists q, get o x y = Some q /\ get o' x' y' = Some q.
Proof.
  intros im im' target target' G1 G2 G3 G4 H1 H2 H3 H4 E1 E2.
  destruct (same_counts im im' G1 G2) as (K1 & T1); [lia|lia|assumption|].
  destruct (same_counts target target' G3 G4) as (K2 & T2); [lia|lia|assumption|].
  destruct (count_side im G1 H1) as (M & T). destruct (count_side target G3 H3) as (M' & T').
  destruct (lut_ok (count_le im) (count_le target) (iw im * ih im) (iw target * ih target) M M' T T' H1 H3) as (lut & ys & E & L & K).
  assert (R : forall s v, znth lut s = Some v -> 0 <= v <= 255).
  { intros s v Es. pose proof (znth_range _ _ _ Es). destruct (K s) as (Rs & Ev); [lia|]. rewrite Ev in Es. inversion Es; subst.
    eapply choice_range; eassumption. }
  do 2 eexists. split; [apply (match_ok im target lut); first [exact E|assumption|lia]|]. split.
  - apply (match_ok im' target' lut); try assumption; try lia.
    rewrite <- E. f_equal; apply map_ext_in; intros v Hv; apply in_zrange in Hv; symmetry; auto.
  - intros x y x' y' p Gp Gp'. rewrite !get_mapped, Gp, Gp'. cbn [option_map]. eauto.
Qed.

(** Degenerate cases: with an empty target every pixel becomes 0; an image
    without pixels is returned unchanged. *)
Lemma nan32 : (fdiv (of_int 0) (of_int 0) : f32) = B754_nan.
Proof. reflexivity. Qed.
Lemma zero_counts (im : image Z) s : gray8 im -> iw im * ih im = 0 -> count_le im s = 0.
Proof. intros (W & _) H. pose proof (count_le_nonneg im s). pose proof (count_le_total im s W). lia. Qed.

Theorem c75_empty_target : forall im target, gray8 im -> gray8 target -> iw im * ih im < 2 ^ 32 -> iw target * ih target = 0 ->
  match_histogram im target = Ok (mkImage (iw im) (ih im) (map (fun _ => 0) (idata im))).
Proof.
  intros im target G G' H H'.
  destruct (lut_empty (map (count_le im) (zrange 0 256)) (map (count_le target) (zrange 0 256)) (iw im * ih im) 0) as (lut & E & L & K).
  - reflexivity.
  - reflexivity.
  - rewrite znth_map, znth_zrange by lia. cbn [option_map]. f_equal. apply count_le_255; assumption.
  - rewrite znth_map, znth_zrange by lia. cbn [option_map]. f_equal. apply zero_counts; assumption.
  - intros s h _. rewrite znth_map, znth_zrange by lia. cbn [option_map]. rewrite zero_counts by assumption. rewrite nan32. reflexivity.
  - assert (R : forall s v, znth lut s = Some v -> 0 <= v <= 255).
    { intros s v Es. pose proof (znth_range _ _ _ Es). rewrite K in Es by lia. inversion Es. lia. }
    rewrite (match_ok im target lut) by (assumption || lia). f_equal. f_equal. apply map_ext_in. intros p Hp.
    apply (In_get im) in Hp; [|apply G]. destruct Hp as (x & y & Gp). apply (proj2 G) in Gp. unfold is_u8 in Gp.
    rewrite K by lia. reflexivity.
Qed.

Theorem c75_empty_image : forall im target, gray8 im -> gray8 target -> iw im * ih im = 0 -> iw target * ih target < 2 ^ 32 ->
  match_histogram im target = Ok im.
Proof.
  intros im target G G' H H'.
  destruct (lut_empty (map (count_le im) (zrange 0 256)) (map (count_le target) (zrange 0 256)) 0 (iw target * ih target)) as (lut & E & L & K).
  - reflexivity.
  - reflexivity.
  - rewrite znth_map, znth_zrange by lia. cbn [option_map]. f_equal. apply zero_counts; assumption.
  - rewrite znth_map, znth_zrange by lia. cbn [option_map]. f_equal. apply count_le_255; assumption.
  - intros s h Eh. pose proof (znth_range _ _ _ Eh) as Rs. rewrite zlen_map, zlen_zrange in Rs by lia.
    rewrite znth_map, znth_zrange in Eh by lia. cbn [option_map] in Eh. rewrite zero_counts in Eh by assumption. inversion Eh; subst.
    rewrite nan32. match goal with |- flt ?a _ = _ => destruct a; reflexivity end.
  - assert (R : forall s v, znth lut s = Some v -> 0 <= v <= 255).
    { intros s v Es. pose proof (znth_range _ _ _ Es). rewrite K in Es by lia. inversion Es. lia. }
    rewrite (match_ok im target lut) by (assumption || lia). f_equal.
    destruct im as [w h d]. cbn [iw ih idata] in *. destruct (proj1 G) as (_ & _ & Ld). cbn [iw ih idata] in Ld. rewrite H in Ld.
    destruct d; [reflexivity|]. rewrite zlen_cons in Ld. pose proof (zlen_nonneg d). lia.
Qed.

Example c75_nontrivial : match_histogram (mkImage 4 1 [10; 20; 20; 30]) (mkImage 4 2 [0; 50; 50; 60; 70; 100; 100; 250]) =
  Ok (mkImage 4 1 [50; 100; 100; 250]).
Proof. vm_compute. reflexivity. Qed.

Print Assumptions c18_equalize.
Print Assumptions c18_histogram_only.
Print Assumptions c18_empty.
Print Assumptions c75_match.
Print Assumptions c75_histograms_only.
Print Assumptions c75_empty_target.
Print Assumptions c75_empty_image.
