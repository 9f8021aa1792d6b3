(** C89 (oriented FAST corners). *)
From Coq Require Import Sorted Permutation.
From Verif Require Import Base BaseProofs GeomProofs RasterProofs CornerModel CornerSpec CornerProofs Props_Corner Float SuppressProofs
  OfastModel OfastSpec OfastProofs OfastProofs2.
Local Ltac Zify.zify_post_hook ::= idtac.

(** ** C89.  The orientation of a corner is the direction from the corner to
    the centre of mass of the intensities around it (y upwards, hence the
    signs); [atan2] is a parameter. *)
Definition orientation (atan2 : f32 -> f32 -> f32) (im : image Z) (x y : Z) : f32 :=
  fneg (atan2 (of_int (- moment_y im x y 15)) (of_int (moment_x im x y 15))).

(** Full statement, for a given threshold or one sampled from the image *)
Definition c89_statement : Prop := forall atan2 sample im thr n e,
  gray8 im -> iw im * ih im < 2 ^ 32 -> 0 <= n < 2 ^ 64 -> 0 <= e -> 2 * e < iw im -> 2 * e < ih im ->
  iw im <= 2 ^ 32 - 17 -> ih im <= 2 ^ 32 - 17 ->
  (forall i, in_margin im e (fst (sample i)) (snd (sample i))) ->
  (forall t, thr = Some t -> 0 <= t <= 255) ->
  exists out t, oriented_fast atan2 sample im thr n e = Ok out /\ (forall t', thr = Some t' -> t = t') /\
    best_corners im t e n (map fst out) /\
    forall x y s o, In (x, y, s, o) out -> o = orientation atan2 im x y.

(** a 1 x 1 image: the patch is clipped at the left and top, but the weights
    still start at -15, so the only pixel counts as 15 to the left and above *)
Theorem c89_moments_refuted :
  let im := mkImage 1 1 [255] in
  moment_x im 0 0 15 = 0 /\ moment_y im 0 0 15 = 0 /\ intensity_moments im 0 0 15 = Ok (-15 * 255, 15 * 255).
Proof. vm_compute. repeat split. Qed.
Print Assumptions c89_moments_refuted.

Lemma c89_scores im sample m : valid im ->
  exists l, mapM (fun i => fast_corner_score im 0 (fst (sample i)) (snd (sample i)) Nine) (zrange 0 m) = Ok l /\
    zlen l = Z.max 0 m /\ forall s, In s l -> 0 <= s <= 255.
Proof.
  intros (W & W1 & W2).
  destruct (mapM_exists (fun i => fast_corner_score im 0 (fst (sample i)) (snd (sample i)) Nine) (fun _ s => 0 <= s <= 255) (zrange 0 m)) as (l & E & F).
  { intros i _. destruct (score_ok Nine im 0 (fst (sample i)) (snd (sample i)) W W1 W2 ltac:(lia)) as (s & E & R & _). eauto. }
  exists l. split; [exact E|]. split.
  - pose proof (mapM_length _ _ _ E) as L. unfold zlen. rewrite L. rewrite zrange_length. lia.
  - intros s Hs. clear E. induction F; [destruct Hs|]. destruct Hs as [<- | Hs]; auto.
Qed.

(** with a sampled threshold every image of at most 500 pixels panics unless
    more than half of its pixels are asked for, and asking for no corners
    always panics *)
Theorem c89_small_panics : forall atan2 sample im n e,
  gray8 im -> 0 <= e -> 2 * e < iw im -> 2 * e < ih im -> 0 <= n < 2 ^ 64 -> iw im * ih im < 2 ^ 32 ->
  (iw im * ih im <= 500 /\ 2 * n <= iw im * ih im) \/ n = 0 ->
  oriented_fast atan2 sample im None n e = Panic.
Proof.
  intros atan2 sample im n e (W & U) He Hw Hh Hn HN H. pose proof W as (W0 & W0' & _).
  assert (BW : iw im < 2 ^ 32) by nia. assert (BH : ih im < 2 ^ 32) by nia.
  unfold oriented_fast, auto_threshold, assert. rewrite !chk_u_ok by lia. cbn [bind].
  replace (e <? iw im - e) with true by lia. replace (e <? ih im - e) with true by lia. cbn [bind].
  try (rewrite chk_u_ok by nia). cbn [bind]. cbv zeta.
  destruct (c89_scores im sample (Z.min 1000 (iw im * ih im))) as (l & -> & L & _). { split; [exact W|]. split; assumption. }
  cbn [bind]. fold (fraction_idx n (iw im * ih im)).
  assert (P : znth (sort_asc l) (fraction_idx n (iw im * ih im)) = None).
  { destruct (znth (sort_asc l) (fraction_idx n (iw im * ih im))) as [v|] eqn:E; [|reflexivity]. exfalso.
    apply znth_range in E. replace (zlen (sort_asc l)) with (zlen l) in E by (unfold zlen; rewrite (Permutation_length (sort_asc_perm l)); reflexivity).
    assert (1 <= iw im * ih im) by nia. destruct H as [(H1 & H2)|H1].
    - pose proof (idx_half n (iw im * ih im) ltac:(lia) H2 ltac:(lia)). lia.
    - subst n. pose proof (idx_zero (iw im * ih im) ltac:(lia)). lia. }
  unfold vget. rewrite P. reflexivity.
Qed.
Print Assumptions c89_small_panics.

Theorem c89_refuted : ~ c89_statement.
Proof.
  intros S. set (im := new_image 10 10 0).
  assert (G : gray8 im) by (apply gray8b_ok; reflexivity). assert (Ew : iw im = 10) by (apply iw_new). assert (Eh : ih im = 10) by (apply ih_new). clearbody im.
  destruct (S (fun y _ => y) (fun _ => (0, 0)) im None 5 0 G) as (out & t & E & _); rewrite ?Ew, ?Eh; try lia.
  - intros _. unfold in_margin. rewrite Ew, Eh. cbn. lia.
  - discriminate.
  - rewrite c89_small_panics in E; [discriminate|exact G|lia|lia|lia|lia|rewrite Ew, Eh; lia|]. left. rewrite Ew, Eh. lia.
Qed.
Print Assumptions c89_refuted.

(** margins larger than the image panic *)
Theorem c89_edge_panics : forall atan2 sample im thr n e, 0 <= iw im < 2 ^ 32 -> 0 <= ih im < 2 ^ 32 -> 0 <= e -> iw im < e \/ ih im < e ->
  oriented_fast atan2 sample im thr n e = Panic.
Proof.
  intros atan2 sample im thr n e Hw Hh He H. unfold oriented_fast, chk_u, u_fits.
  destruct ((0 <=? iw im - e) && (iw im - e <? 2 ^ 32)) eqn:E1; [|reflexivity]. cbn [bind].
  destruct ((0 <=? ih im - e) && (ih im - e <? 2 ^ 32)) eqn:E2; [lia|reflexivity].
Qed.
Print Assumptions c89_edge_panics.

(** With a threshold: the best n corners in the margin, best first, and the
    right orientation for every corner at least 15 pixels from the left and top
    (so for every corner when the margin is at least 15).  Missing: the
    orientation of corners nearer to those sides, which is wrong. *)
Theorem c89_oriented_fast_partial : forall atan2 sample im t n e,
  gray8 im -> 0 <= t <= 255 -> 0 <= n -> 0 <= e -> e <= iw im -> e <= ih im ->
  iw im <= 2 ^ 32 - 17 -> ih im <= 2 ^ 32 - 17 ->
  exists out, oriented_fast atan2 sample im (Some t) n e = Ok out /\
    best_corners im t e n (map fst out) /\
    forall x y s o, In (x, y, s, o) out -> 15 <= x -> 15 <= y -> o = orientation atan2 im x y.
Proof.
  intros atan2 sample im t n e G Ht Hn He Hw Hh Bw Bh. pose proof G as (W & U).
  unfold oriented_fast. rewrite !chk_u_ok by lia. cbn [bind].
  destruct (margin_ok im t e W ltac:(lia) ltac:(lia) Ht He) as (l & -> & S & C). cbn [bind]. cbv zeta.
  pose proof (best_ok im t e n l S C Hn) as B. set (top := if zlen (sort_desc l) <? n then sort_desc l else firstn (Z.to_nat n) (sort_desc l)) in *. clearbody top.
  assert (M : forall c, In c top -> exists q, (o <- intensity_centroid atan2 im (fst (fst c)) (snd (fst c)) 15 ;; Ok (c, o)) = Ok q /\
    (fst q = c /\ (15 <= fst (fst c) -> 15 <= snd (fst c) -> snd q = orientation atan2 im (fst (fst c)) (snd (fst c))))).
  { intros [[x y] s] Hc. cbn [fst snd]. destruct B as (_ & _ & B & _). destruct (B _ Hc) as (_ & (A & _) & _). unfold away in A.
    unfold intensity_centroid.
    destruct (intensity_moments im x y 15) as [[xc yc]| |] eqn:E.
    2,3: rewrite moments_ok in E by (auto; lia); discriminate.
    cbn [bind]. eexists. split; [reflexivity|]. cbn [fst snd]. split; [reflexivity|]. intros Hx Hy.
    rewrite moments_exact in E by (auto; lia). injection E as <- <-. reflexivity. }
  destruct (mapM_exists _ _ top M) as (out & E & F). exists out. split; [exact E|].
  assert (FM : map fst out = top). { clear -F. induction F as [|c q l1 l2 (H & _) F IH]; [reflexivity|]. cbn [map]. now rewrite H, IH. }
  rewrite FM. split; [exact B|]. intros x y s o Ho Hx Hy.
  clear -F Ho Hx Hy. induction F as [|c q l1 l2 (H & H') F IH]; [destruct Ho|]. destruct Ho as [-> | Ho]; [|auto].
  cbn [fst snd] in *. rewrite <- H in H'. cbn [fst snd] in H'. apply H'; assumption.
Qed.
Print Assumptions c89_oriented_fast_partial.

(** Without a threshold the result is that for the score of one of the sampled
    pixels.  Missing: images of fewer than 1000 pixels and requests for fewer
    than one corner in 2^22 pixels, where the index into the sample is out of
    range or may be (see c89_small_panics). *)
Theorem c89_sampled_partial : forall atan2 sample im n e,
  gray8 im -> 0 <= e -> 2 * e < iw im -> 2 * e < ih im ->
  1000 <= iw im * ih im < 2 ^ 32 -> 1 <= n < 2 ^ 64 -> iw im * ih im <= 2 ^ 22 * n ->
  exists t i, 0 <= t <= 255 /\ 0 <= i < 1000 /\ fast_corner_score im 0 (fst (sample i)) (snd (sample i)) Nine = Ok t /\
    oriented_fast atan2 sample im None n e = oriented_fast atan2 sample im (Some t) n e.
Proof.
  intros atan2 sample im n e (W & U) He Hw Hh HN Hn H. pose proof W as (W0 & W0' & _).
  assert (BW : iw im < 2 ^ 32) by nia. assert (BH : ih im < 2 ^ 32) by nia.
  destruct (c89_scores im sample 1000) as (l & E & L & R). { split; [exact W|]. split; assumption. }
  destruct (znth_some (sort_asc l) (fraction_idx n (iw im * ih im))) as (t & T).
  { replace (zlen (sort_asc l)) with (zlen l) by (unfold zlen; rewrite (Permutation_length (sort_asc_perm l)); reflexivity).
    rewrite L. pose proof (idx_small n (iw im * ih im) Hn ltac:(lia) H). lia. }
  assert (I : In t l) by (apply (Permutation_in _ (sort_asc_perm l)); exact (znth_In _ _ _ T)).
  apply In_nth_error in I. destruct I as (k & K).
  assert (Kl : (k < length l)%nat) by (apply nth_error_Some; congruence).
  exists t, (Z.of_nat k). split; [apply R, (nth_error_In _ _ K)|]. unfold zlen in L. split; [lia|]. split.
  - destruct (mapM_nth _ _ _ (Z.of_nat k) (Z.of_nat k) E) as (t' & T' & S').
    + rewrite znth_zrange by lia. reflexivity.
    + unfold znth in T'. replace (0 <=? Z.of_nat k) with true in T' by lia. rewrite Nat2Z.id, K in T'. injection T' as ->. exact S'.
  - unfold oriented_fast. rewrite !chk_u_ok by lia. cbn [bind].
    unfold auto_threshold, assert. rewrite !chk_u_ok by lia. cbn [bind].
    replace (e <? iw im - e) with true by lia. replace (e <? ih im - e) with true by lia. cbn [bind].
    try (rewrite chk_u_ok by nia). cbn [bind]. cbv zeta. replace (Z.min 1000 (iw im * ih im)) with 1000 by lia. rewrite E. cbn [bind].
    fold (fraction_idx n (iw im * ih im)). rewrite (proj2 (vget_ok _ _ _) T). cbn [bind]. reflexivity.
Qed.
Print Assumptions c89_sampled_partial.

(** a 31 x 32 image with two bright pixels: both are corners, of different
    score; one of them is wanted *)
Definition c89_image : image Z := gen 31 32 (fun x y => if (x =? 15) && (y =? 15) then 200 else if (x =? 20) && (y =? 20) then 90 else 10).
Example c89_nontrivial :
  gray8 c89_image /\ 1000 > iw c89_image * ih c89_image /\
  (l <- margin_corners c89_image 30 3 ;; Ok (sort_desc l)) = Ok [(15, 15, 189); (20, 20, 79)] /\
  moment_x c89_image 15 15 15 = 400 /\ moment_y c89_image 15 15 15 = 400.
Proof. split; [apply gray8b_ok; vm_compute; reflexivity|]. vm_compute. repeat split. Qed.
