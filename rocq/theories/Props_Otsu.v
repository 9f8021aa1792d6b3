(** C74: otsu_level. *)
From Flocq Require Import Core BinarySingleNaN.
From Coq Require Import Reals Lra.
From Verif Require Import Base BaseProofs RasterProofs Float StatsSpec StatsModel FContrastModel FContrastSpec FContrastProofs OtsuProofs.
Local Ltac Zify.zify_post_hook ::= idtac.
Local Open Scope Z_scope.

(** t is the first level of largest between-class variance *)
Definition first_best (im : image Z) (t : Z) : Prop := 0 <= t <= 255 /\
  (forall t', (between_class im t' <= between_class im t)%R) /\
  (forall t', 0 <= t' < t -> (between_class im t' < between_class im t)%R).

(** Full claim. *)
Definition c74_statement : Prop := forall im, gray8 im -> 0 < iw im * ih im < 2 ^ 32 ->
  exists t, otsu_level im = Ok t /\ first_best im t.

(** Refuted: in the image 0, 1, 1, 2 the levels 0 and 1 have exactly the same
    variance (16/3), but f64 rounding makes the second one larger. *)
Theorem c74_otsu_refuted : ~ c74_statement.
Proof.
  intros H. destruct (H (mkImage 4 1 [0; 1; 1; 2])) as (t & E & _ & _ & F).
  - apply gray8b_ok; reflexivity.
  - cbn [iw ih]. lia.
  - assert (E' : otsu_level (mkImage 4 1 [0; 1; 1; 2]) = Ok 1) by (vm_compute; reflexivity).
    rewrite E' in E. inversion E; subst. specialize (F 0 ltac:(lia)).
    unfold between_class in F. cbn in F. lra.
Qed.

(** A second failure: t * (pixels at level t) is a u32 product.  From 16843010
    white pixels on (for example a 4105 x 4105 white image) the call panics. *)
Theorem c74_overflow_panics : forall im t, gray8 im -> iw im * ih im < 2 ^ 32 -> 0 <= t < 256 ->
  2 ^ 32 <= t * count_at im t -> otsu_level im = Panic.
Proof. exact otsu_panics. Qed.
Lemma uniform_px (w h c x y p : Z) : get (new_image w h c) x y = Some p -> p = c.
Proof.
  intros Gp. unfold new_image in Gp. rewrite get_gen in Gp.
  destruct ((0 <=? x) && (x <? w) && (0 <=? y) && (y <? h))%bool; [|discriminate]. inversion Gp. reflexivity.
Qed.
Lemma uniform_gray w h c : 0 <= w -> 0 <= h -> 0 <= c <= 255 -> gray8 (new_image w h c).
Proof.
  intros A B C. split; [apply wf_gen; assumption|]. intros x y p Gp. apply uniform_px in Gp. subst. exact C.
Qed.
Lemma uniform_count w h c : 0 <= w -> 0 <= h -> count_at (new_image w h c) c = w * h.
Proof.
  intros A B. assert (W : wf (new_image w h c)) by (apply wf_gen; assumption). pose proof W as (_ & _ & L).
  change (w * h) with (iw (new_image w h c) * ih (new_image w h c)). rewrite <- L. unfold count_at.
  assert (K : forall p, In p (idata (new_image w h c)) -> p = c).
  { intros p Hp. apply In_get in Hp; [|exact W]. destruct Hp as (x & y & Gp). eapply uniform_px; eassumption. }
  revert K. generalize (idata (new_image w h c)). induction l as [|p l IH]; intros K; [reflexivity|]. cbn [filter].
  rewrite (K p (or_introl eq_refl)). rewrite Z.eqb_refl. rewrite !zlen_cons. rewrite IH; [reflexivity|]. intros q Hq. apply K. right. assumption.
Qed.
Theorem c74_white_panics : forall w h, 0 <= w -> 0 <= h -> 16843010 <= w * h < 2 ^ 32 -> otsu_level (new_image w h 255) = Panic.
Proof.
  intros w h A B C. apply (c74_overflow_panics _ 255); [apply uniform_gray; lia|cbn [new_image iw ih gen]; lia|lia|].
  rewrite uniform_count by lia. lia.
Qed.

(** What holds: unless a product overflows, the result is a level that occurs
    in the image (or 0) and no level has a variance larger by more than a
    relative 2^-40. *)
Theorem c74_otsu_partial : forall im, gray8 im -> iw im * ih im < 2 ^ 32 ->
  (forall t, 0 <= t < 256 -> t * count_at im t < 2 ^ 32) ->
  exists t, otsu_level im = Ok t /\ 0 <= t <= 255 /\ (t = 0 \/ 0 < count_at im t) /\
    forall t', (between_class im t' <= between_class im t * (1 + / IZR (2 ^ 40)))%R.
Proof. intros im G H Hc. destruct (otsu_ok im G H Hc) as (t & E & A & B & C). exists t. auto. Qed.

(** In particular both classes are non-empty unless all pixels are equal. *)
Theorem c74_classes_nonempty : forall im x y x' y' p p', gray8 im -> iw im * ih im < 2 ^ 32 ->
  (forall t, 0 <= t < 256 -> t * count_at im t < 2 ^ 32) ->
  get im x y = Some p -> get im x' y' = Some p' -> p < p' ->
  exists t, otsu_level im = Ok t /\ 0 < count_le im t /\ 0 < count_gt im t.
Proof.
  intros im x y x' y' p p' G H Hc Gp Gp' L. destruct (otsu_ok im G H Hc) as (t & E & A & B & C). exists t. split; [exact E|].
  assert (S : split_at im p).
  { split.
    - unfold count_le. destruct (filter (fun q => q <=? p) (idata im)) eqn:F.
      + exfalso. assert (I : In p (filter (fun q => q <=? p) (idata im))) by (apply filter_In; split; [eapply get_In; eassumption|lia]).
        rewrite F in I. destruct I.
      + rewrite zlen_cons. pose proof (zlen_nonneg l). lia.
    - unfold count_gt. destruct (filter (fun q => p <? q) (idata im)) eqn:F.
      + exfalso. assert (I : In p' (filter (fun q => p <? q) (idata im))) by (apply filter_In; split; [eapply get_In; eassumption|lia]).
        rewrite F in I. destruct I.
      + rewrite zlen_cons. pose proof (zlen_nonneg l). lia. }
  destruct (V_close im G Hc p S) as (_ & V1). specialize (C p).
  destruct (nonneg_counts im G t) as (N1 & N2 & _).
  destruct (Z.eqb_spec (count_le im t) 0) as [Q|Q]; [|destruct (Z.eqb_spec (count_gt im t) 0) as [Q'|Q']; [|lia]];
    exfalso; rewrite (between_0 im t) in C by (intros (S1 & S2); contradiction); lra.
Qed.

Example c74_nontrivial : otsu_level (mkImage 4 2 [10; 12; 11; 10; 200; 201; 202; 203]) = Ok 12.
Proof. vm_compute. reflexivity. Qed.

Print Assumptions c74_otsu_refuted.
Print Assumptions c74_overflow_panics.
Print Assumptions c74_white_panics.
Print Assumptions c74_otsu_partial.
Print Assumptions c74_classes_nonempty.
