(** C115: global statistics depend on which pixels there are, not on where they are. *)
From Coq Require Import Permutation.
From Verif Require Import Base BaseProofs RasterProofs Float StatsSpec StatsModel StatsProofs ContrastProofs  IntegralSpec  Props_Stats
  FContrastModel FContrastSpec FContrastProofs OtsuProofs KapurModel.
Local Ltac Zify.zify_post_hook ::= idtac.

(** the same pixels the same number of times; width and height may differ *)
Definition shuffled {A} (a b : image A) : Prop := Permutation (idata a) (idata b).

Lemma filter_perm {A} (t : A -> bool) l l' : Permutation l l' -> zlen (filter t l) = zlen (filter t l').
Proof.
  induction 1 as [|x l l' H IH|x y l|l l' l'' _ IH _ IH']; cbn [filter]; [reflexivity|destruct (t x)|destruct (t x), (t y)|]; rewrite ?zlen_cons; lia.
Qed.
Lemma shuffled_size {A} (a b : image A) : wf a -> wf b -> shuffled a b -> iw a * ih a = iw b * ih b.
Proof. intros (_ & _ & La) (_ & _ & Lb) S. rewrite <- La, <- Lb. unfold zlen. rewrite (Permutation_length S). reflexivity. Qed.

(** histograms of any number of channels, and percentiles *)
Theorem c115_histogram : forall ch a b, 0 <= ch -> channels8 ch a -> channels8 ch b -> iw a * ih a < 2 ^ 32 -> shuffled a b ->
  histogram ch a = histogram ch b /\ cumulative_histogram ch a = cumulative_histogram ch b.
Proof.
  intros ch a b Hc Ca Cb H S. pose proof (shuffled_size a b (proj1 Ca) (proj1 Cb) S) as D.
  rewrite !histogram_ok, !cumulative_ok by (apply channels_img_ok; auto; lia).
  split; f_equal; apply map_ext; intros c; apply map_ext; intros v; apply filter_perm; exact S.
Qed.
Theorem c115_percentile : forall a b p, channels8 1 a -> channels8 1 b -> iw a * ih a < 2 ^ 32 -> shuffled a b -> percentile a p = percentile b p.
Proof. intros a b p Ca Cb H S. unfold percentile. destruct (c115_histogram 1 a b ltac:(lia) Ca Cb H S) as (_ & ->). reflexivity. Qed.

(** automatic thresholds; [K] is the floating-point arithmetic and logarithm of kapur_level *)
Lemma gray_hist a b : gray8 a -> gray8 b -> iw a * ih a < 2 ^ 32 -> shuffled a b ->
  histogram 1 (luma a) = histogram 1 (luma b) /\ cumulative_histogram 1 (luma a) = cumulative_histogram 1 (luma b) /\ iw a * ih a = iw b * ih b.
Proof.
  intros Ga Gb H S. pose proof (shuffled_size a b (proj1 Ga) (proj1 Gb) S) as D.
  destruct (c115_histogram 1 (luma a) (luma b)) as (A & B); [lia|apply luma_channels; assumption|apply luma_channels; assumption|exact H|apply Permutation_map; exact S|auto].
Qed.
Theorem c115_levels : forall T (K : reckon T) a b, gray8 a -> gray8 b -> iw a * ih a < 2 ^ 32 -> shuffled a b ->
  otsu_level a = otsu_level b /\ kapur_level K a = kapur_level K b.
Proof.
  intros T K a b Ga Gb H S. destruct (gray_hist a b Ga Gb H S) as (A & _ & D). unfold otsu_level, kapur_level. rewrite A, D. auto.
Qed.

(** equalisation and matching send equal levels to equal levels *)
Theorem c115_equalize : forall a b, gray8 a -> gray8 b -> iw a * ih a < 2 ^ 32 -> shuffled a b ->
  exists f, equalize_histogram a = Ok (mkImage (iw a) (ih a) (map f (idata a))) /\ equalize_histogram b = Ok (mkImage (iw b) (ih b) (map f (idata b))).
Proof.
  intros a b Ga Gb H S. pose proof (shuffled_size a b (proj1 Ga) (proj1 Gb) S) as D. exists (fun p => eq_of (count_le a p) (iw a * ih a)).
  rewrite (equalize_ok a Ga H), (equalize_ok b Gb) by lia. split; [reflexivity|]. do 2 f_equal. apply map_ext. intros p. rewrite D. f_equal.
  symmetry. apply filter_perm. exact S.
Qed.
Theorem c115_match : forall im a b, gray8 a -> gray8 b -> iw a * ih a < 2 ^ 32 -> shuffled a b -> match_histogram im a = match_histogram im b.
Proof. intros im a b Ga Gb H S. destruct (gray_hist a b Ga Gb H S) as (_ & A & _). unfold match_histogram. rewrite A. reflexivity. Qed.

Example c115_nontrivial :
  let a := mkImage 3 2 [5; 9; 9; 200; 5; 7] in let b := mkImage 2 3 [9; 5; 7; 9; 5; 200] in
  gray8 a /\ gray8 b /\ shuffled a b /\ otsu_level a = Ok 9 /\ otsu_level b = Ok 9 /\ percentile (luma a) 60 = Ok 9.
Proof.
  cbv zeta. split; [apply gray8b_ok; reflexivity|]. split; [apply gray8b_ok; reflexivity|]. split; [|vm_compute; auto].
  unfold shuffled. cbn [idata]. apply (Permutation_cons_app [9] _ 5).
  cbn [app]. apply perm_skip. apply (Permutation_cons_app [7] _ 9). cbn [app]. apply (Permutation_cons_app [7; 5] _ 200). cbn [app]. apply perm_swap.
Qed.

Print Assumptions c115_histogram. Print Assumptions c115_percentile. Print Assumptions c115_levels. Print Assumptions c115_equalize. Print Assumptions c115_match.
