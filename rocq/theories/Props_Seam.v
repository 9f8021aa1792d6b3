(** C41-C44: seam carving. *)
From Verif Require Import Base BaseProofs RasterProofs FilterSpec GradientSpec SeamModel SeamSpec
  SeamProofs SeamCarveProofs SeamDrawProofs.
Local Ltac Zify.zify_post_hook ::= idtac.

(** the images the code accepts: u8 channels (at most 45 of them, so that the
    u16 sum of magnitudes cannot overflow) and fewer than 2^32/1442 rows *)
Definition carvable (ch : Z) (im : image (list Z)) : Prop :=
  1 <= ch <= 45 /\ channels ch im /\ u8_image im /\ 0 < ih im /\ ih im * 1442 < 2 ^ 32.

Definition carvableb (ch : Z) (im : image (list Z)) : bool :=
  (1 <=? ch) && (ch <=? 45) && (0 <=? iw im) && (0 <? ih im) && (ih im * 1442 <? 2 ^ 32) &&
  (zlen (idata im) =? iw im * ih im) &&
  forallb (fun p => (zlen p =? ch) && forallb (fun v => (0 <=? v) && (v <=? 255)) p) (idata im).
Lemma carvableb_ok ch im : carvableb ch im = true -> carvable ch im.
Proof.
  unfold carvableb. rewrite !andb_true_iff, !Z.leb_le, !Z.ltb_lt, Z.eqb_eq, forallb_forall.
  intros ((((((H1 & H2) & H3) & H4) & H5) & H6) & H7).
  assert (W : wf im) by (unfold wf; splits; auto; lia).
  assert (Q : forall x y p, get im x y = Some p -> zlen p = ch /\ forall v, In v p -> 0 <= v <= 255).
  { intros x y p Hp. apply get_In in Hp. specialize (H7 p Hp).
    rewrite andb_true_iff, Z.eqb_eq, forallb_forall in H7. destruct H7 as (E & F). split; auto.
    intros v Hv. specialize (F v Hv). rewrite andb_true_iff, !Z.leb_le in F. auto. }
  unfold carvable. splits; auto.
  - split; auto. intros x y p Hp. apply (Q x y p Hp).
  - intros x y p v Hp Hv. apply (Q x y p Hp). auto.
Qed.

(** ** C41 *)
Theorem c41_seam_valid : forall ch im, carvable ch im -> 2 <= iw im ->
  exists s, find_vertical_seam ch im = Ok s /\ valid_seam (iw im) (ih im) s.
Proof.
  intros ch im (Hc & C & U & Hh & Hs) Hw.
  destruct (find_ok ch im Hc C U Hw Hh Hs) as (s & E & V & _). eauto.
Qed.
Theorem c41_narrow_panics : forall ch im, iw im < 2 -> find_vertical_seam ch im = Panic.
Proof.
  intros ch im H. unfold find_vertical_seam. rewrite (proj2 (Z.leb_gt 2 (iw im))) by lia. reflexivity.
Qed.
Definition c41_image : image (list Z) := mkImage 3 3 [[9]; [0]; [5]; [200]; [7]; [5]; [1]; [90]; [255]].
Example c41_nontrivial : carvable 1 c41_image /\ 2 <= iw c41_image /\
  find_vertical_seam 1 c41_image = Ok [0; 1; 2].
Proof. split; [apply carvableb_ok; vm_compute; reflexivity|]. split; [vm_compute; discriminate|]. vm_compute. reflexivity. Qed.

(** ** C42 *)
Definition c42_statement : Prop := forall ch im, carvable ch im -> 2 <= iw im ->
  exists s, find_vertical_seam ch im = Ok s /\ minimal_seam ch im s.

Definition c42_image : image (list Z) := mkImage 2 2 [[1]; [5]; [0]; [2]].
Theorem c42_seam_minimal_refuted : ~ c42_statement.
Proof.
  intros H. destruct (H 1 c42_image) as (s & E & (_ & M)).
  - apply carvableb_ok. vm_compute. reflexivity.
  - vm_compute. discriminate.
  - assert (E2 : find_vertical_seam 1 c42_image = Ok [0; 1]) by (vm_compute; reflexivity).
    rewrite E2 in E. inversion E; subst s.
    assert (V : valid_seam (iw c42_image) (ih c42_image) [0; 0]).
    { unfold valid_seam. splits; [reflexivity| |]; change (ih c42_image) with 2; change (iw c42_image) with 2; intros y Hy.
      - assert (y = 0 \/ y = 1) as [->| ->] by lia; vm_compute; split; congruence.
      - intros Hy1. replace y with 0 by lia. vm_compute. discriminate. }
    specialize (M _ V). vm_compute in M. apply M. reflexivity.
Qed.

(** What holds: the seam ends (in the bottom row) at the column where some
    minimal seam ends, and it is itself minimal whenever it never moves right
    on its way up and meets no zero-energy pixel.  Missing: the general case,
    where the retracing compares the right neighbour with a stale energy. *)
Theorem c42_seam_minimal_partial : forall ch im, carvable ch im -> 2 <= iw im ->
  exists s, find_vertical_seam ch im = Ok s /\
    (exists t, minimal_seam ch im t /\ seam_at t (ih im) (ih im - 1) = seam_at s (ih im) (ih im - 1)) /\
    ((forall y, 0 <= y -> y + 1 < ih im -> seam_at s (ih im) y <= seam_at s (ih im) (y + 1)) ->
     (forall y, 0 <= y < ih im -> 0 < pixel_energy ch im (seam_at s (ih im) y) y) ->
     minimal_seam ch im s).
Proof.
  intros ch im (Hc & C & U & Hh & Hs) Hw.
  destruct (find_ok ch im Hc C U Hw Hh Hs) as (s & E & V & B & L). eauto.
Qed.
Definition c42_image2 : image (list Z) := mkImage 3 3 [[5]; [0]; [9]; [5]; [7]; [200]; [255]; [90]; [1]].
Example c42_nontrivial : carvable 1 c42_image2 /\ 2 <= iw c42_image2 /\
  find_vertical_seam 1 c42_image2 = Ok [2; 1; 0] /\
  forallb (fun y => 0 <? pixel_energy 1 c42_image2 (seam_at [2; 1; 0] 3 y) y) [0; 1; 2] = true.
Proof.
  split; [apply carvableb_ok; vm_compute; reflexivity|]. split; [vm_compute; discriminate|].
  split; vm_compute; reflexivity.
Qed.

(** ** C43 *)
Theorem c43_remove_seam : forall A (zero : A) (im : image A) s,
  wf im -> 0 < iw im < 2 ^ 32 -> ih im < 2 ^ 32 -> zlen s = ih im ->
  (forall y, 0 <= y < ih im -> 0 <= seam_at s (ih im) y < iw im) ->
  exists out, remove_vertical_seam zero im s = Ok out /\ row_deletion im out (seam_at s (ih im)).
Proof. intros A zero im s W Hw Hh. apply remove_ok; auto. destruct W as (_ & ? & _). lia. Qed.

Theorem c43_shrink_width : forall ch im target, carvable ch im -> iw im < 2 ^ 32 -> 1 <= target <= iw im ->
  exists out, shrink_width ch im target = Ok out /\ wf out /\ iw out = target /\ rows_subsequence im out.
Proof.
  intros ch im t (Hc & C & U & Hh & Hs) Hw Ht.
  destruct (shrink_ok ch im t Hc C U Hw Hh Hs Ht) as (o & E & (Wo & _) & _ & Ew & R). eauto 6.
Qed.
Theorem c43_shrink_too_wide_panics : forall ch im target, iw im < target -> shrink_width ch im target = Panic.
Proof.
  intros ch im t H. unfold shrink_width. rewrite (proj2 (Z.leb_gt t (iw im))) by lia. reflexivity.
Qed.
Example c43_nontrivial : carvable 1 c41_image /\
  remove_vertical_seam [0] c41_image [1; 1; 0] = Ok (mkImage 2 3 [[0]; [5]; [200]; [5]; [1]; [255]]) /\
  shrink_width 1 c41_image 1 = Ok (mkImage 1 3 [[9]; [5]; [255]]).
Proof. split; [apply carvableb_ok; vm_compute; reflexivity|]. split; vm_compute; reflexivity. Qed.

(** ** C44 *)
(** seams removed one after another: the k-th fits an image of width w - k *)
Definition successive_seams (w h : Z) (seams : list (list Z)) : Prop :=
  forall done s rest, seams = done ++ s :: rest -> valid_seam (w - zlen done) h s.
(** exactly the listed original columns are red, everything else is gray *)
Definition marks (im : image Z) (out : image (list Z)) (cols : Z -> list Z) : Prop :=
  wf out /\ iw out = iw im /\ ih out = ih im /\
  forall x y v, 0 <= x < iw im -> 0 <= y < ih im -> get im x y = Some v ->
    (In x (cols y) -> get out x y = Some [255; 0; 0]) /\
    (~ In x (cols y) -> get out x y = Some [v; v; v]).
Definition c44_statement : Prop := forall (im : image Z) seams, wf im -> iw im < 2 ^ 31 ->
  successive_seams (iw im) (ih im) seams ->
  exists out, draw_vertical_seams im seams = Ok out /\ marks im out (removed_in_row (iw im) (ih im) seams).

Definition c44_image : image Z := mkImage 3 1 [10; 20; 30].
Theorem c44_draw_seams_refuted : ~ c44_statement.
Proof.
  intros H. destruct (H c44_image [[0]; [0]]) as (out & E & (_ & _ & _ & M)).
  - unfold wf. vm_compute. splits; try reflexivity; discriminate.
  - vm_compute. reflexivity.
  - intros done s rest Eq.
    assert (Es : s = [0] /\ (zlen done = 0 \/ zlen done = 1)).
    { destruct done as [|d1 done]; cbn in Eq; inversion Eq; [split; auto; left; reflexivity|].
      destruct done as [|d2 done]; cbn in *; [inversion H2; split; auto; right; reflexivity|].
      inversion H2. destruct done; discriminate. }
    destruct Es as (-> & Ed). change (ih c44_image) with 1. change (iw c44_image) with 3.
    unfold valid_seam. splits; [reflexivity| |]; intros y Hy; [|intros; lia].
    replace y with 0 by lia. change (seam_at [0] 1 0) with 0. lia.
  - assert (E2 : draw_vertical_seams c44_image [[0]; [0]] = Ok (mkImage 3 1 [[255; 0; 0]; [20; 20; 20]; [30; 30; 30]]))
      by (vm_compute; reflexivity).
    rewrite E2 in E. inversion E; subst out.
    destruct (M 1 0 20) as (M1 & _); try (vm_compute; split; congruence).
    specialize (M1 ltac:(vm_compute; auto)). vm_compute in M1. discriminate.
Qed.

(** What holds: the marks are right whenever no earlier mark of a row lies
    between the column of the seam (in the shrunken row) and the original
    column of its pixel; in particular for a single seam.  Missing: the other
    sequences, for which the code counts too few earlier marks. *)
Theorem c44_draw_seams_partial : forall (im : image Z) seams, wf im -> iw im < 2 ^ 31 ->
  successive_seams (iw im) (ih im) seams ->
  (forall done s rest y p, seams = done ++ s :: rest -> 0 <= y < ih im ->
     removed_in_row (iw im) (ih im) (done ++ [s]) y = removed_in_row (iw im) (ih im) done y ++ [p] ->
     forall o, In o (removed_in_row (iw im) (ih im) done y) -> ~ (seam_at s (ih im) y <= o < p)) ->
  exists out, draw_vertical_seams im seams = Ok out /\ marks im out (removed_in_row (iw im) (ih im) seams).
Proof.
  intros im seams W Hw S N.
  destruct (draw_ok im W Hw seams) as (out & E & (P1 & P2 & P3 & P4)).
  - intros done s rest Eq. destruct (S done s rest Eq) as (V1 & V2 & _). auto.
  - exact N.
  - exists out. split; auto. unfold marks. splits; auto. intros x y v Hx Hy Hv. rewrite (P4 x y v Hx Hy Hv).
    split; intros I.
    + apply inlb_In in I. rewrite I. reflexivity.
    + destruct (inlb x (removed_in_row (iw im) (ih im) seams y)) eqn:B; [|reflexivity].
      apply inlb_In in B. tauto.
Qed.
Theorem c44_draw_one_seam : forall (im : image Z) s, wf im -> iw im < 2 ^ 31 ->
  valid_seam (iw im) (ih im) s ->
  exists out, draw_vertical_seams im [s] = Ok out /\ marks im out (fun y => [seam_at s (ih im) y]).
Proof.
  intros im s W Hw V.
  destruct (c44_draw_seams_partial im [s] W Hw) as (out & E & (M1 & M2 & M3 & M4)).
  - intros done t rest Eq. destruct done as [|d done]; inversion Eq; [|destruct done; discriminate].
    change (zlen (@nil (list Z))) with 0. rewrite Z.sub_0_r. subst; auto.
  - intros done t rest y p Eq Hy _ o. destruct done as [|d done]; inversion Eq; [|destruct done; discriminate].
    intros [].
  - exists out. split; auto. unfold marks. splits; auto. intros x y v Hx Hy Hv.
    assert (R : removed_in_row (iw im) (ih im) [s] y = [seam_at s (ih im) y]).
    { unfold removed_in_row. cbn [map removed_columns]. rewrite znth_zrange by (destruct V as (_ & V & _); specialize (V y Hy); lia).
      rewrite Z.add_0_l. reflexivity. }
    specialize (M4 x y v Hx Hy Hv). rewrite R in M4. exact M4.
Qed.
(** two seams, the second to the right of the first: both marks right *)
Example c44_nontrivial : draw_vertical_seams c44_image [[0]; [1]] = Ok (mkImage 3 1 [[255; 0; 0]; [20; 20; 20]; [255; 0; 0]])
  /\ removed_in_row 3 1 [[0]; [1]] 0 = [0; 2] /\ valid_seam 3 1 [0] /\ valid_seam 2 1 [1].
Proof.
  split; [vm_compute; reflexivity|]. split; [vm_compute; reflexivity|].
  unfold valid_seam. splits; try reflexivity; intros y Hy; try (intros; lia); replace y with 0 by lia; vm_compute; split; congruence.
Qed.

Print Assumptions c41_seam_valid.
Print Assumptions c41_narrow_panics.
Print Assumptions c42_seam_minimal_refuted.
Print Assumptions c42_seam_minimal_partial.
Print Assumptions c43_remove_seam.
Print Assumptions c43_shrink_width.
Print Assumptions c43_shrink_too_wide_panics.
Print Assumptions c44_draw_seams_refuted.
Print Assumptions c44_draw_seams_partial.
Print Assumptions c44_draw_one_seam.
