(** C90: Kapur's threshold maximises the entropy of background and foreground. *)
From Coq Require Import Reals Lra.
From Verif Require Import Base BaseProofs RasterProofs Float GeomProofs StatsSpec StatsModel FContrastSpec FContrastProofs OtsuProofs Props_Otsu KapurModel KapurSpec KapurProofs KapurF64.
Open Scope Z_scope.

(** [t] is the lowest level of largest entropy among the splits with pixels on
    both sides; 0 when there is no such split. *)
Definition kapur_answer (im : image Z) (t : Z) : Prop :=
  0 <= t < 256 /\
  ((forall s, 0 <= s < 256 -> ~ proper_split im s) /\ t = 0 \/
   proper_split im t /\
   forall s, 0 <= s < 256 -> proper_split im s ->
     (split_entropy im s <= split_entropy im t)%R /\ (s < t -> (split_entropy im s < split_entropy im t)%R)).

(** The full property: for every image, whatever the platform's logarithm. *)
Definition c90_statement : Prop :=
  forall (ln64 : f64 -> f64) (im : image Z), gray8 im -> exists t, kapur_level (reckon_f64 ln64) im = Ok t /\ kapur_answer im t.

(** Proved for exact arithmetic and images of fewer than 2^32 pixels; for f64
    see [c90_f64_partial] and [c90_f64_exact]. *)
Theorem c90_kapur_partial (im : image Z) :
  gray8 im -> iw im * ih im < 2 ^ 32 -> exists t, kapur_level reckon_R im = Ok t /\ kapur_answer im t.
Proof.
  intros G H. destruct (kapur_R im G H) as (t & E & R & A). exists t. split; [exact E|]. split; assumption.
Qed.
Print Assumptions c90_kapur_partial.

(** In f64, with a logarithm off by at most 2^-46: the level has pixels on
    both sides, is the grey level of some pixel, and no split has an entropy
    larger by more than (number of pixels) / 2^35. Missing: which of several
    levels closer together than that is returned. *)
Theorem c90_f64_partial (ln64 : f64 -> f64) (im : image Z) :
  accurate_ln ln64 -> gray8 im -> iw im * ih im < 2 ^ 32 ->
  exists t, kapur_level (reckon_f64 ln64) im = Ok t /\ 0 <= t < 256 /\
    ((forall s, 0 <= s < 256 -> ~ proper_split im s) /\ t = 0 \/
     (proper_split im t /\ count_at im t <> 0) /\
     forall s, 0 <= s < 256 -> proper_split im s ->
       (split_entropy im s <= split_entropy im t + IZR (iw im * ih im) / 34359738368)%R).
Proof.
  intros L G H. destruct (Z.eq_dec (iw im * ih im) 0) as [E|E].
  - exists 0. split; [apply kapur_empty; assumption|]. split; [lia|]. left. split; [|reflexivity].
    intros s _ (P & _). pose proof (count_le_total im s (proj1 G)). lia.
  - apply (kapur_F ln64 L im G). destruct G as ((Hw & Hh & Hl) & _). nia.
Qed.
Print Assumptions c90_f64_partial.

(** Hence the level of largest entropy itself, when it leads every other grey
    level of the image by more than that. *)
Theorem c90_f64_exact (ln64 : f64 -> f64) (im : image Z) t :
  accurate_ln ln64 -> gray8 im -> iw im * ih im < 2 ^ 32 ->
  0 <= t < 256 -> proper_split im t ->
  (forall s, 0 <= s < 256 -> s <> t -> proper_split im s -> count_at im s <> 0 ->
     (split_entropy im s + IZR (iw im * ih im) / 34359738368 < split_entropy im t)%R) ->
  kapur_level (reckon_f64 ln64) im = Ok t.
Proof.
  intros L G H Ht P M. destruct (c90_f64_partial ln64 im L G H) as (r & E & Hr & [(No & _)|((Pr & Cr) & A)]); [exfalso; apply (No t); assumption|].
  rewrite E. f_equal. destruct (Z.eq_dec r t) as [|D]; [assumption|]. exfalso. specialize (M r Hr D Pr Cr). specialize (A t Ht P). lra.
Qed.
Print Assumptions c90_f64_exact.

(** Such a logarithm exists: the real one, rounded to the nearest f64. *)
Theorem c90_ln_exists : exists ln64, accurate_ln ln64.
Proof. exists (fun x => nearest (ln (Flocq.IEEE754.BinarySingleNaN.B2R x))). exact nearest_ln. Qed.
Print Assumptions c90_ln_exists.

(** In f64 it never panics below 2^32 pixels, whatever the logarithm returns. *)
Theorem c90_total (ln64 : f64 -> f64) (im : image Z) :
  gray8 im -> iw im * ih im < 2 ^ 32 -> exists t, kapur_level (reckon_f64 ln64) im = Ok t /\ 0 <= t < 256.
Proof. apply kapur_total. Qed.
Print Assumptions c90_total.

(** From 2^32 pixels on the pixel count overflows u32. *)
Theorem c90_huge_panics (ln64 : f64 -> f64) (im : image Z) t : 2 ^ 32 <= iw im * ih im -> kapur_level (reckon_f64 ln64) im <> Ok t.
Proof.
  intros H. unfold kapur_level. destruct (histogram 1 (luma im)) as [hist| |]; cbn [bind]; try discriminate.
  destruct (vget hist 0) as [row| |]; cbn [bind]; try discriminate.
  replace (chk_u 32 (iw im * ih im)) with (@Panic Z); [discriminate|]. unfold chk_u, u_fits.
  destruct (Z.ltb_spec (iw im * ih im) (2 ^ 32)); [lia|]. rewrite Bool.andb_false_r. reflexivity.
Qed.
Print Assumptions c90_huge_panics.

Theorem c90_refuted : ~ c90_statement.
Proof.
  intros S. destruct (S (fun x => x) (new_image 65536 65536 0)) as (t & E & _); [apply uniform_gray; lia|].
  revert E. apply c90_huge_panics. rewrite iw_new, ih_new. lia.
Qed.
Print Assumptions c90_refuted.

(** Two dark and two bright levels: the best split separates them, and there
    are other splits with pixels on both sides. *)
Example c90_nontrivial :
  let im := mkImage 4 1 [10; 20; 200; 210] in
  gray8 im /\ iw im * ih im < 2 ^ 32 /\ proper_split im 10 /\ proper_split im 20 /\ proper_split im 205 /\ ~ proper_split im 210.
Proof.
  cbv zeta. split; [apply gray8b_ok; reflexivity|]. split; [reflexivity|]. unfold proper_split.
  repeat split; try reflexivity. intros (_ & A). revert A. vm_compute. discriminate.
Qed.

(** The hypotheses of [c90_f64_exact] hold for it at level 20: entropy ln 4
    against ln 3 at the two other levels. *)
Lemma ln_half : (ln (2 / 4) = - ln 2 /\ ln (1 / 2) = - ln 2 /\ ln (1 / 3) = - ln 3 /\ ln (1 / 1) = 0)%R.
Proof.
  assert (H : forall a b, (0 < a -> 0 < b -> ln (a / b) = ln a - ln b)%R).
  { intros a b Ha Hb. unfold Rdiv. rewrite ln_mult, ln_Rinv; try lra. apply Rinv_0_lt_compat. lra. }
  repeat split.
  - replace (2 / 4)%R with (1 / 2)%R by lra. rewrite H, ln_1 by lra. ring.
  - rewrite H, ln_1 by lra. ring.
  - rewrite H, ln_1 by lra. ring.
  - rewrite H, ln_1 by lra. ring.
Qed.
Example c90_f64_exact_nontrivial (ln64 : f64 -> f64) : accurate_ln ln64 ->
  kapur_level (reckon_f64 ln64) (mkImage 4 1 [10; 20; 200; 210]) = Ok 20.
Proof.
  intros L. set (im := mkImage 4 1 [10; 20; 200; 210]).
  assert (E20 : (split_entropy im 20 = 2 * ln 2)%R).
  { cbv -[Rplus Rmult Rdiv Ropp ln IZR]. rewrite (proj1 (proj2 ln_half)). field. }
  assert (E10 : (split_entropy im 10 = ln 3)%R).
  { cbv -[Rplus Rmult Rdiv Ropp ln IZR]. rewrite (proj1 (proj2 (proj2 ln_half))), (proj2 (proj2 (proj2 ln_half))). field. }
  assert (E200 : (split_entropy im 200 = ln 3)%R).
  { cbv -[Rplus Rmult Rdiv Ropp ln IZR]. rewrite (proj1 (proj2 (proj2 ln_half))), (proj2 (proj2 (proj2 ln_half))). field. }
  apply c90_f64_exact; [exact L|apply gray8b_ok; reflexivity|reflexivity|lia|split; reflexivity|].
  intros s Hs D P C.
  assert (s = 10 \/ s = 200) as S.
  { destruct P as (_ & P). assert (I : In s [10; 20; 200; 210]).
    { destruct (Z.eq_dec s 10); [cbn; auto|]. destruct (Z.eq_dec s 20); [cbn; auto|]. destruct (Z.eq_dec s 200); [cbn; auto|]. destruct (Z.eq_dec s 210); [cbn; auto|].
      exfalso. apply C. cbv -[Z.eqb]. repeat (match goal with |- context [Z.eqb ?a ?b] => destruct (Z.eqb_spec a b); [lia|] end). reflexivity. }
    cbn in I. destruct I as [<-|[<-|[<-|[<-|[]]]]]; auto; try lia. exfalso. revert P. vm_compute. discriminate. }
  assert (B : (ln 3 + IZR (iw im * ih im) / 34359738368 < 2 * ln 2)%R).
  { change (iw im * ih im) with 4. assert (/ 4 <= 2 * ln 2 - ln 3)%R; [|lra].
    replace (2 * ln 2)%R with (ln 4) by (replace 4%R with (2 * 2)%R by lra; rewrite ln_mult by lra; ring).
    pose proof (ln_up (3 / 4) ltac:(lra)) as U. unfold Rdiv in U. rewrite ln_mult, ln_Rinv in U by lra. lra. }
  rewrite E20. destruct S as [-> | ->]; [rewrite E10|rewrite E200]; exact B.
Qed.
