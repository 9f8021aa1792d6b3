(** C111: contrast operations settle: done twice they change nothing more. *)
From Flocq Require Import Core BinarySingleNaN.
From Coq Require Import Reals Lra.
From Verif Require Import Base BaseProofs RasterProofs Float FloatProofs FloatErr StatsSpec StatsModel StatsProofs Props_Stats
  ContrastModel ContrastSpec ContrastProofs FContrastModel FContrastSpec FContrastProofs MatchProofs Props_FContrast TemplateProofs.
Local Ltac Zify.zify_post_hook ::= idtac.
Local Open Scope Z_scope.

(** ** Equalisation *)
(** the largest element of a list with a decidable property *)
Lemma largest (t : Z -> bool) l p : In p l -> t p = true -> exists m, In m l /\ t m = true /\ forall q, In q l -> t q = true -> q <= m.
Proof.
  revert p. induction l as [|a l IH]; intros p Hp Tp; [destruct Hp|].
  destruct (existsb t l) eqn:E.
  - apply existsb_exists in E. destruct E as (z & Hz & Tz). destruct (IH z Hz Tz) as (m & Hm & Tm & M).
    destruct (t a) eqn:Ta; [destruct (Z_le_dec a m)|].
    + exists m. split; [now right|]. split; [exact Tm|]. intros q [<-|Hq] Tq; auto.
    + exists a. split; [now left|]. split; [exact Ta|]. intros q [<-|Hq] Tq; [lia|]. specialize (M q Hq Tq). lia.
    + exists m. split; [now right|]. split; [exact Tm|]. intros q [<-|Hq] Tq; [congruence|auto].
  - assert (N : forall q, In q l -> t q = true -> False).
    { intros q Hq Tq. rewrite <- not_true_iff_false in E. apply E. apply existsb_exists. eauto. }
    destruct Hp as [<-|Hp]; [|exfalso; eauto]. exists a. split; [now left|]. split; [exact Tp|]. intros q [<-|Hq] Tq; [lia|exfalso; eauto].
Qed.
Lemma filter_map_count (f : Z -> Z) v l : zlen (filter (fun p => p <=? v) (map f l)) = zlen (filter (fun p => f p <=? v) l).
Proof. induction l as [|a l IH]; [reflexivity|]. cbn [map filter]. destruct (f a <=? v); rewrite ?zlen_cons; lia. Qed.
Lemma filter_same_count (t s : Z -> bool) l : (forall p, In p l -> t p = s p) -> zlen (filter t l) = zlen (filter s l).
Proof.
  intros H. induction l as [|a l IH]; [reflexivity|]. cbn [filter]. rewrite (H a) by now left.
  assert (E : zlen (filter t l) = zlen (filter s l)) by (apply IH; intros p Hp; apply H; now right).
  destruct (s a); rewrite ?zlen_cons; lia.
Qed.

(** equalising an equalised image changes nothing *)
Theorem c111_equalize_twice : forall im, gray8 im -> iw im * ih im < 2 ^ 32 ->
  exists o, equalize_histogram im = Ok o /\ equalize_histogram o = Ok o.
Proof.
  intros im G H. pose proof G as ((Hw & Hh & L) & P). set (N := iw im * ih im) in *.
  destruct (Z.eq_dec N 0) as [Z0|NZ].
  { exists im. rewrite c18_empty by (auto; apply G). auto. }
  assert (HN : 0 < N < 2 ^ 32) by (unfold N in *; nia).
  destruct (c18_equalize im G HN) as (o & E & Go & D1 & D2 & _). exists o. split; [exact E|].
  rewrite (equalize_ok im G H) in E. fold N in E. injection E as E.
  set (f := fun p => eq_of (count_le im p) N) in *.
  assert (C : forall p, 0 <= count_le im p <= N).
  { intros p. split; [apply count_le_nonneg|apply count_le_total; apply G]. }
  assert (Mono : forall p q, p <= q -> f p <= f q).
  { intros p q Hpq. unfold f. apply eq_of_mono; [split; [apply C|now apply count_le_mono]|apply C|exact HN]. }
  rewrite (equalize_ok o Go) by (rewrite D1, D2; exact H). rewrite D1, D2. fold N. f_equal.
  transitivity (mkImage (iw im) (ih im) (idata o)); [|rewrite <- D1, <- D2; destruct o; reflexivity].
  f_equal. rewrite <- (map_id (idata o)) at 2. apply map_ext_in. intros q Hq.
  rewrite <- E in Hq. cbn [idata] in Hq. apply in_map_iff in Hq. destruct Hq as (p & <- & Hp).
  destruct (largest (fun z => f z <=? f p) (idata im) p Hp ltac:(lia)) as (m & Hm & Tm & M).
  assert (Fm : f m = f p). { pose proof (M p Hp ltac:(lia)) as K. pose proof (Mono p m K). lia. }
  assert (K : count_le o (f p) = count_le im m).
  { unfold count_le at 1. rewrite <- E. cbn [idata]. rewrite (filter_map_count f). unfold count_le. apply filter_same_count.
    intros z Hz. destruct (Z.leb_spec (f z) (f p)) as [A|A]; destruct (Z.leb_spec z m) as [B|B]; try reflexivity.
    - specialize (M z Hz ltac:(lia)). lia.
    - pose proof (Mono z m B). lia. }
  rewrite K. exact Fm.
Qed.

(** ** Matching an image with itself *)
Lemma frac_strict h h' t : 0 <= h < h' -> h' <= t -> 0 < t <= 2 ^ 22 -> (B2R (frac h t) < B2R (frac h' t))%R.
Proof.
  intros A B C. destruct (frac_R h t) as (_ & -> & _); [lia|lia|]. destruct (frac_R h' t) as (_ & -> & _); [lia|lia|].
  rewrite !(rnd_int 24 128) by lia.
  assert (T : (1 <= IZR t <= 4194304)%R) by (split; apply IZR_le; lia).
  assert (Hh : (0 <= IZR h)%R) by (apply IZR_le; lia). assert (Hh' : (IZR h + 1 <= IZR h')%R) by (rewrite <- plus_IZR; apply IZR_le; lia).
  assert (Ht : (IZR h' <= IZR t)%R) by (apply IZR_le; lia).
  assert (I : (0 < / IZR t)%R) by (apply Rinv_0_lt_compat; lra).
  assert (I2 : (/ 4194304 <= / IZR t)%R) by (apply Rinv_le; lra).
  assert (One : (IZR t * / IZR t = 1)%R) by (apply Rinv_r; lra).
  set (x := (IZR h / IZR t)%R). set (x' := (IZR h' / IZR t)%R).
  assert (G : (x + / 4194304 <= x')%R).
  { unfold x, x', Rdiv. apply Rle_trans with ((IZR h + 1) * / IZR t)%R; [rewrite Rmult_plus_distr_r; lra|]. apply Rmult_le_compat_r; lra. }
  assert (X : (0 <= x)%R) by (apply Rmult_le_pos; lra).
  assert (X' : (x' <= 1)%R). { unfold x', Rdiv. rewrite <- One. apply Rmult_le_compat_r; lra. }
  pose proof (f32_err x) as E. pose proof (f32_err x') as E'. rewrite (Rabs_pos_eq x) in E by lra. rewrite (Rabs_pos_eq x') in E' by lra.
  apply Rabs_le_inv in E. apply Rabs_le_inv in E'. lra.
Qed.

Definition c111_self_statement (limit : Z) : Prop :=
  forall im, gray8 im -> iw im * ih im <= limit -> match_histogram im im = Ok im.

Lemma count_step im p : In p (idata im) -> count_le im (p - 1) < count_le im p.
Proof.
  unfold count_le. induction (idata im) as [|a l IH]; intros H; [destruct H|]. cbn [filter].
  assert (W : zlen (filter (fun q => q <=? p - 1) l) <= zlen (filter (fun q => q <=? p) l)).
  { clear. induction l as [|b l IH]; [reflexivity|]. cbn [filter]. destruct (Z.leb_spec b (p - 1)); destruct (Z.leb_spec b p); rewrite ?zlen_cons; lia. }
  destruct H as [->|H].
  - destruct (Z.leb_spec p (p - 1)); [lia|]. rewrite Z.leb_refl, zlen_cons. lia.
  - specialize (IH H). destruct (Z.leb_spec a (p - 1)); destruct (Z.leb_spec a p); rewrite ?zlen_cons; lia.
Qed.

(** up to 4 megapixels *)
Theorem c111_match_self : c111_self_statement (2 ^ 22).
Proof.
  intros im G B. pose proof G as ((Hw & Hh & L) & P). set (N := iw im * ih im) in *.
  destruct (Z.eq_dec N 0) as [Z0|NZ].
  { apply c75_empty_image; auto; unfold N in *; lia. }
  assert (HN : 0 < N < 2 ^ 32) by (unfold N in *; nia).
  destruct (count_side im G HN) as (M & T).
  destruct (lut_ok (count_le im) (count_le im) N N M M T T HN HN) as (lut & ys & E & Ll & K).
  assert (R : forall s v, znth lut s = Some v -> 0 <= v <= 255).
  { intros s v Es. pose proof (znth_range _ _ _ Es). destruct (K s) as (Rs & Ev); [lia|]. rewrite Ev in Es. inversion Es; subst.
    eapply choice_range; eassumption. }
  rewrite (match_ok im im lut) by (assumption || (fold N; lia)). f_equal.
  transitivity (mkImage (iw im) (ih im) (idata im)); [|destruct im; reflexivity]. f_equal.
  rewrite <- (map_id (idata im)) at 2. apply map_ext_in. intros p Hp.
  assert (Hr : 0 <= p <= 255). { destruct (In_get im p (proj1 G) Hp) as (x & y & Gp). exact (P _ _ _ Gp). }
  destruct (K p ltac:(lia)) as ((Y & R1 & R2) & ->).
  set (fr := fun s => B2R (frac (count_le im s) N)).
  change (fr p <= fr (ys p))%R in R1. change (ys p = 0 \/ (fr (ys p - 1)%Z < fr p)%R) in R2.
  assert (F : forall s, 0 <= s < p -> (fr s < fr p)%R).
  { intros s Hs. unfold fr. pose proof (count_step im p Hp). pose proof (M s (p - 1) ltac:(lia) ltac:(lia)).
    pose proof (M p 255 ltac:(lia) ltac:(lia)). apply frac_strict; lia. }
  assert (Yp : ys p = p).
  { destruct (Z_lt_dec (ys p) p) as [A|A]; [pose proof (F (ys p) ltac:(lia)); lra|].
    destruct (Z_lt_dec p (ys p)) as [A'|A']; [|lia]. destruct R2 as [R2|R2]; [lia|].
    assert (fr p <= fr (ys p - 1)%Z)%R by (apply frac_mono; [apply M; lia|pose proof (M (ys p - 1) 255 ltac:(lia) ltac:(lia)); unfold N; lia|exact HN]). lra. }
  rewrite Yp. unfold choice. destruct (Z.eqb_spec p 0) as [->|Np]; [reflexivity|].
  destruct (flt _ _) eqn:D; [|reflexivity]. exfalso.
  destruct (dist_R (count_le im) (count_le im) N N M M T T HN HN (p - 1) p ltac:(lia) ltac:(lia)) as (F1 & V1).
  destruct (dist_R (count_le im) (count_le im) N N M M T T HN HN p p ltac:(lia) ltac:(lia)) as (F2 & V2).
  rewrite flt32_R in D by assumption.
  assert (Z2 : B2R (dist (count_le im) (count_le im) N N p p) = 0%R).
  { rewrite V2. unfold tfr, sfr. rewrite (Rminus_diag_eq (B2R (frac (count_le im p) N)) _ eq_refl).
    rewrite (rnd_int 24 128 0) by lia. apply Rabs_R0. }
  rewrite Z2 in D. destruct (Rlt_bool_spec (B2R (dist (count_le im) (count_le im) N N (p - 1) p)) 0) as [X|X]; [|discriminate].
  rewrite V1 in X. match type of X with (Rabs ?e < 0)%R => pose proof (Rabs_pos e) end. lra.
Qed.

(** the limit on the size is needed: with 2^24 pixels of one level and a single brighter one the shares
    of both levels are 1 in f32, and the brighter pixel is lost *)
Lemma self_large n : Z.of_nat n = 2 ^ 24 -> let im := mkImage (2 ^ 24 + 1) 1 (1 :: repeat 0 n) in gray8 im /\ match_histogram im im <> Ok im.
Proof.
  intros Hn im.
  assert (Rep : forall v, 0 <= v -> zlen (filter (fun p => p <=? v) (repeat 0 n)) = 2 ^ 24).
  { intros v Hv. rewrite <- Hn. clear Hn im. induction n as [|m IH]; [reflexivity|]. cbn [repeat filter].
    destruct (Z.leb_spec 0 v); [|lia]. rewrite zlen_cons, IH. lia. }
  assert (Len : zlen (idata im) = 2 ^ 24 + 1). { unfold im. cbn [idata]. rewrite zlen_cons. unfold zlen. rewrite repeat_length. lia. }
  assert (C0 : count_le im 0 = 2 ^ 24). { unfold count_le, im. cbn [idata filter]. exact (Rep 0 ltac:(lia)). }
  assert (C1 : count_le im 1 = 2 ^ 24 + 1). { unfold count_le, im. cbn [idata filter]. change (1 <=? 1) with true. cbn iota. rewrite zlen_cons, (Rep 1) by lia. lia. }
  assert (G : gray8 im).
  { split; [split; [|split]; [unfold im; cbn [iw]; lia|unfold im; cbn [ih]; lia|rewrite Len; unfold im; cbn [iw ih]; lia]|].
    intros x y p Gp. apply get_In in Gp. unfold im in Gp. cbn [idata] in Gp. destruct Gp as [<-|Gp]; [red; lia|].
    apply repeat_spec in Gp. subst p. red. lia. }
  split; [exact G|].
  set (N := 2 ^ 24 + 1) in *. assert (HN : 0 < N < 2 ^ 32) by (unfold N; lia).
  destruct (count_side im G) as (M & T); [unfold im; cbn [iw ih]; fold N; lia|].
  assert (T' : count_le im 255 = N) by (rewrite T; unfold im; cbn [iw ih]; fold N; lia).
  destruct (lut_ok (count_le im) (count_le im) N N M M T' T' HN HN) as (lut & ys & E & Ll & K).
  assert (R : forall s v, znth lut s = Some v -> 0 <= v <= 255).
  { intros s v Es. pose proof (znth_range _ _ _ Es). destruct (K s) as (Rs & Ev); [lia|]. rewrite Ev in Es. inversion Es; subst.
    eapply choice_range; eassumption. }
  rewrite (match_ok im im lut) by (assumption || (unfold im; cbn [iw ih]; fold N; lia)).
  destruct (K 1 ltac:(lia)) as ((Y & R1 & R2) & Ev).
  assert (Fr : B2R (frac (count_le im 0) N) = B2R (frac (count_le im 1) N)).
  { rewrite C0, C1. unfold N. vm_compute. reflexivity. }
  assert (Y0 : ys 1 = 0).
  { destruct R2 as [R2|R2]; [exact R2|]. unfold tfr, sfr in R2. rewrite <- Fr in R2. destruct (Z.eq_dec (ys 1) 0) as [A|A]; [exact A|exfalso].
    assert (B2R (frac (count_le im 0) N) <= B2R (frac (count_le im (ys 1 - 1)%Z) N))%R; [|lra].
      pose proof (M 0 (ys 1 - 1) ltac:(lia) ltac:(lia)). pose proof (M (ys 1 - 1) 255 ltac:(lia) ltac:(lia)). apply frac_mono; lia. }
  rewrite Y0 in Ev. intros Q. apply (f_equal (fun r : res (image Z) => match r with Ok i => hd 9 (idata i) | _ => 9 end)) in Q.
  unfold im in Q. cbn [idata map hd] in Q. fold im in Q. rewrite Ev in Q. unfold choice in Q. rewrite Z.eqb_refl in Q. discriminate.
Qed.
Theorem c111_match_self_refuted : ~ c111_self_statement (2 ^ 25).
Proof.
  intros S. destruct (self_large (Z.to_nat (2 ^ 24))) as (G & Q); [apply Z2Nat.id; lia|]. apply Q, S; [exact G|]. cbn [iw ih]. lia.
Qed.

(** ** Thresholds *)
Definition settles (k : threshold_type) : Prop := match k with BinaryInverted => False | _ => True end.
Theorem c111_threshold_twice : forall im t k, gray8 im -> 0 <= t <= 255 -> settles k ->
  threshold (threshold im t k) t k = threshold im t k.
Proof.
  intros im t k G Ht S. unfold threshold, threshold_mut. cbn [iw ih idata]. f_equal. rewrite map_map. apply map_ext_in. intros v Hv.
  assert (Hr : 0 <= v <= 255). { destruct (In_get im v (proj1 G) Hv) as (x & y & Gp). exact (proj2 G _ _ _ Gp). }
  unfold threshold_px. destruct k; try contradiction; destruct (Z.ltb_spec t v);
  repeat match goal with |- context [?a <? ?b] => destruct (Z.ltb_spec a b) end; lia.
Qed.
(** the limit: an inverted threshold inverts again *)
Theorem c111_threshold_refuted :
  threshold (threshold (mkImage 2 1 [10; 200]) 100 BinaryInverted) 100 BinaryInverted <> threshold (mkImage 2 1 [10; 200]) 100 BinaryInverted.
Proof. vm_compute. discriminate. Qed.

Example c111_nontrivial :
  let im := mkImage 4 2 [10; 10; 20; 20; 20; 30; 200; 10] in let eq := mkImage 4 2 [95; 95; 191; 191; 191; 223; 255; 95] in
  gray8 im /\ equalize_histogram im = Ok eq /\ equalize_histogram eq = Ok eq /\ match_histogram im im = Ok im /\
  threshold im 15 Truncate = mkImage 4 2 [10; 10; 15; 15; 15; 15; 15; 10].
Proof. split; [apply gray8b_ok; reflexivity|]. vm_compute. auto. Qed.

Print Assumptions c111_equalize_twice. Print Assumptions c111_match_self. Print Assumptions c111_match_self_refuted. Print Assumptions c111_threshold_twice. Print Assumptions c111_threshold_refuted.
