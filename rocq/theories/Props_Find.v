(** C108: a template cut out of an image is found again where it was cut. *)
From Coq Require Import Reals Lra Lia.
From Flocq Require Import Core BinarySingleNaN.
From Verif Require Import Base BaseProofs RasterProofs Float FloatProofs FloatErr ComposeModel ComposeSpec ComposeProofs TemplateModel TemplateSpec TemplateProofs Props_Template.
Local Ltac Zify.zify_post_hook ::= idtac.
Local Open Scope Z_scope.

(** ** Specification *)
(** the template lies inside the image at (x, y) and agrees with it pixel by pixel *)
Definition occurs (im tpl : image Z) (x y : Z) : Prop :=
  0 <= x <= iw im - iw tpl /\ 0 <= y <= ih im - ih tpl /\
  forall x' y', 0 <= x' < iw tpl -> 0 <= y' < ih tpl -> get tpl x' y' = get im (x + x') (y + y').

(** the first occurrence in reading order *)
Definition first_occurrence (im tpl : image Z) (p : Z * Z) : Prop :=
  occurs im tpl (fst p) (snd p) /\
  forall x y, occurs im tpl x y -> (x, y) = p \/ reads_before p (x, y).

Definition squared (m : method) : Prop := m = SumOfSquaredErrors \/ m = SumOfSquaredErrorsNormalized.

(** ** Sums *)
Lemma zsum_null lo hi f : (forall i, lo <= i < hi -> 0 <= f i) -> zsum lo hi f = 0 ->
  forall i, lo <= i < hi -> f i = 0.
Proof.
  intros N S i Hi. rewrite (zsum_split lo i hi), (zsum_cons i hi) in S by lia.
  assert (A : 0 <= zsum lo i f) by (apply zsum_nonneg; intros; apply N; lia).
  assert (B : 0 <= zsum (i + 1) hi f) by (apply zsum_nonneg; intros; apply N; lia).
  specialize (N i Hi). lia.
Qed.

Lemma over_nonneg T f : (forall x y, 0 <= f x y) -> 0 <= over_template T f.
Proof. intros H. apply zsum_nonneg. intros j _. apply zsum_nonneg. intros i _. apply H. Qed.
Lemma over_null T f : (forall x y, 0 <= f x y) -> over_template T f = 0 ->
  forall x y, 0 <= x < iw T -> 0 <= y < ih T -> f x y = 0.
Proof.
  intros N S x y Hx Hy. apply (zsum_null 0 (iw T) (fun x => f x y)); auto.
  apply (zsum_null 0 (ih T) (fun y => zsum 0 (iw T) (fun x => f x y))); auto.
  intros j _. apply zsum_nonneg. intros i _. apply N.
Qed.
Lemma over_ext T f g : (forall x y, 0 <= x < iw T -> 0 <= y < ih T -> f x y = g x y) -> over_template T f = over_template T g.
Proof. intros H. apply zsum_ext. intros j Hj. apply zsum_ext. intros i Hi. now apply H. Qed.
Lemma over_plus T f g : over_template T (fun x y => f x y + g x y) = over_template T f + over_template T g.
Proof. unfold over_template. rewrite <- zsum_plus. apply zsum_ext. intros j _. apply zsum_plus. Qed.
Lemma over_scal T c f : over_template T (fun x y => c * f x y) = c * over_template T f.
Proof. unfold over_template. rewrite <- zsum_scal. apply zsum_ext. intros j _. apply zsum_scal. Qed.

Lemma errors_nonneg im tpl x y : 0 <= squared_errors im tpl no_mask x y.
Proof. apply over_nonneg. intros. apply Z.pow_even_nonneg. now exists 1. Qed.

(** no error exactly at the occurrences *)
Lemma errors_zero im tpl x y : wf im -> wf tpl -> 0 <= x <= iw im - iw tpl -> 0 <= y <= ih im - ih tpl ->
  (squared_errors im tpl no_mask x y = 0 <-> occurs im tpl x y).
Proof.
  intros Wi Wt Hx Hy. split.
  - intros S. split; [exact Hx|]. split; [exact Hy|]. intros x' y' Hx' Hy'.
    assert (E := over_null tpl _ (fun a b => Z.pow_even_nonneg _ 2 (ex_intro _ 1 eq_refl)) S x' y' Hx' Hy'). cbv beta in E.
    apply Z.pow_eq_0_iff in E. destruct E as [E|[_ E]]; [lia|]. unfold no_mask, px in E.
    destruct (get_some tpl x' y' Wt Hx' Hy') as (a & Ea). destruct (get_some im (x + x') (y + y') Wi ltac:(lia) ltac:(lia)) as (b & Eb).
    rewrite Ea, Eb in E |- *. f_equal. lia.
  - intros (_ & _ & O). unfold squared_errors. rewrite (over_ext tpl _ (fun _ _ => 0 * 0)).
    + rewrite over_scal. reflexivity.
    + intros x' y' Hx' Hy'. unfold px. rewrite (O x' y' Hx' Hy'). rewrite Z.sub_diag. reflexivity.
Qed.

Lemma powers_nonneg im tpl x y : 0 <= template_power tpl no_mask /\ 0 <= image_power im tpl no_mask x y.
Proof. split; apply over_nonneg; intros; apply Z.pow_even_nonneg; now exists 1. Qed.

Lemma score_zero im tpl x y m : squared m ->
  (0 <= documented_score im tpl no_mask x y m)%R /\
  (documented_score im tpl no_mask x y m = 0%R <-> squared_errors im tpl no_mask x y = 0).
Proof.
  intros Hm. assert (N := errors_nonneg im tpl x y). destruct (powers_nonneg im tpl x y) as (P1 & P2).
  set (S := squared_errors im tpl no_mask x y) in *.
  assert (E : numerator im tpl no_mask x y m = S) by (destruct Hm as [-> | ->]; reflexivity).
  unfold documented_score. rewrite E. set (TI := template_power tpl no_mask * image_power im tpl no_mask x y).
  assert (P : 0 <= TI) by (unfold TI; nia). clearbody S TI.
  assert (NR : (0 <= IZR S)%R) by (apply IZR_le; lia).
  destruct (normalized m && negb (TI =? 0)) eqn:B.
  - assert (Q : (0 < sqrt (IZR TI))%R). { apply sqrt_lt_R0. apply IZR_lt. apply andb_prop in B. destruct B as (_ & B). lia. }
    split. { apply Rmult_le_pos; [exact NR|]. left. now apply Rinv_0_lt_compat. }
    split; intros H.
    + apply eq_IZR. apply Rmult_eq_reg_r with (/ sqrt (IZR TI))%R; [|apply Rinv_neq_0_compat; lra]. rewrite Rmult_0_l. exact H.
    + rewrite H. unfold Rdiv. apply Rmult_0_l.
  - split; [exact NR|]. split; [apply eq_IZR|]. now intros ->.
Qed.

(** the computed score against the documented one *)
Lemma within_zero n v r : 0 < n < 2 ^ 20 -> (0 <= r)%R -> within (8 * (IZR n + 1))%R v r ->
  (0 <= B2R v)%R /\ (B2R v = 0%R <-> r = 0%R).
Proof.
  intros Hn Hr (_ & H). assert (N : (0 < IZR n <= 1048575)%R) by (split; [apply IZR_lt|apply IZR_le]; lia).
  rewrite (Rabs_pos_eq r) in H by exact Hr.
  assert (H2 : (Rabs (B2R v - r) <= r / 2)%R).
  { eapply Rle_trans; [exact H|]. replace (r / 2)%R with (/ 2 * r)%R by lra. apply Rmult_le_compat_r; lra. }
  apply Rabs_le_inv in H2. split; [lra|]. split; intros; lra.
Qed.

Section Match.
  Context (im tpl : image Z) (F : fits im tpl) (Small : iw tpl * ih tpl < 2 ^ 20).
  Lemma all_finite m out : matched im tpl no_mask m out -> all_px (fun v : f32 => is_finite v = true) out.
  Proof using Small.
    intros (W & _ & _ & H) x y a G. destruct (get_inb out x y a G) as (Hx & Hy).
    destruct (H x y Hx Hy) as (v & G' & S & _). rewrite G in G'. injection G' as <-. apply (S Small).
  Qed.
End Match.

(** ** C108 *)
(** for any template: the smallest sum of squared errors is zero exactly when the template
    occurs, and then it is reported at the first occurrence *)
Theorem c108_search im tpl m : fits im tpl -> iw tpl * ih tpl < 2 ^ 20 -> squared m ->
  exists out e, match_template im tpl m = Ok out /\ find_extremes flt out = Ok e /\
    (0 <= B2R (min_value e))%R /\
    (B2R (min_value e) = 0%R <-> exists x y, occurs im tpl x y) /\
    ((exists x y, occurs im tpl x y) -> first_occurrence im tpl (min_value_location e)).
Proof.
  intros F Small Hm. destruct (c55_match_template im tpl m F) as (out & E & M). exists out.
  assert (A := all_finite im tpl Small m out M). destruct M as (W & D1 & D2 & H).
  destruct F as (Gi & Gt & Wi & Hi & W0 & H0).
  destruct (c54_find_extremes_f32_partial out W ltac:(lia) ltac:(lia) A) as (e & Ee & _ & (G & L)). exists e.
  assert (Score : forall x y v, get out x y = Some v -> is_finite v = true /\ (0 <= B2R v)%R /\ (B2R v = 0%R <-> occurs im tpl x y)).
  { intros x y v Gv. destruct (get_inb out x y v Gv) as (Hx & Hy). destruct (H x y Hx Hy) as (v' & G' & S & _).
    rewrite Gv in G'. injection G' as <-. split; [apply (S Small)|].
    destruct (score_zero im tpl x y m Hm) as (P & Q).
    destruct (within_zero (iw tpl * ih tpl) v _ ltac:(nia) P (S Small)) as (P' & Q'). split; [exact P'|].
    rewrite Q', Q. apply errors_zero; [apply Gi|apply Gt|lia|lia]. }
  assert (Reach : forall x y, occurs im tpl x y -> exists v, get out x y = Some v).
  { intros x y (Ox & Oy & _). apply get_some; [exact W|lia|lia]. }
  destruct (Score _ _ _ G) as (Fm & Pm & Zm).
  assert (K : (exists x y, occurs im tpl x y) -> B2R (min_value e) = 0%R).
  { intros (x & y & O). destruct (Reach x y O) as (v & Gv). destruct (Score x y v Gv) as (Fv & Pv & Zv).
    destruct (L x y v Gv) as (L1 & _). cbv beta in L1. rewrite flt32_R in L1 by assumption.
    destruct (Rlt_bool_spec (B2R v) (B2R (min_value e))) as [|L2]; [discriminate|]. apply Zv in O. lra. }
  split; [exact E|]. split; [exact Ee|]. split; [exact Pm|]. split.
  - split; [|exact K]. intros Z0. eexists _, _. apply Zm. exact Z0.
  - intros X. assert (Z0 := K X). split; [now apply Zm|].
    intros x y O. destruct (Reach x y O) as (v & Gv). destruct (Score x y v Gv) as (Fv & Pv & Zv).
    destruct (L x y v Gv) as (_ & L2). apply L2. cbv beta. rewrite flt32_R by assumption. apply Rlt_bool_false. apply Zv in O. lra.
Qed.

Lemma window_occurs im tpl rx ry rw rh : 0 <= rx -> 0 <= ry -> rx + rw <= iw im -> ry + rh <= ih im ->
  window im tpl rx ry rw rh -> occurs im tpl rx ry.
Proof.
  intros Hx Hy Hw Hh (W & D1 & D2 & G). unfold occurs. rewrite D1, D2. split; [lia|]. split; [lia|]. exact G.
Qed.

Lemma crop_fits im rx ry rw rh : gray8 im -> u32_dims im -> 0 <= rx -> 0 <= ry -> 0 < rw -> 0 < rh -> rx + rw <= iw im -> ry + rh <= ih im ->
  exists tpl, crop im rx ry rw rh = Ok tpl /\ window im tpl rx ry rw rh /\ fits im tpl.
Proof.
  intros (Wi & Bi) (U1 & U2) Hx Hy Hw Hh Fx Fy.
  destruct (crop_correct im rx ry rw rh Wi (conj U1 U2) Hx Hy ltac:(lia) ltac:(lia)) as (C & _).
  destruct (C (conj Fx Fy)) as (tpl & E & Win). exists tpl. split; [exact E|]. split; [exact Win|].
  destruct Win as (W & D1 & D2 & G). split; [now split|]. split.
  - split; [exact W|]. intros x y a Ga. destruct (get_inb tpl x y a Ga) as (Ix & Iy). rewrite G in Ga by lia. exact (Bi _ _ _ Ga).
  - lia.
Qed.

(** a window cut out of the image by [crop] is found: the score there is zero, and the location
    reported is the place of the cut or an earlier place where the image shows the same pixels *)
Theorem c108_cut_is_found im rx ry rw rh m : gray8 im -> u32_dims im ->
  0 <= rx -> 0 <= ry -> 0 < rw -> 0 < rh -> rx + rw <= iw im -> ry + rh <= ih im -> rw * rh < 2 ^ 20 -> squared m ->
  exists tpl out e, crop im rx ry rw rh = Ok tpl /\ match_template im tpl m = Ok out /\ find_extremes flt out = Ok e /\
    B2R (min_value e) = 0%R /\ first_occurrence im tpl (min_value_location e) /\
    (min_value_location e = (rx, ry) \/ reads_before (min_value_location e) (rx, ry)) /\
    ((forall x y, occurs im tpl x y -> (x, y) = (rx, ry)) -> min_value_location e = (rx, ry)).
Proof.
  intros Gi U Hx Hy Hw Hh Fx Fy Small Hm. destruct (crop_fits im rx ry rw rh Gi U Hx Hy Hw Hh Fx Fy) as (tpl & E & Win & F).
  assert (O := window_occurs im tpl rx ry rw rh Hx Hy Fx Fy Win). destruct Win as (_ & D1 & D2 & _).
  destruct (c108_search im tpl m F ltac:(rewrite D1, D2; exact Small) Hm) as (out & e & E1 & E2 & _ & Z0 & L).
  assert (X : exists x y, occurs im tpl x y) by (exists rx, ry; exact O). specialize (L X).
  exists tpl, out, e. split; [exact E|]. split; [exact E1|]. split; [exact E2|]. split; [now apply Z0|]. split; [exact L|].
  destruct L as (L1 & L2). split.
  - destruct (L2 rx ry O) as [<-|B]; auto.
  - intros Only. specialize (Only _ _ L1). destruct (min_value_location e). exact Only.
Qed.

(** *** Correlation *)
(** the Cauchy-Schwarz inequality for the documented sums *)
Lemma correlation_bound im tpl x y :
  cross_correlation im tpl no_mask x y ^ 2 <= template_power tpl no_mask * image_power im tpl no_mask x y.
Proof.
  set (C := cross_correlation im tpl no_mask x y). set (T := template_power tpl no_mask). set (J := image_power im tpl no_mask x y).
  assert (Q : forall s t, 0 <= s * s * T - 2 * (s * t) * C + t * t * J).
  { intros s t. replace (s * s * T - 2 * (s * t) * C + t * t * J) with
      (over_template tpl (fun x' y' => (s * px tpl x' y' - t * px im (x + x') (y + y')) ^ 2)).
    - apply over_nonneg. intros. apply Z.pow_even_nonneg. now exists 1.
    - rewrite (over_ext tpl _ (fun x' y' => (s * s * (px tpl x' y' * no_mask x' y') ^ 2 + (-2 * (s * t)) * (px tpl x' y' * px im (x + x') (y + y') * no_mask x' y' ^ 2))
        + t * t * (px im (x + x') (y + y') * no_mask x' y') ^ 2)).
      + rewrite over_plus, over_plus, !over_scal. unfold T, C, J, template_power, cross_correlation, image_power. ring.
      + intros x' y' _ _. unfold no_mask. ring. }
  destruct (powers_nonneg im tpl x y) as (PT & PJ). fold T in PT. fold J in PJ. clearbody C T J.
  destruct (Z.eq_dec J 0) as [->|NJ].
  - specialize (Q 1 ((T + 1) * C)). rewrite Z.mul_0_r. assert (C * C = 0); [|nia].
    assert (0 <= C * C) by nia. nia.
  - specialize (Q J C). assert (J * (T * J - C ^ 2) >= 0) by nia. nia.
Qed.

Lemma px_nonneg im x y : gray8 im -> 0 <= px im x y.
Proof. intros (_ & B). unfold px. destruct (get im x y) eqn:G; [|lia]. apply B in G. unfold is_u8 in G. lia. Qed.

Lemma correlation_at_most_one im tpl x y : gray8 im -> gray8 tpl ->
  (0 <= documented_score im tpl no_mask x y CrossCorrelationNormalized <= 1)%R.
Proof.
  intros Gi Gt. assert (B := correlation_bound im tpl x y). unfold documented_score. cbn [normalized numerator andb].
  assert (N : 0 <= cross_correlation im tpl no_mask x y).
  { apply over_nonneg. intros. unfold no_mask. assert (P1 := px_nonneg tpl x0 y0 Gt). assert (P2 := px_nonneg im (x + x0) (y + y0) Gi). nia. }
  set (C := cross_correlation im tpl no_mask x y) in *. set (TJ := template_power tpl no_mask * image_power im tpl no_mask x y) in *. clearbody C TJ.
  assert (NR : (0 <= IZR C)%R) by (apply IZR_le; lia).
  destruct (Z.eqb_spec TJ 0) as [->|H]; cbn [negb].
  - assert (C = 0) as -> by nia. lra.
  - assert (P : (0 < IZR TJ)%R) by (apply IZR_lt; nia). assert (S := sqrt_lt_R0 _ P).
    assert (K : (IZR C <= sqrt (IZR TJ))%R).
    { rewrite <- (sqrt_square (IZR C)) by exact NR. apply sqrt_le_1_alt. rewrite <- mult_IZR. apply IZR_le. nia. }
    assert (I := Rinv_0_lt_compat _ S). split; [apply Rmult_le_pos; lra|].
    apply Rmult_le_reg_r with (sqrt (IZR TJ)); [exact S|]. unfold Rdiv. rewrite Rmult_assoc, Rinv_l by lra. lra.
Qed.

Lemma correlation_at_occurrence im tpl x y : template_power tpl no_mask <> 0 -> occurs im tpl x y ->
  documented_score im tpl no_mask x y CrossCorrelationNormalized = 1%R.
Proof.
  intros NT (_ & _ & O). destruct (powers_nonneg im tpl x y) as (PT & _).
  assert (EJ : image_power im tpl no_mask x y = template_power tpl no_mask).
  { apply over_ext. intros x' y' Hx Hy. unfold px. now rewrite (O x' y' Hx Hy). }
  assert (EC : cross_correlation im tpl no_mask x y = template_power tpl no_mask).
  { apply over_ext. intros x' y' Hx Hy. unfold px, no_mask. rewrite (O x' y' Hx Hy). ring. }
  unfold documented_score. cbn [normalized numerator andb]. rewrite EJ, EC. set (T := template_power tpl no_mask) in *. clearbody T.
  destruct (Z.eqb_spec (T * T) 0); [nia|]. cbn [negb]. rewrite mult_IZR, sqrt_square by (apply IZR_le; lia).
  apply Rinv_r. apply not_0_IZR. exact NT.
Qed.

(** the largest normalized correlation of a window cut out of the image that is not black: one,
    up to the rounding of f32, and no image and no template has a larger one *)
Theorem c108_correlation im tpl : fits im tpl -> iw tpl * ih tpl < 2 ^ 20 ->
  let eps := (8 * (IZR (iw tpl * ih tpl) + 1) / 16777216)%R in
  exists out e, match_template im tpl CrossCorrelationNormalized = Ok out /\ find_extremes flt out = Ok e /\
    (0 <= B2R (max_value e) <= 1 + eps)%R /\
    ((exists x y, occurs im tpl x y) -> (exists x y, 0 < px tpl x y) -> (1 - eps <= B2R (max_value e))%R).
Proof.
  intros F Small eps. destruct (c55_match_template im tpl CrossCorrelationNormalized F) as (out & E & M). exists out.
  assert (A := all_finite im tpl Small _ out M). destruct M as (W & D1 & D2 & H).
  destruct F as (Gi & Gt & Wi & Hi & W0 & H0).
  destruct (c54_find_extremes_f32_partial out W ltac:(lia) ltac:(lia) A) as (e & Ee & (G & L) & _). exists e.
  assert (N : (0 < IZR (iw tpl * ih tpl) <= 1048575)%R) by (split; [apply IZR_lt|apply IZR_le]; nia).
  assert (Pe : (0 < eps <= / 2)%R) by (unfold eps; lra).
  assert (Score : forall x y v, get out x y = Some v -> is_finite v = true /\
    (Rabs (B2R v - documented_score im tpl no_mask x y CrossCorrelationNormalized) <= eps * documented_score im tpl no_mask x y CrossCorrelationNormalized)%R).
  { intros x y v Gv. destruct (get_inb out x y v Gv) as (Hx & Hy). destruct (H x y Hx Hy) as (v' & G' & S & _).
    rewrite Gv in G'. injection G' as <-. destruct (S Small) as (Fv & Rv). split; [exact Fv|].
    assert (B := correlation_at_most_one im tpl x y Gi Gt). rewrite (Rabs_pos_eq (documented_score _ _ _ _ _ _)) in Rv by lra. exact Rv. }
  split; [exact E|]. split; [exact Ee|]. destruct (Score _ _ _ G) as (Fm & Rm). split.
  - assert (B := correlation_at_most_one im tpl (fst (max_value_location e)) (snd (max_value_location e)) Gi Gt).
    set (d := documented_score _ _ _ _ _ _) in *. clearbody d. apply Rabs_le_inv in Rm.
    assert (0 <= eps * d <= eps * 1)%R by (split; [apply Rmult_le_pos|apply Rmult_le_compat_l]; lra).
    assert (eps * d <= / 2 * d)%R by (apply Rmult_le_compat_r; lra). lra.
  - intros (x & y & O) (a & b & P). assert (NT : template_power tpl no_mask <> 0).
    { intros Z0. assert (I : 0 <= a < iw tpl /\ 0 <= b < ih tpl). { unfold px in P. destruct (get tpl a b) eqn:Ga; [|lia]. exact (get_inb _ _ _ _ Ga). }
      assert (Q := over_null tpl _ (fun _ _ => Z.pow_even_nonneg _ 2 (ex_intro _ 1 eq_refl)) Z0 a b (proj1 I) (proj2 I)). cbv beta in Q. unfold no_mask in Q. nia. }
    assert (One := correlation_at_occurrence im tpl x y NT O).
    destruct O as (Ox & Oy & _). destruct (get_some out x y W ltac:(lia) ltac:(lia)) as (v & Gv).
    destruct (Score x y v Gv) as (Fv & Rv). rewrite One in Rv. apply Rabs_le_inv in Rv.
    destruct (L x y v Gv) as (L1 & _). rewrite flt32_R in L1 by assumption.
    destruct (Rlt_bool_spec (B2R (max_value e)) (B2R v)) as [|L2]; [discriminate|]. lra.
Qed.

(** a 3x3 photo whose lower right quarter occurs once, and a striped one where the cut
    at (2, 0) is found at (0, 0) *)
Definition stripes : image Z := gen 4 2 (fun x y => 50 * (x mod 2) + 10).
Example c108_nontrivial :
  gray8 photo /\ u32_dims photo /\ 1 + 2 <= iw photo /\
  crop photo 1 1 2 2 = Ok (mkImage 2 2 [4; 5; 7; 8]) /\
  (forall x y, occurs photo (mkImage 2 2 [4; 5; 7; 8]) x y -> (x, y) = (1, 1)) /\
  gray8 stripes /\ occurs stripes (gen 2 2 (fun x y => 50 * x + 10)) 0 0 /\ occurs stripes (gen 2 2 (fun x y => 50 * x + 10)) 2 0 /\
  ~ occurs stripes (gen 2 2 (fun x y => 50 * x + 10)) 1 0.
Proof.
  split; [apply gray8b_ok; reflexivity|]. split; [unfold u32_dims; cbn; lia|]. split; [cbn; lia|]. split; [reflexivity|].
  split. { intros x y (Hx & Hy & O). cbn [iw ih photo gen] in Hx, Hy. specialize (O 0 0 ltac:(cbn; lia) ltac:(cbn; lia)).
    assert (C : (x = 0 \/ x = 1) /\ (y = 0 \/ y = 1)) by lia. destruct C as ([-> | ->] & [-> | ->]); try discriminate O. reflexivity. }
  split; [apply gray8b_ok; reflexivity|].
  assert (K : forall k, k = 0 \/ k = 2 -> occurs stripes (gen 2 2 (fun x y => 50 * x + 10)) k 0).
  { intros k Hk. split; [cbn; lia|]. split; [cbn; lia|]. cbn [iw ih gen]. intros x' y' Hx Hy.
    assert (C : (x' = 0 \/ x' = 1) /\ (y' = 0 \/ y' = 1)) by lia. destruct C as ([-> | ->] & [-> | ->]); destruct Hk as [-> | ->]; reflexivity. }
  split; [apply K; auto|]. split; [apply K; auto|].
  intros (_ & _ & O). specialize (O 0 0 ltac:(cbn; lia) ltac:(cbn; lia)). discriminate O.
Qed.

Print Assumptions c108_search. Print Assumptions c108_cut_is_found. Print Assumptions c108_correlation.
