(** Template matching: C54 and C55. *)
From Coq Require Import Reals Lra.
From Flocq Require Import Core BinarySingleNaN.
From Verif Require Import Base BaseProofs RasterProofs Float FloatProofs FloatErr TemplateModel TemplateSpec TemplateProofs.
Local Ltac Zify.zify_post_hook ::= idtac.
Local Open Scope Z_scope.

(** ** C54 *)
(** the two extremes of an image of integers, each at the first of its locations *)
Definition c54_statement (before : Z * Z -> Z * Z -> Prop) : Prop :=
  forall im : image Z, wf im -> 0 < iw im -> 0 < ih im ->
  exists e, find_extremes Z.ltb im = Ok e /\
    first_largest before Z.ltb im (max_value e) (max_value_location e) /\
    first_largest before (fun a b => Z.ltb b a) im (min_value e) (min_value_location e).

(** with the order of reading (row by row) *)
Theorem c54_find_extremes_partial : c54_statement reads_before.
Proof.
  intros im W Hw Hh. apply (extremes_ok Z.ltb (fun _ => True)); auto.
  - intros a _. apply Z.ltb_irrefl.
  - intros a b c _ _ _. lia.
  - intros a b c _ _ _. lia.
  - intros x y a _. exact I.
Qed.

(** not the lexicographically smallest pair (x, y) the documentation speaks of *)
Theorem c54_lexicographic_refuted : ~ c54_statement lex_before.
Proof.
  intros H. destruct (H (gen 2 2 (fun x y => if x =? y then 0 else 1)) ltac:(apply wf_gen; lia) ltac:(reflexivity) ltac:(reflexivity)) as (e & E & (G & F) & _).
  vm_compute in E. injection E as <-. cbn [max_value max_value_location] in *.
  destruct (F 0 1 1 eq_refl) as [_ L]. destruct (L eq_refl) as [L'|L']; [discriminate|]. unfold lex_before in L'. cbn [fst snd] in L'. lia.
Qed.

(** f32 images without NaN or infinities; a NaN in the first pixel hides everything else *)
Theorem c54_find_extremes_f32_partial (im : image f32) : wf im -> 0 < iw im -> 0 < ih im ->
  all_px (fun v : f32 => is_finite v = true) im ->
  exists e, find_extremes flt im = Ok e /\
    first_largest reads_before flt im (max_value e) (max_value_location e) /\
    first_largest reads_before (fun a b => flt b a) im (min_value e) (min_value_location e).
Proof.
  intros W Hw Hh A. apply (extremes_ok flt (fun v => is_finite v = true)); auto.
  - intros a F. rewrite flt32_R by auto. apply Rlt_bool_false. lra.
  - intros a b c Fa Fb Fc. rewrite !flt32_R by auto. intros H1 H2.
    destruct (Rlt_bool_spec (B2R a) (B2R b)); [|discriminate]. destruct (Rlt_bool_spec (B2R b) (B2R c)); [|discriminate].
    apply Rlt_bool_true. lra.
  - intros a b c Fa Fb Fc. rewrite !flt32_R by auto. intros H1 H2.
    destruct (Rlt_bool_spec (B2R a) (B2R c)); [|discriminate]. destruct (Rlt_bool_spec (B2R b) (B2R c)); [discriminate|].
    apply Rlt_bool_true. lra.
Qed.
Definition nan_first : image f32 := gen 2 1 (fun x y => if x =? 0 then B754_nan else of_int 1).
Theorem c54_nan_refuted : ~ forall im : image f32, wf im -> 0 < iw im -> 0 < ih im ->
  exists e, find_extremes flt im = Ok e /\ forall x y v, get im x y = Some v -> fis_nan v = false -> fle v (max_value e) = true.
Proof.
  intros H. destruct (H nan_first ltac:(apply wf_gen; lia) ltac:(reflexivity) ltac:(reflexivity)) as (e & E & F).
  specialize (F 1 0 (of_int 1) eq_refl eq_refl).
  assert (N : exists e', find_extremes flt nan_first = Ok e' /\ fis_nan (max_value e') = true).
  { eexists. split; [reflexivity|]. vm_compute. reflexivity. }
  destruct N as (e' & E' & N). rewrite E' in E. injection E as <-. destruct (max_value e'); try discriminate N. vm_compute in F. discriminate F.
Qed.
Example c54_nontrivial : find_extremes Z.ltb (gen 3 3 (fun x y => (x * x + y) mod 4)) = Ok (mkExtremes 3 0 (1, 2) (0, 0)).
Proof. vm_compute. reflexivity. Qed.

(** ** C55 *)
Definition fits (im tpl : image Z) : Prop :=
  gray8 im /\ gray8 tpl /\ iw im < 2 ^ 32 /\ ih im < 2 ^ 32 /\ 0 < iw tpl <= iw im /\ 0 < ih tpl <= ih im.

(** the result of matching: the size, the documented score at every position with a relative
    error of at most 8 (n + 1) / 2^24 when the template has n < 2^20 pixels, and the plain sums
    exactly, whatever the template, up to 2^24 *)
Definition matched (im tpl : image Z) (M : Z -> Z -> Z) (m : method) (out : image f32) : Prop :=
  wf out /\ iw out = iw im - iw tpl + 1 /\ ih out = ih im - ih tpl + 1 /\
  forall x y, 0 <= x < iw out -> 0 <= y < ih out ->
  exists v, get out x y = Some v /\
    (iw tpl * ih tpl < 2 ^ 20 ->
     within (8 * (IZR (iw tpl * ih tpl) + 1))%R v (documented_score im tpl M x y m)) /\
    (normalized m = false -> numerator im tpl M x y m <= 2 ^ 24 ->
     is_finite v = true /\ B2R v = IZR (numerator im tpl M x y m)).

Theorem c55_match_template im tpl m : fits im tpl ->
  exists out, match_template im tpl m = Ok out /\ matched im tpl no_mask m out.
Proof.
  intros (Gi & Gt & Wi & Hi & W0 & H0). unfold match_template. rewrite new_ok by lia. cbn [bind]. cbv zeta. rewrite dims_ok by lia. cbn [bind].
  destruct (gen_res_total (iw im - iw tpl + 1) (ih im - ih tpl + 1) (fun x y => score_at m (square_sum tpl) im tpl x y)
    (fun x y v => good_score (iw tpl * ih tpl) m im tpl no_mask x y v) zero) as (out & E & W & D1 & D2 & H); try lia.
  { intros x y Hx Hy. apply score_ok; auto; lia. }
  exists out. split; [exact E|]. split; [exact W|]. split; [exact D1|]. split; [exact D2|].
  intros x y Hx Hy. destruct (H x y ltac:(lia) ltac:(lia)) as (v & G & _ & S). exists v. split; [exact G|]. exact S.
Qed.

Theorem c55_match_template_with_mask im tpl mask m : fits im tpl -> gray8 mask -> iw mask = iw tpl -> ih mask = ih tpl ->
  exists out, match_template_with_mask im tpl m mask = Ok out /\ matched im tpl (px mask) m out.
Proof.
  intros (Gi & Gt & Wi & Hi & W0 & H0) Gm Wm Hm. unfold match_template_with_mask. rewrite <- Wm, <- Hm, !Z.eqb_refl. cbn [andb assert bind].
  rewrite new_ok by lia. cbn [bind]. cbv zeta. rewrite dims_ok by lia. cbn [bind].
  destruct (gen_res_total (iw im - iw tpl + 1) (ih im - ih tpl + 1) (fun x y => score_at_mask m (mult_square_sum tpl mask) im tpl mask x y)
    (fun x y v => good_score (iw tpl * ih tpl) m im tpl (px mask) x y v) zero) as (out & E & W & D1 & D2 & H); try lia.
  { intros x y Hx Hy. apply score_mask_ok; auto; lia. }
  exists out. split; [exact E|]. split; [exact W|]. split; [exact D1|]. split; [exact D2|].
  intros x y Hx Hy. destruct (H x y ltac:(lia) ltac:(lia)) as (v & G & _ & S). exists v. split; [exact G|]. exact S.
Qed.

(** the parallel version computes the same image *)
Theorem c55_parallel im tpl m : fits im tpl -> match_template_parallel im tpl m = match_template im tpl m.
Proof.
  intros (Gi & Gt & Wi & Hi & W0 & H0). unfold match_template_parallel, match_template. rewrite new_ok by lia. cbn [bind]. cbv zeta. rewrite dims_ok by lia. cbn [bind].
  set (w := iw im - iw tpl + 1). set (h := ih im - ih tpl + 1).
  set (g x y := match score_at m (square_sum tpl) im tpl x y with Ok v => v | _ => zero end).
  assert (F : forall x y, 0 <= x < w -> 0 <= y < h -> score_at m (square_sum tpl) im tpl x y = Ok (g x y)).
  { intros x y Hx Hy. unfold g. destruct (score_ok im tpl Gi Gt Wi Hi W0 H0 x y ltac:(lia) ltac:(lia) m) as (v & -> & _). reflexivity. }
  rewrite (mapM_ok _ (fun y => map (fun x => g x y) (zrange 0 w))).
  2:{ intros y Hy. apply in_zrange in Hy. apply mapM_ok. intros x Hx. apply in_zrange in Hx. now apply F. }
  cbn [bind]. rewrite (gen_res_ok w h _ g).
  2:{ intros x y Hx Hy. assert (E : vget (map (fun y => map (fun x => g x y) (zrange 0 w)) (zrange 0 h)) y = Ok (map (fun x => g x y) (zrange 0 w))).
      { apply vget_ok. rewrite znth_map, znth_zrange by lia. cbn [option_map]. now rewrite Z.add_0_l. }
      rewrite E. cbn [bind]. apply vget_ok. rewrite znth_map, znth_zrange by lia. cbn [option_map]. now rewrite Z.add_0_l. }
  symmetry. now apply gen_res_ok.
Qed.

(** otherwise it panics *)
Theorem c55_too_large im tpl m : iw im < iw tpl \/ ih im < ih tpl -> match_template im tpl m = Panic.
Proof.
  intros H. unfold match_template, image_template_new.
  destruct (Z.leb_spec (iw tpl) (iw im)); [|reflexivity]. cbn [assert bind].
  destruct (Z.leb_spec (ih tpl) (ih im)); [lia|reflexivity].
Qed.

Definition photo : image Z := gen 3 3 (fun x y => x + 3 * y).
Definition patch : image Z := gen 2 2 (fun x y => 1 + x + 3 * y).
Example c55_fits : fits photo patch.
Proof.
  unfold fits. split; [apply gray8b_ok; reflexivity|]. split; [apply gray8b_ok; reflexivity|]. cbn. lia.
Qed.
Example c55_nontrivial : numerator photo patch no_mask 0 0 SumOfSquaredErrors = 4 /\ numerator photo patch no_mask 1 0 SumOfSquaredErrors = 0 /\
  numerator photo patch no_mask 1 1 CrossCorrelation = 1 * 4 + 2 * 5 + 4 * 7 + 5 * 8.
Proof. vm_compute. auto. Qed.

Print Assumptions c54_find_extremes_partial. Print Assumptions c54_lexicographic_refuted. Print Assumptions c54_find_extremes_f32_partial. Print Assumptions c54_nan_refuted.
Print Assumptions c55_match_template. Print Assumptions c55_match_template_with_mask. Print Assumptions c55_parallel. Print Assumptions c55_too_large.
