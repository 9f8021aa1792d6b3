(** C15 (adaptive_threshold), C16 (threshold), C17 (stretch_contrast). *)
From Verif Require Import Base BaseProofs IntegralModel IntegralSpec StatsSpec StatsProofs ContrastModel ContrastSpec RasterProofs ContrastProofs.
Ltac Zify.zify_post_hook ::= Z.div_mod_to_equations.

(** ** C15 *)
(** Full claim: for every 8-bit image and every r > 0 and i32 delta the call
    succeeds and each pixel is 255 iff it reaches the clipped-window mean
    minus delta. *)
Definition c15_statement : Prop := forall im r delta,
  gray8 im -> iw im < 2 ^ 32 -> ih im < 2 ^ 32 -> 0 < r < 2 ^ 32 -> - 2 ^ 31 <= delta < 2 ^ 31 ->
  adaptive_threshold im r delta = Ok (gen (iw im) (ih im) (adaptive_spec im r delta)).

(** Refuted: [mean as i32 - delta] overflows for delta = i32::MIN. *)
Theorem c15_adaptive_refuted : ~ c15_statement.
Proof.
  intros H. specialize (H (mkImage 1 1 [0]) 1 (- 2 ^ 31)).
  assert (G : gray8 (mkImage 1 1 [0])).
  { apply gray8b_ok; reflexivity. }
  specialize (H G ltac:(reflexivity) ltac:(reflexivity) ltac:(lia) ltac:(lia)).
  vm_compute in H. discriminate.
Qed.

(** A huge radius overflows too ([y + block_radius] in u32). *)
Theorem c15_adaptive_huge_radius_panics : 
  adaptive_threshold (mkImage 1 2 [0; 0]) (2 ^ 32 - 1) 0 = Panic.
Proof. vm_compute. reflexivity. Qed.

(** What holds: every radius below 2^31, every delta >= i32::MIN + 256, images
    whose brightness total cannot exceed i32::MAX. *)
Theorem c15_adaptive_partial : forall im r delta,
  gray8 im -> iw im < 2 ^ 31 -> ih im < 2 ^ 31 -> 255 * (iw im * ih im) < 2 ^ 31 ->
  0 < r < 2 ^ 31 -> 256 - 2 ^ 31 <= delta < 2 ^ 31 ->
  adaptive_threshold im r delta = Ok (gen (iw im) (ih im) (adaptive_spec im r delta)).
Proof.
  intros im r delta Hg Hw Hh Hs Hr Hd.
  destruct (adaptive_ok im Hg r delta Hr Hd Hs Hw Hh) as (o & E & ->). exact E.
Qed.

Theorem c15_adaptive_zero_radius : forall im delta, adaptive_threshold im 0 delta = Panic.
Proof. reflexivity. Qed.

Example c15_nontrivial :
  let im := mkImage 3 2 [10; 200; 30; 40; 50; 60] in
  adaptive_threshold im 1 0 = Ok (mkImage 3 2 [0; 255; 0; 0; 0; 0]) /\
  adaptive_threshold im 1 40 = Ok (mkImage 3 2 [0; 255; 0; 255; 255; 255]).
Proof. split; vm_compute; reflexivity. Qed.

(** ** C16 *)
Definition c16_statement : Prop := forall im t k x y v,
  gray8 im -> is_u8 t -> get im x y = Some v ->
  get (threshold im t k) x y = Some (documented_threshold t k v).

Theorem c16_threshold_refuted : ~ c16_statement.
Proof.
  intros H. specialize (H (mkImage 1 1 [80]) 50 ToZero 0 0 80).
  assert (G : gray8 (mkImage 1 1 [80])).
  { apply gray8b_ok; reflexivity. }
  specialize (H G ltac:(unfold is_u8; lia) eq_refl). vm_compute in H. discriminate.
Qed.

(** The documentation holds for three variants; the other two are swapped. *)
Theorem c16_threshold_partial : forall im t k,
  wf im ->
  let out := threshold im t k in
  wf out /\ iw out = iw im /\ ih out = ih im /\
  forall x y v, get im x y = Some v ->
    get out x y = Some (documented_threshold t
       (match k with ToZero => ToZeroInverted | ToZeroInverted => ToZero | _ => k end) v).
Proof.
  intros im t k W out. splits; auto. { apply wf_map_data; auto. }
  intros x y v G. unfold out, threshold, threshold_mut. rewrite get_map_data, G. cbn [option_map]. f_equal.
  unfold threshold_px, documented_threshold. rewrite Z.gtb_ltb. destruct k; auto.
Qed.

Example c16_nontrivial :
  threshold (mkImage 3 2 [10; 80; 20; 50; 90; 70]) 50 Binary = mkImage 3 2 [0; 255; 0; 0; 255; 255].
Proof. reflexivity. Qed.

(** ** C17 *)
Theorem c17_stretch_contrast : forall nc ch im imin imax omin omax,
  channels8 ch im -> is_u8 imin -> is_u8 imax -> is_u8 omin -> is_u8 omax ->
  imin < imax -> omin <= omax ->
  exists out, stretch_contrast nc im imin imax omin omax = Ok out /\
    wf out /\ iw out = iw im /\ ih out = ih im /\
    forall x y c, 0 <= x < iw im -> 0 <= y < ih im -> 0 <= c < ch ->
      chan out c x y = if c <? nc then stretched imin imax omin omax (chan im c x y) else chan im c x y.
Proof.
  intros nc ch im imin imax omin omax (W & Hp) H1 H2 H3 H4 Hi Ho.
  unfold stretch_contrast, assert.
  assert (imin <? imax = true) as -> by lia. assert (omin <=? omax = true) as -> by lia. cbn [bind].
  set (g := fun p : list Z => map (fun '(i, c) => if i <? nc then stretched imin imax omin omax c else c) (combine (zrange 0 (zlen p)) p)).
  rewrite (mapM_all _ g).
  2: { intros p Hin. destruct (In_get im p W Hin) as (x & y & G). apply map_without_alpha_ok.
       intros v Hv. apply stretch_level_ok; auto. apply (Hp x y p G); auto. }
  cbn [bind]. eexists; split; [reflexivity|]. splits; auto. { apply wf_map_data; auto. }
  intros x y c Hx Hy Hc. unfold chan. rewrite get_map_data. destruct (get_some im x y W Hx Hy) as (p & G). rewrite G.
  cbn [option_map]. destruct (Hp x y p G) as (Lp & _). unfold g.
  rewrite combine_index, map_map, znth_map, znth_zrange by lia. cbn [option_map]. rewrite Z.add_0_l. reflexivity.
Qed.

Theorem c17_stretch_monotone_and_bounded : forall imin imax omin omax a b,
  is_u8 imin -> is_u8 imax -> is_u8 omin -> is_u8 omax -> is_u8 a -> is_u8 b ->
  imin < imax -> omin <= omax ->
  omin <= stretched imin imax omin omax a <= omax /\
  (a <= b -> stretched imin imax omin omax a <= stretched imin imax omin omax b).
Proof.
  intros. split.
  - apply (stretch_level_ok imin imax omin omax a); auto.
  - intros. apply stretched_mono; auto.
Qed.

Theorem c17_stretch_panics : forall nc ch im imin imax omin omax,
  channels8 ch im -> is_u8 imin -> is_u8 imax -> is_u8 omin -> is_u8 omax ->
  stretch_contrast nc im imin imax omin omax = Panic <-> (imin >= imax \/ omin > omax).
Proof.
  intros nc ch im imin imax omin omax Him H1 H2 H3 H4. split.
  - intros E. destruct (Z_lt_dec imin imax); [|lia]. destruct (Z_le_dec omin omax); [|lia].
    destruct (c17_stretch_contrast nc ch im imin imax omin omax Him) as (o & Eo & _); auto. congruence.
  - intros H. unfold stretch_contrast, assert.
    destruct (imin <? imax) eqn:E1; auto. cbn [bind]. destruct (omin <=? omax) eqn:E2; auto. lia.
Qed.

Example c17_nontrivial :
  stretch_contrast 1 (luma (mkImage 3 2 [0; 20; 50; 80; 100; 255])) 20 100 0 255 =
  Ok (luma (mkImage 3 2 [0; 0; 95; 191; 255; 255])).
Proof. vm_compute. reflexivity. Qed.

Print Assumptions c15_adaptive_refuted.
Print Assumptions c15_adaptive_huge_radius_panics.
Print Assumptions c15_adaptive_partial.
Print Assumptions c16_threshold_refuted.
Print Assumptions c16_threshold_partial.
Print Assumptions c17_stretch_contrast.
Print Assumptions c17_stretch_monotone_and_bounded.
Print Assumptions c17_stretch_panics.
