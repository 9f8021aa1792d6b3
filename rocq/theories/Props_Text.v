(** C94 (drawing text) and C95 (measuring and setting text). *)
From Flocq Require Import Core BinarySingleNaN.
From Coq Require Import Reals Lra.
From Verif Require Import Base BaseProofs Float FloatProofs FloatErr LineModel LineProofs TemplateProofs WuModel WuSpec WuProofs SuppressProofs TextModel TextSpec TextProofs.
Local Ltac Zify.zify_post_hook ::= idtac.
Local Open Scope Z_scope.

(** ** C94 *)
(** [out] is [im] with the glyphs [gs] painted in colour [col] at (x, y): every
    pixel has been covered by exactly the stamps that fall on it, in order. *)
Definition shows_text (col : list Z) (x y : Z) (gs : list glyph) (im out : image (list Z)) : Prop :=
  wf out /\ iw out = iw im /\ ih out = ih im /\
  forall X Y p, get im X Y = Some p -> exists q, get out X Y = Some q /\ painted col (covers X Y (stamps x y gs)) p q.

(** The full property, for positions up to [lim] in magnitude: whenever the
    text has a size, it is drawn, whatever part of it is outside the image. *)
Definition c94_for (lim : Z) : Prop :=
  forall C G (F : font C G) (text : list C) gs pen size n hi col im x y,
  set_text F text gs pen -> (forall g, In g gs -> sane_glyph g) -> text_size F text = Ok size ->
  hi = 255 \/ hi = 65535 -> good_pixel n hi col -> good_image n hi im ->
  wf im -> iw im < 2 ^ 31 -> ih im < 2 ^ 31 -> Z.abs x <= lim -> Z.abs y <= lim ->
  exists out, draw_text F hi col x y text im = Ok out /\ shows_text col x y gs im out.
Definition c94_statement : Prop := c94_for (2 ^ 31 - 1).

(** Proved: positions up to 2^29.  Missing: positions near the end of i32
    (refuted below). *)
Theorem c94_text_partial : c94_for (2 ^ 29).
Proof.
  intros C G F text gs pen size n hi col im x y T Sg Sz Hh Hc Gi W Hw Hg Hx Hy. unfold set_text in T.
  destruct (layout_ok n hi col Hh Hc F x y text Hx Hy _ _ _ _ T Sg im W Hw Hg Gi) as (prev' & im' & E & W' & A' & B' & _ & P').
  exists im'. split; [|split; [exact W'|]; split; [exact A'|]; split; [exact B'|exact P']].
  unfold draw_text, layout_glyphs. unfold text_size, layout_glyphs in Sz. destruct (measure_ok F text _ _ _ _ T) as (prev2 & M).
  destruct text as [|c text]; [cbn [for_each] in E; injection E as _ _ ->; reflexivity|].
  rewrite E. rewrite M in Sz. cbn [bind] in *.
  destruct (fle (of_int 0) (fceil pen)); cbn [assert bind] in *; [|discriminate].
  destruct (fle (of_int 0) (fceil (height F))); cbn [assert bind] in *; [|discriminate].
  destruct (chk_u 32 (1 + to_int 0 (2 ^ 32 - 1) (fceil pen))) as [m| |]; cbn [bind] in *; [reflexivity|discriminate|discriminate].
Qed.
Print Assumptions c94_text_partial.

(** Every text can be set, so the theorem above applies to all texts whose
    glyphs are sane and whose size is defined. *)
Theorem c94_set : forall C G (F : font C G) text, exists gs pen, set_text F text gs pen.
Proof. intros C G F text. apply typeset_total. Qed.
Print Assumptions c94_set.

(** A font with one glyph: a pixel of coverage 3/4 with its corner at (1, 0)
    relative to the pen position (0, ascent); of width 2. *)
Definition demo_glyph (pos : f32 * f32) : glyph := mkGlyph (fadd (fst pos) (of_int 1), of_int 0) [(0, 0, of_dyadic 3 (-2)); (0, 1, of_int 1)].
Definition demo : font unit unit :=
  mkFont unit unit (fun u => u) (fun _ pos => Some (demo_glyph pos)) (fun _ => of_int 2) (fun _ _ => of_int 0) (of_int 3) (of_int 4).

Lemma demo_sane (p : f32 * f32) (k : Z) : 0 <= k <= 1000 -> fadd (fst p) (of_int 1) = of_int k -> sane_glyph (demo_glyph p).
Proof.
  intros Hk E. unfold sane_glyph, demo_glyph. cbn [g_min g_cover fst snd]. rewrite E.
  destruct (int32_R k) as (F & R); [lia|]. destruct (int32_R 0) as (F0 & R0); [lia|].
  split; [exact F|]. split; [exact F0|]. rewrite R, R0, <- !abs_IZR. split; [apply IZR_le; lia|]. split; [apply IZR_le; lia|].
  intros gx gy v [H|[H|[]]]; inversion H; subst; (split; [lia|split; [lia|vm_compute; reflexivity]]).
Qed.

(** At x = i32::MAX the text lies to the right of the image, but the addition
    of the glyph's corner overflows. *)
Theorem c94_far_panics : draw_text demo 255 [9] (2 ^ 31 - 1) 0 [tt] (mkImage 1 1 [[0]]) = Panic.
Proof. vm_compute. reflexivity. Qed.
Print Assumptions c94_far_panics.

Lemma demo_one : exists gs pen, set_text demo [tt] gs pen /\ forall g, In g gs -> sane_glyph g.
Proof.
  exists [demo_glyph (of_int 0, of_int 3)], (fadd (of_int 0) (of_int 2)). split.
  - unfold set_text. eapply typeset_first; [reflexivity|]. apply typeset_end.
  - intros g [<-|[]]. apply (demo_sane _ 1); [lia|]. apply B2SF_inj. vm_compute. reflexivity.
Qed.

Theorem c94_refuted : ~ c94_statement.
Proof.
  intros S. destruct demo_one as (gs & pen & T & Sg).
  destruct (S unit unit demo [tt] gs pen (3, 4) 1 255 [9] (mkImage 1 1 [[0]]) (2 ^ 31 - 1) 0 T Sg) as (out & E & _);
    try (vm_compute; reflexivity); try lia.
  - split; [reflexivity|]. intros v [<-|[]]; lia.
  - intros x y p E. unfold get in E. cbn [idata] in E. split.
    + destruct (inb _ x y); [|discriminate]. apply znth_In in E. destruct E as [<-|[]]. reflexivity.
    + intros v Hv. destruct (inb _ x y); [|discriminate]. apply znth_In in E. destruct E as [<-|[]]. destruct Hv as [<-|[]]. lia.
  - split; [cbn; lia|split; [cbn; lia|reflexivity]].
  - rewrite c94_far_panics in E. discriminate.
Qed.
Print Assumptions c94_refuted.

(** two characters on a 5 x 3 image, partly to the left of it *)
Example c94_nontrivial : draw_text demo 255 [200] (-2) 1 [tt; tt] (mkImage 5 3 (repeat [100] 15)) =
  Ok (mkImage 5 3 [[100]; [100]; [100]; [100]; [100];  [100]; [175]; [100]; [100]; [100];  [100]; [200]; [100]; [100]; [100]]).
Proof. vm_compute. reflexivity. Qed.

(** ** C95 *)
(** The full property: a text of non-blank glyphs is set with the kerning of
    each pair, and its size is one more than the final pen position and the
    line height, both rounded up. *)
Definition c95_statement : Prop :=
  forall C G (F : font C G) text gs pen size glyphs, text <> [] -> kerned F (of_int 0) None text gs pen ->
  layout_glyphs F text (fun g l => Ok (l ++ [g])) [] = Ok (glyphs, size) ->
  glyphs = gs /\ IZR (fst size) = (1 + IZR (Zceil (B2R pen)))%R /\ snd size = Zceil (B2R (height F)).

(** Proved: the size, with the pen moved the way the code moves it: the kerning
    is looked up for the pair (this one, previous) and takes effect after the
    second glyph of the pair.
    Missing: kerning between the right pairs (refuted below). *)
Theorem c95_size_partial : forall C G (F : font C G) text gs pen, text <> [] -> set_text F text gs pen ->
  is_finite pen = true -> is_finite (height F) = true ->
  (-1 < B2R pen <= IZR (2 ^ 32 - 2))%R -> (-1 < B2R (height F) <= IZR (2 ^ 32 - 1))%R ->
  text_size F text = Ok (1 + Zceil (B2R pen), Zceil (B2R (height F))).
Proof.
  intros C G F text gs pen N T Fp Fh Bp Bh. destruct (measure_ok F text _ _ _ _ T) as (prev' & M).
  unfold text_size, layout_glyphs. destruct text as [|c text]; [congruence|]. rewrite M. cbn [bind].
  destruct (int32_R 0) as (F0 & R0); [lia|].
  destruct (nearby_R 24 128 mode_UP pen Fp) as (F1 & R1). destruct (nearby_R 24 128 mode_UP (height F) Fh) as (F2 & R2).
  cbn [round_mode] in R1, R2.
  assert (K : forall r b, (-1 < r <= IZR b)%R -> 0 <= Zceil r <= b).
  { intros r b (A & B). split; [|apply Zceil_glb; exact B]. pose proof (Zceil_ub r) as U. assert (IZR (-1) < IZR (Zceil r))%R by (change (IZR (-1)) with (-1)%R; lra).
    apply lt_IZR in H. lia. }
  pose proof (K _ _ Bp) as K1. pose proof (K _ _ Bh) as K2.
  unfold fle, fceil. rewrite !(Bleb_correct 24 128) by assumption. rewrite R0, R1, R2.
  rewrite !Rle_bool_true by (apply (IZR_le 0); lia). cbn [assert bind].
  rewrite (to_int_IZR 24 128 _ _ _ _ F1 R1), (to_int_IZR 24 128 _ _ _ _ F2 R2).
  unfold zclamp. replace (Z.max 0 (Z.min (2 ^ 32 - 1) (Zceil (B2R pen)))) with (Zceil (B2R pen)) by lia.
  rewrite SuppressProofs.chk_u_ok by lia. cbn [bind]. do 2 f_equal. lia.
Qed.
Print Assumptions c95_size_partial.

(** the empty text has no size *)
Theorem c95_empty : forall C G (F : font C G), text_size F [] = Ok (0, 0).
Proof. reflexivity. Qed.
Print Assumptions c95_empty.

(** A text whose pen ends at -1 or further left panics, even though it could be
    drawn. *)
Theorem c95_negative_panics : forall C G (F : font C G) text gs pen, text <> [] -> set_text F text gs pen ->
  is_finite pen = true -> (B2R pen <= -1)%R -> text_size F text = Panic.
Proof.
  intros C G F text gs pen N T Fp Bp. destruct (measure_ok F text _ _ _ _ T) as (prev' & M).
  unfold text_size, layout_glyphs. destruct text as [|c text]; [congruence|]. rewrite M. cbn [bind].
  destruct (int32_R 0) as (F0 & R0); [lia|]. destruct (nearby_R 24 128 mode_UP pen Fp) as (F1 & R1). cbn [round_mode] in R1.
  unfold fle, fceil. rewrite (Bleb_correct 24 128) by assumption. rewrite R0, R1. rewrite Rle_bool_false; [reflexivity|].
  apply (IZR_lt _ 0). assert (Zceil (B2R pen) <= -1) by (apply Zceil_glb; exact Bp). lia.
Qed.
Print Assumptions c95_negative_panics.

(** A font with glyphs 0 and 1 of width 10, the pair (0, 1) kerned by -3: the
    second glyph of the text "01" is still placed at 10. *)
Definition pair_font : font Z Z :=
  mkFont Z Z (fun c => c) (fun _ pos => Some (mkGlyph pos [])) (fun _ => of_int 10)
    (fun a b => if (a =? 0) && (b =? 1) then of_int (-3) else of_int 0) (of_int 8) (of_int 12).
Theorem c95_kerning_refuted : ~ c95_statement.
Proof.
  intros S.
  set (gs := [mkGlyph (of_int 0, of_int 8) []; mkGlyph (fadd (fadd (of_int 0) (of_int 10)) (of_int (-3)), of_int 8) []]).
  assert (K : match layout_glyphs pair_font [0; 1] (fun g l => Ok (l ++ [g])) [] with
              | Ok (_ :: g :: _, _) => feq (fst (g_min g)) (of_int 7) | _ => true end = false) by (vm_compute; reflexivity).
  destruct (layout_glyphs pair_font [0; 1] (fun g l => Ok (l ++ [g])) []) as [(glyphs & size)| |] eqn:E; [|discriminate|discriminate].
  destruct (S Z Z pair_font [0; 1] gs (fadd (fadd (fadd (of_int 0) (of_int 10)) (of_int (-3))) (of_int 10)) size glyphs) as (H & _);
    [discriminate| |exact E|].
  - eapply kerned_first; [reflexivity|]. eapply kerned_next; [reflexivity|]. apply kerned_end.
  - clear S E. subst glyphs. unfold gs in K. cbn [g_min fst] in K.
    assert (K' : feq (fadd (fadd (of_int 0) (of_int 10)) (of_int (-3)) : f32) (of_int 7) = true) by (vm_compute; reflexivity).
    rewrite K' in K. discriminate.
Qed.
Print Assumptions c95_kerning_refuted.

(** two characters of the demonstration font: pen at 4, line height 4 *)
Example c95_nontrivial : text_size demo [tt; tt] = Ok (5, 4).
Proof. vm_compute. reflexivity. Qed.
