(** Proofs about drawing text. *)
From Flocq Require Import Core BinarySingleNaN.
From Coq Require Import Reals Lra.
From Verif Require Import Base BaseProofs Float FloatProofs FloatErr ClampModel LineModel LineProofs TemplateProofs FContrastProofs WuModel WuSpec WuProofs TextModel TextSpec.
Local Ltac Zify.zify_post_hook ::= idtac.
Local Open Scope Z_scope.

Lemma clamp_unit (v : f32) : is_finite v = true ->
  unit_weight (fclamp v (of_int 0) (of_int 1)) /\ B2R (fclamp v (of_int 0) (of_int 1)) = fraction v.
Proof.
  intros F. destruct (int32_R 0) as (F0 & R0); [lia|]. destruct (int32_R 1) as (F1 & R1); [lia|].
  unfold fclamp, fraction. rewrite !flt32_R by assumption. rewrite R0, R1.
  destruct (Rlt_bool_spec (B2R v) 0).
  - split; [apply R_unit; [assumption|rewrite R0; lra]|]. rewrite R0. unfold Rmin, Rmax. repeat destruct Rle_dec; lra.
  - destruct (Rlt_bool_spec 1 (B2R v)).
    + split; [apply R_unit; [assumption|rewrite R1; lra]|]. rewrite R1. unfold Rmin, Rmax. repeat destruct Rle_dec; lra.
    + split; [apply R_unit; [assumption|lra]|]. unfold Rmin, Rmax. repeat destruct Rle_dec; lra.
Qed.

Lemma rnd_between a b r : Z.abs a <= 2 ^ 24 -> Z.abs b <= 2 ^ 24 -> (IZR a <= r <= IZR b)%R -> (IZR a <= rnd 24 128 r <= IZR b)%R.
Proof.
  intros Ha Hb H. rewrite <- (rnd_int 24 128 a Ha), <- (rnd_int 24 128 b Hb).
  split; apply (rnd_le 24 128); [apply H|]. apply H.
Qed.

(** the order of the two products does not matter *)
Lemma weighted_comm hi l r w : hi = 255 \/ hi = 65535 -> 0 <= l <= hi -> 0 <= r <= hi -> unit_weight w ->
  weighted_channel_sum hi l r (fsub (of_int 1) w) w = weighted_channel_sum hi r l w (fsub (of_int 1) w).
Proof.
  intros Hh Hl Hr Hw. unfold weighted_channel_sum. destruct (unit_R w Hw) as (Fw & Bw). destruct (int32_R 1) as (F1 & R1); [lia|].
  destruct (int32_R l) as (Fl & Rl); [lia|]. destruct (int32_R r) as (Fr & Rr); [lia|]. pose proof f32_big as BB.
  destruct (fsub_R 24 128 (of_int 1) w F1 Fw) as (Fc & Rc). { rewrite R1. rewrite Rabs_pos_eq; lra. }
  assert (Bc : (0 <= B2R (fsub (of_int 1) w) <= 1)%R).
  { rewrite Rc, R1. apply (rnd_between 0 1); try lia. lra. }
  set (c := fsub (of_int 1) w) in *. clearbody c.
  assert (HM : forall (z : Z) (u : f32), 0 <= z <= 65535 -> is_finite (of_int z : f32) = true -> B2R (of_int z : f32) = IZR z -> is_finite u = true -> (0 <= B2R u <= 1)%R ->
    is_finite (fmul (of_int z) u) = true /\ B2R (fmul (of_int z) u) = rnd 24 128 (IZR z * B2R u) /\ (0 <= B2R (fmul (of_int z) u) <= 65535)%R).
  { intros z u Hz Fz Rz Fu Bu. assert (IZ : (0 <= IZR z <= 65535)%R) by (split; apply IZR_le; lia).
    assert (PB : (0 <= IZR z * B2R u <= 65535)%R) by (clear - IZ Bu; nra).
    destruct (fmul_R 24 128 (of_int z) u Fz Fu) as (Fm & Rm). { rewrite Rz. rewrite Rabs_pos_eq; lra. }
    split; [exact Fm|]. rewrite Rm, Rz. split; [reflexivity|]. apply (rnd_between 0 65535); try lia. exact PB. }
  destruct (HM l c) as (Fa & Ra & Ba); try assumption; try lia.
  destruct (HM r w) as (Fb & Rb & Bb); try assumption; try lia.
  destruct (fadd_R 24 128 _ _ Fa Fb) as (Fs & Rs). { rewrite Rabs_pos_eq; lra. }
  destruct (fadd_R 24 128 _ _ Fb Fa) as (Ft & Rt). { rewrite Rabs_pos_eq; lra. }
  rewrite !clamp_R by (assumption || lia). rewrite Rs, Rt. rewrite Rplus_comm. reflexivity.
Qed.

Lemma weighted_sum_covered hi col (v : f32) p n : hi = 255 \/ hi = 65535 -> is_finite v = true -> good_pixel n hi p -> good_pixel n hi col ->
  let g := fclamp v (of_int 0) (of_int 1) in
  covered col v p (weighted_sum hi p col (fsub (of_int 1) g) g) /\ good_pixel n hi (weighted_sum hi p col (fsub (of_int 1) g) g).
Proof.
  intros Hh F (Lp & Bp) (Lc & Bc) g. destruct (clamp_unit v F) as (U & R). fold g in U, R.
  assert (L : zlen (weighted_sum hi p col (fsub (of_int 1) g) g) = zlen p).
  { unfold weighted_sum. unfold zlen in *. rewrite map_length, combine_length. lia. }
  assert (K : forall i a c, znth p i = Some a -> znth col i = Some c ->
    znth (weighted_sum hi p col (fsub (of_int 1) g) g) i = Some (weighted_channel_sum hi a c (fsub (of_int 1) g) g)).
  { clear. unfold weighted_sum. intros i. revert col i. induction p as [|a p IH]; intros [|c col] i a' c' A B.
    - apply znth_range in A. cbn in A. lia.
    - apply znth_range in A. cbn in A. lia.
    - apply znth_range in B. cbn in B. lia.
    - pose proof (znth_range _ _ _ A). destruct (Z.eqb_spec i 0) as [->|N].
      + rewrite znth_cons_0 in A, B. inversion A; inversion B; subst. cbn [combine map]. rewrite znth_cons_0. reflexivity.
      + rewrite znth_cons_S in A, B by lia. cbn [combine map]. rewrite znth_cons_S by lia. apply IH; assumption. }
  assert (W : forall i a c, znth p i = Some a -> znth col i = Some c ->
    let b := weighted_channel_sum hi a c (fsub (of_int 1) g) g in
    (Z.min a c - 1 <= b <= Z.max a c /\ 0 <= b <= hi /\
    (mix c a (fraction v) - (1 + / 32) <= IZR b <= mix c a (fraction v) + / 32)%R /\
    (fraction v = 0%R -> b = a) /\ (fraction v = 1%R -> b = c))).
  { intros i a c A C b. pose proof (Bp a (znth_In _ _ _ A)) as Ha. pose proof (Bc c (znth_In _ _ _ C)) as Hc.
    subst b. rewrite weighted_comm by assumption. destruct (weighted_bounds hi c a g Hh Hc Ha U) as (B1 & B2 & B3).
    destruct (weighted_ends hi c a g Hh Hc Ha U) as (E1 & E0). rewrite R in *. split; [lia|]. split; [exact B2|]. split; [exact B3|]. split; assumption. }
  split.
  - split; [exact L|]. intros i a c b A C B. rewrite (K i a c A C) in B. inversion B; subst b. destruct (W i a c A C) as (B1 & _ & B3 & B4). auto.
  - split; [congruence|]. intros b Hb. apply In_nth_error in Hb. destruct Hb as (j & Hj).
    assert (Hi : 0 <= Z.of_nat j < zlen p). { rewrite <- L. unfold zlen. assert (j < length (weighted_sum hi p col (fsub (of_int 1) g) g))%nat by (apply nth_error_Some; congruence). lia. }
    destruct (znth_some p _ Hi) as (a & A). destruct (znth_some col (Z.of_nat j) ltac:(lia)) as (c & C).
    pose proof (K _ a c A C) as E. unfold znth in E. replace (0 <=? Z.of_nat j) with true in E by lia. rewrite Nat2Z.id in E. rewrite Hj in E. injection E as ->.
    apply (W _ a c A C).
Qed.

(** the effect of a list of stamps on an image *)
Definition stamped (n hi : Z) (col : list Z) (l : list (Z * Z * f32)) (im im' : image (list Z)) : Prop :=
  wf im' /\ iw im' = iw im /\ ih im' = ih im /\ good_image n hi im' /\
  forall X Y p, get im X Y = Some p -> exists q, get im' X Y = Some q /\ painted col (covers X Y l) p q.

Lemma painted_app col a b p q r : painted col a p q -> painted col b q r -> painted col (a ++ b) p r.
Proof. intros H. revert r. induction H; intros r' K; [exact K|]. econstructor; [eassumption|]. apply IHpainted. exact K. Qed.
Lemma covers_app X Y a b : covers X Y (a ++ b) = covers X Y a ++ covers X Y b.
Proof. unfold covers. rewrite filter_app, map_app. reflexivity. Qed.

Lemma stamped_app n hi col a b im im1 im2 : stamped n hi col a im im1 -> stamped n hi col b im1 im2 -> stamped n hi col (a ++ b) im im2.
Proof.
  intros (W1 & A1 & B1 & G1 & P1) (W2 & A2 & B2 & G2 & P2). split; [exact W2|]. split; [congruence|]. split; [congruence|]. split; [exact G2|].
  intros X Y p E. destruct (P1 X Y p E) as (q & E1 & Q1). destruct (P2 X Y q E1) as (r & E2 & Q2). exists r. split; [exact E2|].
  rewrite covers_app. eapply painted_app; eassumption.
Qed.
Lemma stamped_nil n hi col im : wf im -> good_image n hi im -> stamped n hi col [] im im.
Proof. intros W G. split; [exact W|]. split; [reflexivity|]. split; [reflexivity|]. split; [exact G|]. intros X Y p E. exists p. split; [exact E|constructor]. Qed.

Section Draw.
  Context (n hi : Z) (col : list Z) (Hh : hi = 255 \/ hi = 65535) (Hc : good_pixel n hi col).

  Lemma draw_cover_ok sx sy gx gy v im : wf im -> iw im < 2 ^ 31 -> ih im < 2 ^ 31 -> good_image n hi im ->
    0 <= gx < 2 ^ 28 -> 0 <= gy < 2 ^ 28 -> Z.abs sx <= 2 ^ 30 -> Z.abs sy <= 2 ^ 30 -> is_finite v = true ->
    exists im', draw_cover hi col sx sy (fun new _ => new) (gx, gy, v) im = Ok im' /\ stamped n hi col [(sx + gx, sy + gy, v)] im im'.
  Proof using Hh Hc.
    intros W Hw Hg G Bx By Sx Sy F. unfold draw_cover. rewrite !wrap_id by lia. rewrite !chk_i_ok by lia. cbn [bind].
    unfold in_canvas. pose proof W as (W0 & W1 & W2). rewrite !wrap_id by lia.
    destruct ((0 <=? gx + sx) && (gx + sx <? iw im) && (0 <=? gy + sy) && (gy + sy <? ih im)) eqn:E.
    - destruct (get_some im (gx + sx) (gy + sy) W) as (p & Gp); [lia|lia|].
      rewrite (proj2 (get_pixel_ok im (gx + sx) (gy + sy) p) Gp). cbn [bind]. unfold draw_pixel.
      rewrite (proj2 (get_pixel_ok im (gx + sx) (gy + sy) p) Gp). cbn [bind].
      pose proof (weighted_sum_covered hi col v p n Hh F (G _ _ _ Gp) Hc) as K. cbv zeta in K.
      set (q := weighted_sum hi p col _ _) in *. destruct K as (K1 & K2).
      rewrite put_pixel_ok by lia. eexists. split; [reflexivity|].
      assert (GP : forall X Y, get (put im (gx + sx) (gy + sy) q) X Y = if (X =? gx + sx) && (Y =? gy + sy) then Some q else get im X Y).
      { intros X Y. apply get_put; [exact W|lia|lia]. }
      split; [apply wf_put; assumption|]. split; [reflexivity|]. split; [reflexivity|]. split.
      + intros X Y r E1. rewrite GP in E1. destruct ((X =? gx + sx) && (Y =? gy + sy)); [inversion E1; subst; exact K2|eapply G; eassumption].
      + intros X Y r E1. rewrite GP. unfold covers. cbn [filter fst snd map].
        destruct ((X =? gx + sx) && (Y =? gy + sy)) eqn:C.
        * replace ((sx + gx =? X) && (sy + gy =? Y)) with true by lia. exists q. split; [reflexivity|].
          assert (X = gx + sx) by lia. assert (Y = gy + sy) by lia. subst X Y. rewrite Gp in E1. inversion E1; subst r. cbn [map snd].
          econstructor; [exact K1|constructor].
        * replace ((sx + gx =? X) && (sy + gy =? Y)) with false by lia. exists r. split; [exact E1|constructor].
    - exists im. split; [reflexivity|]. split; [exact W|]. split; [reflexivity|]. split; [reflexivity|]. split; [exact G|].
      intros X Y r E1. exists r. split; [exact E1|]. unfold covers. cbn [filter fst snd map].
      apply get_inb in E1. replace ((sx + gx =? X) && (sy + gy =? Y)) with false by lia. constructor.
  Qed.

  Lemma covers_ok sx sy l : (forall gx gy v, In (gx, gy, v) l -> 0 <= gx < 2 ^ 28 /\ 0 <= gy < 2 ^ 28 /\ is_finite v = true) ->
    Z.abs sx <= 2 ^ 30 -> Z.abs sy <= 2 ^ 30 -> forall im, wf im -> iw im < 2 ^ 31 -> ih im < 2 ^ 31 -> good_image n hi im ->
    exists im', for_each l (draw_cover hi col sx sy (fun new _ => new)) im = Ok im' /\
      stamped n hi col (map (fun '(gx, gy, v) => (sx + gx, sy + gy, v)) l) im im'.
  Proof using Hh Hc.
    intros Hl Sx Sy. induction l as [|((gx & gy) & v) l IH]; intros im W Hw Hg G.
    - exists im. split; [reflexivity|]. apply stamped_nil; assumption.
    - destruct (Hl gx gy v (or_introl eq_refl)) as (Bx & By & F).
      destruct (draw_cover_ok sx sy gx gy v im) as (im1 & E1 & S1); try assumption.
      pose proof S1 as (W1 & A1 & B1 & G1 & _).
      destruct (IH ltac:(intros; apply Hl; right; assumption) im1 W1 ltac:(lia) ltac:(lia) G1) as (im2 & E2 & S2).
      exists im2. split; [cbn [for_each]; rewrite E1; cbn [bind]; exact E2|].
      cbn [map]. change ((sx + gx, sy + gy, v) :: ?m) with ([(sx + gx, sy + gy, v)] ++ m). eapply stamped_app; eassumption.
  Qed.

  Lemma round_px (m : f32) : is_finite m = true -> (Rabs (B2R m) <= IZR (2 ^ 28))%R ->
    i32_of_f32 (fround m) = ZnearestA (B2R m) /\ Z.abs (ZnearestA (B2R m)) <= 2 ^ 28.
  Proof using.
    intros F B. destruct (nearby_R 24 128 mode_NA m F) as (Fr & Rr). cbn [round_mode] in Rr.
    assert (K : Z.abs (ZnearestA (B2R m)) <= 2 ^ 28).
    { apply Rabs_le_inv in B. destruct B as (B1 & B2).
      assert (V : Valid_rnd (Znearest (Z.leb 0))) by apply valid_rnd_N.
      assert (M1 := @Zrnd_le _ V _ _ B1). assert (M2 := @Zrnd_le _ V _ _ B2). rewrite <- opp_IZR in M1. rewrite (@Zrnd_IZR _ V) in M1. rewrite (@Zrnd_IZR _ V) in M2. lia. }
    split; [|exact K]. unfold i32_of_f32, fround. rewrite (to_int_IZR 24 128 _ _ _ (ZnearestA (B2R m)) Fr Rr). unfold zclamp. lia.
  Qed.

  Lemma draw_glyph_ok x y g im : sane_glyph g -> Z.abs x <= 2 ^ 29 -> Z.abs y <= 2 ^ 29 ->
    wf im -> iw im < 2 ^ 31 -> ih im < 2 ^ 31 -> good_image n hi im ->
    exists im', draw_glyph hi col x y (fun new _ => new) g im = Ok im' /\ stamped n hi col (stamps x y [g]) im im'.
  Proof using Hh Hc.
    intros (F1 & F2 & B1 & B2 & Hl) Hx Hy W Hw Hg G. unfold draw_glyph.
    destruct (round_px _ F1 B1) as (E1 & K1). destruct (round_px _ F2 B2) as (E2 & K2). rewrite E1, E2.
    rewrite !chk_i_ok by lia. cbn [bind].
    destruct (covers_ok (x + ZnearestA (B2R (fst (g_min g)))) (y + ZnearestA (B2R (snd (g_min g)))) (g_cover g) Hl ltac:(lia) ltac:(lia) im W Hw Hg G) as (im' & E & S).
    exists im'. split; [exact E|]. unfold stamps. cbn [flat_map]. rewrite app_nil_r. exact S.
  Qed.

  Lemma layout_ok {C G} (F : font C G) x y text : Z.abs x <= 2 ^ 29 -> Z.abs y <= 2 ^ 29 ->
    forall w prev gs pen, typeset F w prev text gs pen -> (forall g, In g gs -> sane_glyph g) ->
    forall im, wf im -> iw im < 2 ^ 31 -> ih im < 2 ^ 31 -> good_image n hi im ->
    exists prev' im', for_each text (layout_step F (draw_glyph hi col x y (fun new _ => new))) (w, prev, im) = Ok (pen, prev', im') /\
      stamped n hi col (stamps x y gs) im im'.
  Proof using Hh Hc.
    intros Hx Hy w prev gs pen T. induction T as [pen prev|pen prev c text gs pen' E T IH|pen c g text gs pen' E T IH|pen p c g text gs pen' E T IH];
      intros Hs im W Hw Hg G0.
    - exists prev, im. split; [reflexivity|]. apply stamped_nil; assumption.
    - destruct (IH Hs im W Hw Hg G0) as (prev' & im' & E1 & S1). exists prev', im'. split; [|exact S1].
      cbn [for_each]. unfold layout_step at 1. rewrite E. cbn [bind]. exact E1.
    - destruct (draw_glyph_ok x y g im (Hs g (or_introl eq_refl)) Hx Hy W Hw Hg G0) as (im1 & E1 & S1). pose proof S1 as (W1 & A1 & B1 & G1 & _).
      destruct (IH ltac:(intros; apply Hs; right; assumption) im1 W1 ltac:(lia) ltac:(lia) G1) as (prev' & im' & E2 & S2). exists prev', im'. split.
      + cbn [for_each]. unfold layout_step at 1. rewrite E. rewrite E1. cbn [bind]. exact E2.
      + change (g :: gs) with ([g] ++ gs). unfold stamps. rewrite flat_map_app. eapply stamped_app; eassumption.
    - destruct (draw_glyph_ok x y g im (Hs g (or_introl eq_refl)) Hx Hy W Hw Hg G0) as (im1 & E1 & S1). pose proof S1 as (W1 & A1 & B1 & G1 & _).
      destruct (IH ltac:(intros; apply Hs; right; assumption) im1 W1 ltac:(lia) ltac:(lia) G1) as (prev' & im' & E2 & S2). exists prev', im'. split.
      + cbn [for_each]. unfold layout_step at 1. rewrite E. rewrite E1. cbn [bind]. exact E2.
      + change (g :: gs) with ([g] ++ gs). unfold stamps. rewrite flat_map_app. eapply stamped_app; eassumption.
  Qed.
End Draw.

(** measuring never fails in the loop, and follows the pen *)
Lemma measure_ok {C G} (F : font C G) text : forall w prev gs pen, typeset F w prev text gs pen ->
  exists prev', for_each text (layout_step F (fun _ s => Ok s)) (w, prev, tt) = Ok (pen, prev', tt).
Proof.
  intros w prev gs pen T. induction T as [pen prev|pen prev c text gs pen' E T (prev' & IH)|pen c g text gs pen' E T (prev' & IH)|pen p c g text gs pen' E T (prev' & IH)].
  - exists prev. reflexivity.
  - exists prev'. cbn [for_each]. unfold layout_step at 1. rewrite E. cbn [bind]. exact IH.
  - exists prev'. cbn [for_each]. unfold layout_step at 1. rewrite E. cbn [bind]. exact IH.
  - exists prev'. cbn [for_each]. unfold layout_step at 1. rewrite E. cbn [bind]. exact IH.
Qed.

(** every text can be set *)
Lemma typeset_total {C G} (F : font C G) text : forall w prev, exists gs pen, typeset F w prev text gs pen.
Proof.
  induction text as [|c text IH]; intros w prev; [exists [], w; constructor|].
  destruct (outline F (glyph_id F c) (w, ascent F)) as [g|] eqn:E.
  - destruct prev as [p|].
    + destruct (IH (fadd (fadd w (h_advance F (glyph_id F c))) (kern F (glyph_id F c) p)) (Some (glyph_id F c))) as (gs & pen & T).
      exists (g :: gs), pen. econstructor; eassumption.
    + destruct (IH (fadd w (h_advance F (glyph_id F c))) (Some (glyph_id F c))) as (gs & pen & T).
      exists (g :: gs), pen. econstructor; eassumption.
  - destruct (IH (fadd w (h_advance F (glyph_id F c))) prev) as (gs & pen & T). exists gs, pen. econstructor; eassumption.
Qed.
