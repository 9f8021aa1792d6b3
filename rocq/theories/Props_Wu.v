(** C73 (interpolation and line weights) and C81 (antialiased lines). *)
From Flocq Require Import Core BinarySingleNaN.
From Coq Require Import Reals Lra.
From Verif Require Import Base BaseProofs Float FloatProofs FloatErr ClampModel LineModel LineProofs FContrastProofs WuModel WuSpec WuProofs.
Local Ltac Zify.zify_post_hook ::= idtac.
Local Open Scope Z_scope.

(** ** C73: interpolation *)
(** Full claim: every channel lies between the two inputs. *)
Definition c73_interpolate_statement : Prop := forall l r w, unit_weight w -> zlen l = zlen r ->
  (forall p, In p l -> 0 <= p <= 255) -> (forall p, In p r -> 0 <= p <= 255) ->
  forall i p q o, znth l i = Some p -> znth r i = Some q -> znth (interpolate 255 l r w) i = Some o -> Z.min p q <= o <= Z.max p q.

(** Refuted: interpolating 3 with itself at weight 0.007 gives 2 (the two
    products round to a sum just below 3, which is then truncated). *)
Definition w7 : f32 := of_dyadic 15032386 (-31).
Theorem c73_interpolate_refuted : ~ c73_interpolate_statement.
Proof.
  intros H. assert (U : unit_weight w7) by (split; vm_compute; reflexivity).
  assert (B : forall p, In p [3] -> 0 <= p <= 255) by (intros p [<-|[]]; lia).
  specialize (H [3] [3] w7 U eq_refl B B 0 3 3 2 eq_refl eq_refl).
  assert (E : znth (interpolate 255 [3] [3] w7) 0 = Some 2) by (vm_compute; reflexivity).
  specialize (H E). lia.
Qed.

Lemma znth_interpolate hi l r w i p q : znth l i = Some p -> znth r i = Some q ->
  znth (interpolate hi l r w) i = Some (weighted_channel_sum hi p q w (fsub (of_int 1) w)).
Proof.
  intros A B. unfold interpolate, weighted_sum. revert r i A B. induction l as [|a l IH]; intros [|c r] i A B.
  - apply znth_range in A. cbn in A. lia.
  - apply znth_range in A. cbn in A. lia.
  - apply znth_range in B. cbn in B. lia.
  - pose proof (znth_range _ _ _ A). destruct (Z.eqb_spec i 0) as [->|N].
    + rewrite znth_cons_0 in A, B. inversion A; inversion B; subst. cbn [combine map]. rewrite znth_cons_0. reflexivity.
    + rewrite znth_cons_S in A, B by lia. cbn [combine map]. rewrite znth_cons_S by lia. apply IH; assumption.
Qed.

(** What holds for u8 and u16 channels: at most the larger input, at least the
    smaller one minus 1, and within 1 + 1/32 below and 1/32 above the exact mix. *)
Theorem c73_interpolate_partial : forall hi l r w, hi = 255 \/ hi = 65535 -> unit_weight w ->
  (forall p, In p l -> 0 <= p <= hi) -> (forall p, In p r -> 0 <= p <= hi) ->
  forall i p q, znth l i = Some p -> znth r i = Some q -> exists o, znth (interpolate hi l r w) i = Some o /\
    Z.min p q - 1 <= o <= Z.max p q /\ 0 <= o <= hi /\
    (mix p q (B2R w) - (1 + / 32) <= IZR o <= mix p q (B2R w) + / 32)%R.
Proof.
  intros hi l r w Hh Hw Hl Hr i p q A B. eexists. split; [apply znth_interpolate; eassumption|].
  apply weighted_bounds; try assumption; [apply Hl|apply Hr]; eapply znth_In; eassumption.
Qed.

(** At weight 1 the result is the left pixel, at weight 0 the right one. *)
Theorem c73_interpolate_ends : forall hi l r w, hi = 255 \/ hi = 65535 -> zlen l = zlen r ->
  (forall p, In p l -> 0 <= p <= hi) -> (forall p, In p r -> 0 <= p <= hi) ->
  (feq w (of_int 1) = true -> interpolate hi l r w = l) /\ (feq w (of_int 0) = true -> interpolate hi l r w = r).
Proof.
  intros hi l r w Hh L Hl Hr. destruct (int32_R 0) as (F0 & R0); [lia|]. destruct (int32_R 1) as (F1 & R1); [lia|].
  assert (Fin : forall c : f32, is_finite c = true -> feq w c = true -> is_finite w = true /\ B2R w = B2R c).
  { intros c Fc E. assert (F : is_finite w = true).
    { destruct w as [s|[]| |s m e h]; destruct c; try reflexivity; try discriminate; unfold feq in E; cbn in E; discriminate. }
    split; [exact F|]. unfold feq in E. rewrite (Beqb_correct 24 128) in E by assumption.
    destruct (Req_bool_spec (B2R w) (B2R c)); [assumption|discriminate]. }
  assert (U : forall c, (c = 0 \/ c = 1)%R -> is_finite w = true -> B2R w = c -> unit_weight w).
  { intros c Hc F E. apply R_unit; [assumption|]. rewrite E. destruct Hc; subst; lra. }
  assert (G : forall s, zlen s = zlen l -> (forall i p q o, znth l i = Some p -> znth r i = Some q -> znth s i = Some o ->
      weighted_channel_sum hi p q w (fsub (of_int 1) w) = o) -> interpolate hi l r w = s).
  { intros s Ls H. apply znth_ext.
    - unfold interpolate, weighted_sum. rewrite map_length, combine_length. unfold zlen in *. lia.
    - intros i Hi. assert (Li : 0 <= i < zlen l).
      { unfold interpolate, weighted_sum in Hi. unfold zlen in *. rewrite map_length, combine_length in Hi. lia. }
      destruct (znth_some l i Li) as (p & Ep). destruct (znth_some r i ltac:(lia)) as (q & Eq). destruct (znth_some s i ltac:(lia)) as (o & Eo).
      rewrite (znth_interpolate hi l r w i p q Ep Eq), Eo. f_equal. eapply H; eassumption. }
  split; intros E.
  - destruct (Fin _ F1 E) as (F & R). rewrite R1 in R. apply G; [reflexivity|]. intros i p q o Ep Eq Eo. rewrite Ep in Eo. inversion Eo; subst.
    apply (weighted_ends hi o q w Hh); [apply Hl; eapply znth_In; eassumption|apply Hr; eapply znth_In; eassumption|eapply U; eauto|assumption].
  - destruct (Fin _ F0 E) as (F & R). rewrite R0 in R. apply G; [symmetry; exact L|]. intros i p q o Ep Eq Eo. rewrite Eq in Eo. inversion Eo; subst.
    apply (weighted_ends hi p o w Hh); [apply Hl; eapply znth_In; eassumption|apply Hr; eapply znth_In; eassumption|apply (U 0%R); auto|assumption].
Qed.

Example c73_interpolate_nontrivial : interpolate 255 [10; 20; 30] [100; 80; 60] (of_dyadic 11744051 (-24)) = [37; 38; 39].
Proof. vm_compute. reflexivity. Qed.

(** ** C73: line weights *)
(** Full claim: the blend function only ever sees weights in [0, 1], that is,
    changing it outside [0, 1] never changes the drawing. *)
Definition c73_line_statement : Prop := forall (im : image Z) (b b' : Z -> Z -> f32 -> Z) start end_ color,
  wf im -> iw im < 2 ^ 31 -> ih im < 2 ^ 31 -> agree_on_unit b b' ->
  draw_antialiased_line_segment b im start end_ color = draw_antialiased_line_segment b' im start end_ color.

(** Refuted: on the line from (0, -1) to (2, 0) the weights at x = 1 are 1.5
    and -0.5. *)
Definition clip (b : Z) (c o : Z) (w : f32) : Z := if (fle (of_int 0) w && fle w (of_int 1))%bool then o else b.
Theorem c73_line_weights_refuted : ~ c73_line_statement.
Proof.
  intros H. specialize (H (mkImage 3 2 [0; 0; 0; 0; 0; 0]) (clip 1) (clip 2) (0, -1) (2, 0) 5).
  assert (A : agree_on_unit (clip 1) (clip 2)).
  { intros c o w (U1 & U2). unfold clip. rewrite U1, U2. reflexivity. }
  assert (W : wf (mkImage 3 2 [0; 0; 0; 0; 0; 0])) by (split; [cbn; lia|split; [cbn; lia|reflexivity]]).
  specialize (H W eq_refl eq_refl A). vm_compute in H. discriminate.
Qed.
(** It also fails by rounding on falling lines with non-negative end points:
    from (0, 1) to (6, 0) the last weight is 1 + 2^-23. *)
Theorem c73_line_weights_falling : exists (im : image Z) b b', agree_on_unit b b' /\
  draw_antialiased_line_segment b im (0, 1) (6, 0) 5 <> draw_antialiased_line_segment b' im (0, 1) (6, 0) 5.
Proof.
  exists (new_image 7 2 0), (clip 1), (clip 2). split.
  - intros c o w (U1 & U2). unfold clip. rewrite U1, U2. reflexivity.
  - vm_compute. discriminate.
Qed.

(** What holds: for end points without negative coordinates whose coordinates
    grow together, all weights are in [0, 1]. *)
Theorem c73_line_weights_partial : forall A (im : image A) (b b' : A -> A -> f32 -> A) x0 y0 x1 y1 color,
  0 <= x0 < 2 ^ 31 -> 0 <= y0 < 2 ^ 31 -> 0 <= x1 < 2 ^ 31 -> 0 <= y1 < 2 ^ 31 -> 0 <= (x1 - x0) * (y1 - y0) -> agree_on_unit b b' ->
  draw_antialiased_line_segment b im (x0, y0) (x1, y1) color = draw_antialiased_line_segment b' im (x0, y0) (x1, y1) color.
Proof.
  intros A im b b' x0 y0 x1 y1 color H1 H2 H3 H4 HP Hb. unfold draw_antialiased_line_segment.
  rewrite !chk_i_ok by lia. cbn [bind]. rewrite !chk_i_ok by lia. cbn [bind].
  destruct (Z.ltb_spec (Z.abs (x1 - x0)) (Z.abs (y1 - y0))); [destruct (Z.ltb_spec y1 y0)|destruct (Z.ltb_spec x1 x0)];
    cbv beta iota; apply wu_agree; cbn [fst snd]; try assumption; nia.
Qed.

(** ** C81 *)
(** Full claim, for end points up to 1000 away from the origin: every pixel
    between the ends is blended once, with weight 1 minus its distance from the
    line (up to 1/8), except that pixels further away are left alone. *)
Definition c81_for (lo : Z) : Prop := forall A (im : image A) (b : A -> A -> f32 -> A) x0 y0 x1 y1 color,
  wf im -> iw im < 2 ^ 31 -> ih im < 2 ^ 31 ->
  lo <= x0 <= 1000 -> lo <= y0 <= 1000 -> lo <= x1 <= 1000 -> lo <= y1 <= 1000 ->
  exists im', draw_antialiased_line_segment b im (x0, y0) (x1, y1) color = Ok im' /\ wf im' /\ iw im' = iw im /\ ih im' = ih im /\
    forall x y o, get im x y = Some o ->
      wu_result b color o (line_offset (x0, y0) (x1, y1) x y) (between_ends (x0, y0) (x1, y1) x y) (get im' x y).
Definition c81_statement : Prop := c81_for (-1000).

(** Refuted by the same line from (0, -1) to (2, 0): pixel (1, 1), three half
    pixels away, is painted. *)
Theorem c81_refuted : ~ c81_statement.
Proof.
  intros H. specialize (H Z (mkImage 3 2 [0; 0; 0; 0; 0; 0]) (fun _ _ _ => 1) 0 (-1) 2 0 5).
  assert (W : wf (mkImage 3 2 [0; 0; 0; 0; 0; 0])) by (split; [cbn; lia|split; [cbn; lia|reflexivity]]).
  destruct (H W eq_refl eq_refl ltac:(lia) ltac:(lia) ltac:(lia) ltac:(lia)) as (im' & E & _ & _ & _ & P).
  assert (E' : draw_antialiased_line_segment (fun _ _ _ => 1) (mkImage 3 2 [0; 0; 0; 0; 0; 0]) (0, -1) (2, 0) 5 = Ok (mkImage 3 2 [1; 1; 1; 0; 1; 1]))
    by (vm_compute; reflexivity).
  rewrite E' in E. inversion E; subst. specialize (P 1 1 0 eq_refl).
  assert (O : line_offset (0, -1) (2, 0) 1 1 = (3 / 2)%R) by (unfold line_offset, steep; cbn; lra).
  rewrite O in P. destruct P as [(_ & B & _)|(_ & G)].
  - rewrite Rabs_pos_eq in B by lra. lra.
  - vm_compute in G. discriminate.
Qed.

Lemma offset_swap (y y0 y1 x x0 x1 : Z) : (x0 = x1 -> y0 = y1) ->
  (IZR y - (IZR y0 + IZR (x - x0) * (IZR (y1 - y0) / IZR (x1 - x0))))%R = (IZR y - (IZR y1 + IZR (x - x1) * (IZR (y0 - y1) / IZR (x0 - x1))))%R.
Proof.
  intros H. destruct (Z.eqb_spec x0 x1) as [E|N].
  - rewrite (H E), E. reflexivity.
  - rewrite !minus_IZR. assert (IZR x0 - IZR x1 <> 0)%R by (rewrite <- minus_IZR; apply not_0_IZR; lia). field. lra.
Qed.

(** What holds: the claim for end points without negative coordinates. *)
Theorem c81_lines_partial : c81_for 0.
Proof.
  intros A im b x0 y0 x1 y1 color W Hw Hh H1 H2 H3 H4. unfold draw_antialiased_line_segment.
  rewrite !chk_i_ok by lia. cbn [bind]. rewrite !chk_i_ok by lia. cbn [bind].
  assert (C : cdim im) by (split; [assumption|split; assumption]).
  assert (I1 : forall x y x' y' : Z, (x, y) = (x', y') -> x = x' /\ y = y') by (intros; split; congruence).
  assert (I2 : forall x y x' y' : Z, (y, x) = (y', x') -> x = x' /\ y = y') by (intros; split; congruence).
  unfold line_offset, between_ends, steep. cbn [fst snd].
  destruct (Z.ltb_spec (Z.abs (x1 - x0)) (Z.abs (y1 - y0))); [destruct (Z.ltb_spec y1 y0)|destruct (Z.ltb_spec x1 x0)]; cbv beta iota.
  - destruct (wu_paints b (fun x y => (y, x)) im y1 x1 y0 x0 color C I2) as (im' & E & (C' & _) & W' & H' & P); try lia.
    exists im'. split; [exact E|]. split; [exact C'|]. split; [exact W'|]. split; [exact H'|]. intros x y o G.
    specialize (P y x o G). unfold at_p in P. cbn [fst snd] in P.
    rewrite offset_swap in P by lia. unfold wu_result in *. replace (Z.min y0 y1) with y1 by lia. replace (Z.max y0 y1) with y0 by lia. exact P.
  - destruct (wu_paints b (fun x y => (y, x)) im y0 x0 y1 x1 color C I2) as (im' & E & (C' & _) & W' & H' & P); try lia.
    exists im'. split; [exact E|]. split; [exact C'|]. split; [exact W'|]. split; [exact H'|]. intros x y o G.
    specialize (P y x o G). unfold at_p in P. cbn [fst snd] in P.
    replace (Z.min y0 y1) with y0 by lia. replace (Z.max y0 y1) with y1 by lia. exact P.
  - destruct (wu_paints b (fun x y => (x, y)) im x1 y1 x0 y0 color C I1) as (im' & E & (C' & _) & W' & H' & P); try lia.
    exists im'. split; [exact E|]. split; [exact C'|]. split; [exact W'|]. split; [exact H'|]. intros x y o G.
    specialize (P x y o G). unfold at_p in P. cbn [fst snd] in P.
    rewrite offset_swap in P by lia. replace (Z.min x0 x1) with x1 by lia. replace (Z.max x0 x1) with x0 by lia. exact P.
  - destruct (wu_paints b (fun x y => (x, y)) im x0 y0 x1 y1 color C I1) as (im' & E & (C' & _) & W' & H' & P); try lia.
    exists im'. split; [exact E|]. split; [exact C'|]. split; [exact W'|]. split; [exact H'|]. intros x y o G.
    specialize (P x y o G). unfold at_p in P. cbn [fst snd] in P.
    replace (Z.min x0 x1) with x0 by lia. replace (Z.max x0 x1) with x1 by lia. exact P.
Qed.

Example c81_nontrivial : draw_antialiased_line_segment (fun c o w => match interpolate 255 [c] [o] w with [p] => p | _ => 0 end)
  (new_image 5 4 0) (0, 1) (4, 3) 100 =
  Ok (mkImage 5 4 [0; 0; 0; 0; 0;  100; 50; 0; 0; 0;  0; 50; 100; 50; 0;  0; 0; 0; 50; 100]).
Proof. vm_compute. reflexivity. Qed.

Print Assumptions c73_interpolate_refuted.
Print Assumptions c73_interpolate_partial.
Print Assumptions c73_interpolate_ends.
Print Assumptions c73_line_weights_refuted.
Print Assumptions c73_line_weights_falling.
Print Assumptions c73_line_weights_partial.
Print Assumptions c81_refuted.
Print Assumptions c81_lines_partial.
