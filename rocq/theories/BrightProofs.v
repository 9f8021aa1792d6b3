From Verif Require Import Base BaseProofs FilterModel FilterSpec FilterProofs GradientModel GradientSpec GradientProofs Props_Filter Props_Gradient.
From Verif Require Import CornerModel CornerSpec CornerProofs Props_Corner LbpModel BrightSpec.
Local Ltac Zify.zify_post_hook ::= idtac.

Lemma get_inb {A} (im : image A) x y : wf im -> (exists p, get im x y = Some p) <-> (0 <= x < iw im /\ 0 <= y < ih im).
Proof.
  intros W. split.
  - intros (p & E). unfold get in E. destruct (inb im x y) eqn:I; [|discriminate]. unfold inb in I. lia.
  - intros (Hx & Hy). apply get_some; auto.
Qed.

Lemma pointwise_get {A} f (im im' : image A) x y : pointwise f im im' ->
  get im' x y = match get im x y with Some p => Some (f p) | None => None end.
Proof.
  intros (W & W' & Ew & Eh & H). destruct (get im x y) as [p|] eqn:E; [now apply H|].
  destruct (get im' x y) as [q|] eqn:E'; [|reflexivity]. exfalso.
  destruct (proj1 (get_inb im' x y W')) as (A1 & A2); [eauto|].
  destruct (proj2 (get_inb im x y W)) as (p & Ep); [lia|]. congruence.
Qed.
Lemma pointwise_get_pixel {A} f (im im' : image A) x y : pointwise f im im' ->
  get_pixel im' x y = (p <- get_pixel im x y ;; Ok (f p)).
Proof. intros P. unfold get_pixel. rewrite (pointwise_get f im im' x y P). now destruct (get im x y). Qed.

(** ** Channels and replicated borders *)
Lemma znth_map_some {A B} (f : A -> B) l i v : znth l i = Some v -> znth (map f l) i = Some (f v).
Proof.
  intros E. now rewrite znth_map, E.
Qed.
Lemma pointwise_channels ch f (im im' : image (list Z)) : pointwise (map f) im im' -> channels ch im -> channels ch im'.
Proof.
  intros P (W & C). pose proof P as (_ & W' & _). split; [exact W'|]. intros x y p E.
  rewrite (pointwise_get _ _ _ x y P) in E. destruct (get im x y) as [q|] eqn:Eq; [|discriminate].
  injection E as <-. rewrite <- (C x y q Eq). unfold zlen. now rewrite map_length.
Qed.
Lemma pointwise_rep ch f (im im' : image (list Z)) c x y : pointwise (map f) im im' -> channels ch im ->
  0 <= c < ch -> 0 < iw im -> 0 < ih im -> rep_chan 0 im' c x y = f (rep_chan 0 im c x y).
Proof.
  intros P (W & C) Hc Hw Hh. pose proof P as (_ & _ & Ew & Eh & _). unfold rep_chan. rewrite Ew, Eh, (pointwise_get _ _ _ _ _ P).
  destruct (proj2 (get_inb im (border (iw im) x) (border (ih im) y) W)) as (p & Ep).
  { unfold border, zclamp. lia. }
  rewrite Ep. destruct (znth_some p c) as (v & Ev). { rewrite (C _ _ _ Ep). lia. }
  now rewrite (znth_map_some f p c v Ev), Ev.
Qed.

Section Deriv.
  Context (ch : Z) (im im' : image (list Z)) (C : channels ch im).
  Lemma deriv_lit d a b c x y : lit_by_channels d im im' -> 0 <= c < ch -> 0 < iw im -> 0 < ih im ->
    deriv_x a b im' c x y = deriv_x a b im c x y /\ deriv_y a b im' c x y = deriv_y a b im c x y.
  Proof.
    intros P Hc Hw Hh. unfold deriv_x, deriv_y, px_rep. rewrite !(pointwise_rep ch _ im im' c _ _ P) by auto. split; ring.
  Qed.
  Lemma deriv_neg a b c x y : negative_channels im im' -> 0 <= c < ch -> 0 < iw im -> 0 < ih im ->
    deriv_x a b im' c x y = - deriv_x a b im c x y /\ deriv_y a b im' c x y = - deriv_y a b im c x y.
  Proof.
    intros P Hc Hw Hh. unfold deriv_x, deriv_y, px_rep. rewrite !(pointwise_rep ch _ im im' c _ _ P) by auto. split; ring.
  Qed.
End Deriv.

Lemma gen_ext {A} w h (f g : Z -> Z -> A) : 0 <= w -> 0 <= h ->
  (forall x y, 0 <= x < w -> 0 <= y < h -> f x y = g x y) -> gen w h f = gen w h g.
Proof.
  intros Hw Hh H. apply image_ext; try (apply wf_gen; auto); try reflexivity.
  intros x y Hx Hy. cbn [iw ih gen] in Hx, Hy. rewrite !get_gen_in by auto. now rewrite H.
Qed.
Lemma image_of_unique {w h} (a b : image (list Z)) v v' : image_of 1 w h a v -> image_of 1 w h b v' ->
  (forall x y, 0 <= x < w -> 0 <= y < h -> v 0 x y = v' 0 x y) -> a = b.
Proof.
  intros (A1 & A2 & (AW & A3) & A4) (B1 & B2 & (BW & B3) & B4) H.
  apply image_ext; auto; try congruence. rewrite A1, A2. intros x y Hx Hy.
  destruct (A4 x y Hx Hy) as (p & Ep & Vp). destruct (B4 x y Hx Hy) as (q & Eq & Vq). rewrite Ep, Eq. f_equal.
  apply znth_ext. { pose proof (A3 _ _ _ Ep). pose proof (B3 _ _ _ Eq). unfold zlen in *. lia. }
  intros i Hi. rewrite (A3 _ _ _ Ep) in Hi. assert (i = 0) by lia. subst i. rewrite Vp, Vq by lia. f_equal. now apply H.
Qed.

(** ** FAST *)
Lemma span_map (f : Z -> Z) g g' l len : (forall v, g' (f v) = g v) -> search_span (map f l) len g' = search_span l len g.
Proof.
  intros H. unfold search_span. destruct (16 <? len); [reflexivity|]. rewrite !span_loop_bits, map_map.
  f_equal. apply map_ext. exact H.
Qed.
Lemma circle_lit d im im' x y a b c e : lit_by d im im' ->
  get_circle im' x y (a + d) (b + d) (c + d) (e + d) = (l <- get_circle im x y a b c e ;; Ok (map (fun v => v + d) l)).
Proof.
  intros P. unfold get_circle. rewrite !(pointwise_get_pixel _ _ _ _ _ P).
  repeat (match goal with |- context [get_pixel im ?u ?v] => destruct (get_pixel im u v); cbn [bind]; try reflexivity end).
Qed.
Lemma bright_lit d l n t : has_bright_span (map (fun v => v + d) l) n (t + d) = has_bright_span l n t.
Proof. unfold has_bright_span. apply span_map. intros v. destruct (Z.ltb_spec (t + d) (v + d)), (Z.ltb_spec t v); lia || reflexivity. Qed.
Lemma dark_lit d l n t : has_dark_span (map (fun v => v + d) l) n (t + d) = has_dark_span l n t.
Proof. unfold has_dark_span. apply span_map. intros v. destruct (Z.ltb_spec (v + d) (t + d)), (Z.ltb_spec v t); lia || reflexivity. Qed.
Lemma ltb_lit d a b : (a + d <? b + d) = (a <? b).
Proof. destruct (Z.ltb_spec (a + d) (b + d)), (Z.ltb_spec a b); lia || reflexivity. Qed.

Lemma is_corner_lit v d im im' t x y : lit_by d im im' -> is_corner v im' t x y = is_corner v im t x y.
Proof.
  intros P. pose proof P as (_ & _ & Ew & Eh & _).
  assert (N : near_border im' x y = near_border im x y) by (unfold near_border; now rewrite Ew, Eh).
  assert (S1 : forall c, c + d - t = c - t + d) by (intros; ring).
  assert (S2 : forall c, c + d + t = c + t + d) by (intros; ring).
  destruct v; cbn [is_corner].
  - unfold is_corner_fast9. rewrite N. destruct (near_border im x y); [reflexivity|].
    rewrite !(pointwise_get_pixel _ _ _ _ _ P).
    destruct (get_pixel im x y) as [c| |]; cbn [bind]; try reflexivity.
    destruct (get_pixel im x (y - 3)) as [p0| |]; cbn [bind]; try reflexivity.
    destruct (get_pixel im (x + 3) y) as [p4| |]; cbn [bind]; try reflexivity.
    destruct (get_pixel im x (y + 3)) as [p8| |]; cbn [bind]; try reflexivity.
    destruct (get_pixel im (x - 3) y) as [p12| |]; cbn [bind]; try reflexivity.
    rewrite S1, S2, !ltb_lit. rewrite (circle_lit d im im' x y p0 p4 p8 p12 P).
    destruct (negb _ && negb _); [reflexivity|].
    destruct (get_circle im x y p0 p4 p8 p12) as [l| |]; cbn [bind]; try reflexivity.
    now rewrite bright_lit, dark_lit.
  - unfold is_corner_fast12. rewrite N. destruct (near_border im x y); [reflexivity|].
    rewrite !(pointwise_get_pixel _ _ _ _ _ P).
    destruct (get_pixel im x y) as [c| |]; cbn [bind]; try reflexivity.
    destruct (get_pixel im x (y - 3)) as [p0| |]; cbn [bind]; try reflexivity.
    destruct (get_pixel im x (y + 3)) as [p8| |]; cbn [bind]; try reflexivity.
    rewrite S1, S2, !ltb_lit. destruct (negb _ && negb _); [reflexivity|].
    destruct (get_pixel im (x + 3) y) as [p4| |]; cbn [bind]; try reflexivity.
    destruct (get_pixel im (x - 3) y) as [p12| |]; cbn [bind]; try reflexivity.
    rewrite !ltb_lit. rewrite (circle_lit d im im' x y p0 p4 p8 p12 P).
    destruct (negb _ && negb _); [reflexivity|].
    destruct (get_circle im x y p0 p4 p8 p12) as [l| |]; cbn [bind]; try reflexivity.
    now rewrite bright_lit, dark_lit.
Qed.

Section Detector.
  Context (v : fast) (im im' : image Z) (Ew : iw im' = iw im) (Eh : ih im' = ih im).
  Context (H : forall t x y, 0 <= t <= 255 -> is_corner v im' t x y = is_corner v im t x y).
  Lemma chk8 z r : chk_u 8 z = Ok r -> r = z /\ 0 <= z <= 255.
  Proof. unfold chk_u. destruct (u_fits 8 z) eqn:E; [|discriminate]. intros [= <-]. unfold u_fits in E. change (2 ^ 8) with 256 in E. lia. Qed.
  Lemma score_same n x y : forall mx mn, 0 <= mx <= 255 -> 0 <= mn <= 255 ->
    score_loop n im' x y v mx mn = score_loop n im x y v mx mn.
  Proof using H.
    induction n as [|n IH]; intros mx mn H1 H2; [reflexivity|]. cbn [score_loop].
    destruct (mx =? mn); [reflexivity|]. cbv zeta. destruct (chk_u 8 (mn + 1)) as [m1| |]; cbn [bind]; try reflexivity.
    set (pr := if mx =? m1 then mx else (mx + mn) / 2).
    assert (Hp : 0 <= pr <= 255).
    { unfold pr. destruct (mx =? m1); [lia|]. split; [apply Z.div_pos; lia|]. apply Z.div_le_upper_bound; lia. }
    rewrite (H pr x y Hp). destruct (is_corner v im pr x y) as [[|]| |]; cbn [bind]; try reflexivity; [now apply IH|].
    destruct (chk_u 8 (pr - 1)) as [m| |] eqn:E; cbn [bind]; try reflexivity. apply chk8 in E. apply IH; lia.
  Qed.
  Lemma detector_same t : 0 <= t <= 255 ->
    (forall x y, fast_corner_score im' t x y v = fast_corner_score im t x y v) /\ corners_fast v im' t = corners_fast v im t.
  Proof using H Ew Eh.
    intros Ht. assert (S : forall x y, fast_corner_score im' t x y v = fast_corner_score im t x y v).
    { intros x y. unfold fast_corner_score. apply score_same; lia. }
    split; [exact S|]. unfold corners_fast. rewrite Ew, Eh. apply for_range_ext. intros y acc _. apply for_range_ext.
    intros x acc' _. rewrite (H t x y Ht), S. reflexivity.
  Qed.
End Detector.

Lemma fast9_neg im im' t x y : negative im im' -> fast_corner 9 im t x y -> fast_corner 9 im' t x y.
Proof.
  intros P (A & s & Hs & Q). pose proof P as (_ & _ & Ew & Eh & _). split; [unfold away in *; rewrite Ew, Eh; exact A|].
  exists s. split; [exact Hs|].
  assert (O : forall i p, on_circle im x y i = Some p -> on_circle im' x y i = Some (255 - p)).
  { intros i p. unfold on_circle. destruct (znth circle_offsets (i mod 16)) as [(dx, dy)|]; [|discriminate].
    intros E. now rewrite (pointwise_get _ _ _ _ _ P), E. }
  assert (G : forall c, get im x y = Some c -> get im' x y = Some (255 - c)).
  { intros c E. now rewrite (pointwise_get _ _ _ _ _ P), E. }
  destruct Q as [Q|Q]; [right|left]; intros k Hk; destruct (Q k Hk) as (c & p & E1 & E2 & L);
    exists (255 - c), (255 - p); (split; [now apply G|]; split; [now apply O|]; lia).
Qed.
Lemma negative_sym im im' : negative im im' -> negative im' im.
Proof.
  intros P. pose proof P as (W & W' & Ew & Eh & H). split; [exact W'|]. split; [exact W|]. split; [lia|]. split; [lia|].
  intros x y p E. rewrite (pointwise_get _ _ _ x y P) in E. destruct (get im x y) as [q|]; [|discriminate].
  assert (X : p = 255 - q) by congruence. f_equal. rewrite X. lia.
Qed.
Lemma is_corner9_neg im im' t x y : valid im -> negative im im' -> 0 <= t <= 255 ->
  is_corner Nine im' t x y = is_corner Nine im t x y.
Proof.
  intros V P Ht. pose proof P as (_ & W' & Ew & Eh & _).
  assert (V' : valid im') by (destruct V as (_ & V1 & V2); split; [exact W'|]; rewrite Ew, Eh; auto).
  destruct (c52_fast9 im t x y V Ht) as (b & E & B). destruct (c52_fast9 im' t x y V' Ht) as (b' & E' & B').
  rewrite E, E'. f_equal. cbn [section_length] in B, B'.
  assert (X : b' = true <-> b = true).
  { rewrite B, B'. split; apply fast9_neg; [now apply negative_sym|exact P]. }
  destruct b, b'; destruct X as (X1 & X2); try reflexivity; [now specialize (X2 eq_refl)|now specialize (X1 eq_refl)].
Qed.

(** ** Local binary patterns *)
Lemma lbp_same f im im' x y : pointwise f im im' -> increasing f -> (forall a b p, get im a b = Some p -> 0 <= p <= 255) ->
  local_binary_pattern im' x y = local_binary_pattern im x y.
Proof.
  intros P I U. pose proof P as (_ & _ & Ew & Eh & _). unfold local_binary_pattern. rewrite Ew, Eh.
  destruct ((iw im =? 0) || (ih im =? 0)); [reflexivity|].
  destruct ((x =? 0) || (iw im - 1 <=? x) || (y =? 0) || (ih im - 1 <=? y)); [reflexivity|].
  rewrite (pointwise_get_pixel _ _ _ _ _ P).
  destruct (get_pixel im x y) as [c| |] eqn:Ec; cbn [bind]; try reflexivity.
  apply get_pixel_ok in Ec. apply U in Ec.
  set (offs := [(0, -1); (1, -1); (1, 0); (1, 1); (0, 1); (-1, 1); (-1, 0); (-1, -1)]).
  assert (M : mapM (fun '(dx, dy) => get_pixel im' (x + dx) (y + dy)) offs =
    (l <- mapM (fun '(dx, dy) => get_pixel im (x + dx) (y + dy)) offs ;; Ok (map f l))).
  { generalize offs. clear offs. induction offs as [|(dx, dy) offs IH]; [reflexivity|]. cbn [mapM].
    rewrite (pointwise_get_pixel _ _ _ _ _ P). destruct (get_pixel im (x + dx) (y + dy)); cbn [bind]; try reflexivity.
    rewrite IH. destruct (mapM (fun '(dx, dy) => get_pixel im (x + dx) (y + dy)) offs); reflexivity. }
  assert (B : forall l, mapM (fun '(dx, dy) => get_pixel im (x + dx) (y + dy)) offs = Ok l -> forall v, In v l -> 0 <= v <= 255).
  { generalize offs. clear offs M. induction offs as [|(dx, dy) offs IH]; intros l E v Hv.
    - injection E as <-. destruct Hv.
    - cbn [mapM] in E. destruct (get_pixel im (x + dx) (y + dy)) as [w| |] eqn:Ev; try discriminate. cbn [bind] in E.
      destruct (mapM _ offs) as [l'| |] eqn:El; try discriminate. injection E as <-.
      destruct Hv as [<-|Hv]; [apply get_pixel_ok in Ev; now apply U in Ev|]. now apply (IH l'). }
  rewrite M. destruct (mapM (fun '(dx, dy) => get_pixel im (x + dx) (y + dy)) offs) as [l| |]; cbn [bind]; try reflexivity.
  f_equal. apply for_range_ext. intros j s Hj. unfold vget.
  destruct (znth l j) as [v|] eqn:Ev.
  - rewrite (znth_map_some f l j v Ev). cbn [unwrap bind].
    assert (Hv : 0 <= v <= 255) by (apply (B l); [reflexivity|]; eapply znth_In; exact Ev).
    assert (E : (f v <? f c) = (v <? c)).
    { destruct (Z.ltb_spec v c) as [L|L]; [apply Z.ltb_lt; now apply I|]. apply Z.ltb_ge.
      destruct (Z.eq_dec v c) as [->|]; [lia|]. apply Z.lt_le_incl. apply I; lia. }
    now rewrite E.
  - assert (E : znth (map f l) j = None).
    { destruct (znth (map f l) j) as [w|] eqn:Ew'; [|reflexivity]. pose proof (znth_range _ _ _ Ew') as R.
      unfold zlen in R. rewrite map_length in R. destruct (znth_some l j) as (q & Eq); [exact R|]. congruence. }
    now rewrite E.
Qed.
