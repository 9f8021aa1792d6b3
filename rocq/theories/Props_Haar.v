(** C64, C65, C79: Haar-like features. *)
From Verif Require Import Base BaseProofs IntegralSpec IntegralModel IntegralProofs HaarModel HaarSpec HaarProofs.
Local Ltac Zify.zify_post_hook ::= idtac.

(** C64: on the integral image of any frame at least as large as the one the
    feature was made for, [evaluate] returns the signed block sum; no read is out
    of bounds and no i32 operation overflows *)
Theorem c64_evaluate : forall im w h f,
  channels8 1 im -> iw im + 1 < 2 ^ 32 -> ih im + 1 < 2 ^ 32 ->
  rect_sum (chan im 0) 0 (iw im) 0 (ih im) < 2 ^ 32 ->
  w <= iw im -> h <= ih im -> w <= 255 -> h <= 255 -> valid w h f ->
  exists ii, integral_image Debug 32 1 im = Ok ii /\ evaluate f ii = Ok (feature_value f im).
Proof.
  intros im w h f Him Hw Hh Hs Lw Lh Mw Mh (V1 & V2 & V3 & V4 & V5 & V6).
  destruct (integral_ok Debug 32 1 im false) as (ii & E & Wo & Ew & Eh & HG); auto; try lia.
  { intros _ c Hc. assert (c = 0) as -> by lia. exact Hs. }
  exists ii. split; [exact E|]. apply evaluate_ok; auto; try lia. unfold valid. lia.
Qed.
Print Assumptions c64_evaluate.

(** frames of the sizes the enumeration accepts always meet the size conditions *)
Theorem c64_evaluate_frame : forall im l f,
  channels8 1 im -> iw im <= 254 -> ih im <= 254 -> 0 <= iw im -> 0 <= ih im ->
  enumerate_haar_features (iw im) (ih im) = Ok l -> In f l ->
  exists ii, integral_image Debug 32 1 im = Ok ii /\ evaluate f ii = Ok (feature_value f im).
Proof.
  intros im l f Him Hw Hh Pw Ph E Hin.
  destruct (enumerate_ok (iw im) (ih im)) as (l' & E' & _ & HI & _); [lia|lia|]. rewrite E in E'. injection E' as <-. apply HI in Hin.
  apply (c64_evaluate im (iw im) (ih im)); auto; try lia.
  unfold rect_sum. apply Z.le_lt_trans with (zsum 0 (ih im) (fun _ => 254 * 255)); [|rewrite zsum_const by lia; lia].
  apply zsum_le. intros y _. apply Z.le_trans with (zsum 0 (iw im) (fun _ => 255)); [|rewrite zsum_const by lia; lia].
  apply zsum_le. intros x _. apply (chan_range 1 im Him).
Qed.
Print Assumptions c64_evaluate_frame.

Definition frame32 : image (list Z) := mkImage 3 2 [[1]; [2]; [30]; [4]; [5]; [60]].
Definition f3 : feature := mkFeature Negative ThreeRegionHorizontal 1 2 0 0.
Definition f4 : feature := mkFeature Positive FourRegion 1 1 1 0.
Example c64_nontrivial : channels8 1 frame32 /\ valid 3 2 f3 /\ valid 3 2 f4 /\
  feature_value f3 frame32 = - ((1 + 4) - (2 + 5) + (30 + 60)) /\ feature_value f4 frame32 = 2 - 30 - 5 + 60 /\
  (ii <- integral_image Debug 32 1 frame32 ;; evaluate f3 ii) = Ok (-88).
Proof.
  split.
  { split; [unfold wf; cbn; unfold zlen; cbn; lia|]. intros x y p H. pose proof (get_inb _ _ _ _ H) as (Hx & Hy). cbn in Hx, Hy.
    assert (Cx : x = 0 \/ x = 1 \/ x = 2) by lia. assert (Cy : y = 0 \/ y = 1) by lia.
    destruct Cx as [->|[->| ->]], Cy as [->| ->]; vm_compute in H; inversion H; subst p; (split; [reflexivity|intros v [<-|[]]; unfold is_u8; lia]). }
  split; [unfold valid; cbn; lia|]. split; [unfold valid; cbn; lia|]. repeat split; vm_compute; reflexivity.
Qed.

(** C65, the full property: for every u8 frame size the enumeration lists each
    valid feature exactly once, and the closed form counts them *)
Definition c65_statement : Prop := forall w h, 0 <= w <= 255 -> 0 <= h <= 255 ->
  exists l, enumerate_haar_features w h = Ok l /\ NoDup l /\ (forall f, In f l <-> valid w h f) /\
    number_of_haar_features w h = Ok (zlen l).

(** it does not hold: the range bound [255 / 1 + 1] overflows u8 *)
Theorem c65_refuted : ~ c65_statement.
Proof. intros S. destruct (S 255 1) as (l & E & _); [lia|lia|]. rewrite enumerate_255 in E by lia. discriminate E. Qed.
Print Assumptions c65_refuted.
Theorem c65_panics : forall w h, 0 <= w <= 255 -> 0 <= h <= 255 -> w = 255 \/ h = 255 -> enumerate_haar_features w h = Panic.
Proof. exact enumerate_255. Qed.
Print Assumptions c65_panics.

(** Missing from the full property: sizes of exactly 255 (c65_panics).  All other
    u8 sizes: *)
Theorem c65_enumeration_partial : forall w h, 0 <= w <= 254 -> 0 <= h <= 254 ->
  exists l, enumerate_haar_features w h = Ok l /\ NoDup l /\ (forall f, In f l <-> valid w h f) /\
    number_of_haar_features w h = Ok (zlen l).
Proof.
  intros w h Hw Hh. destruct (enumerate_ok w h Hw Hh) as (l & E & D & I & L). exists l.
  split; [exact E|]. split; [exact D|]. split; [exact I|]. rewrite L. apply number_ok; lia.
Qed.
Print Assumptions c65_enumeration_partial.
Example c65_nontrivial : number_of_haar_features 6 4 = Ok 604 /\
  match enumerate_haar_features 6 4 with Ok l => zlen l = 604 | _ => False end.
Proof. split; vm_compute; reflexivity. Qed.

(** the closed form itself is right for all u8 sizes, 255 included: it counts the
    placements of every feature type in both signs *)
Theorem c65_closed_form : forall w h, 0 <= w <= 255 -> 0 <= h <= 255 ->
  number_of_haar_features w h = Ok (zlen (flat_map (fun t => features t w h) feature_types)) /\
  NoDup (flat_map (fun t => features t w h) feature_types) /\
  forall f, In f (flat_map (fun t => features t w h) feature_types) <-> valid w h f.
Proof.
  intros w h Hw Hh. split; [|split].
  - rewrite number_ok by assumption. f_equal. unfold feature_types. cbn [flat_map]. rewrite !zlen_app. rewrite !len_features by lia.
    cbn [shape fst snd]. change (zlen (@nil feature)) with 0. unfold num_total. ring.
  - apply (NoDup_flat_map _ ftype).
    + repeat (constructor; [cbn [In]; intuition discriminate|]). constructor.
    + intros t _. apply NoDup_features.
    + intros t f Hf. apply in_features in Hf; [tauto|lia|lia].
  - intros f. rewrite in_flat_map. split.
    + intros (t & _ & Hf). apply in_features in Hf; [tauto|lia|lia].
    + intros Hv. exists (ftype f). split; [destruct (ftype f); cbn; tauto|]. apply in_features; [lia|lia|]. auto.
Qed.
Print Assumptions c65_closed_form.

(** C79: drawing a feature paints its positive pixels white, its negative pixels
    black, and changes nothing else *)
Theorem c79_draw : forall (P : Type) (white black : P) im f, wf im -> valid (iw im) (ih im) f ->
  left f + feature_width f <= 255 -> top f + feature_height f <= 255 ->
  exists out, draw_haar_feature_mut white black im f = Ok out /\ wf out /\ iw out = iw im /\ ih out = ih im /\
    forall x y, get out x y =
      if (left f <=? x) && (x <? left f + feature_width f) && (top f <=? y) && (y <? top f + feature_height f)
      then Some (if positive f x y then white else black) else get im x y.
Proof.
  intros P white black im f W V L T. destruct (draw_ok white black im f W V L T) as (out & E & Q1 & Q2 & Q3 & Q4).
  exists out. split; [exact E|]. split; [exact Q1|]. split; [exact Q2|]. split; [exact Q3|]. exact Q4.
Qed.
Print Assumptions c79_draw.
Example c79_nontrivial :
  draw_haar_feature_mut 255 0 (mkImage 3 2 [7; 7; 7; 7; 7; 7]) f3 = Ok (mkImage 3 2 [0; 255; 0; 0; 255; 0]) /\
  draw_haar_feature_mut 255 0 (mkImage 3 2 [7; 7; 7; 7; 7; 7]) f4 = Ok (mkImage 3 2 [7; 255; 0; 7; 0; 255]).
Proof. split; vm_compute; reflexivity. Qed.
