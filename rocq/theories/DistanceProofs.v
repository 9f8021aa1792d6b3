From Verif Require Import Base BaseProofs GeomProofs RasterProofs IntegralSpec DistanceModel DistanceSpec.

(** ** generic *)
Ltac ifk := match goal with |- context [if ?b then _ else px _ _ _] =>
  let E := fresh in destruct b eqn:E; [exfalso; lia|clear E] end.

Lemma put_put {A} (im : image A) x y a b : wf im -> 0 <= x < iw im -> 0 <= y < ih im ->
  put (put im x y a) x y b = put im x y b.
Proof.
  intros W Hx Hy. apply image_ext.
  - apply wf_put, wf_put; auto.
  - apply wf_put; auto.
  - reflexivity.
  - reflexivity.
  - intros x' y' _ _. rewrite !get_put by (try apply wf_put; auto). destruct ((x' =? x) && (y' =? y)); auto.
Qed.

Lemma px_get im x y v : get im x y = Some v -> px im x y = v.
Proof. unfold px. intros ->. auto. Qed.
Lemma get_px im x y : wf im -> 0 <= x < iw im -> 0 <= y < ih im -> get im x y = Some (px im x y).
Proof. intros W Hx Hy. destruct (get_some im x y W Hx Hy) as (v & E). unfold px. rewrite E. auto. Qed.
Lemma px_put im x y a x' y' : wf im -> 0 <= x < iw im -> 0 <= y < ih im ->
  px (put im x y a) x' y' = if (x' =? x) && (y' =? y) then a else px im x' y'.
Proof. intros. unfold px. rewrite get_put by auto. destruct ((x' =? x) && (y' =? y)); auto. Qed.

Lemma raster_rev_ind {S} (P : Z -> Z -> S -> Prop) h w (x1 : S -> Z) (body : Z -> Z -> S -> res S) s :
  0 <= h -> 0 <= w -> P w h s ->
  (forall x y s, P x y s -> x1 s = w) ->
  (forall x y s, 0 <= x < w -> 0 <= y < h -> P (x + 1) y s ->
     exists s', body y x s = Ok s' /\ P x y s') ->
  (forall y s, 0 <= y < h -> P 0 (y + 1) s \/ (y + 1 = h /\ P w h s) -> P w y s) ->
  exists s', for_range_rev 0 h (fun y s => for_range_rev 0 (x1 s) (fun x s => body y x s) s) s = Ok s'
             /\ (P 0 0 s' \/ (0 = h /\ P w h s')).
Proof.
  intros Hh Hw H0 Hx1 Hb Hr.
  apply (for_range_rev_ind (fun y s => P 0 y s \/ (y = h /\ P w h s)) 0 h); auto.
  intros y s1 Hy HP.
  assert (HPw : P w y s1) by (apply Hr; auto; destruct HP as [?|(? & ?)]; auto).
  rewrite (Hx1 _ _ _ HPw).
  destruct (for_range_rev_ind (fun x s => P x y s) 0 w (fun x s => body y x s) s1) as (s2 & E2 & P2); auto.
  exists s2; split; auto.
Qed.

(** ** distances *)
Lemma dist_nonneg l a b c d : 0 <= dist l a b c d.
Proof. unfold dist. destruct l; lia. Qed.
Lemma dist_refl l a b : dist l a b a b = 0.
Proof. unfold dist. destruct l; lia. Qed.
Lemma dist_sym l a b c d : dist l a b c d = dist l c d a b.
Proof. unfold dist. destruct l; lia. Qed.
Lemma dist_tri l a b c d e f : dist l a b e f <= dist l a b c d + dist l c d e f.
Proof. unfold dist. destruct l; lia. Qed.
Lemma dist_0 l a b c d : dist l a b c d <= 0 -> a = c /\ b = d.
Proof. unfold dist. destruct l; lia. Qed.

Section DT.
  Variables (linf : bool) (from : distance_from) (im : image Z).
  Hypothesis Hg : gray8 im.
  Hypothesis Hfit : iw im + ih im < 2 ^ 32.
  Let w := iw im.
  Let h := ih im.
  Let M := Z.min (w + h) 255.

  Definition src (x y : Z) : Prop := source from im x y.
  Let inr x y := 0 <= x < w /\ 0 <= y < h.

  Lemma W : wf im. Proof. apply Hg. Qed.
  Lemma Hw0 : 0 <= w. Proof. apply Hg. Qed.
  Lemma Hh0 : 0 <= h. Proof. apply Hg. Qed.

  Lemma src_in x y : src x y -> inr x y.
  Proof.
    unfold src, source, is_fg, is_bg, inr. destruct from.
    - intros (v & E & _). apply get_inb in E. exact E.
    - intros E. apply get_inb in E. exact E.
  Qed.

  (** values stored at a pixel: at most M, and either M or an upper bound of the distance to some source *)
  Definition sound (x y v : Z) : Prop :=
    0 <= v <= M /\ (v = M \/ exists fx fy, src fx fy /\ dist linf x y fx fy <= v).

  Lemma sound_step x y x' y' c v : sound x y c -> sound x' y' v -> dist linf x y x' y' <= 1 -> sound x y (Z.min c (v + 1)).
  Proof.
    intros (C1 & C2) (V1 & V2) D. split; [lia|].
    destruct (Z_le_dec c (v + 1)) as [H|H].
    - rewrite Z.min_l by lia. auto.
    - rewrite Z.min_r by lia. destruct V2 as [->|(fx & fy & S & HD)].
      + left. lia.
      + right. exists fx, fy. split; auto. pose proof (dist_tri linf x y x' y' fx fy). lia.
  Qed.

  (** one check on a freshly written pixel *)
  Lemma check_ok o x y x' y' c :
    wf o -> iw o = w -> ih o = h -> inr x y -> inr x' y' -> ~ (x' = x /\ y' = y) ->
    sound x y c -> sound x' y' (px o x' y') -> dist linf x y x' y' <= 1 ->
    check (put o x y c) x y x' y' = Ok (put o x y (Z.min c (px o x' y' + 1))) /\
    sound x y (Z.min c (px o x' y' + 1)).
  Proof.
    intros Wo E1 E2 (Hx & Hy) (Hx' & Hy') Hne Sc Sv HD.
    split; [|eapply sound_step; eauto].
    assert (W2 : wf (put o x y c)) by (apply wf_put; auto).
    unfold check. unfold get_pixel.
    rewrite !get_put by (auto; lia). rewrite !Z.eqb_refl. cbn [andb unwrap bind].
    assert ((x' =? x) && (y' =? y) = false) as -> by lia.
    rewrite get_px by (auto; lia). cbn [unwrap bind].
    destruct Sv as (Sv & _). destruct Sc as (Sc & _).
    unfold chk_u, u_fits. assert ((0 <=? px o x' y' + 1) && (px o x' y' + 1 <? 2 ^ 16) = true) as -> by lia.
    cbn [bind]. destruct (Z.ltb_spec (px o x' y' + 1) c).
    - rewrite put_pixel_ok by (cbn [iw ih put]; lia). rewrite put_put by (auto; lia).
      rewrite Z.mod_small by lia. rewrite Z.min_r by lia. reflexivity.
    - rewrite Z.min_l by lia. reflexivity.
  Qed.

  (** ** forward pass *)
  Definition fwd_loc (o : image Z) (a b : Z) : Prop :=
    sound a b (px o a b) /\
    (src a b -> px o a b = 0) /\
    (0 < a -> px o a b <= px o (a - 1) b + 1) /\
    (0 < b -> px o a b <= px o a (b - 1) + 1) /\
    (linf = true -> 0 < b -> 0 < a -> px o a b <= px o (a - 1) (b - 1) + 1) /\
    (linf = true -> 0 < b -> a < w - 1 -> px o a b <= px o (a + 1) (b - 1) + 1).

  Definition dn (xx yy a b : Z) : Prop := b < yy \/ (b = yy /\ a < xx).

  Definition fwd_inv (xx yy : Z) (o : image Z) : Prop :=
    wf o /\ iw o = w /\ ih o = h /\
    (forall a b, inr a b -> ~ dn xx yy a b -> get o a b = get im a b) /\
    (forall a b, inr a b -> dn xx yy a b -> fwd_loc o a b).

  Lemma src_dec x y v : get im x y = Some v ->
    (match from with Foreground => 0 <? v | Background => v =? 0 end) = true <-> src x y.
  Proof.
    intros G. unfold src, source, is_fg, is_bg. assert (is_u8 v) as B by (eapply Hg; eauto). unfold is_u8 in B.
    destruct from.
    - split; [intros; exists v; split; auto; lia|]. intros (v' & E & Hv). rewrite G in E. injection E as <-. lia.
    - rewrite G. split; [intros; f_equal; lia|]. intros E. injection E as ->. reflexivity.
  Qed.

  Lemma M_range : inr 0 0 -> 1 <= M <= 255. Proof. unfold inr, M. pose proof Hw0; pose proof Hh0. lia. Qed.

  Lemma fwd_inv_put xx yy o v : inr xx yy -> fwd_inv xx yy o ->
    (forall o', o' = put o xx yy v -> fwd_loc o' xx yy) -> fwd_inv (xx + 1) yy (put o xx yy v).
  Proof.
    intros (Hx & Hy) (Wo & E1 & E2 & Hold & Hnew) HL. unfold fwd_inv. splits; auto.
    - apply wf_put; auto.
    - intros a b (Ha & Hb) Hn. rewrite get_put by (auto; lia).
      destruct ((a =? xx) && (b =? yy)) eqn:E; [unfold dn in Hn; lia|]. apply Hold; [split; auto|unfold dn in *; lia].
    - intros a b (Ha & Hb) Hd. destruct ((a =? xx) && (b =? yy)) eqn:E.
      + assert (a = xx /\ b = yy) as (-> & ->) by lia. apply HL; auto.
      + assert (Hd' : dn xx yy a b) by (unfold dn in *; lia).
        destruct (Hnew a b) as (L1 & L2 & L3 & L4 & L5 & L6); [split; auto|auto|].
        unfold fwd_loc.
        assert (K : forall a' b', dn xx yy a' b' -> px (put o xx yy v) a' b' = px o a' b').
        { intros a' b' Hd2. rewrite px_put by (auto; lia). destruct ((a' =? xx) && (b' =? yy)) eqn:E3; auto. unfold dn in Hd2. lia. }
        rewrite !K by (unfold dn in *; lia).
        splits; auto.
  Qed.

  Lemma fwd_step xx yy o : inr xx yy -> fwd_inv xx yy o ->
    exists o', dt_forward linf from M yy xx o = Ok o' /\ fwd_inv (xx + 1) yy o'.
  Proof.
    intros (Hx & Hy) I. pose proof I as (Wo & E1 & E2 & Hold & Hnew).
    assert (HM : 1 <= M <= 255) by (apply M_range; unfold inr; lia).
    unfold dt_forward, get_pixel. rewrite Hold by (unfold inr, dn; lia).
    rewrite (get_px im) by (auto using W). cbn [unwrap bind].
    pose proof (src_dec xx yy (px im xx yy) (get_px im xx yy W Hx Hy)) as SD.
    destruct (match from with Foreground => 0 <? px im xx yy | Background => px im xx yy =? 0 end).
    - rewrite put_pixel_ok by lia. eexists; split; [reflexivity|].
      apply fwd_inv_put; auto; [unfold inr; lia|]. intros o' ->.
      assert (K : forall a b, px (put o xx yy 0) a b = if (a =? xx) && (b =? yy) then 0 else px o a b)
        by (intros; apply px_put; auto; lia).
      assert (NN : forall a b, inr a b -> dn xx yy a b -> 0 <= px o a b).
      { intros a b Hab Hd. destruct (Hnew a b Hab Hd) as (((? & ?) & _) & _). auto. }
      unfold fwd_loc. rewrite !K, !Z.eqb_refl. cbn [andb].
      assert (SS : src xx yy) by (apply SD; auto).
      splits; auto; try lia.
      + split; [lia|]. right. exists xx, yy. split; auto. rewrite dist_refl. lia.
      + intros. rewrite ?K. ifk.
        specialize (NN (xx - 1) yy ltac:(unfold inr; lia) ltac:(unfold dn; lia)). lia.
      + intros. ifk.
        specialize (NN xx (yy - 1) ltac:(unfold inr; lia) ltac:(unfold dn; lia)). lia.
      + intros. rewrite ?K. ifk.
        specialize (NN (xx - 1) (yy - 1) ltac:(unfold inr; lia) ltac:(unfold dn; lia)). lia.
      + intros. rewrite ?K. ifk.
        specialize (NN (xx + 1) (yy - 1) ltac:(unfold inr; lia) ltac:(unfold dn; lia)). lia.
    - assert (NS : ~ src xx yy) by (rewrite <- SD; discriminate).
      rewrite put_pixel_ok by lia. cbn [bind].
      assert (SN : forall a b, inr a b -> dn xx yy a b -> sound a b (px o a b)) by (intros a b Hab Hd; apply (Hnew a b Hab Hd)).
      assert (S0 : sound xx yy M) by (split; [lia|auto]).
      (* each check *)
      assert (CH : forall c x' y', sound xx yy c -> inr x' y' -> dn xx yy x' y' -> dist linf xx yy x' y' <= 1 ->
        check (put o xx yy c) xx yy x' y' = Ok (put o xx yy (Z.min c (px o x' y' + 1))) /\ sound xx yy (Z.min c (px o x' y' + 1))).
      { intros c x' y' Sc Hin Hd HD. apply check_ok; auto; unfold inr; try lia. unfold dn in Hd; lia. }
      set (c1 := if 0 <? xx then Z.min M (px o (xx - 1) yy + 1) else M).
      assert (T1 : when (0 <? xx) (fun im0 => check im0 xx yy (xx - 1) yy) (put o xx yy M) = Ok (put o xx yy c1) /\ sound xx yy c1).
      { unfold when, c1. destruct (0 <? xx) eqn:E; auto. apply CH; auto; unfold inr, dn, dist; destruct linf; lia. }
      destruct T1 as (-> & S1). cbn [bind].
      set (c2 := if 0 <? yy then Z.min c1 (px o xx (yy - 1) + 1) else c1).
      set (c3 := if (0 <? yy) && linf && (0 <? xx) then Z.min c2 (px o (xx - 1) (yy - 1) + 1) else c2).
      set (c4 := if (0 <? yy) && linf && (xx <? w - 1) then Z.min c3 (px o (xx + 1) (yy - 1) + 1) else c3).
      assert (R : when (0 <? yy) (fun im0 => im1 <- check im0 xx yy xx (yy - 1) ;;
         when linf (fun im2 => im3 <- when (0 <? xx) (fun im3 => check im3 xx yy (xx - 1) (yy - 1)) im2 ;;
            when (xx <? iw im3 - 1) (fun im4 => check im4 xx yy (xx + 1) (yy - 1)) im3) im1) (put o xx yy c1) =
         Ok (put o xx yy c4) /\ sound xx yy c4).
      { unfold when at 1. unfold c4, c3, c2. destruct (0 <? yy) eqn:Ey; cbn [andb]; [|auto].
        destruct (CH c1 xx (yy - 1)) as (-> & S2); auto; try (unfold inr, dn, dist; destruct linf; lia).
        cbn [bind]. unfold when at 1. destruct linf eqn:El; cbn [andb]; [|auto]. clear c4 c3 c2.
        set (c2 := Z.min c1 (px o xx (yy - 1) + 1)) in *.
        set (c3 := if 0 <? xx then Z.min c2 (px o (xx - 1) (yy - 1) + 1) else c2).
        assert (T3 : when (0 <? xx) (fun im3 => check im3 xx yy (xx - 1) (yy - 1)) (put o xx yy c2) = Ok (put o xx yy c3) /\ sound xx yy c3).
        { unfold when, c3. destruct (0 <? xx) eqn:E; auto. apply CH; auto; unfold inr, dn, dist; rewrite ?El; lia. }
        destruct T3 as (-> & S3). cbn [bind]. cbn [iw put]. rewrite E1.
        unfold when. destruct (xx <? w - 1) eqn:E; auto. apply CH; auto; unfold inr, dn, dist; rewrite ?El; lia. }
      destruct R as (-> & S4). eexists; split; [reflexivity|].
      apply fwd_inv_put; auto; [unfold inr; lia|]. intros o' ->.
      assert (K : forall a b, px (put o xx yy c4) a b = if (a =? xx) && (b =? yy) then c4 else px o a b)
        by (intros; apply px_put; auto; lia).
      unfold fwd_loc. rewrite !K, !Z.eqb_refl. cbn [andb].
      splits; auto; try contradiction.
      + intros. rewrite ?K. ifk.
        unfold c4, c3, c2, c1. destruct linf; ifs; cbn [andb]; lia.
      + intros. ifk.
        unfold c4, c3, c2, c1. destruct linf; ifs; cbn [andb]; lia.
      + intros Hl ? ?. rewrite ?K. ifk.
        unfold c4, c3, c2, c1. rewrite Hl. ifs; cbn [andb]; lia.
      + intros Hl ? ?. rewrite ?K. ifk.
        unfold c4, c3, c2, c1. rewrite Hl. ifs; cbn [andb]; lia.
  Qed.

  Lemma forward_ok : exists o,
    for_range 0 h (fun y o => for_range 0 (iw o) (fun x o => dt_forward linf from M y x o) o) im = Ok o /\
    wf o /\ iw o = w /\ ih o = h /\ forall a b, inr a b -> fwd_loc o a b.
  Proof.
    pose proof Hw0; pose proof Hh0.
    destruct (raster_ind fwd_inv 0 h 0 iw w (dt_forward linf from M) im) as (o & E & I); auto.
    - unfold fwd_inv. splits; auto using W. intros a b (Ha & Hb) Hd. unfold dn in Hd. lia.
    - intros x y s (_ & E & _). auto.
    - intros x y s Hx Hy I. apply fwd_step; auto. unfold inr; auto.
    - intros y s Hy (Wo & E1 & E2 & Hold & Hnew). unfold fwd_inv. splits; auto.
      + intros a b (Ha & Hb) Hd. apply Hold; [split; auto|]. unfold dn in *; lia.
      + intros a b (Ha & Hb) Hd. apply Hnew; [split; auto|]. unfold dn in *; lia.
    - destruct I as (Wo & E1 & E2 & _ & Hnew). exists o. splits; auto.
      intros a b (Ha & Hb). apply Hnew; [split; auto|]. unfold dn; lia.
  Qed.

  (** ** backward pass *)
  Section Backward.
    Variable o1 : image Z.
    Hypothesis W1 : wf o1.
    Hypothesis Ew1 : iw o1 = w.
    Hypothesis Eh1 : ih o1 = h.
    Hypothesis S1 : forall a b, inr a b -> sound a b (px o1 a b).

    Definition bwd_loc (o : image Z) (a b : Z) : Prop :=
      sound a b (px o a b) /\
      px o a b <= px o1 a b /\
      (a < w - 1 -> px o a b <= px o (a + 1) b + 1) /\
      (b < h - 1 -> px o a b <= px o a (b + 1) + 1) /\
      (linf = true -> b < h - 1 -> a < w - 1 -> px o a b <= px o (a + 1) (b + 1) + 1) /\
      (linf = true -> b < h - 1 -> 0 < a -> px o a b <= px o (a - 1) (b + 1) + 1).

    (** pixels at or after (xx, yy) in raster order are done *)
    Definition bdn (xx yy a b : Z) : Prop := b > yy \/ (b = yy /\ a >= xx).

    Definition bwd_inv (xx yy : Z) (o : image Z) : Prop :=
      wf o /\ iw o = w /\ ih o = h /\
      (forall a b, inr a b -> ~ bdn xx yy a b -> get o a b = get o1 a b) /\
      (forall a b, inr a b -> bdn xx yy a b -> bwd_loc o a b).

    Lemma bwd_inv_put xx yy o v : inr xx yy -> bwd_inv (xx + 1) yy o ->
      (forall o', o' = put o xx yy v -> bwd_loc o' xx yy) -> bwd_inv xx yy (put o xx yy v).
    Proof.
      intros (Hx & Hy) (Wo & E1 & E2 & Hold & Hnew) HL. unfold bwd_inv. splits; auto.
      - apply wf_put; auto.
      - intros a b (Ha & Hb) Hn. rewrite get_put by (auto; lia).
        destruct ((a =? xx) && (b =? yy)) eqn:E; [unfold bdn in Hn; lia|]. apply Hold; [split; auto|unfold bdn in *; lia].
      - intros a b (Ha & Hb) Hd. destruct ((a =? xx) && (b =? yy)) eqn:E.
        + assert (a = xx /\ b = yy) as (-> & ->) by lia. apply HL; auto.
        + assert (Hd' : bdn (xx + 1) yy a b) by (unfold bdn in *; lia).
          destruct (Hnew a b) as (L1 & L2 & L3 & L4 & L5 & L6); [split; auto|auto|].
          unfold bwd_loc.
          assert (K : forall a' b', bdn (xx + 1) yy a' b' -> px (put o xx yy v) a' b' = px o a' b').
          { intros a' b' Hd2. rewrite px_put by (auto; lia). destruct ((a' =? xx) && (b' =? yy)) eqn:E3; auto. unfold bdn in Hd2. lia. }
          rewrite !K by (unfold bdn in *; lia).
          splits; auto.
    Qed.

    Lemma bwd_step xx yy o : inr xx yy -> bwd_inv (xx + 1) yy o ->
      exists o', dt_backward linf yy xx o = Ok o' /\ bwd_inv xx yy o'.
    Proof.
      intros (Hx & Hy) I. pose proof I as (Wo & E1 & E2 & Hold & Hnew).
      assert (HM : 1 <= M <= 255) by (apply M_range; unfold inr; lia).
      assert (SN : forall a b, inr a b -> bdn (xx + 1) yy a b -> sound a b (px o a b)) by (intros a b Hab Hd; apply (Hnew a b Hab Hd)).
      set (c0 := px o1 xx yy).
      assert (S0 : sound xx yy c0) by (apply S1; unfold inr; lia).
      assert (G0 : get o xx yy = Some c0).
      { rewrite Hold by (unfold inr, bdn; lia). apply get_px; auto; lia. }
      assert (E0 : o = put o xx yy c0) by (symmetry; apply put_same; auto).
      assert (CH : forall c x' y', sound xx yy c -> inr x' y' -> bdn (xx + 1) yy x' y' -> dist linf xx yy x' y' <= 1 ->
        check (put o xx yy c) xx yy x' y' = Ok (put o xx yy (Z.min c (px o x' y' + 1))) /\ sound xx yy (Z.min c (px o x' y' + 1))).
      { intros c x' y' Sc Hin Hd HD. apply check_ok; auto; unfold inr; try lia. unfold bdn in Hd; lia. }
      set (c1 := if xx <? w - 1 then Z.min c0 (px o (xx + 1) yy + 1) else c0).
      assert (T1 : when (xx <? iw o - 1) (fun im0 => check im0 xx yy (xx + 1) yy) o = Ok (put o xx yy c1) /\ sound xx yy c1).
      { rewrite E1. rewrite E0 at 1. unfold when, c1. destruct (xx <? w - 1) eqn:E; auto. apply CH; auto; unfold inr, bdn, dist; destruct linf; lia. }
      unfold dt_backward. destruct T1 as (-> & S2). cbn [bind].
      set (c2 := if yy <? h - 1 then Z.min c1 (px o xx (yy + 1) + 1) else c1).
      set (c3 := if (yy <? h - 1) && linf && (xx <? w - 1) then Z.min c2 (px o (xx + 1) (yy + 1) + 1) else c2).
      set (c4 := if (yy <? h - 1) && linf && (0 <? xx) then Z.min c3 (px o (xx - 1) (yy + 1) + 1) else c3).
      cbn [ih put]. rewrite E2.
      assert (R : when (yy <? h - 1) (fun im0 => im1 <- check im0 xx yy xx (yy + 1) ;;
         when linf (fun im2 => im3 <- when (xx <? iw im2 - 1) (fun im3 => check im3 xx yy (xx + 1) (yy + 1)) im2 ;;
            when (0 <? xx) (fun im4 => check im4 xx yy (xx - 1) (yy + 1)) im3) im1) (put o xx yy c1) =
         Ok (put o xx yy c4) /\ sound xx yy c4).
      { unfold when at 1. unfold c4, c3, c2. destruct (yy <? h - 1) eqn:Ey; cbn [andb]; [|auto].
        destruct (CH c1 xx (yy + 1)) as (-> & S3); auto; try (unfold inr, bdn, dist; destruct linf; lia).
        cbn [bind]. unfold when at 1. destruct linf eqn:El; cbn [andb]; [|auto]. clear c4 c3 c2.
        set (c2 := Z.min c1 (px o xx (yy + 1) + 1)) in *.
        set (c3 := if xx <? w - 1 then Z.min c2 (px o (xx + 1) (yy + 1) + 1) else c2).
        cbn [iw put]. rewrite E1.
        assert (T3 : when (xx <? w - 1) (fun im3 => check im3 xx yy (xx + 1) (yy + 1)) (put o xx yy c2) = Ok (put o xx yy c3) /\ sound xx yy c3).
        { unfold when, c3. destruct (xx <? w - 1) eqn:E; auto. apply CH; auto; unfold inr, bdn, dist; rewrite ?El; lia. }
        destruct T3 as (-> & S4). cbn [bind].
        unfold when. destruct (0 <? xx) eqn:E; auto. apply CH; auto; unfold inr, bdn, dist; rewrite ?El; lia. }
      destruct R as (-> & S4). eexists; split; [reflexivity|].
      apply bwd_inv_put; auto; [unfold inr; lia|]. intros o' ->.
      assert (K : forall a b, px (put o xx yy c4) a b = if (a =? xx) && (b =? yy) then c4 else px o a b)
        by (intros; apply px_put; auto; lia).
      unfold bwd_loc. rewrite !K, !Z.eqb_refl. cbn [andb].
      splits; auto.
      + unfold c4, c3, c2, c1. fold c0. destruct linf; ifs; cbn [andb]; lia.
      + intros. rewrite ?K. ifk.
        unfold c4, c3, c2, c1. destruct linf; ifs; cbn [andb]; lia.
      + intros. ifk.
        unfold c4, c3, c2, c1. destruct linf; ifs; cbn [andb]; lia.
      + intros Hl ? ?. rewrite ?K. ifk.
        unfold c4, c3, c2, c1. rewrite Hl. ifs; cbn [andb]; lia.
      + intros Hl ? ?. rewrite ?K. ifk.
        unfold c4, c3, c2, c1. rewrite Hl. ifs; cbn [andb]; lia.
    Qed.

    Lemma backward_ok : exists o,
      for_range_rev 0 h (fun y o => for_range_rev 0 (iw o) (fun x o => dt_backward linf y x o) o) o1 = Ok o /\
      wf o /\ iw o = w /\ ih o = h /\ forall a b, inr a b -> bwd_loc o a b.
    Proof.
      pose proof Hw0; pose proof Hh0.
      destruct (raster_rev_ind bwd_inv h w iw (dt_backward linf) o1) as (o & E & I); auto.
      - unfold bwd_inv. splits; auto. intros a b (Ha & Hb) Hd. unfold bdn in Hd. lia.
      - intros x y s (_ & E & _). auto.
      - intros x y s Hx Hy I. apply bwd_step; auto. unfold inr; auto.
      - intros y s Hy HP.
        assert (HQ : bwd_inv 0 (y + 1) s \/ (y + 1 = h /\ bwd_inv w h s)) by auto.
        destruct HQ as [(Wo & E1 & E2 & Hold & Hnew)|(Ey & Wo & E1 & E2 & Hold & Hnew)]; unfold bwd_inv; splits; auto;
          intros a b (Ha & Hb) Hd; [apply Hold|apply Hnew|apply Hold|apply Hnew]; try (split; auto); unfold bdn in *; lia.
      - destruct I as [(Wo & E1 & E2 & _ & Hnew)|(Eh & Wo & E1 & E2 & _ & Hnew)]; exists o; splits; auto.
        + intros a b (Ha & Hb). apply Hnew; [split; auto|]. unfold bdn; lia.
        + intros a b (Ha & Hb). lia.
    Qed.
  End Backward.

  (** ** propagation *)
  Definition dir1 (dx dy : Z) : Prop := 0 <= dy /\ (0 <= dx \/ (linf = true /\ - dx <= dy)).

  Lemma fwd_reach o : (forall a b, inr a b -> fwd_loc o a b) -> forall n a b fx fy,
    inr a b -> src fx fy -> dir1 (a - fx) (b - fy) -> dist linf a b fx fy <= Z.of_nat n -> px o a b <= Z.of_nat n.
  Proof.
    intros HL. induction n as [|n IH]; intros a b fx fy Hab Hs Hd Hn.
    - apply dist_0 in Hn. destruct Hn; subst. destruct (HL fx fy Hab) as (_ & H0 & _). rewrite H0; auto. lia.
    - pose proof (src_in _ _ Hs) as Hin.
      destruct (HL a b Hab) as (_ & H0 & L1 & L2 & L3 & L4).
      assert (Case : (a = fx /\ b = fy) \/ ~ (a = fx /\ b = fy)) by lia. destruct Case as [(-> & ->)|Hne].
      { rewrite H0 by auto. lia. }
      assert (STEP : forall a' b', inr a' b' -> dir1 (a' - fx) (b' - fy) -> dist linf a' b' fx fy <= Z.of_nat n ->
                px o a b <= px o a' b' + 1 -> px o a b <= Z.of_nat (S n)).
      { intros a' b' H1 H2 H3 H4. specialize (IH a' b' fx fy H1 Hs H2 H3). lia. }
      unfold inr in *. unfold dir1, dist in *. destruct linf.
      + (* LInf *)
        destruct (Z_lt_dec a fx).
        * apply (STEP (a + 1) (b - 1)); try lia; auto; try (apply L4; auto; lia).
        * destruct (Z.eq_dec b fy).
          -- apply (STEP (a - 1) b); try lia. 
          -- destruct (Z.eq_dec a fx).
             ++ apply (STEP a (b - 1)); try lia. 
             ++ apply (STEP (a - 1) (b - 1)); try lia; auto; try (apply L3; auto; lia).
      + destruct (Z.eq_dec a fx).
        * apply (STEP a (b - 1)); try lia.
        * assert (fx < a) by (destruct Hd as (? & [?|(? & _)]); [lia|discriminate]).
          apply (STEP (a - 1) b); try lia.
  Qed.

  Definition dir2 (dx dy : Z) : Prop := dy <= 0 /\ (dx <= 0 \/ (linf = true /\ dx <= - dy)).

  Lemma bwd_reach o1 o : (forall a b, inr a b -> bwd_loc o1 o a b) -> forall n a b qx qy,
    inr a b -> inr qx qy -> dir2 (a - qx) (b - qy) -> dist linf a b qx qy <= Z.of_nat n -> px o a b <= px o1 qx qy + Z.of_nat n.
  Proof.
    intros HL. induction n as [|n IH]; intros a b fx fy Hab Hin Hd Hn.
    - apply dist_0 in Hn. destruct Hn; subst. destruct (HL fx fy Hab) as (_ & H0 & _). lia.
    - destruct (HL a b Hab) as (_ & H0 & L1 & L2 & L3 & L4).
      assert (Case : (a = fx /\ b = fy) \/ ~ (a = fx /\ b = fy)) by lia. destruct Case as [(-> & ->)|Hne]; [lia|].
      assert (STEP : forall a' b', inr a' b' -> dir2 (a' - fx) (b' - fy) -> dist linf a' b' fx fy <= Z.of_nat n ->
                px o a b <= px o a' b' + 1 -> px o a b <= px o1 fx fy + Z.of_nat (S n)).
      { intros a' b' H1 H2 H3 H4. specialize (IH a' b' fx fy H1 Hin H2 H3). lia. }
      unfold inr in *. unfold dir2, dist in *. destruct linf.
      + specialize (L3 eq_refl). specialize (L4 eq_refl). clear H0.
        assert (Hd' : b - fy <= 0 /\ (a - fx <= 0 \/ a - fx <= - (b - fy))) by (destruct Hd as (? & [?|(_ & ?)]); auto).
        clear Hd. assert (T : forall X Y, true = true /\ X <= Y <-> X <= Y) by tauto.
        assert (STEP' : forall a' b', 0 <= a' < w /\ 0 <= b' < h -> b' - fy <= 0 /\ (a' - fx <= 0 \/ a' - fx <= - (b' - fy)) ->
                Z.max (Z.abs (a' - fx)) (Z.abs (b' - fy)) <= Z.of_nat n ->
                px o a b <= px o a' b' + 1 -> px o a b <= px o1 fx fy + Z.of_nat (S n)).
        { intros a' b' H1 H2 H3 H4. apply (STEP a' b' H1); auto. rewrite T. auto. }
        clear STEP T. rename STEP' into STEP. clear IH HL.
        destruct (Z_lt_dec fx a).
        * apply (STEP (a - 1) (b + 1)); try lia; auto; try (apply L4; auto; lia).
        * destruct (Z.eq_dec b fy).
          -- apply (STEP (a + 1) b); try lia. 
          -- destruct (Z.eq_dec a fx).
             ++ apply (STEP a (b + 1)); try lia. 
             ++ apply (STEP (a + 1) (b + 1)); try lia; auto; try (apply L3; auto; lia).
      + clear L3 L4 H0 IH HL. destruct (Z.eq_dec a fx).
        * apply (STEP a (b + 1)); try lia; intuition lia.
        * assert (a < fx) by (destruct Hd as (? & [?|(? & _)]); [lia|discriminate]).
          apply (STEP (a + 1) b); try lia.
  Qed.

  (** a shortest path goes forward first and backward afterwards, through q *)
  Lemma waypoint a b fx fy : inr a b -> inr fx fy -> exists qx qy,
    inr qx qy /\ dir1 (qx - fx) (qy - fy) /\ dir2 (a - qx) (b - qy) /\
    dist linf qx qy fx fy + dist linf a b qx qy = dist linf a b fx fy.
  Proof.
    intros (Ha & Hb) (Hfx & Hfy). unfold inr, dir1, dir2, dist. destruct linf.
    - destruct (Z_le_dec fy b) as [H1|H1]; destruct (Z_le_dec fx a) as [H2|H2].
      + exists a, b. lia.
      + (* down-left *) destruct (Z_le_dec (fx - a) (b - fy)).
        * exists a, b. lia.
        * exists (fx - (b - fy)), b. splits; try lia.
      + (* up-right *) destruct (Z_le_dec (a - fx) (fy - b)).
        * exists fx, fy. splits; try lia.
        * exists (a - (fy - b)), fy. splits; try lia.
      + exists fx, fy. splits; lia.
    - exists (Z.max a fx), (Z.max b fy). splits; try lia.
  Qed.

  Theorem dt_ok : exists out, dt_impl linf from im = Ok out /\ wf out /\ iw out = w /\ ih out = h /\
    forall x y, inr x y -> exists v, get out x y = Some v /\ sound x y v /\
      (forall fx fy, src fx fy -> v <= dist linf x y fx fy).
  Proof.
    pose proof Hw0; pose proof Hh0.
    unfold dt_impl, chk_u, u_fits. fold w h. assert ((0 <=? w + h) && (w + h <? 2 ^ 32) = true) as -> by lia.
    cbn [bind]. fold M.
    destruct forward_ok as (o1 & -> & W1 & E1 & E2 & L1). cbn [bind]. rewrite E2.
    destruct (backward_ok o1 W1 E1 E2) as (o & -> & Wo & E3 & E4 & L2).
    { intros a b Hab. apply (L1 a b Hab). }
    exists o. splits; auto. intros x y Hxy. exists (px o x y). splits.
    - apply get_px; auto; unfold inr in Hxy; lia.
    - apply (L2 x y Hxy).
    - intros fx fy Hs. destruct (waypoint x y fx fy Hxy (src_in _ _ Hs)) as (qx & qy & Hq & D1 & D2 & ED).
      pose proof (fwd_reach o1 L1 (Z.to_nat (dist linf qx qy fx fy)) qx qy fx fy Hq Hs D1) as A.
      pose proof (bwd_reach o1 o L2 (Z.to_nat (dist linf x y qx qy)) x y qx qy Hxy Hq D2) as B.
      pose proof (dist_nonneg linf qx qy fx fy). pose proof (dist_nonneg linf x y qx qy).
      rewrite !Z2Nat.id in * by auto. specialize (A ltac:(lia)). specialize (B ltac:(lia)). lia.
  Qed.
End DT.
