(** C20 (distance transforms), C22 (dilate/erode), C76 (laws of morphology). *)
From Verif Require Import Base BaseProofs GeomProofs RasterProofs IntegralSpec DistanceModel DistanceSpec DistanceProofs.

(** ** the nearest point always exists *)
Lemma source_dec from im x y : {source from im x y} + {~ source from im x y}.
Proof.
  unfold source, is_fg, is_bg. destruct (get im x y) as [v|] eqn:E.
  - destruct (Z.eq_dec v 0) as [->|Hv]; destruct from; auto.
    + right. intros (v & Ev & Hn). congruence.
    + left. eauto.
    + right. intros Ev. congruence.
  - right. destruct from; [intros (v & Ev & _)|intros Ev]; discriminate.
Qed.

Lemma nearest_exists l from im x y fx fy : source from im fx fy -> exists m, nearest l (source from im) x y m.
Proof.
  intros Hs. remember (Z.to_nat (dist l x y fx fy)) as n eqn:En. revert fx fy Hs En.
  induction n as [n IH] using lt_wf_ind. intros fx fy Hs En.
  assert (D : (exists gx gy, source from im gx gy /\ dist l x y gx gy < dist l x y fx fy) \/
              forall gx gy, source from im gx gy -> dist l x y fx fy <= dist l x y gx gy).
  { destruct (bounded_dec (fun gy => forall gx, 0 <= gx < iw im -> source from im gx gy -> dist l x y fx fy <= dist l x y gx gy) 0 (ih im)) as [H|(gy & Hy & H)].
    - intros gy _.
      destruct (bounded_dec (fun gx => source from im gx gy -> dist l x y fx fy <= dist l x y gx gy) 0 (iw im)) as [H|(gx & Hx & H)].
      + intros gx _. destruct (source_dec from im gx gy); [|left; contradiction].
        destruct (Z_le_dec (dist l x y fx fy) (dist l x y gx gy)); [left; auto|right; tauto].
      + left. auto.
      + right. intros C. apply H. apply C; auto.
    - right. intros gx gy Hg.
      assert (HR : 0 <= gx < iw im /\ 0 <= gy < ih im).
      { unfold source, is_fg, is_bg in Hg. destruct from; [destruct Hg as (v & G & _)|pose proof Hg as G]; apply get_inb in G; auto. }
      apply H; tauto.
    - left.
      destruct (bounded_dec (fun gx => source from im gx gy -> dist l x y fx fy <= dist l x y gx gy) 0 (iw im)) as [H'|(gx & Hx & H')].
      + intros gx _. destruct (source_dec from im gx gy); [|left; contradiction].
        destruct (Z_le_dec (dist l x y fx fy) (dist l x y gx gy)); [left; auto|right; tauto].
      + exfalso; auto.
      + exists gx, gy. destruct (source_dec from im gx gy) as [Hg|Hg]; [|exfalso; tauto]. split; auto.
        destruct (Z_le_dec (dist l x y fx fy) (dist l x y gx gy)); [exfalso; tauto|lia]. }
  destruct D as [(gx & gy & Hg & Hlt)|Hmin].
  - pose proof (dist_nonneg l x y gx gy). apply (IH (Z.to_nat (dist l x y gx gy))) with gx gy; auto. subst n. lia.
  - exists (dist l x y fx fy). split; eauto.
Qed.

Lemma source_range from im x y : source from im x y -> 0 <= x < iw im /\ 0 <= y < ih im.
Proof.
  unfold source, is_fg, is_bg. intros Hg.
  destruct from; [destruct Hg as (v & G & _)|pose proof Hg as G]; apply get_inb in G; auto.
Qed.

(** what the two passes compute: min(cap, nearest) *)
Lemma dt_char l from im : gray8 im -> iw im + ih im < 2 ^ 32 ->
  exists out, dt_impl l from im = Ok out /\ wf out /\ iw out = iw im /\ ih out = ih im /\
    forall x y, 0 <= x < iw im -> 0 <= y < ih im ->
      exists v, get out x y = Some v /\
        ((forall fx fy, ~ source from im fx fy) -> v = Z.min 255 (iw im + ih im)) /\
        (forall m, nearest l (source from im) x y m -> v = Z.min 255 m).
Proof.
  intros Hg Hf. destruct (dt_ok l from im Hg Hf) as (out & E & W & E1 & E2 & H).
  exists out. splits; auto. intros x y Hx Hy. destruct (H x y (conj Hx Hy)) as (v & G & (S1 & S2) & HU).
  exists v. splits; auto.
  - intros Hno. destruct S2 as [->|(fx & fy & Hs & _)]; [lia|]. exfalso. eapply Hno; eauto.
  - intros m ((fx & fy & Hs & <-) & Hmin). pose proof (HU fx fy Hs).
    pose proof (source_range _ _ _ _ Hs) as (Rx & Ry).
    assert (dist l x y fx fy < iw im + ih im) by (unfold dist; destruct l; lia).
    destruct S2 as [->|(gx & gy & Hs' & HD)]; [lia|]. specialize (Hmin gx gy Hs'). lia.
Qed.

(** ** C20 *)
Theorem c20_distance_transform : forall linf im,
  gray8 im -> iw im + ih im < 2 ^ 32 ->
  exists out, distance_transform linf im = Ok out /\ wf out /\ iw out = iw im /\ ih out = ih im /\
    forall x y, 0 <= x < iw im -> 0 <= y < ih im ->
      exists v, get out x y = Some v /\
        ((forall fx fy, ~ is_fg im fx fy) -> v = Z.min 255 (iw im + ih im)) /\
        (forall m, nearest linf (is_fg im) x y m -> v = Z.min 255 m).
Proof. intros. apply (dt_char linf Foreground im); auto. Qed.

(** ... and the two cases are exhaustive. *)
Theorem c20_nearest_exists : forall linf im x y fx fy,
  is_fg im fx fy -> exists m, nearest linf (is_fg im) x y m.
Proof. intros linf im x y fx fy H. apply (nearest_exists linf Foreground im x y fx fy H). Qed.

Example c20_nontrivial :
  let im := mkImage 4 3 [0; 0; 0; 0;  0; 7; 0; 0;  0; 0; 0; 0] in
  distance_transform true im = Ok (mkImage 4 3 [1; 1; 1; 2;  1; 0; 1; 2;  1; 1; 1; 2]) /\
  distance_transform false im = Ok (mkImage 4 3 [2; 1; 2; 3;  1; 0; 1; 2;  2; 1; 2; 3]) /\
  distance_transform false (mkImage 2 1 [0; 0]) = Ok (mkImage 2 1 [3; 3]).
Proof. vm_compute. auto. Qed.

(** ** C22 *)
(** exact characterisation of both, including the saturation cases *)
Lemma morph_char l from im k (a b : Z) : gray8 im -> iw im + ih im < 2 ^ 32 -> 0 <= k ->
  exists d, dt_impl l from im = Ok d /\
    let out := map_data (fun p => if p <=? k then a else b) d in
    wf out /\ iw out = iw im /\ ih out = ih im /\
    forall x y, 0 <= x < iw im -> 0 <= y < ih im ->
      (Z.min 255 (iw im + ih im) <= k \/ within l (source from im) k x y -> get out x y = Some a) /\
      (~ (Z.min 255 (iw im + ih im) <= k \/ within l (source from im) k x y) -> get out x y = Some b).
Proof.
  intros Hg Hf Hk. destruct (dt_ok l from im Hg Hf) as (d & E & W & E1 & E2 & H).
  exists d. split; auto. intros out. splits; auto.
  - apply wf_map_data; auto.
  - intros x y Hx Hy. unfold out, map_data. rewrite get_map_data.
    destruct (H x y (conj Hx Hy)) as (v & -> & (S1 & S2) & HU). cbn [option_map]. split.
    + intros [HM|(fx & fy & Hs & HD)].
      * assert (v <=? k = true) as -> by lia. auto.
      * specialize (HU fx fy Hs). assert (v <=? k = true) as -> by lia. auto.
    + intros Hn. assert (v <=? k = false) as ->; auto. apply Z.leb_gt.
      destruct S2 as [->|(fx & fy & Hs & HD)]; [lia|].
      destruct (Z_lt_dec k v); auto. exfalso. apply Hn. right. exists fx, fy. split; auto. lia.
Qed.

Definition c22_statement : Prop := forall linf im k,
  gray8 im -> iw im + ih im < 2 ^ 32 -> is_u8 k ->
  (exists out, dilate linf im k = Ok out /\
     forall x y, 0 <= x < iw im -> 0 <= y < ih im -> (get out x y = Some 255 <-> within linf (is_fg im) k x y)) /\
  (exists out, erode linf im k = Ok out /\
     forall x y, 0 <= x < iw im -> 0 <= y < ih im -> (get out x y = Some 0 <-> within linf (is_bg im) k x y)).

(** Refuted: dilating a blank image with a large radius turns it white. *)
Theorem c22_blank_refuted : ~ c22_statement.
Proof.
  intros H. destruct (H true (mkImage 1 1 [0]) 2) as ((out & E & HO) & _).
  - apply gray8b_ok; reflexivity.
  - reflexivity.
  - unfold is_u8; lia.
  - vm_compute in E. injection E as <-. destruct (HO 0 0) as (A & _); try (cbn; lia).
    destruct (A eq_refl) as (fx & fy & (v & G & Hv) & _).
    pose proof (get_inb _ _ _ _ G) as ((Hx1 & Hx2) & (Hy1 & Hy2)). cbn in Hx2, Hy2.
    assert (fx = 0) by lia. assert (fy = 0) by lia. subst. injection G as <-. lia.
Qed.

(** Refuted also for k = 255 on images wider than the 8-bit range. *)
Theorem c22_saturation_white : forall linf im,
  gray8 im -> iw im + ih im < 2 ^ 32 ->
  exists out, dilate linf im 255 = Ok out /\
    forall x y, 0 <= x < iw im -> 0 <= y < ih im -> get out x y = Some 255.
Proof.
  intros l im Hg Hf. destruct (morph_char l Foreground im 255 255 0 Hg Hf ltac:(lia)) as (d & E & _ & _ & _ & H).
  unfold dilate. rewrite E. cbn [bind]. eexists; split; [reflexivity|].
  intros x y Hx Hy. apply (H x y Hx Hy). lia.
Qed.

(** What holds: every k below the cap, and every k < 255 as soon as there is
    a foreground (background) pixel. *)
Theorem c22_dilate_erode_partial : forall linf im k,
  gray8 im -> iw im + ih im < 2 ^ 32 -> 0 <= k < 255 ->
  (k < iw im + ih im \/ (exists x y, is_fg im x y) ->
   exists out, dilate linf im k = Ok out /\ wf out /\ iw out = iw im /\ ih out = ih im /\
     forall x y, 0 <= x < iw im -> 0 <= y < ih im ->
       (within linf (is_fg im) k x y -> get out x y = Some 255) /\
       (~ within linf (is_fg im) k x y -> get out x y = Some 0)) /\
  (k < iw im + ih im \/ (exists x y, is_bg im x y) ->
   exists out, erode linf im k = Ok out /\ wf out /\ iw out = iw im /\ ih out = ih im /\
     forall x y, 0 <= x < iw im -> 0 <= y < ih im ->
       (within linf (is_bg im) k x y -> get out x y = Some 0) /\
       (~ within linf (is_bg im) k x y -> get out x y = Some 255)).
Proof.
  intros l im k Hg Hf Hk.
  assert (G : forall from a b, k < iw im + ih im \/ (exists x y, source from im x y) ->
    exists d, dt_impl l from im = Ok d /\
      let out := map_data (fun p => if p <=? k then a else b) d in
      wf out /\ iw out = iw im /\ ih out = ih im /\
      forall x y, 0 <= x < iw im -> 0 <= y < ih im ->
        (within l (source from im) k x y -> get out x y = Some a) /\
        (~ within l (source from im) k x y -> get out x y = Some b)).
  { intros from a b Hc. destruct (morph_char l from im k a b Hg Hf ltac:(lia)) as (d & E & W & E1 & E2 & H).
    exists d. split; auto. intros out. splits; auto.
    - intros x y Hx Hy. destruct (H x y Hx Hy) as (A & B). split; [auto|].
      intros Hn. apply B. intros [HM|HW]; [|auto].
      destruct Hc as [Hc|(fx & fy & Hs)]; [lia|].
      apply Hn. exists fx, fy. split; auto. pose proof (source_range _ _ _ _ Hs).
      unfold dist. destruct l; lia. }
  split; intros Hc.
  - destruct (G Foreground 255 0 Hc) as (d & E & W & E1 & E2 & H).
    unfold dilate. rewrite E. cbn [bind]. eexists; split; [reflexivity|]. auto.
  - destruct (G Background 0 255 Hc) as (d & E & W & E1 & E2 & H).
    unfold erode. rewrite E. cbn [bind]. eexists; split; [reflexivity|]. auto.
Qed.

Example c22_nontrivial :
  let im := mkImage 4 3 [0; 0; 0; 0;  0; 7; 0; 0;  0; 0; 0; 0] in
  dilate true im 1 = Ok (mkImage 4 3 [255; 255; 255; 0;  255; 255; 255; 0;  255; 255; 255; 0]) /\
  erode false (mkImage 3 3 [9; 9; 9; 9; 9; 9; 9; 9; 0]) 1 = Ok (mkImage 3 3 [255; 255; 255; 255; 255; 0; 255; 0; 0]).
Proof. vm_compute. auto. Qed.

(** ** C76 *)
Definition bin (im : image Z) : Prop := forall x y v, get im x y = Some v -> v = 0 \/ v = 255.

Lemma fg_bg im x y : wf im -> 0 <= x < iw im -> 0 <= y < ih im -> (is_bg im x y <-> ~ is_fg im x y).
Proof.
  intros W Hx Hy. destruct (get_some im x y W Hx Hy) as (v & E). unfold is_bg, is_fg. rewrite E. split.
  - intros Ev (u & Eu & Hu). congruence.
  - intros Hn. f_equal. destruct (Z.eq_dec v 0); auto. exfalso. apply Hn. eauto.
Qed.
Lemma fg_dec im x y : is_fg im x y \/ ~ is_fg im x y.
Proof. destruct (source_dec Foreground im x y); auto. Qed.

(** dilation and erosion as set operations; [cap] is the saturation case *)
Definition capped (im : image Z) (k : Z) : Prop := Z.min 255 (iw im + ih im) <= k.
Lemma within_dec l from im k x y : within l (source from im) k x y \/ ~ within l (source from im) k x y.
Proof.
  destruct (bounded_dec (fun gy => forall gx, 0 <= gx < iw im -> ~ (source from im gx gy /\ dist l x y gx gy <= k)) 0 (ih im)) as [H|(gy & Hy & H)].
  - intros gy _. destruct (bounded_dec (fun gx => ~ (source from im gx gy /\ dist l x y gx gy <= k)) 0 (iw im)) as [H|(gx & Hx & H)]; auto.
    + intros gx _. destruct (source_dec from im gx gy); [|left; tauto]. destruct (Z_le_dec (dist l x y gx gy) k); [right|left]; tauto.
    + right. intros C. apply H. auto.
  - right. intros (fx & fy & Hs & HD). pose proof (source_range _ _ _ _ Hs) as (R1 & R2). apply (H fy R2 fx R1). auto.
  - left. destruct (bounded_dec (fun gx => ~ (source from im gx gy /\ dist l x y gx gy <= k)) 0 (iw im)) as [H'|(gx & Hx & H')].
    + intros gx _. destruct (source_dec from im gx gy); [|left; tauto]. destruct (Z_le_dec (dist l x y gx gy) k); [right|left]; tauto.
    + exfalso; auto.
    + exists gx, gy. destruct (source_dec from im gx gy); [|tauto]. destruct (Z_le_dec (dist l x y gx gy) k); tauto.
Qed.

Lemma binary_gray8 im : wf im -> bin im -> gray8 im.
Proof. intros W B. split; auto. intros x y a E. destruct (B x y a E); unfold is_u8; lia. Qed.

Lemma dilate_set l im k : gray8 im -> iw im + ih im < 2 ^ 32 -> 0 <= k ->
  exists out, dilate l im k = Ok out /\ wf out /\ bin out /\ iw out = iw im /\ ih out = ih im /\
    forall x y, 0 <= x < iw im -> 0 <= y < ih im -> (is_fg out x y <-> capped im k \/ within l (is_fg im) k x y).
Proof.
  intros Hg Hf Hk. destruct (morph_char l Foreground im k 255 0 Hg Hf Hk) as (d & E & W & E1 & E2 & H).
  unfold dilate. rewrite E. cbn [bind]. eexists; split; [reflexivity|].
  set (out := map_data _ d) in *. splits; auto.
  - intros x y v G. unfold out, map_data in G. rewrite get_map_data in G. destruct (get d x y); [|discriminate].
    cbn in G. destruct (z <=? k); injection G as <-; auto.
  - intros x y Hx Hy. destruct (H x y Hx Hy) as (A & B). unfold capped. split.
    + intros (v & G & Hv). destruct (Z_le_dec (Z.min 255 (iw im + ih im)) k); auto.
      destruct (within_dec l Foreground im k x y); auto. rewrite B in G by tauto. congruence.
    + intros C. exists 255. split; [apply A; auto|lia].
Qed.

Lemma erode_set l im k : gray8 im -> iw im + ih im < 2 ^ 32 -> 0 <= k ->
  exists out, erode l im k = Ok out /\ wf out /\ bin out /\ iw out = iw im /\ ih out = ih im /\
    forall x y, 0 <= x < iw im -> 0 <= y < ih im -> (is_fg out x y <-> ~ (capped im k \/ within l (is_bg im) k x y)).
Proof.
  intros Hg Hf Hk. destruct (morph_char l Background im k 0 255 Hg Hf Hk) as (d & E & W & E1 & E2 & H).
  unfold erode. rewrite E. cbn [bind]. eexists; split; [reflexivity|].
  set (out := map_data _ d) in *. splits; auto.
  - intros x y v G. unfold out, map_data in G. rewrite get_map_data in G. destruct (get d x y); [|discriminate].
    cbn in G. destruct (z <=? k); injection G as <-; auto.
  - intros x y Hx Hy. destruct (H x y Hx Hy) as (A & B). unfold capped. split.
    + intros (v & G & Hv) C. rewrite A in G by auto. congruence.
    + intros C. exists 255. split; [apply B; auto|lia].
Qed.

(** membership of the opening and the closing, as compositions *)
Definition dil (l : bool) (im : image Z) (k : Z) (P : Z -> Z -> Prop) (x y : Z) : Prop :=
  capped im k \/ exists fx fy, (0 <= fx < iw im /\ 0 <= fy < ih im) /\ P fx fy /\ dist l x y fx fy <= k.
Definition ero (l : bool) (im : image Z) (k : Z) (P : Z -> Z -> Prop) (x y : Z) : Prop :=
  ~ capped im k /\ forall fx fy, 0 <= fx < iw im -> 0 <= fy < ih im -> dist l x y fx fy <= k -> P fx fy.

Definition same_size {A B} (a : image A) (b : image B) : Prop := iw a = iw b /\ ih a = ih b.
Definition binary_like (out im : image Z) : Prop := wf out /\ bin out /\ same_size out im.

Lemma dil_run l im k base : gray8 im -> same_size im base -> iw im + ih im < 2 ^ 32 -> 0 <= k ->
  exists out, dilate l im k = Ok out /\ binary_like out base /\
    forall x y, 0 <= x < iw base -> 0 <= y < ih base -> (is_fg out x y <-> dil l base k (is_fg im) x y).
Proof.
  intros Hg (S1 & S2) Hf Hk. destruct (dilate_set l im k Hg Hf Hk) as (out & E & W & B & E1 & E2 & H).
  exists out. splits; auto. { unfold binary_like, same_size. splits; auto; lia. }
  intros x y Hx Hy. rewrite H by lia. unfold dil, capped, within. rewrite S1, S2. split.
  - intros [C|(fx & fy & Hs & HD)]; auto. right. exists fx, fy. splits; auto;
      destruct Hs as (v & G & _); apply get_inb in G; lia.
  - intros [C|(fx & fy & _ & Hs & HD)]; auto. right. eauto.
Qed.

Lemma ero_run l im k base : gray8 im -> same_size im base -> iw im + ih im < 2 ^ 32 -> 0 <= k ->
  exists out, erode l im k = Ok out /\ binary_like out base /\
    forall x y, 0 <= x < iw base -> 0 <= y < ih base -> (is_fg out x y <-> ero l base k (is_fg im) x y).
Proof.
  intros Hg (S1 & S2) Hf Hk. destruct (erode_set l im k Hg Hf Hk) as (out & E & W & B & E1 & E2 & H).
  exists out. splits; auto. { unfold binary_like, same_size. splits; auto; lia. }
  intros x y Hx Hy. rewrite H by lia. unfold ero, capped, within. rewrite S1, S2. split.
  - intros C. split; [tauto|]. intros fx fy Hfx Hfy HD.
    destruct (fg_dec im fx fy) as [F|F]; auto. exfalso. apply C. right. exists fx, fy. split; auto.
    apply (fg_bg im fx fy); auto; [apply Hg|lia|lia].
  - intros (C & HA) [D|(fx & fy & Hs & HD)]; [auto|].
    pose proof (get_inb _ _ _ _ Hs) as (R1 & R2).
    specialize (HA fx fy ltac:(lia) ltac:(lia) HD).
    apply (fg_bg im fx fy) in Hs; auto; try lia. apply Hg.
Qed.

Lemma bin_ext a b im : binary_like a im -> binary_like b im ->
  (forall x y, 0 <= x < iw im -> 0 <= y < ih im -> (is_fg a x y <-> is_fg b x y)) -> a = b.
Proof.
  intros (Wa & Ba & (A1 & A2)) (Wb & Bb & (B1 & B2)) H. apply image_ext; auto; try congruence.
  rewrite A1, A2. intros x y Hx Hy. specialize (H x y Hx Hy).
  destruct (get_some a x y Wa ltac:(lia) ltac:(lia)) as (u & Gu).
  destruct (get_some b x y Wb ltac:(lia) ltac:(lia)) as (v & Gv).
  rewrite Gu, Gv. f_equal. unfold is_fg in H. rewrite Gu, Gv in H.
  destruct (Ba x y u Gu) as [->| ->]; destruct (Bb x y v Gv) as [->| ->]; auto; exfalso.
  - destruct H as (_ & H). destruct H as (q & Eq & Hq); [exists 255; split; auto; lia|congruence].
  - destruct H as (H & _). destruct H as (q & Eq & Hq); [exists 255; split; auto; lia|congruence].
Qed.

Section Laws.
  Variables (l : bool) (im : image Z) (k : Z).
  Hypothesis Hg : gray8 im.
  Hypothesis Hf : iw im + ih im < 2 ^ 32.
  Hypothesis Hk : 0 <= k.
  Notation dl := (dil l im k). Notation er := (ero l im k).
  Let inside x y := 0 <= x < iw im /\ 0 <= y < ih im.

  Lemma like_gray a : binary_like a im -> gray8 a.
  Proof. intros (W & B & _). apply binary_gray8; auto. Qed.
  Lemma like_fits a : binary_like a im -> iw a + ih a < 2 ^ 32.
  Proof. intros (_ & _ & (A & B)). lia. Qed.

  Lemma open_run a : gray8 a -> same_size a im -> exists out, open l a k = Ok out /\ binary_like out im /\
    forall x y, inside x y -> (is_fg out x y <-> dl (er (is_fg a)) x y).
  Proof.
    intros Ga Sa. unfold open. destruct (ero_run l a k im Ga Sa) as (e & -> & Le & He); auto. { destruct Sa; lia. }
    cbn [bind]. destruct (dil_run l e k im (like_gray e Le)) as (d & -> & Ld & Hd); auto. { apply Le. } { apply like_fits; auto. }
    eexists; splits; [reflexivity|auto|]. intros x y (Hx & Hy). rewrite Hd by auto. unfold dil. split.
    - intros [C|(fx & fy & (R1 & R2) & F & HD)]; auto. right. exists fx, fy. splits; auto; try lia. apply He; auto.
    - intros [C|(fx & fy & (R1 & R2) & F & HD)]; auto. right. exists fx, fy. splits; auto; try lia. apply He; auto.
  Qed.

  Lemma close_run a : gray8 a -> same_size a im -> exists out, close l a k = Ok out /\ binary_like out im /\
    forall x y, inside x y -> (is_fg out x y <-> er (dl (is_fg a)) x y).
  Proof.
    intros Ga Sa. unfold close. destruct (dil_run l a k im Ga Sa) as (e & -> & Le & He); auto. { destruct Sa; lia. }
    cbn [bind]. destruct (ero_run l e k im (like_gray e Le)) as (d & -> & Ld & Hd); auto. { apply Le. } { apply like_fits; auto. }
    eexists; splits; [reflexivity|auto|]. intros x y (Hx & Hy). rewrite Hd by auto. unfold ero. split.
    - intros (C & F). split; auto. intros fx fy R1 R2 HD. apply He; auto.
    - intros (C & F). split; auto. intros fx fy R1 R2 HD. apply He; auto.
  Qed.
End Laws.

Lemma cap_dec im k : capped im k \/ ~ capped im k. Proof. unfold capped. lia. Qed.

(** dilate is extensive and monotone, erode anti-extensive
    and monotone. *)
Theorem c76_dilate_erode_laws : forall linf a b k,
  gray8 a -> gray8 b -> same_size a b -> iw a + ih a < 2 ^ 32 -> 0 <= k ->
  exists da db ea eb,
    dilate linf a k = Ok da /\ dilate linf b k = Ok db /\ erode linf a k = Ok ea /\ erode linf b k = Ok eb /\
    (forall x y, is_fg a x y -> is_fg da x y) /\
    (forall x y, is_fg ea x y -> is_fg a x y) /\
    ((forall x y, is_fg a x y -> is_fg b x y) ->
      (forall x y, is_fg da x y -> is_fg db x y) /\ (forall x y, is_fg ea x y -> is_fg eb x y)).
Proof.
  intros l a b k Ga Gb Sab Hf Hk.
  assert (Sa : same_size a a) by (split; auto). assert (Sb : same_size b a) by (destruct Sab; split; auto).
  assert (Hfb : iw b + ih b < 2 ^ 32) by (destruct Sab; lia).
  destruct (dil_run l a k a Ga Sa Hf Hk) as (da & Eda & Lda & Hda).
  destruct (dil_run l b k a Gb Sb Hfb Hk) as (db & Edb & Ldb & Hdb).
  destruct (ero_run l a k a Ga Sa Hf Hk) as (ea & Eea & Lea & Hea).
  destruct (ero_run l b k a Gb Sb Hfb Hk) as (eb & Eeb & Leb & Heb).
  assert (IN : forall o, binary_like o a -> forall x y, is_fg o x y -> 0 <= x < iw a /\ 0 <= y < ih a).
  { intros o (_ & _ & (O1 & O2)) x y (v & G & _). apply get_inb in G. lia. }
  exists da, db, ea, eb. splits; auto.
  - intros x y F. assert (R : 0 <= x < iw a /\ 0 <= y < ih a) by (destruct F as (v & G & _); apply get_inb in G; auto).
    apply Hda; try lia. right. exists x, y. splits; auto; try lia. rewrite dist_refl. lia.
  - intros x y F. pose proof (IN _ Lea x y F) as R. apply Hea in F; try lia. destruct F as (_ & F).
    apply F; try lia. rewrite dist_refl. lia.
  - intros Hsub. split; intros x y F.
    + pose proof (IN _ Lda x y F) as R. apply Hda in F; try lia. apply Hdb; try lia.
      destruct F as [C|(fx & fy & R2 & F & HD)]; [left; auto|]. right. exists fx, fy. splits; auto; lia.
    + pose proof (IN _ Lea x y F) as R. apply Hea in F; try lia. apply Heb; try lia.
      destruct F as (C & F). split; auto.
Qed.

(** opening and closing are idempotent for every radius, even when saturated *)
Theorem c76_open_close_idempotent : forall linf im k,
  gray8 im -> iw im + ih im < 2 ^ 32 -> 0 <= k ->
  exists o c, open linf im k = Ok o /\ open linf o k = Ok o /\ close linf im k = Ok c /\ close linf c k = Ok c.
Proof.
  intros l im k Hg Hf Hk. assert (Sa : same_size im im) by (split; auto).
  destruct (open_run l im k Hf Hk im Hg Sa) as (o & Eo & Lo & Ho).
  destruct (close_run l im k Hf Hk im Hg Sa) as (c & Ec & Lc & Hc).
  destruct (open_run l im k Hf Hk o (like_gray im o Lo)) as (o2 & Eo2 & Lo2 & Ho2). { apply Lo. }
  destruct (close_run l im k Hf Hk c (like_gray im c Lc)) as (c2 & Ec2 & Lc2 & Hc2). { apply Lc. }
  exists o, c. splits; auto.
  - rewrite Eo2. f_equal. apply (bin_ext o2 o im); auto. intros x y Hx Hy. rewrite Ho2, Ho by auto. split.
    + intros [C|(fx & fy & (R1 & R2) & (NC & F) & HD)]; [left; auto|].
      specialize (F x y Hx Hy ltac:(rewrite dist_sym; auto)). apply Ho in F; auto.
    + intros [C|(fx & fy & (R1 & R2) & (NC & F) & HD)]; [left; auto|].
      right. exists fx, fy. splits; auto; try lia. split; auto. intros gx gy G1 G2 GD.
      apply Ho; auto. right. exists fx, fy. splits; auto; try lia. { split; auto. } rewrite dist_sym. auto.
  - rewrite Ec2. f_equal. apply (bin_ext c2 c im); auto. intros x y Hx Hy. rewrite Hc2, Hc by auto. split.
    + intros (NC & F). split; auto. intros fx fy R1 R2 HD. destruct (F fx fy R1 R2 HD) as [C|(gx & gy & (G1 & G2) & FG & GD)]; [contradiction|].
      apply Hc in FG; auto. destruct FG as (_ & FG). apply FG; auto. rewrite dist_sym; auto.
    + intros (NC & F). split; auto. intros fx fy R1 R2 HD. right. exists x, y. splits; auto; try lia.
      * apply Hc; auto. split; auto.
      * rewrite dist_sym; auto.
Qed.

(** open <= image <= close below the saturation cap *)
Theorem c76_open_close_extensive : forall linf im k,
  gray8 im -> iw im + ih im < 2 ^ 32 -> 0 <= k < Z.min 255 (iw im + ih im) ->
  exists o c, open linf im k = Ok o /\ close linf im k = Ok c /\
    (forall x y, is_fg o x y -> is_fg im x y) /\ (forall x y, is_fg im x y -> is_fg c x y).
Proof.
  intros l im k Hg Hf Hk. assert (Sa : same_size im im) by (split; auto).
  destruct (open_run l im k Hf ltac:(lia) im Hg Sa) as (o & Eo & Lo & Ho).
  destruct (close_run l im k Hf ltac:(lia) im Hg Sa) as (c & Ec & Lc & Hc).
  assert (NC : ~ capped im k) by (unfold capped; lia).
  exists o, c. splits; auto.
  - intros x y F. assert (R : 0 <= x < iw im /\ 0 <= y < ih im).
    { destruct Lo as (_ & _ & (O1 & O2)). destruct F as (v & G & _). apply get_inb in G. lia. }
    apply Ho in F; auto. destruct F as [C|(fx & fy & _ & (_ & F) & HD)]; [contradiction|].
    apply F; try lia. rewrite dist_sym; auto.
  - intros x y F. assert (R : 0 <= x < iw im /\ 0 <= y < ih im) by (destruct F as (v & G & _); apply get_inb in G; auto).
    apply Hc; auto. split; auto. intros fx fy R1 R2 HD. right. exists x, y. splits; auto; try lia. rewrite dist_sym; auto.
Qed.

(** duality: eroding is dilating the complement *)
Theorem c76_duality : forall linf im comp k,
  gray8 im -> gray8 comp -> same_size im comp -> iw im + ih im < 2 ^ 32 -> 0 <= k ->
  (forall x y, 0 <= x < iw im -> 0 <= y < ih im -> (is_fg comp x y <-> ~ is_fg im x y)) ->
  exists e d, erode linf im k = Ok e /\ dilate linf comp k = Ok d /\
    forall x y, 0 <= x < iw im -> 0 <= y < ih im -> (is_fg e x y <-> ~ is_fg d x y).
Proof.
  intros l im comp k Hg Hgc Hs Hf Hk HC.
  destruct (erode_set l im k Hg Hf Hk) as (e & Ee & _ & _ & _ & _ & He).
  destruct (dilate_set l comp k Hgc) as (d & Ed & _ & _ & E1 & E2 & Hd); auto. { destruct Hs; lia. }
  exists e, d. splits; auto. intros x y Hx Hy. destruct Hs as (S1 & S2). rewrite He, Hd by lia.
  assert (X : (capped im k \/ within l (is_bg im) k x y) <-> (capped comp k \/ within l (is_fg comp) k x y)).
  { unfold capped, within. rewrite S1, S2. split.
    - intros [C|(fx & fy & B & HD)]; auto. right. exists fx, fy. split; auto.
      pose proof (get_inb _ _ _ _ B) as (R1 & R2). apply HC; auto. apply fg_bg; auto. apply Hg.
    - intros [C|(fx & fy & B & HD)]; auto. right. exists fx, fy. split; auto.
      assert (R : 0 <= fx < iw im /\ 0 <= fy < ih im) by (destruct B as (v & G & _); apply get_inb in G; lia).
      apply fg_bg; try tauto. { apply Hg. } apply HC; tauto. }
  rewrite X. tauto.
Qed.

Example c76_nontrivial :
  let im := mkImage 5 3 [0; 1; 1; 1; 0;  0; 1; 1; 1; 0;  9; 1; 1; 1; 0] in
  open true im 1 = Ok (mkImage 5 3 [0; 255; 255; 255; 0;  0; 255; 255; 255; 0;  0; 255; 255; 255; 0]) /\
  close true (mkImage 5 1 [0; 1; 0; 1; 0]) 1 = Ok (mkImage 5 1 [255; 255; 255; 255; 255]).
Proof. vm_compute. auto. Qed.

Print Assumptions c20_distance_transform.
Print Assumptions c20_nearest_exists.
Print Assumptions c22_blank_refuted.
Print Assumptions c22_saturation_white.
Print Assumptions c22_dilate_erode_partial.
Print Assumptions c76_dilate_erode_laws.
Print Assumptions c76_open_close_idempotent.
Print Assumptions c76_open_close_extensive.
Print Assumptions c76_duality.
