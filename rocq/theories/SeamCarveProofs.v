From Verif Require Import Base BaseProofs RasterProofs FilterModel FilterSpec FilterProofs
  GradientModel GradientSpec GradientProofs SuppressProofs SeamModel SeamSpec SeamProofs.
Local Ltac Zify.zify_post_hook ::= idtac.

(** ** find_vertical_seam *)
Lemma valid_vpath w h s : 0 < h -> valid_seam w h s -> vpath w (h - 1) (seam_at s h).
Proof. intros Hh (H1 & H2 & H3). split; intros i Hi; [apply H2|apply H3]; lia. Qed.
Definition seam_of (h : Z) (c : Z -> Z) : list Z := map (fun k => c (h - 1 - k)) (zrange 0 h).
Lemma seam_at_of h c y : 0 <= y < h -> seam_at (seam_of h c) h y = c y.
Proof.
  intros H. unfold seam_at, seam_of. rewrite znth_map, znth_zrange by lia. cbn [option_map].
  f_equal. lia.
Qed.
Lemma vpath_valid w h c : 0 < h -> vpath w (h - 1) c -> valid_seam w h (seam_of h c).
Proof.
  intros Hh (V1 & V2). unfold valid_seam. splits.
  - unfold seam_of. rewrite zlen_map, zlen_zrange by lia. lia.
  - intros y Hy. rewrite seam_at_of by lia. apply V1. lia.
  - intros y Hy Hy1. rewrite !seam_at_of by lia. apply V2. lia.
Qed.

Section Find.
  Variables (ch : Z) (im : image (list Z)).
  Hypothesis (Hc : 1 <= ch <= 45) (C : channels ch im) (U : u8_image im)
    (Hw : 2 <= iw im) (Hh : 0 < ih im) (Hs : ih im * 1442 < 2 ^ 32).
  Local Notation E := (pixel_energy ch im).
  Local Notation w := (iw im).
  Local Notation h := (ih im).

  Lemma cost_energy c : cost E (h - 1) c = zsum 0 h (fun y => E (c y) y).
  Proof. unfold cost. replace (h - 1 + 1) with h by lia. reflexivity. Qed.

  Lemma find_ok : exists s, find_vertical_seam ch im = Ok s /\ valid_seam w h s /\
    (exists t, minimal_seam ch im t /\ seam_at t h (h - 1) = seam_at s h (h - 1)) /\
    ((forall y, 0 <= y -> y + 1 < h -> seam_at s h y <= seam_at s h (y + 1)) ->
     (forall y, 0 <= y < h -> 0 < E (seam_at s h y) y) -> minimal_seam ch im s).
  Proof.
    pose proof C as (W & _). unfold find_vertical_seam. rewrite (proj2 (Z.leb_le 2 w)) by lia. cbn [assert bind].
    rewrite gradient_energy_ok by auto. cbn [bind].
    rewrite (path_energies_ok w h E 1442) by (try lia; intros; apply pixel_energy_bound; auto; lia). cbn [bind].
    destruct (retrace_ok w h E) as (s & Es & V & Mb & L); try lia.
    rewrite Es. exists s. split; [reflexivity|]. split; [exact V|].
    set (n := Z.to_nat (h - 1)) in *. assert (En : Z.of_nat n = h - 1) by lia.
    assert (LB : forall t, valid_seam w h t -> D w E n (seam_at s h (h - 1)) <= seam_energy ch im t).
    { intros t Vt. apply Z.le_trans with (D w E n (seam_at t h (h - 1))).
      - apply Mb. apply Vt. lia.
      - pose proof (D_lower w E n (seam_at t h)) as DL. rewrite En in DL.
        specialize (DL (valid_vpath w h t ltac:(lia) Vt)). rewrite cost_energy in DL. exact DL. }
    split.
    - destruct (D_attained w E n (seam_at s h (h - 1))) as (c & Vc & Ec & Cc); [apply V; lia|].
      rewrite En in *. exists (seam_of h c). split; [split; [apply vpath_valid; auto; lia|]|].
      + intros t Vt. specialize (LB t Vt). rewrite cost_energy in Cc. unfold seam_energy at 1.
        rewrite (zsum_ext 0 h _ (fun y => E (c y) y)) by (intros; rewrite seam_at_of by lia; reflexivity). lia.
      + rewrite seam_at_of by lia. exact Ec.
    - intros L1 L2. split; [exact V|]. intros t Vt. specialize (LB t Vt).
      assert (LO : left_only h E 1 s) by (split; intros; [apply L1|apply L2]; lia). specialize (L LO).
      unfold seam_energy at 1. rewrite zsum_cons by lia. unfold tail_cost in L. cbn [D Z.to_nat] in L.
      change (0 + 1) with 1. lia.
  Qed.
End Find.

(** ** remove_vertical_seam *)
Lemma remove_ok {A} (zero : A) (im : image A) s : wf im -> 0 < iw im < 2 ^ 32 -> 0 <= ih im < 2 ^ 32 ->
  zlen s = ih im -> (forall y, 0 <= y < ih im -> 0 <= seam_at s (ih im) y < iw im) ->
  exists out, remove_vertical_seam zero im s = Ok out /\ row_deletion im out (seam_at s (ih im)).
Proof.
  intros W Hw Hh Hl Hs. unfold remove_vertical_seam. rewrite Hl, Z.mod_small, Z.eqb_refl by lia. cbn [assert bind].
  rewrite chk_u_ok by lia. cbn [bind]. set (w := iw im) in *. set (h := ih im) in *.
  set (c := seam_at s h) in *. set (src := fun x y => if x <? c y then x else x + 1).
  set (f := fun y out => _).
  destruct (for_range_ind (fun j (o : image A) => wf o /\ iw o = w - 1 /\ ih o = h /\
     forall a b, 0 <= a < w - 1 -> 0 <= b < j -> get o a b = get im (src a b) b) 0 h f (new_image (w - 1) h zero))
     as (o & -> & (Wo & Ew & Eh & H)); try lia.
  - splits; [apply wf_gen; lia|reflexivity|reflexivity|intros; lia].
  - intros y o Hy (Wo & Ew & Eh & H). unfold f.
    specialize (Hs y Hy).
    assert (Vx : vget s (h - y - 1) = Ok (c y)).
    { unfold c, seam_at. replace (h - 1 - y) with (h - y - 1) by lia.
      destruct (znth_some s (h - y - 1)) as (v & Ez); [lia|]. rewrite Ez. apply vget_ok; auto. }
    rewrite Vx. cbn [bind]. fold (c y) in Hs. set (cy := c y) in *.
    assert (GI : forall x, 0 <= x < w -> exists p, get_pixel im x y = Ok p /\ get im x y = Some p).
    { intros x Hx. destruct (get_some im x y) as (p & Ep); auto. exists p. split; auto. apply get_pixel_ok; auto. }
    destruct (for_range_ind (fun i (q : image A) => wf q /\ iw q = w - 1 /\ ih q = h /\
       (forall a b, 0 <= a < w - 1 -> b <> y -> get q a b = get o a b) /\
       (forall a, 0 <= a < w - 1 -> a < i -> get q a y = get im a y)) 0 cy
       (fun x out => p <- get_pixel im x y ;; put_pixel out x y p) o) as (q & -> & (Wq & Eqw & Eqh & Q1 & Q2)); try lia.
    + splits; auto. intros; lia.
    + intros x q Hx (Wq & Eqw & Eqh & Q1 & Q2). destruct (GI x ltac:(lia)) as (p & -> & Ep). cbn [bind].
      rewrite put_pixel_ok by lia. eexists. split; [reflexivity|].
      splits; [apply wf_put; auto|rewrite iw_put; auto|rewrite ih_put; auto| |].
      * intros a b Ha Hb. rewrite get_put by (auto; lia). rewrite (proj2 (Z.eqb_neq b y)), andb_false_r by lia. apply Q1; auto.
      * intros a Ha Hi. rewrite get_put by (auto; lia). rewrite Z.eqb_refl, andb_true_r.
        destruct (Z.eqb_spec a x) as [->|]; [auto|apply Q2; lia].
    + cbn [bind]. rewrite chk_u_ok by lia. cbn [bind].
      destruct (for_range_ind (fun i (r : image A) => wf r /\ iw r = w - 1 /\ ih r = h /\
        (forall a b, 0 <= a < w - 1 -> b <> y -> get r a b = get o a b) /\
        (forall a, 0 <= a < w - 1 -> a < i - 1 -> get r a y = get im (src a y) y)) (cy + 1) w
        (fun x out => p <- get_pixel im x y ;; put_pixel out (x - 1) y p) q) as (r & -> & (Wr & Erw & Erh & R1 & R2)); try lia.
      * splits; auto. intros a Ha Hi. unfold src. fold cy. rewrite (proj2 (Z.ltb_lt a cy)) by lia. apply Q2; lia.
      * intros x r Hx (Wr & Erw & Erh & R1 & R2). destruct (GI x ltac:(lia)) as (p & -> & Ep). cbn [bind].
        rewrite put_pixel_ok by lia. eexists. split; [reflexivity|].
        splits; [apply wf_put; auto|rewrite iw_put; auto|rewrite ih_put; auto| |].
        -- intros a b Ha Hb. rewrite get_put by (auto; lia). rewrite (proj2 (Z.eqb_neq b y)), andb_false_r by lia. apply R1; auto.
        -- intros a Ha Hi. rewrite get_put by (auto; lia). rewrite Z.eqb_refl, andb_true_r.
           destruct (Z.eqb_spec a (x - 1)) as [->|]; [|apply R2; lia].
           unfold src. fold cy. rewrite (proj2 (Z.ltb_ge (x - 1) cy)) by lia.
           replace (x - 1 + 1) with x by lia. auto.
      * exists r. split; [reflexivity|]. splits; auto. intros a b Ha Hb.
        destruct (Z.eq_dec b y) as [->|]; [apply R2; lia|]. rewrite R1 by lia. apply H; lia.
  - exists o. split; [reflexivity|]. unfold row_deletion. splits; auto.
Qed.

(** ** shrink_width *)
Lemma deletion_channels ch (im out : image (list Z)) c : channels ch im -> row_deletion im out c -> channels ch out.
Proof.
  intros (W & H) (Wo & Ew & Eh & G). split; auto. intros x y p Hp.
  assert (I := get_inb _ _ _ _ Hp). rewrite G in Hp by lia. eapply H; eauto.
Qed.
Lemma deletion_u8 im out c : u8_image im -> row_deletion im out c -> u8_image out.
Proof.
  intros H (Wo & Ew & Eh & G) x y p v Hp.
  assert (I := get_inb _ _ _ _ Hp). rewrite G in Hp by lia. eapply H; eauto.
Qed.

Lemma deletion_sub {A} (im a b : image A) c : rows_subsequence im a -> row_deletion a b c ->
  (forall y, 0 <= y < ih a -> 0 <= c y < iw a) -> rows_subsequence im b.
Proof.
  intros (E & H) (Wo & Ew & Eh & G) Hc. split; [lia|]. intros y Hy.
  destruct (H y Hy) as (g & G1 & G2). specialize (Hc y ltac:(lia)).
  exists (fun x => g (if x <? c y then x else x + 1)). split.
  - intros x Hx. rewrite G by lia. destruct (Z.ltb_spec x (c y)); apply G1; lia.
  - intros x x' Hx Hx'. destruct (Z.ltb_spec x (c y)), (Z.ltb_spec x' (c y)); apply G2; lia.
Qed.

Lemma shrink_ok ch im target : 1 <= ch <= 45 -> channels ch im -> u8_image im -> iw im < 2 ^ 32 ->
  0 < ih im -> ih im * 1442 < 2 ^ 32 -> 1 <= target <= iw im ->
  exists out, shrink_width ch im target = Ok out /\ channels ch out /\ u8_image out /\ iw out = target /\ rows_subsequence im out.
Proof.
  intros Hc C U Hw Hh Hs Ht. unfold shrink_width. rewrite (proj2 (Z.leb_le target (iw im))) by lia. cbn [assert bind].
  match goal with |- context [for_range _ _ ?f _] => set (body := f) end.
  destruct (for_range_ind (fun i o => channels ch o /\ u8_image o /\ iw o = iw im - i /\ rows_subsequence im o) 0 (iw im - target)
    body im) as (o & -> & (Co & Uo & Ewo & Ro)); try lia.
  - splits; auto; try lia. split; auto. intros y Hy. exists (fun x => x). split; auto; intros; lia.
  - intros i o Hi (Co & Uo & Ewo & Ro). pose proof Ro as (Eh & _). unfold body.
    destruct (find_ok ch o Hc Co Uo) as (s & -> & (V1 & V2 & V3) & _); try lia. cbn [bind].
    pose proof Co as (Wo & _).
    destruct (remove_ok (map (fun _ => 0) (zrange 0 ch)) o s Wo) as (q & -> & R); auto; try lia.
    exists q. split; [reflexivity|]. splits.
    + eapply deletion_channels; eauto.
    + eapply deletion_u8; eauto.
    + destruct R as (_ & -> & _). lia.
    + eapply deletion_sub; eauto.
  - exists o. splits; auto. lia.
Qed.
