(** C23 (masks), C24 (grayscale dilation/erosion), C25 (opening/closing). *)
From Verif Require Import Base BaseProofs GeomProofs RasterProofs IntegralSpec DistanceProofs MaskModel MaskSpec MaskProofs.
From Coq Require Import Sorted.

(** ** C23 *)
Theorem c23_square : forall r, 0 <= r <= 255 -> exists m, square r = Ok m /\ in_order m /\
  forall x y, In (x, y) m <-> Z.max (Z.abs x) (Z.abs y) <= r.
Proof. exact square_ok. Qed.
Theorem c23_diamond : forall r, 0 <= r <= 255 -> exists m, diamond r = Ok m /\ in_order m /\
  forall x y, In (x, y) m <-> Z.abs x + Z.abs y <= r.
Proof. exact diamond_ok. Qed.
(** L2 norm at most r, squared *)
Theorem c23_disk : forall r, 0 <= r <= 255 -> exists m, disk r = Ok m /\ in_order m /\
  forall x y, In (x, y) m <-> x ^ 2 + y ^ 2 <= r ^ 2.
Proof.
  intros r Hr. destruct (disk_ok r Hr) as (m & E & S & I). exists m. splits; auto.
  intros x y. rewrite !Z.pow_2_r. apply I.
Qed.
Theorem c23_from_image : forall im cx cy,
  gray8 im -> iw im < 512 -> ih im < 512 -> is_u8 cx -> is_u8 cy ->
  exists m, from_image im cx cy = Ok m /\ in_order m /\
    forall dx dy, In (dx, dy) m <-> exists v, get im (dx + cx) (dy + cy) = Some v /\ v <> 0.
Proof. exact from_image_ok. Qed.
Theorem c23_from_image_panics : forall im cx cy,
  iw im >= 512 \/ ih im >= 512 -> from_image im cx cy = Panic.
Proof.
  intros im cx cy H. unfold from_image, assert. destruct (iw im <? 512) eqn:E1; auto. cbn [bind].
  destruct (ih im <? 512) eqn:E2; auto. lia.
Qed.
(** each offset once *)
Theorem c23_no_duplicates : forall m, in_order m -> NoDup m.
Proof. exact ss_nodup. Qed.

Example c23_nontrivial :
  diamond 1 = Ok [(0, -1); (-1, 0); (0, 0); (1, 0); (0, 1)] /\
  disk 2 = diamond 2 /\
  from_image (mkImage 2 2 [0; 5; 7; 0]) 1 0 = Ok [(0, 0); (-1, 1)].
Proof. vm_compute. auto. Qed.

(** ** C24 *)
Lemma covered_offset (im : image Z) mask x y dx dy :
  In (dx, dy) mask -> inb im (x + dx) (y + dy) = true -> covered im mask x y (x + dx) (y + dy).
Proof.
  intros Hin Hb. apply inb_spec in Hb. split; auto.
  replace (x + dx - x) with dx by lia. replace (y + dy - y) with dy by lia. auto.
Qed.
Lemma covered_inb (im : image Z) mask x y u v : covered im mask x y u v ->
  In (u - x, v - y) mask /\ inb im (x + (u - x)) (y + (v - y)) = true.
Proof.
  intros (Hin & Hu & Hv). split; auto. apply inb_spec. lia.
Qed.

Theorem c24_grayscale_dilate : forall im mask,
  gray8 im -> 0 < iw im ->
  exists out, grayscale_dilate im mask = Ok out /\ gray8 out /\ iw out = iw im /\ ih out = ih im /\
    forall x y, 0 <= x < iw im -> 0 <= y < ih im ->
      exists r, get out x y = Some r /\ window_max im mask x y r.
Proof.
  intros im mask Hg Hw. pose proof Hg as (W & Hp).
  unfold grayscale_dilate. rewrite mask_reduce_ok by (auto; lia).
  eexists; split; [reflexivity|].
  assert (B : forall a b, 0 <= a < iw im -> 0 <= b < ih im -> window_max im mask a b (fold_left (rstep Z.max im a b) mask 0) /\
                          is_u8 (fold_left (rstep Z.max im a b) mask 0)).
  { intros a b Ha Hb. destruct (fold_max im a b mask 0) as (F1 & F2 & F3).
    set (r := fold_left (rstep Z.max im a b) mask 0) in *.
    assert (G : forall x y, In (x, y) mask -> inb im (a + x) (b + y) = true -> get im (a + x) (b + y) = Some (px im (a + x) (b + y)) /\ is_u8 (px im (a + x) (b + y))).
    { intros x y Hin Hi. apply inb_spec in Hi. assert (G := get_px im (a + x) (b + y) W ltac:(lia) ltac:(lia)). split; auto. eapply Hp; eauto. }
    split.
    - split.
      + intros u v p Hc Gp. apply covered_inb in Hc. destruct Hc as (Hin & Hi). specialize (F2 _ _ Hin Hi).
        replace (a + (u - a)) with u in F2 by lia. replace (b + (v - b)) with v in F2 by lia. unfold px in F2. rewrite Gp in F2. auto.
      + destruct (covered_dec im mask a b) as [(u & v & Hc)|Hn].
        * left. destruct F3 as [F3|(x & y & Hin & Hi & E)].
          -- exists u, v. split; auto. apply covered_inb in Hc. destruct Hc as (Hin & Hi). specialize (F2 _ _ Hin Hi).
             destruct (G _ _ Hin Hi) as (Gu & Hu8). replace (a + (u - a)) with u in * by lia. replace (b + (v - b)) with v in * by lia.
             rewrite Gu. f_equal. unfold is_u8 in Hu8. lia.
          -- exists (a + x), (b + y). split; [apply covered_offset; auto|]. rewrite <- E. apply G; auto.
        * right. split; auto. destruct F3 as [F3|(x & y & Hin & Hi & E)]; auto. exfalso. apply (Hn (a + x) (b + y)). apply covered_offset; auto.
    - destruct F3 as [F3|(x & y & Hin & Hi & E)]; [rewrite F3; unfold is_u8; lia|]. rewrite <- E. apply G; auto. }
  splits; auto.
  - split; [apply wf_gen; apply W|]. intros x y v Gv.
    pose proof (get_inb _ _ _ _ Gv) as (Hx & Hy). cbn [iw ih gen] in Hx, Hy. rewrite get_gen_in in Gv by auto. injection Gv as <-. apply B; auto.
  - intros x y Hx Hy. eexists. split; [apply get_gen_in; auto|]. apply B; auto.
Qed.

Theorem c24_grayscale_erode : forall im mask,
  gray8 im -> 0 < iw im ->
  exists out, grayscale_erode im mask = Ok out /\ gray8 out /\ iw out = iw im /\ ih out = ih im /\
    forall x y, 0 <= x < iw im -> 0 <= y < ih im ->
      exists r, get out x y = Some r /\ window_min im mask x y r.
Proof.
  intros im mask Hg Hw. pose proof Hg as (W & Hp).
  unfold grayscale_erode. rewrite mask_reduce_ok by (auto; lia).
  eexists; split; [reflexivity|].
  assert (B : forall a b, 0 <= a < iw im -> 0 <= b < ih im -> window_min im mask a b (fold_left (rstep Z.min im a b) mask 255) /\
                          is_u8 (fold_left (rstep Z.min im a b) mask 255)).
  { intros a b Ha Hb. destruct (fold_min im a b mask 255) as (F1 & F2 & F3).
    set (r := fold_left (rstep Z.min im a b) mask 255) in *.
    assert (G : forall x y, In (x, y) mask -> inb im (a + x) (b + y) = true -> get im (a + x) (b + y) = Some (px im (a + x) (b + y)) /\ is_u8 (px im (a + x) (b + y))).
    { intros x y Hin Hi. apply inb_spec in Hi. assert (G := get_px im (a + x) (b + y) W ltac:(lia) ltac:(lia)). split; auto. eapply Hp; eauto. }
    split.
    - split.
      + intros u v p Hc Gp. apply covered_inb in Hc. destruct Hc as (Hin & Hi). specialize (F2 _ _ Hin Hi).
        replace (a + (u - a)) with u in F2 by lia. replace (b + (v - b)) with v in F2 by lia. unfold px in F2. rewrite Gp in F2. auto.
      + destruct (covered_dec im mask a b) as [(u & v & Hc)|Hn].
        * left. destruct F3 as [F3|(x & y & Hin & Hi & E)].
          -- exists u, v. split; auto. apply covered_inb in Hc. destruct Hc as (Hin & Hi). specialize (F2 _ _ Hin Hi).
             destruct (G _ _ Hin Hi) as (Gu & Hu8). replace (a + (u - a)) with u in * by lia. replace (b + (v - b)) with v in * by lia.
             rewrite Gu. f_equal. unfold is_u8 in Hu8. lia.
          -- exists (a + x), (b + y). split; [apply covered_offset; auto|]. rewrite <- E. apply G; auto.
        * right. split; auto. destruct F3 as [F3|(x & y & Hin & Hi & E)]; auto. exfalso. apply (Hn (a + x) (b + y)). apply covered_offset; auto.
    - destruct F3 as [F3|(x & y & Hin & Hi & E)]; [rewrite F3; unfold is_u8; lia|]. rewrite <- E. apply G; auto. }
  splits; auto.
  - split; [apply wf_gen; apply W|]. intros x y v Gv.
    pose proof (get_inb _ _ _ _ Gv) as (Hx & Hy). cbn [iw ih gen] in Hx, Hy. rewrite get_gen_in in Gv by auto. injection Gv as <-. apply B; auto.
  - intros x y Hx Hy. eexists. split; [apply get_gen_in; auto|]. apply B; auto.
Qed.

(** An image of width 0 panics unless the mask is empty ([chunks(0)]). *)
Theorem c24_zero_width_panics : forall im o mask, iw im = 0 -> grayscale_dilate im (o :: mask) = Panic /\ grayscale_erode im (o :: mask) = Panic.
Proof.
  intros im (x & y) mask Hw. unfold grayscale_dilate, grayscale_erode, mask_reduce. cbn [lines].
  destruct (lines mask) as [|(y' & xs) r]; [|destruct (y =? y')]; cbn [for_each]; unfold reduce_line, assert; rewrite Hw; auto.
Qed.

Example c24_nontrivial :
  grayscale_dilate (mkImage 3 2 [1; 9; 3; 4; 5; 6]) [(0, -1); (-1, 0); (0, 0)] = Ok (mkImage 3 2 [1; 9; 9; 4; 9; 6]) /\
  grayscale_erode (mkImage 3 1 [7; 8; 9]) [(2, 0)] = Ok (mkImage 3 1 [9; 255; 255]).
Proof. vm_compute. auto. Qed.

(** ** C25 *)
Section Adj.
  Variable mask : list (Z * Z).
  Hypothesis Hsym : symmetric_mask mask.

  Lemma dil_get im d x y r u v p : grayscale_dilate im mask = Ok d -> gray8 im -> 0 < iw im ->
    get d x y = Some r -> covered im mask x y u v -> get im u v = Some p -> p <= r.
  Proof.
    intros E Hg Hw Gr Hc Gp. destruct (c24_grayscale_dilate im mask Hg Hw) as (out & E' & _ & E1 & E2 & H).
    rewrite E in E'. injection E' as <-. pose proof (get_inb _ _ _ _ Gr) as (Hx & Hy). rewrite E1 in Hx; rewrite E2 in Hy.
    destruct (H x y Hx Hy) as (r' & Gr' & M1 & _). rewrite Gr in Gr'. injection Gr' as <-. eauto.
  Qed.
  Lemma dil_att im d x y r : grayscale_dilate im mask = Ok d -> gray8 im -> 0 < iw im ->
    get d x y = Some r -> r = 0 \/ exists u v, covered im mask x y u v /\ get im u v = Some r.
  Proof.
    intros E Hg Hw Gr. destruct (c24_grayscale_dilate im mask Hg Hw) as (out & E' & _ & E1 & E2 & H).
    rewrite E in E'. injection E' as <-. pose proof (get_inb _ _ _ _ Gr) as (Hx & Hy). rewrite E1 in Hx; rewrite E2 in Hy.
    destruct (H x y Hx Hy) as (r' & Gr' & _ & M2). rewrite Gr in Gr'. injection Gr' as <-. destruct M2 as [M2|(_ & M2)]; auto.
  Qed.
  Lemma ero_get im d x y r u v p : grayscale_erode im mask = Ok d -> gray8 im -> 0 < iw im ->
    get d x y = Some r -> covered im mask x y u v -> get im u v = Some p -> r <= p.
  Proof.
    intros E Hg Hw Gr Hc Gp. destruct (c24_grayscale_erode im mask Hg Hw) as (out & E' & _ & E1 & E2 & H).
    rewrite E in E'. injection E' as <-. pose proof (get_inb _ _ _ _ Gr) as (Hx & Hy). rewrite E1 in Hx; rewrite E2 in Hy.
    destruct (H x y Hx Hy) as (r' & Gr' & M1 & _). rewrite Gr in Gr'. injection Gr' as <-. eauto.
  Qed.
  Lemma ero_att im d x y r : grayscale_erode im mask = Ok d -> gray8 im -> 0 < iw im ->
    get d x y = Some r -> r = 255 \/ exists u v, covered im mask x y u v /\ get im u v = Some r.
  Proof.
    intros E Hg Hw Gr. destruct (c24_grayscale_erode im mask Hg Hw) as (out & E' & _ & E1 & E2 & H).
    rewrite E in E'. injection E' as <-. pose proof (get_inb _ _ _ _ Gr) as (Hx & Hy). rewrite E1 in Hx; rewrite E2 in Hy.
    destruct (H x y Hx Hy) as (r' & Gr' & _ & M2). rewrite Gr in Gr'. injection Gr' as <-. destruct M2 as [M2|(_ & M2)]; auto.
  Qed.

  Lemma dil_size im d : grayscale_dilate im mask = Ok d -> gray8 im -> 0 < iw im -> gray8 d /\ iw d = iw im /\ ih d = ih im.
  Proof. intros E Hg Hw. destruct (c24_grayscale_dilate im mask Hg Hw) as (out & E' & G & E1 & E2 & _). rewrite E in E'. injection E' as <-. auto. Qed.
  Lemma ero_size im d : grayscale_erode im mask = Ok d -> gray8 im -> 0 < iw im -> gray8 d /\ iw d = iw im /\ ih d = ih im.
  Proof. intros E Hg Hw. destruct (c24_grayscale_erode im mask Hg Hw) as (out & E' & G & E1 & E2 & _). rewrite E in E'. injection E' as <-. auto. Qed.

  Lemma covered_sym (a b : image Z) x y u v : iw a = iw b -> ih a = ih b -> 0 <= x < iw a -> 0 <= y < ih a ->
    covered a mask x y u v -> covered b mask u v x y.
  Proof.
    intros E1 E2 Hx Hy (Hin & Hu & Hv). split; [|lia]. apply Hsym in Hin.
    replace (x - u) with (- (u - x)) by lia. replace (y - v) with (- (v - y)) by lia. auto.
  Qed.

  (** the adjunction: dilate f <= g iff f <= erode g *)
  Lemma adj1 f g df eg : gray8 f -> gray8 g -> 0 < iw f -> iw f = iw g -> ih f = ih g ->
    grayscale_dilate f mask = Ok df -> grayscale_erode g mask = Ok eg ->
    image_le df g -> image_le f eg.
  Proof.
    intros Gf Gg Hw E1 E2 Ed Ee (_ & _ & HL).
    destruct (dil_size f df Ed Gf Hw) as (Gd & D1 & D2). destruct (ero_size g eg Ee Gg ltac:(lia)) as (Ge & G1 & G2).
    split; [lia|split; [lia|]]. intros x y p q Gp Gq.
    pose proof (get_inb _ _ _ _ Gp) as (Hx & Hy).
    destruct (ero_att g eg x y q Ee Gg ltac:(lia) Gq) as [->|(u & v & Hc & Gu)].
    - assert (is_u8 p) by (eapply Gf; eauto). unfold is_u8 in *. lia.
    - pose proof Hc as (_ & Hu & Hv).
      assert (Hc' : covered f mask u v x y) by (apply (covered_sym g f); auto; lia).
      destruct (get_some df u v (proj1 Gd) ltac:(lia) ltac:(lia)) as (r & Gr).
      pose proof (dil_get f df u v r x y p Ed Gf Hw Gr Hc' Gp). specialize (HL u v r q Gr Gu). lia.
  Qed.
  Lemma adj2 f g df eg : gray8 f -> gray8 g -> 0 < iw f -> iw f = iw g -> ih f = ih g ->
    grayscale_dilate f mask = Ok df -> grayscale_erode g mask = Ok eg ->
    image_le f eg -> image_le df g.
  Proof.
    intros Gf Gg Hw E1 E2 Ed Ee (_ & _ & HL).
    destruct (dil_size f df Ed Gf Hw) as (Gd & D1 & D2). destruct (ero_size g eg Ee Gg ltac:(lia)) as (Ge & G1 & G2).
    split; [lia|split; [lia|]]. intros x y p q Gp Gq.
    pose proof (get_inb _ _ _ _ Gp) as (Hx & Hy).
    destruct (dil_att f df x y p Ed Gf Hw Gp) as [->|(u & v & Hc & Gu)].
    - assert (is_u8 q) by (eapply Gg; eauto). unfold is_u8 in *. lia.
    - pose proof Hc as (_ & Hu & Hv).
      assert (Hc' : covered g mask u v x y) by (apply (covered_sym f g); auto; lia).
      destruct (get_some eg u v (proj1 Ge) ltac:(lia) ltac:(lia)) as (r & Gr).
      pose proof (ero_get g eg u v r x y q Ee Gg ltac:(lia) Gr Hc' Gq). specialize (HL u v p r Gu Gr). lia.
  Qed.
End Adj.

Lemma image_le_refl a : image_le a a.
Proof. split; auto. split; auto. intros x y p q H1 H2. assert (p = q) by congruence. lia. Qed.
Lemma image_le_trans a b c : wf b -> image_le a b -> image_le b c -> image_le a c.
Proof.
  intros W (A1 & A2 & A3) (B1 & B2 & B3). split; [lia|split; [lia|]]. intros x y p q Gp Gq.
  pose proof (get_inb _ _ _ _ Gp) as (Hx & Hy). destruct (get_some b x y W ltac:(lia) ltac:(lia)) as (r & Gr).
  specialize (A3 x y p r Gp Gr). specialize (B3 x y r q Gr Gq). lia.
Qed.
Lemma image_le_antisym a b : wf a -> wf b -> image_le a b -> image_le b a -> a = b.
Proof.
  intros Wa Wb (A1 & A2 & A3) (_ & _ & B3). apply image_ext; auto. intros x y Hx Hy.
  destruct (get_some a x y Wa Hx Hy) as (p & Gp). destruct (get_some b x y Wb ltac:(lia) ltac:(lia)) as (q & Gq).
  rewrite Gp, Gq. f_equal. specialize (A3 x y p q Gp Gq). specialize (B3 x y q p Gq Gp). lia.
Qed.

(** dilation and erosion are monotone for every mask *)
Lemma dil_mono mask a b da db : gray8 a -> gray8 b -> 0 < iw a -> image_le a b ->
  grayscale_dilate a mask = Ok da -> grayscale_dilate b mask = Ok db -> image_le da db.
Proof.
  intros Ga Gb Hw (E1 & E2 & HL) Ea Eb.
  destruct (dil_size mask a da Ea Ga Hw) as (_ & D1 & D2). destruct (dil_size mask b db Eb Gb ltac:(lia)) as (Gdb & D3 & D4).
  split; [lia|split; [lia|]]. intros x y p q Gp Gq.
  destruct (dil_att mask a da x y p Ea Ga Hw Gp) as [->|(u & v & Hc & Gu)].
  - assert (is_u8 q) by (eapply Gdb; eauto). unfold is_u8 in *; lia.
  - assert (Hc' : covered b mask x y u v) by (destruct Hc as (? & ? & ?); split; auto; lia).
    destruct Hc as (_ & Hu & Hv). destruct (get_some b u v (proj1 Gb) ltac:(lia) ltac:(lia)) as (r & Gr).
    pose proof (dil_get mask b db x y q u v r Eb Gb ltac:(lia) Gq Hc' Gr). specialize (HL u v p r Gu Gr). lia.
Qed.
Lemma ero_mono mask a b da db : gray8 a -> gray8 b -> 0 < iw a -> image_le a b ->
  grayscale_erode a mask = Ok da -> grayscale_erode b mask = Ok db -> image_le da db.
Proof.
  intros Ga Gb Hw (E1 & E2 & HL) Ea Eb.
  destruct (ero_size mask a da Ea Ga Hw) as (Gda & D1 & D2). destruct (ero_size mask b db Eb Gb ltac:(lia)) as (Gdb & D3 & D4).
  split; [lia|split; [lia|]]. intros x y p q Gp Gq.
  destruct (ero_att mask b db x y q Eb Gb ltac:(lia) Gq) as [->|(u & v & Hc & Gu)].
  - assert (is_u8 p) by (eapply Gda; eauto). unfold is_u8 in *; lia.
  - assert (Hc' : covered a mask x y u v) by (destruct Hc as (? & ? & ?); split; auto; lia).
    destruct Hc as (_ & Hu & Hv). destruct (get_some a u v (proj1 Ga) ltac:(lia) ltac:(lia)) as (r & Gr).
    pose proof (ero_get mask a da x y p u v r Ea Ga ltac:(lia) Gp Hc' Gr). specialize (HL u v r q Gr Gu). lia.
Qed.

Theorem c25_open_close : forall mask im,
  symmetric_mask mask -> gray8 im -> 0 < iw im ->
  exists o c, grayscale_open im mask = Ok o /\ grayscale_close im mask = Ok c /\
    image_le o im /\ image_le im c /\
    grayscale_open o mask = Ok o /\ grayscale_close c mask = Ok c.
Proof.
  intros mask im Hs Hg Hw.
  destruct (c24_grayscale_erode im mask Hg Hw) as (e & Ee & Ge & E1 & E2 & _).
  destruct (c24_grayscale_dilate e mask Ge ltac:(lia)) as (o & Eo & Go & O1 & O2 & _).
  destruct (c24_grayscale_dilate im mask Hg Hw) as (d & Ed & Gd & D1 & D2 & _).
  destruct (c24_grayscale_erode d mask Gd ltac:(lia)) as (c & Ec & Gc & C1 & C2 & _).
  destruct (c24_grayscale_erode o mask Go ltac:(lia)) as (e2 & Ee2 & Ge2 & E21 & E22 & _).
  destruct (c24_grayscale_dilate e2 mask Ge2 ltac:(lia)) as (o2 & Eo2 & Go2 & O21 & O22 & _).
  destruct (c24_grayscale_dilate c mask Gc ltac:(lia)) as (d2 & Ed2 & Gd2 & D21 & D22 & _).
  destruct (c24_grayscale_erode d2 mask Gd2 ltac:(lia)) as (c2 & Ec2 & Gc2 & C21 & C22 & _).
  assert (LE : image_le o im) by (apply (adj2 mask Hs e im o e); auto; try lia; apply image_le_refl).
  assert (GE : image_le im c) by (apply (adj1 mask Hs im d d c); auto; try lia; apply image_le_refl).
  assert (EQ1 : e2 = e).
  { apply image_le_antisym; try apply Ge; try apply Ge2.
    - apply (ero_mono mask o im e2 e); auto; lia.
    - apply (adj1 mask Hs e o o e2); auto; try lia. apply image_le_refl. }
  assert (EQ2 : d2 = d).
  { apply image_le_antisym; try apply Gd; try apply Gd2.
    - apply (adj2 mask Hs c d d2 c); auto; try lia. apply image_le_refl.
    - apply (dil_mono mask im c d d2); auto; lia. }
  exists o, c. splits; auto.
  - unfold grayscale_open. rewrite Ee. auto.
  - unfold grayscale_close. rewrite Ed. auto.
  - unfold grayscale_open. rewrite Ee2. cbn [bind]. rewrite EQ1. auto.
  - unfold grayscale_close. rewrite Ed2. cbn [bind]. rewrite EQ2. auto.
Qed.

Theorem c25_open_close_monotone : forall mask a b,
  gray8 a -> gray8 b -> 0 < iw a -> image_le a b ->
  exists oa ob ca cb, grayscale_open a mask = Ok oa /\ grayscale_open b mask = Ok ob /\
    grayscale_close a mask = Ok ca /\ grayscale_close b mask = Ok cb /\ image_le oa ob /\ image_le ca cb.
Proof.
  intros mask a b Ga Gb Hw HL. pose proof HL as (S1 & S2 & _).
  destruct (c24_grayscale_erode a mask Ga Hw) as (ea & Eea & Gea & A1 & A2 & _).
  destruct (c24_grayscale_dilate ea mask Gea ltac:(lia)) as (oa & Eoa & _).
  destruct (c24_grayscale_dilate a mask Ga Hw) as (da & Eda & Gda & A3 & A4 & _).
  destruct (c24_grayscale_erode da mask Gda ltac:(lia)) as (ca & Eca & _).
  destruct (c24_grayscale_erode b mask Gb ltac:(lia)) as (eb & Eeb & Geb & B1 & B2 & _).
  destruct (c24_grayscale_dilate eb mask Geb ltac:(lia)) as (ob & Eob & _).
  destruct (c24_grayscale_dilate b mask Gb ltac:(lia)) as (db & Edb & Gdb & B3 & B4 & _).
  destruct (c24_grayscale_erode db mask Gdb ltac:(lia)) as (cb & Ecb & _).
  exists oa, ob, ca, cb. unfold grayscale_open, grayscale_close. rewrite Eea, Eeb, Eda, Edb. cbn [bind]. splits; auto.
  - apply (dil_mono mask ea eb oa ob); auto; try lia. apply (ero_mono mask a b ea eb); auto.
  - apply (ero_mono mask da db ca cb); auto; try lia. apply (dil_mono mask a b da db); auto.
Qed.

(** Symmetry is necessary: with the mask {(1, 0)} opening is not anti-extensive. *)
Theorem c25_asymmetric_mask_counterexample :
  grayscale_open (mkImage 3 1 [0; 0; 9]) [(1, 0)] = Ok (mkImage 3 1 [9; 255; 0]).
Proof. vm_compute. reflexivity. Qed.

Example c25_nontrivial :
  symmetric_mask [(-1, 0); (0, 0); (1, 0)] /\
  grayscale_open (mkImage 5 1 [1; 9; 9; 9; 2]) [(-1, 0); (0, 0); (1, 0)] = Ok (mkImage 5 1 [1; 9; 9; 9; 2]) /\
  grayscale_open (mkImage 5 1 [1; 1; 9; 1; 1]) [(-1, 0); (0, 0); (1, 0)] = Ok (mkImage 5 1 [1; 1; 1; 1; 1]).
Proof.
  split; [|vm_compute; auto]. intros x y H. simpl in *.
  repeat (destruct H as [H|H]; [injection H as <- <-; simpl; tauto|]). contradiction.
Qed.

Print Assumptions c23_square.
Print Assumptions c23_diamond.
Print Assumptions c23_disk.
Print Assumptions c23_from_image.
Print Assumptions c23_from_image_panics.
Print Assumptions c24_grayscale_dilate.
Print Assumptions c24_grayscale_erode.
Print Assumptions c24_zero_width_panics.
Print Assumptions c25_open_close.
Print Assumptions c25_open_close_monotone.
