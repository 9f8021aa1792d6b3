(** C99: histograms of oriented gradients. *)
From Flocq Require Import Core BinarySingleNaN.
From Coq Require Import Reals Lra Psatz.
From Verif Require Import Base BaseProofs Float FloatProofs FloatErr LineModel LineProofs FilterModel FilterSpec GradientModel GradientSpec.
From Verif Require Import HogModel HogSpec HogProofs Props_Hog HogCellsModel HogCellsSpec HogCellsProofs HogCellsProofs2 HogCellsProofs3 HogCellsProofs4.
Local Ltac Zify.zify_post_hook ::= idtac.
Local Open Scope R_scope.

(** ** An arc tangent as required exists. *)
Definition some_atan2 (v h : f32) : f32 :=
  let vz := i32_of_f32 v in let hz := i32_of_f32 h in
  if (vz =? 0)%Z && (hz <? 0)%Z then pi32 else fdiv (of_int (ZnearestE (angle hz vz * 8589934592))) (of_int 8589934592).
Lemma round_trip z : (Z.abs z <= 2 ^ 24)%Z -> i32_of_f32 (of_int z : f32) = z.
Proof. intros H. apply i32_dy; [|lia]. apply (dy_int 24 128); [unfold dyk; cbn; lia|exact H]. Qed.
Theorem c99_atan2_exists : atan2_ok some_atan2.
Proof.
  intros h v Hh Hv. cbv zeta. unfold some_atan2. rewrite !round_trip by lia.
  pose proof pi_bounds as PB.
  destruct ((v =? 0)%Z && (h <? 0)%Z) eqn:C.
  - assert (v = 0%Z) as -> by lia. destruct pi32_R as (F & R). split; [exact F|]. rewrite angle_axis. rewrite (proj2 (Z.ltb_lt h 0)) by lia. rewrite R.
    split; [|intros; reflexivity]. rewrite (Rabs_pos_eq PI) by (unfold P32 in PB; lra). apply Rabs_le. unfold P32 in *. lra.
  - set (a := angle h v). set (m := ZnearestE (a * 8589934592)).
    assert (BA : a = 0 \/ / 2040 <= Rabs a <= 4).
    { unfold a. unfold P32 in PB. destruct (Z.lt_trichotomy v 0) as [L|[L|L]].
      - right. destruct (angle_down h v Hh ltac:(lia)). rewrite Rabs_left by lra. lra.
      - left. subst v. rewrite angle_axis. replace (h <? 0)%Z with false by lia. reflexivity.
      - right. destruct (angle_up h v Hh ltac:(lia)). rewrite Rabs_pos_eq by lra. lra. }
    pose proof (Znearest_half (fun x => negb (Z.even x)) (a * 8589934592)) as NH. fold m in NH.
    assert (BM : Rabs (IZR m) <= 34359738369).
    { apply Rabs_le_inv in NH. assert (- 4 <= a <= 4). { destruct BA as [->|(_ & B)]; [lra|]. apply Rabs_le_inv in B. lra. } apply Rabs_le. lra. }
    destruct (of_int_R 24 128 m) as (F1 & R1). { pose proof f32_big. lra. }
    assert (R2 : B2R (of_int 8589934592 : f32) = 8589934592).
    { destruct (of_int_R 24 128 8589934592) as (_ & R2). { rewrite Rabs_pos_eq by lra. pose proof f32_big. lra. } rewrite R2.
      change 8589934592 with (bpow radix2 33). apply (rnd_id 24 128). apply generic_format_bpow. vm_compute. discriminate. }
    pose proof (f32_err (IZR m)) as E1. rewrite <- R1 in E1.
    assert (B1 : Rabs (B2R (of_int m : f32)) <= 34359750000). { pose proof (Rabs_le_inv _ _ E1). pose proof (Rabs_le_inv _ _ BM). apply Rabs_le. lra. }
    destruct (fdiv_R 24 128 (of_int m : f32) (of_int 8589934592) F1) as (F3 & R3). { rewrite R2. lra. }
    { rewrite R2. unfold Rdiv. rewrite Rabs_mult, (Rabs_pos_eq (/ 8589934592)) by lra. pose proof f32_big. lra. }
    rewrite R2 in R3. split; [exact F3|]. split; [|intros; exfalso; lia].
    pose proof (f32_err (B2R (of_int m : f32) / 8589934592)) as E3. rewrite <- R3 in E3.
    destruct BA as [Z|B].
    + assert (M0 : m = 0%Z). { unfold m. rewrite Z, Rmult_0_l. apply (Znearest_imp (fun x => negb (Z.even x)) 0 0). rewrite Rminus_0_r, Rabs_R0. lra. }
      rewrite Z, Rminus_0_r. rewrite M0 in R1. rewrite rnd_0 in R1. rewrite R3, M0, R1. unfold Rdiv. rewrite Rmult_0_l, rnd_0, Rabs_R0. lra.
    + set (d := B2R (fdiv (of_int m) (of_int 8589934592))) in *. set (k := B2R (of_int m)) in *.
      assert (K1 : Rabs (IZR m) <= Rabs a * 8589934592 + / 2).
      { replace (IZR m) with (- (a * 8589934592 - IZR m) + a * 8589934592) by ring. eapply Rle_trans; [apply Rabs_triang|]. rewrite Rabs_Ropp, Rabs_mult, (Rabs_pos_eq 8589934592) by lra. lra. }
      assert (K2 : Rabs k <= Rabs (IZR m) + Rabs (IZR m) / 16777216 + / 1000000).
      { replace k with ((k - IZR m) + IZR m) by ring. eapply Rle_trans; [apply Rabs_triang|]. lra. }
      assert (K3 : Rabs (k / 8589934592) = Rabs k / 8589934592) by (unfold Rdiv; rewrite Rabs_mult, (Rabs_pos_eq (/ 8589934592)) by lra; reflexivity).
      rewrite K3 in E3. set (aa := Rabs a) in *. set (mm := Rabs (IZR m)) in *. set (kk := Rabs k) in *.
      apply Rabs_le_inv in E1. apply Rabs_le_inv in E3. apply Rabs_le_inv in NH. apply Rabs_le. lra.
Qed.
Print Assumptions c99_atan2_exists.

(** ** Full claim: every accepted combination of options gives a descriptor, made
    from a grid whose entries are the histograms up to a small error. *)
Definition error_bound (im : image (list Z)) (o : hog_options) : R :=
  IZR (cell_side o) * IZR (cell_side o) / 64 + (IZR (iw im) + IZR (ih im)) / (2900 * IZR (cell_side o)) + IZR (orientations o) / 22 + / 100.
Definition grid_ok (im : image (list Z)) (s : hog_spec) (g : list f32) : Prop :=
  zlen g = (orientations (options s) * cells_wide s * cells_high s)%Z /\
  forall o cx cy, (0 <= o < orientations (options s))%Z -> (0 <= cx < cells_wide s)%Z -> (0 <= cy < cells_high s)%Z ->
    is_finite (hist g s o cx cy) = true /\
    Rabs (B2R (hist g s o cx cy) - histogram im (options s) o cx cy) <= error_bound im (options s).
Definition c99_for (limits : image (list Z) -> hog_options -> Prop) : Prop := forall atan2, atan2_ok atan2 -> forall im o s,
  channels 1 im -> u8_image im -> (iw im < 2 ^ 32)%Z -> (ih im < 2 ^ 32)%Z -> option_values o -> limits im o ->
  from_options (iw im) (ih im) o = Ok (Some s) ->
  exists g, cell_histograms atan2 im s = Ok g /\ grid_ok im s g /\ hog atan2 im o = Ok (Some (descriptor_spec g s)).
Definition c99_statement : Prop := c99_for (fun _ _ => True).

(** Refuted: with no orientation bins the options are accepted and the call panics. *)
Theorem c99_refuted : ~ c99_statement.
Proof.
  intros H. set (im := mkImage 1 1 [[0%Z]]). set (o := mkOptions 0 true 1 1 1).
  destruct (H some_atan2 c99_atan2_exists im o (mkSpec o 1 1 1 1)) as (g & E & _).
  - split; [split; [cbn; lia|split; [cbn; lia|reflexivity]]|]. intros x y p G. destruct (get_inb _ _ _ _ G). cbn in *. assert (x = 0%Z) as -> by lia. assert (y = 0%Z) as -> by lia. cbn in G. injection G as <-. reflexivity.
  - intros x y p v G I. destruct (get_inb _ _ _ _ G). cbn in *. assert (x = 0%Z) as -> by lia. assert (y = 0%Z) as -> by lia. cbn in G. injection G as <-. destruct I as [<-|[]]. lia.
  - cbn. lia.
  - cbn. lia.
  - unfold option_values. cbn. lia.
  - exact I.
  - vm_compute. reflexivity.
  - destruct (c99_atan2_exists 0%Z 0%Z ltac:(lia) ltac:(lia)) as (F & B & _). change (angle 0 0) with 0 in B. rewrite Rabs_R0, Rmult_0_r, Rminus_0_r in B.
    set (d := some_atan2 (of_int 0) (of_int 0)) in *.
    assert (B0 : B2R d = 0) by (apply Rabs_le_inv in B; lra).
    assert (P : forall f, f (of_int 0) (of_int 0) = d -> cell_histograms f im (mkSpec o 1 1 1 1) = Panic); [|rewrite (P some_atan2 eq_refl) in E; discriminate E].
    clear E B H. intros f Ef. unfold cell_histograms.
    assert (Hh : filter_clamped_i32 im sobel_h = Ok im) by (vm_compute; reflexivity). rewrite Hh.
    assert (Hv : filter_clamped_i32 im sobel_v = Ok im) by (vm_compute; reflexivity). rewrite Hv.
    cbn [options orientations cells_wide cells_high cell_side o]. change (ih im) with 1%Z. change (iw im) with 1%Z.
    rewrite (usz_ok (0 * 1)) by lia. cbn [bind]. rewrite (usz_ok (0 * 1 * 1)) by lia. cbn [bind]. rewrite (usz_ok (1 * 1)) by lia. cbn [bind]. rewrite for_range_cons by lia.
    assert (F0 : exists it, from_position (fdiv (of_int 0 : f32) (of_int 1)) = Ok it /\ index0 it = 0%Z).
    { unfold from_position. assert (U : usize_of (fdiv (of_int 0 : f32) (of_int 1)) = 0%Z) by (vm_compute; reflexivity). rewrite U, usz_ok by lia. cbn [bind]. eexists. split; reflexivity. }
    destruct F0 as (it & Ei & I0). rewrite Ei. cbn [bind]. rewrite for_range_cons by lia. rewrite Ei. cbn [bind].
    change (get_pixel im 0%Z 0%Z) with (Ok [0%Z]). cbn [bind]. change (vget [0%Z] 0%Z) with (Ok 0%Z). cbn [bind]. cbv zeta.
    unfold gradient_direction. rewrite Ef. cbn [signed o negb andb]. rewrite flt0_R by exact F. rewrite B0, Rlt_bool_false by lra.
    destruct d as [b|b| |b mm ee HH]; try discriminate F; [|exfalso; cbn [B2R] in B0; apply eq_0_F2R in B0; destruct b; discriminate B0].
    assert (W : exists oi, from_position_wrapping (fdiv (B754_zero b : f32) (orientation_bin_width o)) 0 = Ok oi /\ index0 oi = 0%Z).
    { unfold from_position_wrapping. assert (U : usize_of (fdiv (B754_zero b : f32) (orientation_bin_width o)) = 0%Z) by (destruct b; vm_compute; reflexivity).
      rewrite U, usz_ok by lia. cbn [bind]. eexists. split; reflexivity. }
    destruct W as (oi & Eo & O0). rewrite Eo. cbn [bind].
    unfold add_pixel. cbn [options orientations cells_wide cells_high o]. rewrite for_range_cons by lia. rewrite for_range_cons by lia. rewrite for_range_cons by lia.
    change (index_at it 0%Z) with (index0 it). change (index_at oi 0%Z) with (index0 oi). rewrite I0, O0. cbn [Z.ltb Z.compare andb]. reflexivity.
Qed.
Print Assumptions c99_refuted.

(** What holds: the claim for images up to 2^18 x 2^18, cells up to 256 x 256 and
    1 to 4096 orientation bins, when the sizes fit a usize. *)
Definition c99_limits (im : image (list Z)) (o : hog_options) : Prop :=
  (iw im <= 2 ^ 18 /\ ih im <= 2 ^ 18 /\ 1 <= orientations o <= 4096 /\ 1 <= cell_side o <= 256 /\ 1 <= block_side o /\ 1 <= block_stride o /\
   forall s, compatible (iw im) (ih im) o s -> orientations o * (block_side o * block_side o) * (blocks_wide s * blocks_high s) < 2 ^ 64)%Z.
Theorem c99_hog_partial : c99_for c99_limits.
Proof.
  intros atan2 HA im o s CI U8 _ _ VO (LW & LH & LO & LC & LB & LS & LL) E.
  destruct (proj1 CI) as (W0 & H0 & _).
  pose proof (c59_accepted_fits (iw im) (ih im) o s ltac:(lia) ltac:(lia) VO E) as CM. pose proof CM as (EO & CW & CH & _).
  assert (C1 : (0 <= cells_wide s <= 2 ^ 18)%Z) by nia. assert (C2 : (0 <= cells_high s <= 2 ^ 18)%Z) by nia.
  assert (HL : (orientations o * cells_wide s * cells_high s < 2 ^ 64)%Z).
  { assert (cells_wide s * cells_high s <= 2 ^ 36)%Z by nia. nia. }
  destruct (cell_histograms_ok atan2 HA im s) as (g & Eg & Lg & Pg); rewrite ?EO; auto; try lia.
  exists g. split; [exact Eg|]. split.
  - rewrite EO in *. split; [rewrite EO; exact Lg|]. rewrite EO. intros b cx cy Hb Hx Hy. destruct (Pg b cx cy) as (e & Ge & Fe & De). { unfold in_grid. rewrite EO. auto. }
    unfold hist. unfold at_pos in Ge. rewrite EO in *. rewrite Ge. split; [exact Fe|exact De].
  - unfold hog. rewrite E. cbn [bind]. rewrite Eg. cbn [bind]. rewrite EO in Lg.
    destruct (c59_descriptor (iw im) (ih im) o s g) as (D & _); auto; try lia.
    rewrite D. reflexivity.
Qed.
Print Assumptions c99_hog_partial.

(** ** Positions: a natural expectation is that a cell's histogram weighs pixels
    symmetrically about the cell, so that mirroring the image mirrors the grid (with
    one orientation bin, where directions play no role). *)
Definition mirrored (im im' : image (list Z)) : Prop := iw im' = iw im /\ ih im' = ih im /\
  forall x y, (0 <= x < iw im)%Z -> (0 <= y < ih im)%Z -> get im' x y = get im (iw im - 1 - x) y.
Definition c99_mirror_statement : Prop := forall atan2, atan2_ok atan2 -> forall im im' o s g g',
  channels 1 im -> u8_image im -> channels 1 im' -> u8_image im' -> option_values o -> c99_limits im o -> orientations o = 1%Z ->
  mirrored im im' -> from_options (iw im) (ih im) o = Ok (Some s) -> cell_histograms atan2 im s = Ok g -> cell_histograms atan2 im' s = Ok g' ->
  forall cx cy, (0 <= cx < cells_wide s)%Z -> (0 <= cy < cells_high s)%Z ->
  Rabs (B2R (hist g s 0 cx cy) - B2R (hist g' s 0 (cells_wide s - 1 - cx) cy)) <= 2 * error_bound im o.

(** an edge between two cells of 2 x 2 pixels, and its mirror image *)
Definition edge : image (list Z) := mkImage 4 2 [[0]; [0]; [255]; [255]; [0]; [0]; [255]; [255]]%Z.
Definition egde : image (list Z) := mkImage 4 2 [[255]; [255]; [0]; [0]; [255]; [255]; [0]; [0]]%Z.
Definition edge_options : hog_options := mkOptions 1 false 2 1 1.
Definition edge_spec : hog_spec := mkSpec edge_options 2 1 2 1.

Lemma small_image (im : image (list Z)) : iw im = 4%Z -> ih im = 2%Z -> zlen (idata im) = 8%Z -> forallb (fun p => match p with [v] => (0 <=? v)%Z && (v <=? 255)%Z | _ => false end) (idata im) = true ->
  channels 1 im /\ u8_image im.
Proof.
  intros W H L F. rewrite forallb_forall in F.
  assert (G : forall x y p, get im x y = Some p -> exists v, p = [v] /\ (0 <= v <= 255)%Z).
  { intros x y p G. unfold get in G. destruct (inb im x y); [|discriminate G]. apply znth_In in G. specialize (F p G).
    destruct p as [|v [|]]; try discriminate F. exists v. split; [reflexivity|]. lia. }
  split; [split; [split; [lia|split; [lia|rewrite L, W, H; reflexivity]]|]|].
  - intros x y p Gp. destruct (G x y p Gp) as (v & -> & _). reflexivity.
  - intros x y p v Gp I. destruct (G x y p Gp) as (w & -> & B). destruct I as [<-|[]]. exact B.
Qed.

Lemma bin_one h : circular_hat 1 (IZR 1 * direction false h 0 / full_range false) 0 = 1.
Proof.
  assert (D : direction false h 0 = 0).
  { unfold direction, angle. cbn [negb andb Z.eqb Z.ltb Z.compare]. destruct (Z.ltb_spec h 0); [reflexivity|].
    destruct (Z.ltb_spec 0 h); [|reflexivity]. unfold Rdiv. rewrite Rmult_0_l, atan_0. reflexivity. }
  rewrite D. unfold circular_hat, hat. unfold Rdiv. rewrite Rmult_0_r, Rmult_0_l. rewrite !Rminus_0_r, Rabs_R0.
  replace (0 - 1) with (- (1)) by ring. rewrite Rabs_Ropp, Rabs_R1. rewrite Rmax_right, Rmax_left by lra. ring.
Qed.
Lemma edge_term im x y cx h : sobel_dx im x y = h -> sobel_dy im x y = 0%Z -> contribution im edge_options 0 cx 0 x y =
  hat (IZR y / 2) * hat (IZR x / 2 - IZR cx) * Rabs (IZR h) / 4.
Proof.
  intros Eh Ev. unfold contribution. rewrite Eh, Ev. cbv zeta. cbn [orientations cell_side signed edge_options]. rewrite bin_one.
  replace (IZR (h * h + 0 * 0)) with (Rsqr (IZR h)) by (rewrite plus_IZR, !mult_IZR; unfold Rsqr; ring). rewrite sqrt_Rsqr_abs.
  rewrite Rminus_0_r. field.
Qed.
Lemma hat_at t v : 0 <= t <= 1 -> v = 1 - t -> hat t = v.
Proof. intros B ->. unfold hat. rewrite Rabs_pos_eq by lra. apply Rmax_right. lra. Qed.
Lemma hat_at' t v : - 1 <= t <= 0 -> v = 1 + t -> hat t = v.
Proof. intros B ->. unfold hat. rewrite Rabs_left1 by lra. rewrite Rmax_right by lra. ring. Qed.

Lemma edge_left : histogram edge edge_options 0 0 0 = 191.25.
Proof.
  unfold histogram. change (Z.to_nat (ih edge)) with 2%nat. change (Z.to_nat (iw edge)) with 4%nat. cbn [rsum_to].
  change (Z.of_nat 0) with 0%Z. change (Z.of_nat 1) with 1%Z. change (Z.of_nat 2) with 2%Z. change (Z.of_nat 3) with 3%Z.
  rewrite (edge_term edge 0 0 0 0), (edge_term edge 1 0 0 1020), (edge_term edge 2 0 0 1020), (edge_term edge 3 0 0 0),
    (edge_term edge 0 1 0 0), (edge_term edge 1 1 0 1020), (edge_term edge 2 1 0 1020), (edge_term edge 3 1 0 0) by (vm_compute; reflexivity).
  rewrite Rabs_R0, (Rabs_pos_eq 1020) by lra.
  rewrite (hat_at (0 / 2) 1), (hat_at (1 / 2) (/ 2)), (hat_at (1 / 2 - 0) (/ 2)), (hat_at (2 / 2 - 0) 0) by lra. lra.
Qed.
Lemma edge_right : histogram egde edge_options 0 1 0 = 573.75.
Proof.
  unfold histogram. change (Z.to_nat (ih egde)) with 2%nat. change (Z.to_nat (iw egde)) with 4%nat. cbn [rsum_to].
  change (Z.of_nat 0) with 0%Z. change (Z.of_nat 1) with 1%Z. change (Z.of_nat 2) with 2%Z. change (Z.of_nat 3) with 3%Z.
  rewrite (edge_term egde 0 0 1 0), (edge_term egde 1 0 1 (- 1020)), (edge_term egde 2 0 1 (- 1020)), (edge_term egde 3 0 1 0),
    (edge_term egde 0 1 1 0), (edge_term egde 1 1 1 (- 1020)), (edge_term egde 2 1 1 (- 1020)), (edge_term egde 3 1 1 0) by (vm_compute; reflexivity).
  rewrite Rabs_R0, (Rabs_left (- 1020)) by lra.
  rewrite (hat_at (0 / 2) 1), (hat_at (1 / 2) (/ 2)), (hat_at' (1 / 2 - 1) (/ 2)), (hat_at (2 / 2 - 1) 1) by lra. lra.
Qed.

Lemma edge_limits im : iw im = 4%Z -> ih im = 2%Z -> option_values edge_options /\ c99_limits im edge_options.
Proof.
  intros W H. split; [unfold option_values; cbn; lia|]. unfold c99_limits. rewrite W, H. cbn [orientations cell_side block_side block_stride edge_options].
  splits; try lia. intros s (_ & C1 & C2 & (T1 & T2) & T3 & T4). cbn [cell_side block_side block_stride edge_options] in *. assert (cells_wide s = 2)%Z by lia. assert (cells_high s = 1)%Z by lia.
  assert (blocks_wide s = 2)%Z by lia. assert (blocks_high s = 1)%Z by lia. replace (blocks_wide s) with 2%Z by lia. replace (blocks_high s) with 1%Z by lia. lia.
Qed.

(** The hypotheses of c99_hog_partial hold for this edge, which really gets the
    histograms computed above. *)
Example c99_nontrivial : exists g, cell_histograms some_atan2 edge edge_spec = Ok g /\
  Rabs (B2R (hist g edge_spec 0 0 0) - 191.25) <= / 5 /\ exists d, hog some_atan2 edge edge_options = Ok (Some d).
Proof.
  destruct (small_image edge) as (C & U); [reflexivity|reflexivity|reflexivity|reflexivity|].
  destruct (edge_limits edge) as (V & L); [reflexivity|reflexivity|].
  destruct (c99_hog_partial some_atan2 c99_atan2_exists edge edge_options edge_spec C U) as (g & Eg & (_ & P) & D); auto; try (cbn; lia).
  exists g. split; [exact Eg|]. split; [|eauto]. destruct (P 0 0 0)%Z as (_ & B); [cbn; lia|cbn; lia|cbn; lia|]. cbn [options edge_spec] in B. rewrite edge_left in B.
  eapply Rle_trans; [exact B|]. unfold error_bound. cbn [iw ih edge cell_side orientations edge_options]. lra.
Qed.

(** Refuted: positions are measured from the top left corner of a cell, so an edge
    between two cells counts three times as much for the right one. *)
Theorem c99_mirror_refuted : ~ c99_mirror_statement.
Proof.
  intros S. destruct (small_image edge) as (C & U); [reflexivity|reflexivity|reflexivity|reflexivity|].
  destruct (small_image egde) as (C' & U'); [reflexivity|reflexivity|reflexivity|reflexivity|].
  destruct (edge_limits edge) as (V & L); [reflexivity|reflexivity|]. destruct (edge_limits egde) as (_ & L'); [reflexivity|reflexivity|].
  destruct (c99_hog_partial some_atan2 c99_atan2_exists edge edge_options edge_spec C U) as (g & Eg & (_ & P) & _); auto; try (cbn; lia).
  destruct (c99_hog_partial some_atan2 c99_atan2_exists egde edge_options edge_spec C' U') as (g' & Eg' & (_ & P') & _); auto; try (cbn; lia).
  assert (M : mirrored edge egde).
  { split; [reflexivity|]. split; [reflexivity|]. cbn [iw ih edge]. intros x y Hx Hy.
    assert (Ex : (x = 0 \/ x = 1 \/ x = 2 \/ x = 3)%Z) by lia. assert (Ey : (y = 0 \/ y = 1)%Z) by lia.
    destruct Ey as [-> | ->]; destruct Ex as [->|[->|[->| ->]]]; reflexivity. }
  specialize (S some_atan2 c99_atan2_exists edge egde edge_options edge_spec g g' C U C' U' V L eq_refl M eq_refl Eg Eg' 0%Z 0%Z ltac:(cbn; lia) ltac:(cbn; lia)).
  destruct (P 0 0 0)%Z as (_ & B); [cbn; lia|cbn; lia|cbn; lia|]. destruct (P' 0 1 0)%Z as (_ & B'); [cbn; lia|cbn; lia|cbn; lia|].
  cbn [options edge_spec] in B, B'. rewrite edge_left in B. rewrite edge_right in B'.
  change (cells_wide edge_spec - 1 - 0)%Z with 1%Z in S.
  unfold error_bound in *. cbn [iw ih edge egde cell_side orientations edge_options] in *.
  apply Rabs_le_inv in B. apply Rabs_le_inv in B'. apply Rabs_le_inv in S. lra.
Qed.
Print Assumptions c99_mirror_refuted.
