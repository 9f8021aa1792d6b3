(** C27 (2-D correlation), C28 (1-D correlations), C29 (separable filter),
    C30 (box filter). *)
From Verif Require Import Base BaseProofs GeomProofs RasterProofs IntegralSpec FilterModel FilterSpec FilterProofs.

(** ** C27.  Any kernel type and operations, any conversion f. *)
Theorem c27_filter : forall (S K T : Type) (zero : K) (add mul : K -> K -> K) (into : S -> K) (f : K -> T)
    (d : S) (zt : T) ch (im : image (list S)) data kw kh k,
  0 <= ch -> channels ch im -> zlen data < 2 ^ 32 -> 0 <= kw -> 0 <= kh ->
  kernel_new data kw kh = Ok k ->
  exists out, filter2d S K T zero add mul into f ch ch zt im k = Ok out /\
    image_of ch (iw im) (ih im) out (fun c x y =>
      f (weighted_sum zero add mul into data (fun i =>
           rep_chan d im c (x + i mod kw - kw / 2) (y + i / kw - kh / 2)))).
Proof.
  intros S K T zero add mul into f d zt ch im data kw kh k Hch Him Hd Hkw0 Hkh0 Ek.
  unfold kernel_new, assert in Ek. destruct ((0 <? kw) && (0 <? kh)) eqn:E1; [|discriminate]. cbn [bind] in Ek.
  unfold chk_u, u_fits in Ek. destruct ((0 <=? kw * kh) && (kw * kh <? 2 ^ 32)) eqn:E2; [|discriminate]. cbn [bind] in Ek.
  pose proof (zlen_nonneg data). rewrite Z.mod_small in Ek by lia.
  destruct (kw * kh =? zlen data) eqn:E3; [|discriminate]. cbn [bind] in Ek. injection Ek as <-.
  destruct (filter2d_ok S K T zero add mul into f ch d im Him (mkKernel data kw kh)) with (zt := zt) as (out & E & H'); auto;
    cbn [kwidth kheight kdata]; try lia. eauto.
Qed.

(** the parallel version computes the same image *)
Theorem c27_filter_parallel : forall (S K T : Type) (zero : K) (add mul : K -> K -> K) (into : S -> K) (f : K -> T)
    (d : S) (zt : T) ch (im : image (list S)) data kw kh k,
  0 <= ch -> channels ch im -> zlen data < 2 ^ 32 -> 0 <= kw -> 0 <= kh ->
  kernel_new data kw kh = Ok k ->
  filter2d_parallel S K T zero add mul into f ch ch zt im k = filter2d S K T zero add mul into f ch ch zt im k.
Proof.
  intros S K T zero add mul into f d zt ch im data kw kh k Hch Him Hd Hkw0 Hkh0 Ek.
  unfold kernel_new, assert in Ek. destruct ((0 <? kw) && (0 <? kh)) eqn:E1; [|discriminate]. cbn [bind] in Ek.
  unfold chk_u, u_fits in Ek. destruct ((0 <=? kw * kh) && (kw * kh <? 2 ^ 32)) eqn:E2; [|discriminate]. cbn [bind] in Ek.
  pose proof (zlen_nonneg data). rewrite Z.mod_small in Ek by lia.
  destruct (kw * kh =? zlen data) eqn:E3; [|discriminate]. cbn [bind] in Ek. injection Ek as <-.
  apply (filter2d_parallel_ok S K T zero add mul into f ch d im Him); auto; cbn [kwidth kheight kdata]; lia.
Qed.

(** mismatched channel counts panic *)
Theorem c27_channel_mismatch_panics : forall (S K T : Type) zero add mul (into : S -> K) (f : K -> T) zt cp cq im k,
  cp <> cq -> filter2d S K T zero add mul into f cp cq zt im k = Panic /\
              filter2d_parallel S K T zero add mul into f cp cq zt im k = Panic.
Proof. intros. unfold filter2d, filter2d_parallel, assert. assert (cp =? cq = false) as -> by lia. auto. Qed.

(** integer kernels: the familiar double sum *)
Theorem c27_filter_integer : forall (f : Z -> Z) ch (im : image (list Z)) data kw kh k,
  0 <= ch -> channels ch im -> zlen data < 2 ^ 32 -> 0 <= kw -> 0 <= kh ->
  kernel_new data kw kh = Ok k ->
  exists out, filter2d Z Z Z 0 Z.add Z.mul (fun v => v) f ch ch 0 im k = Ok out /\
    image_of ch (iw im) (ih im) out (fun c x y =>
      f (correlation_Z im (fun i j => match znth data (j * kw + i) with Some v => v | None => 0 end) kw kh c x y)).
Proof.
  intros f ch im data kw kh k Hch Him Hd Hkw0 Hkh0 Ek.
  destruct (c27_filter Z Z Z 0 Z.add Z.mul (fun v => v) f 0 0 ch im data kw kh k) as (out & E & (H1 & H2 & H3 & H4)); auto.
  exists out. split; auto. unfold image_of. splits; auto. intros x y Hx Hy. destruct (H4 x y Hx Hy) as (p & Gp & HC).
  exists p. split; auto. intros c Hc. rewrite HC by auto. do 2 f_equal. rewrite weighted_sum_Z. unfold correlation_Z.
  unfold kernel_new, assert in Ek. destruct ((0 <? kw) && (0 <? kh)) eqn:E1; [|discriminate]. cbn [bind] in Ek.
  unfold chk_u, u_fits in Ek. destruct ((0 <=? kw * kh) && (kw * kh <? 2 ^ 32)) eqn:E2; [|discriminate]. cbn [bind] in Ek.
  pose proof (zlen_nonneg data). rewrite Z.mod_small in Ek by lia.
  destruct (kw * kh =? zlen data) eqn:E3; [|discriminate].
  replace (zlen data) with (kw * kh) by lia. rewrite zsum_rows by lia. apply zsum_ext. intros j Hj. apply zsum_ext. intros i Hi.
  replace (j * kw + i) with (i + j * kw) by lia. rewrite Z_mod_plus_full, Z.mod_small by lia. rewrite Z.div_add, (Z.div_small i) by lia. auto.
Qed.

Definition im22 : image (list Z) := mkImage 2 2 [[1]; [2]; [3]; [4]].
Example c27_nontrivial :
  channels 1 im22 /\
  kernel_new [0; 1; 0; 1; -4; 1; 0; 1; 0] 3 3 = Ok (mkKernel [0; 1; 0; 1; -4; 1; 0; 1; 0] 3 3) /\
  filter2d Z Z Z 0 Z.add Z.mul (fun v => v) (fun v => v) 1 1 0 im22 (mkKernel [0; 1; 0; 1; -4; 1; 0; 1; 0] 3 3)
    = Ok (mkImage 2 2 [[3]; [1]; [-1]; [-3]]).
Proof.
  split; [|vm_compute; auto]. split; [unfold wf, zlen; simpl; lia|].
  intros x y p G. apply get_In in G. simpl in G.
  repeat (destruct G as [<-|G]; [reflexivity|]). contradiction.
Qed.

(** ** C28 *)
Theorem c28_horizontal : forall (S K T : Type) (zero : K) (add mul : K -> K -> K) (into : S -> K) (clamp : K -> T)
    (d : S) (zt : T) ch (im : image (list S)) ker,
  0 <= ch -> channels ch im ->
  exists out, horizontal_filter S K T zero add mul into clamp ch zt im ker = Ok out /\
    image_of ch (iw im) (ih im) out (fun c x y =>
      clamp (weighted_sum zero add mul into ker (fun i => rep_chan d im c (x + i - zlen ker / 2) y))).
Proof. intros S K T zero add mul into f d zt ch im ker Hc Him. apply (horizontal_ok S K T zero add mul into f ch d im Him); auto. Qed.
Theorem c28_vertical : forall (S K T : Type) (zero : K) (add mul : K -> K -> K) (into : S -> K) (clamp : K -> T)
    (d : S) (zt : T) ch (im : image (list S)) ker,
  0 <= ch -> channels ch im ->
  exists out, vertical_filter S K T zero add mul into clamp ch zt im ker = Ok out /\
    image_of ch (iw im) (ih im) out (fun c x y =>
      clamp (weighted_sum zero add mul into ker (fun i => rep_chan d im c x (y + i - zlen ker / 2)))).
Proof. intros S K T zero add mul into f d zt ch im ker Hc Him. apply (vertical_ok S K T zero add mul into f ch d im Him); auto. Qed.

(** kernels shorter and longer than the row, odd and even *)
Example c28_nontrivial :
  horizontal_filter Z Z Z 0 Z.add Z.mul (fun v => v) clamp_u8 1 0 (mkImage 4 1 [[1]; [2]; [3]; [4]]) [1; 10; 100] = Ok (mkImage 4 1 [[211]; [255]; [255]; [255]]) /\
  horizontal_filter Z Z Z 0 Z.add Z.mul (fun v => v) clamp_u8 1 0 (mkImage 3 1 [[1]; [2]; [3]]) [1; 10] = Ok (mkImage 3 1 [[11]; [21]; [32]]) /\
  horizontal_filter Z Z Z 0 Z.add Z.mul (fun v => v) clamp_u8 1 0 (mkImage 2 1 [[1]; [2]]) [1; 0; 0; 10] = Ok (mkImage 2 1 [[21]; [21]]).
Proof. vm_compute. auto. Qed.

(** ** C29.  As documented: 2-D correlation with the outer product. *)
Definition c29_statement : Prop := forall ch (im : image (list Z)) hk vk,
  0 <= ch -> channels ch im -> (forall x y p v, get im x y = Some p -> In v p -> is_u8 v) -> zlen hk = zlen vk ->
  exists out, separable_filter 0 Z.add Z.mul (fun v => v) clamp_u8 ch 0 im hk vk = Ok out /\
    image_of ch (iw im) (ih im) out (fun c x y =>
      clamp_u8 (correlation_Z im (fun i j => nth_d 0 hk i * nth_d 0 vk j) (zlen hk) (zlen vk) c x y)).

Theorem c29_separable_refuted : ~ c29_statement.
Proof.
  intros H. destruct (H 1 (mkImage 1 1 [[5]]) [-1] [-1]) as (out & E & (_ & _ & _ & H4)); try lia; auto.
  - split; [unfold wf, zlen; simpl; lia|]. intros x y p G. apply get_In in G. simpl in G. destruct G as [<-|[]]. reflexivity.
  - intros x y p v G Hv. apply get_In in G. simpl in G. destruct G as [<-|[]]. simpl in Hv. destruct Hv as [<-|[]]. unfold is_u8; lia.
  - vm_compute in E. injection E as <-. destruct (H4 0 0) as (p & G & HC); try (simpl; lia).
    vm_compute in G. injection G as <-. specialize (HC 0 ltac:(lia)). vm_compute in HC. discriminate.
Qed.

Lemma border_twice n i : border n (border n i) = border n i.
Proof. unfold border, zclamp. lia. Qed.

(** What the code computes: the horizontal sums are clamped to the subpixel
    range before the vertical sums (any kernel type). *)
Theorem c29_separable_two_passes : forall (S K : Type) (zero : K) (add mul : K -> K -> K) (into : S -> K) (clamp : K -> S)
    (d : S) ch (im : image (list S)) hk vk,
  0 <= ch -> channels ch im -> zlen hk = zlen vk ->
  exists out, separable_filter zero add mul into clamp ch d im hk vk = Ok out /\
    image_of ch (iw im) (ih im) out (fun c x y =>
      clamp (weighted_sum zero add mul into vk (fun j =>
        clamp (weighted_sum zero add mul into hk (fun i =>
          rep_chan d im c (x + i - zlen hk / 2) (y + j - zlen vk / 2)))))).
Proof.
  intros S K zero add mul into clamp d ch im hk vk Hc Him El.
  unfold separable_filter, assert. assert (zlen hk =? zlen vk = true) as -> by lia. cbn [bind].
  destruct (c28_horizontal S K S zero add mul into clamp d d ch im hk) as (h & Eh & (H1 & H2 & H3 & H4)); auto.
  rewrite Eh. cbn [bind].
  destruct (c28_vertical S K S zero add mul into clamp d d ch h vk) as (out & Eo & (O1 & O2 & O3 & O4)); auto.
  exists out. split; auto. unfold image_of. splits; auto; try congruence.
  intros x y Hx Hy. rewrite H1, H2 in O4. destruct (O4 x y Hx Hy) as (p & Gp & HC). exists p. split; auto.
  intros c Hcc. rewrite HC by auto. do 2 f_equal. unfold weighted_sum at 1 2. apply fold_left_ext_in. intros a (j & wj) _.
  do 3 f_equal. unfold rep_chan at 1. rewrite H1, H2. replace (border (iw im) x) with x by (unfold border, zclamp; lia).
  destruct (H4 x (border (ih im) (y + j - zlen vk / 2)) Hx ltac:(unfold border, zclamp; lia)) as (q & Gq & HQ).
  rewrite Gq, HQ by auto. f_equal. unfold weighted_sum. apply fold_left_ext_in. intros b (i & wi) _. do 3 f_equal.
  unfold rep_chan. rewrite (border_twice (ih im)). auto.
Qed.

(** The documented equality holds whenever the clamping of the horizontal
    pass changes nothing. *)
Theorem c29_separable_partial : forall ch (im : image (list Z)) hk vk,
  0 <= ch -> channels ch im -> zlen hk = zlen vk ->
  (forall c x y, 0 <= c < ch -> 0 <= x < iw im -> 0 <= y < ih im ->
     is_u8 (zsum 0 (zlen hk) (fun i => rep_chan 0 im c (x + i - zlen hk / 2) y * nth_d 0 hk i))) ->
  exists out, separable_filter 0 Z.add Z.mul (fun v => v) clamp_u8 ch 0 im hk vk = Ok out /\
    image_of ch (iw im) (ih im) out (fun c x y =>
      clamp_u8 (correlation_Z im (fun i j => nth_d 0 hk i * nth_d 0 vk j) (zlen hk) (zlen vk) c x y)).
Proof.
  intros ch im hk vk Hc Him El Hcl.
  destruct (c29_separable_two_passes Z Z 0 Z.add Z.mul (fun v => v) clamp_u8 0 ch im hk vk) as (out & E & (H1 & H2 & H3 & H4)); auto.
  exists out. split; auto. unfold image_of. splits; auto. intros x y Hx Hy. destruct (H4 x y Hx Hy) as (p & Gp & HC).
  exists p. split; auto. intros c Hcc. rewrite HC by auto. do 2 f_equal. rewrite weighted_sum_Z. unfold correlation_Z.
  apply zsum_ext. intros j Hj. rewrite weighted_sum_Z.
  set (yy := y + j - zlen vk / 2).
  assert (EQ : zsum 0 (zlen hk) (fun i => rep_chan 0 im c (x + i - zlen hk / 2) yy * nth_d 0 hk i) =
               zsum 0 (zlen hk) (fun i => rep_chan 0 im c (x + i - zlen hk / 2) (border (ih im) yy) * nth_d 0 hk i)).
  { apply zsum_ext. intros i _. f_equal. unfold rep_chan. rewrite (border_twice (ih im)). auto. }
  rewrite EQ. unfold clamp_u8 at 1. specialize (Hcl c x (border (ih im) yy) Hcc Hx ltac:(unfold border, zclamp; lia)). unfold is_u8 in Hcl.
  replace (zclamp 0 255 _) with (zsum 0 (zlen hk) (fun i => rep_chan 0 im c (x + i - zlen hk / 2) (border (ih im) yy) * nth_d 0 hk i)) by (unfold zclamp; lia).
  rewrite <- EQ. rewrite Z.mul_comm, <- zsum_scal. apply zsum_ext. intros i _. lia.
Qed.
Example c29_nontrivial :
  separable_filter 0 Z.add Z.mul (fun v => v) clamp_u8 1 0 im22 [1; 2; 1] [1; 2; 1] = Ok (mkImage 2 2 [[28]; [36]; [44]; [52]]) /\
  (forall c x y, 0 <= c < 1 -> 0 <= x < 2 -> 0 <= y < 2 -> is_u8 (zsum 0 3 (fun i => rep_chan 0 im22 c (x + i - 3 / 2) y * nth_d 0 [1; 2; 1] i))).
Proof.
  split; [vm_compute; auto|]. intros c x y Hc Hx Hy. assert (c = 0) as -> by lia.
  assert (x = 0 \/ x = 1) as [-> | ->] by lia; assert (y = 0 \/ y = 1) as [-> | ->] by lia; vm_compute; split; discriminate.
Qed.

(** ** C30 *)
Theorem c30_box_filter : forall im rx ry,
  gray8 im -> 0 < iw im -> 0 < ih im -> 0 <= rx -> 0 <= ry ->
  (iw im + 2 * rx) * 255 < 2 ^ 32 -> (ih im + 2 * ry) * 255 < 2 ^ 32 ->
  exists out, box_filter im rx ry = Ok out /\ iw out = iw im /\ ih out = ih im /\
    forall x y, 0 <= x < iw im -> 0 <= y < ih im -> get out x y = Some (box_mean im rx ry x y).
Proof.
  intros im rx ry Hg Hw Hh Hrx Hry Bx By. rewrite box_ok by auto. eexists; split; [reflexivity|]. splits; auto.
  intros x y Hx Hy. apply get_gen_in; auto.
Qed.
Theorem c30_box_filter_empty : forall im rx ry, iw im = 0 \/ ih im = 0 ->
  box_filter im rx ry = Ok (new_image (iw im) (ih im) 0).
Proof. intros im rx ry H. unfold box_filter. assert ((iw im =? 0) || (ih im =? 0) = true) as -> by lia. auto. Qed.
(** Radii of 2^31 or more panic although nothing is documented. *)
Theorem c30_huge_radius_panics : forall im rx ry, 0 < iw im -> 0 < ih im -> rx >= 2 ^ 31 -> box_filter im rx ry = Panic.
Proof.
  intros im rx ry Hw Hh Hr. unfold box_filter. assert ((iw im =? 0) || (ih im =? 0) = false) as -> by lia.
  unfold chk_u at 1, u_fits. assert ((0 <=? 2 * rx) && (2 * rx <? 2 ^ 32) = false) as -> by lia. auto.
Qed.
Example c30_nontrivial :
  gray8 (mkImage 3 3 [1; 2; 3; 4; 5; 6; 7; 8; 9]) /\
  box_filter (mkImage 3 3 [1; 2; 3; 4; 5; 6; 7; 8; 9]) 1 1 = Ok (mkImage 3 3 [2; 3; 3; 4; 5; 5; 6; 7; 7]) /\
  box_filter (mkImage 1 1 [9]) 3 5 = Ok (mkImage 1 1 [9]).
Proof. split; [apply gray8b_ok; reflexivity|]. vm_compute. auto. Qed.

Print Assumptions c27_filter.
Print Assumptions c27_filter_parallel.
Print Assumptions c27_channel_mismatch_panics.
Print Assumptions c27_filter_integer.
Print Assumptions c28_horizontal.
Print Assumptions c28_vertical.
Print Assumptions c29_separable_refuted.
Print Assumptions c29_separable_two_passes.
Print Assumptions c29_separable_partial.
Print Assumptions c30_box_filter.
Print Assumptions c30_box_filter_empty.
Print Assumptions c30_huge_radius_panics.
