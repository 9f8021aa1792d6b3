From Verif Require Import Base BaseProofs GeomProofs RasterProofs IntegralSpec DistanceProofs MaskModel MaskSpec.
From Coq Require Import Sorted.

(** ** sorted masks *)
Lemma ss_consecutive m : in_order m -> consecutive_sorted m = true.
Proof.
  induction m as [|(ax & ay) m IH]; intros H; auto. inversion H as [|? ? H1 H2]; subst.
  destruct m as [|(bx & by_) m]; auto.
  change (((if ay =? by_ then ax <? bx else ay <? by_) && consecutive_sorted ((bx, by_) :: m)) = true).
  rewrite IH by auto. rewrite Bool.andb_true_r.
  inversion H2 as [|? ? H3 _]; subst. unfold before in H3; simpl in H3.
  destruct (Z.eqb_spec ay by_); lia.
Qed.

Lemma ss_nodup m : in_order m -> NoDup m.
Proof.
  induction 1 as [|a m H IH HF]; constructor; auto.
  intros Hin. rewrite Forall_forall in HF. specialize (HF a Hin). unfold before in HF. lia.
Qed.

Lemma ss_app m1 m2 : in_order m1 -> in_order m2 -> (forall a b, In a m1 -> In b m2 -> before a b) -> in_order (m1 ++ m2).
Proof.
  induction 1 as [|a m H IH HF]; intros H2 HB; auto. simpl. constructor.
  - apply IH; auto. intros; apply HB; simpl; auto.
  - apply Forall_app. split; auto. apply Forall_forall. intros b Hb. apply HB; simpl; auto.
Qed.

Lemma ss_filter (f : Z * Z -> bool) m : in_order m -> in_order (filter f m).
Proof.
  induction 1 as [|a m H IH HF]; simpl; [constructor|]. destruct (f a); auto. constructor; auto.
  apply Forall_forall. intros b Hb. apply filter_In in Hb. rewrite Forall_forall in HF. apply HF, Hb.
Qed.

Lemma ss_map_shift cx cy m : in_order m -> in_order (map (fun '(x, y) => (x - cx, y - cy)) m).
Proof.
  induction 1 as [|a m H IH HF]; simpl; [constructor|]. constructor; auto.
  apply Forall_forall. intros b Hb. apply in_map_iff in Hb. destruct Hb as ((bx & by_) & <- & Hb).
  rewrite Forall_forall in HF. specialize (HF _ Hb). destruct a. unfold before in *; simpl in *. lia.
Qed.

Lemma ss_zrange lo hi : StronglySorted Z.lt (zrange lo hi).
Proof.
  unfold zrange. generalize (Z.to_nat (hi - lo)) as n. intros n. revert lo. induction n as [|n IH]; intros lo; simpl; constructor.
  - apply IH.
  - apply Forall_forall. intros b Hb.
    assert (G : forall n lo b, In b (zseq lo n) -> lo <= b).
    { clear. induction n as [|n IH]; intros lo b Hb; simpl in Hb; [contradiction|]. destruct Hb as [<-|Hb]; [lia|]. apply IH in Hb. lia. }
    apply G in Hb. lia.
Qed.

Definition rows_pts (rows : list (Z * list Z)) : list (Z * Z) :=
  flat_map (fun '(y, xs) => map (fun x => (x, y)) xs) rows.

Lemma in_rows_pts rows x y : In (x, y) (rows_pts rows) <-> exists xs, In (y, xs) rows /\ In x xs.
Proof.
  unfold rows_pts. rewrite in_flat_map. split.
  - intros ((y' & xs) & Hin & H). apply in_map_iff in H. destruct H as (x' & E & Hx). injection E as -> ->. eauto.
  - intros (xs & Hin & Hx). exists (y, xs). split; auto. apply in_map_iff. eauto.
Qed.

Lemma rows_sorted rows : StronglySorted Z.lt (map fst rows) -> (forall y xs, In (y, xs) rows -> StronglySorted Z.lt xs) -> in_order (rows_pts rows).
Proof.
  induction rows as [|(y & xs) rows IH]; intros H1 H2; simpl; [constructor|].
  inversion H1 as [|? ? H3 H4]; subst. apply ss_app.
  - specialize (H2 y xs (or_introl eq_refl)). clear -H2. induction H2 as [|a l H IH HF]; simpl; [constructor|]. constructor; auto.
    apply Forall_forall. intros b Hb. apply in_map_iff in Hb. destruct Hb as (x & <- & Hx).
    rewrite Forall_forall in HF. specialize (HF x Hx). right. simpl. auto.
  - apply IH; auto. intros; eapply H2; simpl; eauto.
  - intros a (bx & by_) Ha Hb. apply in_map_iff in Ha. destruct Ha as (x & <- & Hx).
    apply in_rows_pts in Hb. destruct Hb as (xs' & Hb & _).
    rewrite Forall_forall in H4. left. simpl. apply H4. apply in_map_iff. exists (by_, xs'). auto.
Qed.

Lemma flat_map_rows (f : Z -> list Z) l : flat_map (fun y => map (fun x => (x, y)) (f y)) l = rows_pts (map (fun y => (y, f y)) l).
Proof. induction l as [|y l IH]; simpl; auto. rewrite IH. auto. Qed.

Lemma rows_zrange_sorted (f : Z -> list Z) a b : (forall y, StronglySorted Z.lt (f y)) ->
  in_order (rows_pts (map (fun y => (y, f y)) (zrange a b))).
Proof.
  intros Hf. apply rows_sorted.
  - rewrite map_map. simpl. rewrite map_id. apply ss_zrange.
  - intros y xs Hin. apply in_map_iff in Hin. destruct Hin as (y' & E & _). injection E as <- <-. auto.
Qed.

Lemma length_511 m : in_order m -> (forall x y, In (x, y) m -> -255 <= x <= 255 /\ -255 <= y <= 255) -> zlen m <= 511 * 511.
Proof.
  intros Hs Hb. pose proof (ss_nodup m Hs) as ND.
  assert (I : incl m (list_prod (zrange (-255) 256) (zrange (-255) 256))).
  { intros (x & y) Hin. apply Hb in Hin. apply in_prod; apply in_zrange; lia. }
  apply NoDup_incl_length in I; auto. rewrite prod_length in I.
  assert (length (zrange (-255) 256) = 511%nat) as L by reflexivity. rewrite L in I. unfold zlen. lia.
Qed.

Lemma mask_new_ok m : in_order m -> zlen m <= 511 * 511 -> mask_new m = Ok m.
Proof.
  intros Hs Hl. unfold mask_new, assert. rewrite ss_consecutive by auto.
  assert (zlen m <=? 511 * 511 = true) as -> by lia. reflexivity.
Qed.

Lemma square_ok r : 0 <= r <= 255 -> exists m, square r = Ok m /\ in_order m /\
  forall x y, In (x, y) m <-> Z.max (Z.abs x) (Z.abs y) <= r.
Proof.
  intros Hr. unfold square. rewrite (flat_map_rows (fun _ => zrange (- r) (r + 1))).
  set (m := rows_pts _).
  assert (S : in_order m) by (apply rows_zrange_sorted; intros; apply ss_zrange).
  assert (I : forall x y, In (x, y) m <-> Z.max (Z.abs x) (Z.abs y) <= r).
  { intros x y. unfold m. rewrite in_rows_pts. split.
    - intros (xs & Hin & Hx). apply in_map_iff in Hin. destruct Hin as (y' & E & Hy). injection E as <- <-. apply in_zrange in Hx, Hy. lia.
    - intros H. exists (zrange (- r) (r + 1)). split; [apply in_map_iff; exists y; split; auto|]; apply in_zrange; lia. }
  exists m. splits; auto. apply mask_new_ok; auto. apply length_511; auto. intros x y Hin. apply I in Hin. lia.
Qed.

Lemma diamond_ok r : 0 <= r <= 255 -> exists m, diamond r = Ok m /\ in_order m /\
  forall x y, In (x, y) m <-> Z.abs x + Z.abs y <= r.
Proof.
  intros Hr. unfold diamond. rewrite (flat_map_rows (fun y => zrange (Z.abs y - r) (r - Z.abs y + 1))).
  set (m := rows_pts _).
  assert (S : in_order m) by (apply rows_zrange_sorted; intros; apply ss_zrange).
  assert (I : forall x y, In (x, y) m <-> Z.abs x + Z.abs y <= r).
  { intros x y. unfold m. rewrite in_rows_pts. split.
    - intros (xs & Hin & Hx). apply in_map_iff in Hin. destruct Hin as (y' & E & Hy). injection E as <- <-. apply in_zrange in Hx, Hy. lia.
    - intros H. exists (zrange (Z.abs y - r) (r - Z.abs y + 1)). split; [apply in_map_iff; exists y; split; auto|]; apply in_zrange; lia. }
  exists m. splits; auto. apply mask_new_ok; auto. apply length_511; auto. intros x y Hin. apply I in Hin. lia.
Qed.

Lemma from_image_ok im cx cy : gray8 im -> iw im < 512 -> ih im < 512 -> is_u8 cx -> is_u8 cy ->
  exists m, from_image im cx cy = Ok m /\ in_order m /\
    forall dx dy, In (dx, dy) m <-> exists v, get im (dx + cx) (dy + cy) = Some v /\ v <> 0.
Proof.
  intros (W & Hp) Hw Hh Hcx Hcy. unfold is_u8 in *. unfold from_image, assert.
  assert (iw im <? 512 = true) as -> by lia. assert (ih im <? 512 = true) as -> by lia. cbn [bind].
  rewrite (flat_map_rows (fun _ => zrange 0 (iw im))).
  set (pts := rows_pts _).
  assert (S : in_order pts) by (apply rows_zrange_sorted; intros; apply ss_zrange).
  assert (I : forall x y, In (x, y) pts <-> 0 <= x < iw im /\ 0 <= y < ih im).
  { intros x y. unfold pts. rewrite in_rows_pts. split.
    - intros (xs & Hin & Hx). apply in_map_iff in Hin. destruct Hin as (y' & E & Hy). injection E as <- <-. apply in_zrange in Hx, Hy. lia.
    - intros H. exists (zrange 0 (iw im)). split; [apply in_map_iff; exists y; split; auto|]; apply in_zrange; lia. }
  set (f := fun '(x, y) => match get im x y with Some v => negb (v =? 0) | None => false end).
  rewrite (mapM_all _ (fun '(x, y) => (x - cx, y - cy))).
  2: { intros (x & y) Hin. apply filter_In in Hin. destruct Hin as (Hin & _). apply I in Hin.
       unfold chk_i, i_fits. assert ((- 2 ^ (16 - 1) <=? x - cx) && (x - cx <? 2 ^ (16 - 1)) = true) as -> by lia.
       assert ((- 2 ^ (16 - 1) <=? y - cy) && (y - cy <? 2 ^ (16 - 1)) = true) as -> by lia. reflexivity. }
  cbn [bind]. set (m := map _ _).
  assert (Sm : in_order m) by (apply ss_map_shift, ss_filter; auto).
  exists m. splits; auto.
  - apply mask_new_ok; auto. unfold m. rewrite zlen_map. 
    assert (I2 : incl (filter f pts) (list_prod (zrange 0 511) (zrange 0 511))).
    { intros (x & y) Hin. apply filter_In in Hin. destruct Hin as (Hin & _). apply I in Hin. apply in_prod; apply in_zrange; lia. }
    apply NoDup_incl_length in I2; [|apply ss_nodup, ss_filter; auto]. rewrite prod_length in I2.
    assert (length (zrange 0 511) = 511%nat) as L by reflexivity. rewrite L in I2. unfold zlen. lia.
  - intros dx dy. unfold m. rewrite in_map_iff. split.
    + intros ((x & y) & E & Hin). injection E as <- <-. apply filter_In in Hin. destruct Hin as (_ & F). unfold f in F.
      replace (x - cx + cx) with x by lia. replace (y - cy + cy) with y by lia.
      destruct (get im x y) as [v|]; [|discriminate]. exists v. split; auto. lia.
    + intros (v & G & Hv). exists (dx + cx, dy + cy). split; [f_equal; lia|]. apply filter_In. split.
      * apply I. apply get_inb in G. auto.
      * unfold f. rewrite G. lia.
Qed.

(** ** disk *)
Definition hw_ok (r y hw : Z) : Prop := 0 <= hw /\ hw * hw + y * y <= r * r < (hw + 1) * (hw + 1) + y * y.

Lemma find_up_ok r h2 : 0 <= r <= 255 -> 0 <= h2 -> forall fuel x, 0 <= x -> x * x + h2 <= r * r -> r - x < Z.of_nat fuel ->
  exists w, find_up fuel x h2 (r ^ 2) = Ok w /\ 0 <= w <= r /\ w * w + h2 <= r * r < (w + 1) * (w + 1) + h2.
Proof.
  intros Hr Hh2. rewrite (Z.pow_2_r r). induction fuel as [|fuel IH]; intros x Hx Hle Hf; [nia|].
  cbn [find_up]. rewrite Z.gtb_ltb. rewrite (Z.pow_2_r (x + 1)).
  destruct (Z.ltb_spec (r * r) ((x + 1) * (x + 1) + h2)).
  - exists x. splits; auto; try lia. nia.
  - apply IH; lia.
Qed.

Lemma find_down_ok r h2 : 0 <= h2 <= r * r -> forall n,
  r * r < (Z.of_nat n + 1) * (Z.of_nat n + 1) + h2 ->
  exists w, find_down n h2 (r ^ 2) = Some w /\ 0 <= w <= Z.of_nat n /\ w * w + h2 <= r * r < (w + 1) * (w + 1) + h2.
Proof.
  intros Hh2. rewrite (Z.pow_2_r r). induction n as [|n IH]; intros Hn.
  - cbn [find_down]. rewrite (Z.pow_2_r (Z.of_nat 0)). change (Z.of_nat 0) with 0 in *.
    assert (0 * 0 + h2 <=? r * r = true) as -> by lia. exists 0. splits; auto; lia.
  - cbn [find_down]. rewrite (Z.pow_2_r (Z.of_nat (S n))). destruct (Z.leb_spec (Z.of_nat (S n) * Z.of_nat (S n) + h2) (r * r)).
    + exists (Z.of_nat (S n)). splits; auto; lia.
    + destruct IH as (w & E & B & C); [nia|]. exists w. splits; auto; lia.
Qed.

Lemma half_widths_ok r : 0 <= r <= 255 -> forall fuel lh lw,
  - r <= lh <= r -> hw_ok r lh lw -> r - lh < Z.of_nat fuel ->
  exists L, half_widths fuel r lh lw = Ok L /\ map fst L = zrange lh (r + 1) /\ forall y hw, In (y, hw) L -> hw_ok r y hw.
Proof.
  intros Hr. induction fuel as [|fuel IH]; intros lh lw Hlh Hok Hf; [lia|].
  cbn [half_widths]. rewrite (zrange_cons lh) by lia. destruct (Z.eqb_spec lh r) as [->|Hne].
  - eexists; split; [reflexivity|]. split.
    + rewrite zrange_empty by lia. reflexivity.
    + intros y hw [E|[]]. injection E as <- <-. auto.
  - assert (Hnh : Z.abs (lh + 1) ^ 2 = (lh + 1) * (lh + 1)) by (rewrite Z.pow_2_r; nia). rewrite Hnh.
    destruct Hok as (H0 & H1 & H2).
    destruct (Z.leb_spec (lh + 1) 0).
    + destruct (find_up_ok r ((lh + 1) * (lh + 1)) Hr ltac:(nia) 300 lw H0 ltac:(nia)) as (w & -> & Hw & Hw2); [lia|].
      cbn [bind]. unfold chk_u, u_fits. assert ((0 <=? w) && (w <? 2 ^ 8) = true) as -> by lia. cbn [bind].
      destruct (IH (lh + 1) w) as (L & -> & EL & HL); [lia|split; [lia|auto]|lia|].
      cbn [bind]. eexists; split; [reflexivity|]. split. { simpl. rewrite EL. auto. }
      intros y hw [E|Hin]; [|auto]. injection E as <- <-. split; auto.
    + destruct (find_down_ok r ((lh + 1) * (lh + 1)) ltac:(nia) (Z.to_nat lw)) as (w & -> & Hw & Hw2); [rewrite Z2Nat.id by lia; nia|].
      rewrite Z2Nat.id in Hw by lia.
      assert (w <= 255) by nia.
      unfold chk_u, u_fits. assert ((0 <=? w) && (w <? 2 ^ 8) = true) as -> by lia. cbn [bind].
      destruct (IH (lh + 1) w) as (L & -> & EL & HL); [lia|split; [lia|auto]|lia|].
      cbn [bind]. eexists; split; [reflexivity|]. split. { simpl. rewrite EL. auto. }
      intros y hw [E|Hin]; [|auto]. injection E as <- <-. split; auto.
Qed.

Lemma disk_ok r : 0 <= r <= 255 -> exists m, disk r = Ok m /\ in_order m /\
  forall x y, In (x, y) m <-> x * x + y * y <= r * r.
Proof.
  intros Hr. unfold disk.
  destruct (half_widths_ok r Hr 600 (- r) 0) as (L & -> & EL & HL); [lia|split; lia|lia|]. cbn [bind].
  assert (E : flat_map (fun '(y, hwd) => map (fun x => (x, y)) (zrange (- hwd) (hwd + 1))) L =
              rows_pts (map (fun '(y, hwd) => (y, zrange (- hwd) (hwd + 1))) L)).
  { clear. induction L as [|(y & hw) L IH]; simpl; auto. rewrite IH. auto. }
  rewrite E. set (m := rows_pts _).
  assert (S : in_order m).
  { apply rows_sorted.
    - rewrite map_map. rewrite (map_ext _ fst) by (intros (? & ?); auto). rewrite EL. apply ss_zrange.
    - intros y xs Hin. apply in_map_iff in Hin. destruct Hin as ((y' & hw) & E2 & _). injection E2 as <- <-. apply ss_zrange. }
  assert (I : forall x y, In (x, y) m <-> x * x + y * y <= r * r).
  { intros x y. unfold m. rewrite in_rows_pts. split.
    - intros (xs & Hin & Hx). apply in_map_iff in Hin. destruct Hin as ((y' & hw) & E2 & Hin). injection E2 as <- <-.
      apply in_zrange in Hx. destruct (HL y' hw Hin) as (A & B & _). nia.
    - intros H. assert (Hy : In y (map fst L)) by (rewrite EL; apply in_zrange; nia).
      apply in_map_iff in Hy. destruct Hy as ((y' & hw) & E2 & Hin). simpl in E2. subst y'.
      destruct (HL y hw Hin) as (A & _ & B).
      exists (zrange (- hw) (hw + 1)). split; [apply in_map_iff; exists (y, hw); auto|]. apply in_zrange. nia. }
  exists m. splits; auto. apply mask_new_ok; auto. apply length_511; auto. intros x y Hin. apply I in Hin. nia.
Qed.

(** ** mask_reduce *)
Lemma lines_flat m : rows_pts (lines m) = m.
Proof.
  induction m as [|(x & y) m IH]; auto. simpl. destruct (lines m) as [|(y' & xs) r]; simpl in *.
  - rewrite <- IH. reflexivity.
  - destruct (Z.eqb_spec y y') as [<-|]; simpl; rewrite IH; auto.
Qed.

Section Red.
  Variables (op : Z -> Z -> Z) (im : image Z).
  Hypothesis W : wf im.
  Let w := iw im. Let h := ih im.

  Definition rstep (a b acc : Z) (o : Z * Z) : Z :=
    let '(x, y) := o in if inb im (a + x) (b + y) then op (px im (a + x) (b + y)) acc else acc.

  Lemma gp_gen F a b : 0 <= a < w -> 0 <= b < h -> get_pixel (gen w h F) a b = Ok (F a b : Z).
  Proof. intros. apply get_pixel_ok. apply get_gen_in; auto. Qed.

  Lemma pp_gen F a b (v : Z) : 0 <= a < w -> 0 <= b < h ->
    put_pixel (gen w h F) a b v = Ok (gen w h (fun x y => if (x =? a) && (y =? b) then v else F x y)).
  Proof.
    intros Ha Hb. rewrite put_pixel_ok by auto. f_equal. apply image_ext.
    - apply wf_put, wf_gen; lia.
    - apply wf_gen; lia.
    - reflexivity.
    - reflexivity.
    - intros x y Hx Hy. rewrite get_put by (auto; apply wf_gen; lia). 
      change (0 <= x < w) in Hx. change (0 <= y < h) in Hy. rewrite !get_gen_in by auto.
      destruct ((x =? a) && (y =? b)); auto.
  Qed.

  Lemma gpx a b : 0 <= a < w -> 0 <= b < h -> get_pixel im a b = Ok (px im a b).
  Proof. intros. apply get_pixel_ok. apply get_px; auto. Qed.

  Lemma row_x_ok F iy oy x : 0 <= iy < h -> 0 <= oy < h ->
    let si := to_usize_or_0 x in let so := to_usize_or_0 (- x) in
    for_range 0 (Z.min (w - si) (w - so)) (fun j result =>
        input <- get_pixel im (j + si) iy ;;
        output <- get_pixel result (j + so) oy ;;
        put_pixel result (j + so) oy (op input output)) (gen w h F) =
    Ok (gen w h (fun a b => if b =? oy then rstep a b (F a b) (x, iy - oy) else F a b)).
  Proof.
    intros Hi Ho si so. unfold to_usize_or_0 in *.
    assert (Hw : 0 <= w) by apply W.
    assert (Hsi : 0 <= si /\ 0 <= so /\ si - so = x) by (unfold si, so; destruct (Z.ltb_spec x 0); destruct (Z.ltb_spec (- x) 0); lia).
    destruct Hsi as (Hsi & Hso & Hx).
    assert (Hs0 : si = 0 \/ so = 0) by (unfold si, so; destruct (Z.ltb_spec x 0); destruct (Z.ltb_spec (- x) 0); lia).
    clearbody si so.
    destruct (Z_le_dec 0 (Z.min (w - si) (w - so))) as [Hn|Hn].
    - match goal with |- for_range 0 ?n ?bd ?st = _ =>
      destruct (for_range_ind (fun j s => s = gen w h (fun a b =>
         if (b =? oy) && (so <=? a) && (a <? so + j) then op (px im (a + x) iy) (F a b) else F a b)) 0 n bd st) as (s & E & HP) end; auto.
      + apply gen_ext. intros a b Ha Hb. destruct ((b =? oy) && (so <=? a) && (a <? so + 0)) eqn:E; auto; lia.
      + intros j s Hj ->. rewrite gpx by lia. cbn [bind]. rewrite gp_gen by lia. cbn [bind].
        destruct ((oy =? oy) && (so <=? j + so) && (j + so <? so + j)) eqn:E; [lia|].
        rewrite pp_gen by lia. eexists; split; [reflexivity|]. apply gen_ext. intros a b Ha Hb.
        destruct ((a =? j + so) && (b =? oy)) eqn:E1.
        * assert (a = j + so /\ b = oy) as (-> & ->) by lia.
          destruct ((oy =? oy) && (so <=? j + so) && (j + so <? so + (j + 1))) eqn:E2; [|lia].
          f_equal. f_equal. lia.
        * destruct ((b =? oy) && (so <=? a) && (a <? so + j)) eqn:E2; destruct ((b =? oy) && (so <=? a) && (a <? so + (j + 1))) eqn:E3; auto; lia.
      + rewrite E, HP. f_equal. apply gen_ext. intros a b Ha Hb. unfold rstep, inb.
        destruct (Z.eqb_spec b oy) as [->|]; cbn [andb]; auto.
        replace (oy + (iy - oy)) with iy by lia. fold w h.
        destruct ((so <=? a) && (a <? so + Z.min (w - si) (w - so))) eqn:E1;
        destruct ((0 <=? a + x) && (a + x <? w) && (0 <=? iy) && (iy <? h)) eqn:E2; auto; lia.
    - rewrite for_range_empty by lia. f_equal. apply gen_ext. intros a b Ha Hb. unfold rstep, inb. fold w h.
      destruct (b =? oy); auto.
      destruct ((0 <=? a + x) && (a + x <? w) && (0 <=? b + (iy - oy)) && (b + (iy - oy) <? h)) eqn:E2; auto; lia.
  Qed.

  Lemma reduce_row_ok iy oy xs : 0 <= iy < h -> 0 <= oy < h -> forall F,
    reduce_row op im iy oy xs (gen w h F) =
    Ok (gen w h (fun a b => if b =? oy then fold_left (rstep a b) (map (fun x => (x, iy - oy)) xs) (F a b) else F a b)).
  Proof.
    intros Hi Ho. induction xs as [|x xs IH]; intros F.
    - unfold reduce_row. cbn [for_each]. f_equal. apply gen_ext. intros. destruct (y =? oy); auto.
    - unfold reduce_row in *. cbn [for_each]. fold w. rewrite row_x_ok by auto. cbn [bind]. fold w in IH. rewrite IH.
      f_equal. apply gen_ext. intros a b Ha Hb. destruct (b =? oy); auto.
  Qed.

  Lemma reduce_line_ok y xs F : w <> 0 ->
    reduce_line op im y xs (gen w h F) =
    Ok (gen w h (fun a b => fold_left (rstep a b) (map (fun x => (x, y)) xs) (F a b))).
  Proof.
    intros Hw0. unfold reduce_line, assert. fold w. assert (negb (w =? 0) = true) as -> by lia. cbn [bind].
    set (si := to_usize_or_0 y). set (so := to_usize_or_0 (- y)). fold h.
    assert (Hh : 0 <= h) by apply W.
    assert (Hsi : 0 <= si /\ 0 <= so /\ si - so = y) by (unfold si, so, to_usize_or_0; destruct (Z.ltb_spec y 0); destruct (Z.ltb_spec (- y) 0); lia).
    destruct Hsi as (Hsi & Hso & Hx).
    assert (Hs0 : si = 0 \/ so = 0) by (unfold si, so, to_usize_or_0; destruct (Z.ltb_spec y 0); destruct (Z.ltb_spec (- y) 0); lia).
    clearbody si so.
    assert (OUT : forall a b acc, ~ (0 <= b + y < h) -> fold_left (rstep a b) (map (fun x => (x, y)) xs) acc = acc).
    { intros a b acc Hn. induction xs as [|x l IH]; auto. cbn [map fold_left].
      assert (rstep a b acc (x, y) = acc) as ->; auto.
      unfold rstep, inb. fold w h.
      destruct ((0 <=? a + x) && (a + x <? w) && (0 <=? b + y) && (b + y <? h)) eqn:E; auto; lia. }
    destruct (Z_le_dec 0 (Z.min (h - si) (h - so))) as [Hn|Hn].
    - match goal with |- for_range 0 ?n ?bd ?st = _ =>
      destruct (for_range_ind (fun j s => s = gen w h (fun a b =>
         if (so <=? b) && (b <? so + j) then fold_left (rstep a b) (map (fun x => (x, y)) xs) (F a b) else F a b)) 0 n bd st) as (s & E & HP) end; auto.
      + apply gen_ext. intros a b Ha Hb. destruct ((so <=? b) && (b <? so + 0)) eqn:E; auto; lia.
      + intros j s Hj ->. rewrite reduce_row_ok by lia. eexists; split; [reflexivity|]. apply gen_ext. intros a b Ha Hb.
        replace (j + si - (j + so)) with y by lia. destruct (Z.eqb_spec b (j + so)) as [->|].
        * destruct ((so <=? j + so) && (j + so <? so + j)) eqn:E1; [lia|].
          destruct ((so <=? j + so) && (j + so <? so + (j + 1))) eqn:E2; [auto|lia].
        * destruct ((so <=? b) && (b <? so + j)) eqn:E1; destruct ((so <=? b) && (b <? so + (j + 1))) eqn:E2; auto; lia.
      + rewrite E, HP. f_equal. apply gen_ext. intros a b Ha Hb.
        destruct ((so <=? b) && (b <? so + Z.min (h - si) (h - so))) eqn:E1; auto. rewrite OUT; auto. lia.
    - rewrite for_range_empty by lia. f_equal. apply gen_ext. intros a b Ha Hb. rewrite OUT; auto. lia.
  Qed.

  Lemma mask_reduce_ok mask neutral : (w <> 0 \/ mask = []) ->
    mask_reduce op im mask neutral = Ok (gen w h (fun a b => fold_left (rstep a b) mask neutral)).
  Proof.
    intros Hw. unfold mask_reduce, new_image. fold w h.
    assert (G : forall L F, (w <> 0 \/ L = []) ->
      for_each L (fun '(y, xs) result => reduce_line op im y xs result) (gen w h F) =
      Ok (gen w h (fun a b => fold_left (rstep a b) (rows_pts L) (F a b)))).
    { induction L as [|(y & xs) L IH]; intros F HL; auto. destruct HL as [HL|HL]; [|discriminate].
      cbn [for_each]. rewrite reduce_line_ok by auto. cbn [bind]. rewrite IH by auto. f_equal. apply gen_ext. intros a b _ _.
      cbn [rows_pts flat_map]. fold (rows_pts L). rewrite fold_left_app. auto. }
    rewrite G; [rewrite lines_flat; auto|]. destruct Hw as [Hw| ->]; auto.
  Qed.
End Red.

(** folds of max / min *)
Lemma fold_max im a b mask : forall acc,
  let r := fold_left (rstep Z.max im a b) mask acc in
  acc <= r /\
  (forall x y, In (x, y) mask -> inb im (a + x) (b + y) = true -> px im (a + x) (b + y) <= r) /\
  (r = acc \/ exists x y, In (x, y) mask /\ inb im (a + x) (b + y) = true /\ px im (a + x) (b + y) = r).
Proof.
  induction mask as [|(x & y) m IH]; intros acc r; [unfold r; simpl; split; [lia|split; [intros ? ? []|left; auto]]|].
  specialize (IH (rstep Z.max im a b acc (x, y))). cbv zeta in IH.
  change (fold_left (rstep Z.max im a b) m (rstep Z.max im a b acc (x, y))) with r in IH. destruct IH as (A & B & C).
  unfold rstep in A, C. cbv beta iota in A, C. clearbody r. splits.
  - destruct (inb im (a + x) (b + y)); auto; lia.
  - intros x' y' [E|Hin] Hb; [|auto]. injection E as <- <-. rewrite Hb in A. lia.
  - destruct C as [C|(x' & y' & Hin & Hb & E)].
    + destruct (inb im (a + x) (b + y)) eqn:Eb; auto.
      destruct (Z_le_dec (px im (a + x) (b + y)) acc); [left; lia|].
      right. exists x, y. splits; simpl; auto. lia.
    + right. exists x', y'. splits; simpl; auto.
Qed.
Lemma fold_min im a b mask : forall acc,
  let r := fold_left (rstep Z.min im a b) mask acc in
  r <= acc /\
  (forall x y, In (x, y) mask -> inb im (a + x) (b + y) = true -> r <= px im (a + x) (b + y)) /\
  (r = acc \/ exists x y, In (x, y) mask /\ inb im (a + x) (b + y) = true /\ px im (a + x) (b + y) = r).
Proof.
  induction mask as [|(x & y) m IH]; intros acc r; [unfold r; simpl; split; [lia|split; [intros ? ? []|left; auto]]|].
  specialize (IH (rstep Z.min im a b acc (x, y))). cbv zeta in IH.
  change (fold_left (rstep Z.min im a b) m (rstep Z.min im a b acc (x, y))) with r in IH. destruct IH as (A & B & C).
  unfold rstep in A, C. cbv beta iota in A, C. clearbody r. splits.
  - destruct (inb im (a + x) (b + y)); auto; lia.
  - intros x' y' [E|Hin] Hb; [|auto]. injection E as <- <-. rewrite Hb in A. lia.
  - destruct C as [C|(x' & y' & Hin & Hb & E)].
    + destruct (inb im (a + x) (b + y)) eqn:Eb; auto.
      destruct (Z_le_dec acc (px im (a + x) (b + y))); [left; lia|].
      right. exists x, y. splits; simpl; auto. lia.
    + right. exists x', y'. splits; simpl; auto.
Qed.

Lemma covered_dec (im : image Z) mask a b : (exists u v, covered im mask a b u v) \/ (forall u v, ~ covered im mask a b u v).
Proof.
  induction mask as [|(x & y) m IH].
  - right. intros u v ([] & _).
  - destruct IH as [(u & v & (H1 & H2))|H].
    + left. exists u, v. split; simpl; auto.
    + destruct (inb im (a + x) (b + y)) eqn:E.
      * apply inb_spec in E. left. exists (a + x), (b + y). split; auto. left. f_equal; lia.
      * apply inb_false in E. right. intros u v ([E2|Hin] & H2 & H3).
        -- injection E2 as -> ->. apply E. replace (a + (u - a)) with u by lia. replace (b + (v - b)) with v by lia. auto.
        -- apply (H u v). split; auto.
Qed.
