From Verif Require Import Base BaseProofs GeomProofs RasterProofs IntegralModel IntegralSpec IntegralProofs StatsProofs FilterModel FilterSpec Props_Integral MaskProofs.
Local Ltac Zify.zify_post_hook ::= idtac.

(** raster loop carrying an accumulator that returns to [b0] at every pixel *)
Lemma raster_fill_acc {A B} (w h : Z) (f : Z -> Z -> A) (body : Z -> Z -> image A * B -> res (image A * B)) (out0 : image A) (b0 : B) :
  wf out0 -> iw out0 = w -> ih out0 = h ->
  (forall x y o, 0 <= x < w -> 0 <= y < h -> wf o -> iw o = w -> ih o = h -> get o x y = get out0 x y ->
     body y x (o, b0) = Ok (put o x y (f x y), b0)) ->
  for_range 0 h (fun y o => for_range 0 w (fun x o => body y x o) o) (out0, b0) = Ok (gen w h f, b0).
Proof.
  intros W0 Ew Eh HB. pose proof W0 as (Hw & Hh & _). rewrite Ew in Hw. rewrite Eh in Hh.
  destruct (raster_ind (fun xx yy '(o, b) => b = b0 /\ wf o /\ iw o = w /\ ih o = h /\
     forall a b, 0 <= a < w -> 0 <= b < h ->
       get o a b = if (b <? yy) || ((b =? yy) && (a <? xx)) then Some (f a b) else get out0 a b)
     0 h 0 (fun _ => w) w body (out0, b0)) as ((o & b) & E & Eb & W & E1 & E2 & HG); auto.
  - splits; auto. intros a b Ha Hb. destruct ((b <? 0) || ((b =? 0) && (a <? 0))) eqn:E; auto; lia.
  - intros x y (o & b) Hx Hy (-> & W & E1 & E2 & HG).
    rewrite (HB x y o); auto.
    + eexists; split; [reflexivity|]. cbv beta iota. splits; auto.
      * apply wf_put; auto.
      * intros a b Ha Hb. rewrite get_put by (auto; lia).
        destruct ((a =? x) && (b =? y)) eqn:E.
        -- assert (a = x /\ b = y) as (-> & ->) by lia.
           destruct ((y <? y) || ((y =? y) && (x <? x + 1))) eqn:E3; auto; lia.
        -- rewrite HG by auto.
           destruct ((b <? y) || ((b =? y) && (a <? x))) eqn:E3; destruct ((b <? y) || ((b =? y) && (a <? x + 1))) eqn:E4; auto; lia.
    + rewrite HG by auto. destruct ((y <? y) || ((y =? y) && (x <? x))) eqn:E3; auto; lia.
  - intros y (o & b) Hy (Eb & W & E1 & E2 & HG). splits; auto. intros a b' Ha Hb. rewrite HG by auto.
    destruct ((b' <? y) || ((b' =? y) && (a <? w))) eqn:E3; destruct ((b' <? y + 1) || ((b' =? y + 1) && (a <? 0))) eqn:E4; auto; lia.
  - rewrite E. subst b. do 2 f_equal. apply image_ext; auto. { apply wf_gen; auto. }
    rewrite E1, E2. intros a b Ha Hb. rewrite HG, get_gen_in by auto.
    destruct ((b <? h) || ((b =? h) && (a <? 0))) eqn:E3; auto; lia.
Qed.

Definition nth_d {S} (d : S) (p : list S) (c : Z) : S := match znth p c with Some v => v | None => d end.
Lemma list_as_map_d {S} (d : S) (p : list S) ch : zlen p = ch -> p = map (nth_d d p) (zrange 0 ch).
Proof.
  intros <-. apply znth_ext; [rewrite map_length, zrange_length; unfold zlen; lia|].
  intros i Hi. destruct (znth_some p i Hi) as (v & E).
  rewrite znth_map, znth_zrange by lia. cbn [option_map]. unfold nth_d. rewrite Z.add_0_l, E. auto.
Qed.

Section FP.
  Variables (S K T : Type) (zero : K) (add mul : K -> K -> K) (into : S -> K) (f : K -> T).
  Variables (ch : Z) (d : S) (im : image (list S)).
  Hypothesis (Him : channels ch im).
  Let cs := zrange 0 ch.
  Let w := iw im.
  Let h := ih im.

  Lemma accumulate_map (A : Z -> K) p k : zlen p = ch ->
    accumulate S K add mul into (map A cs) p k = map (fun c => add (A c) (mul (into (nth_d d p c)) k)) cs.
  Proof.
    intros E. unfold accumulate. rewrite (list_as_map_d d p ch E) at 1. fold cs. rewrite combine_map, map_map. auto.
  Qed.

  Definition rpx (x y c : Z) : S := match get im x y with Some p => nth_d d p c | None => d end.

  Lemma correlate1_ok ker pos (A : Z -> K) :
    (forall i, 0 <= i < zlen ker -> 0 <= fst (pos i) < w /\ 0 <= snd (pos i) < h) ->
    correlate1 S K add mul into im ker pos (map A cs) =
    Ok (map (fun c => fold_left (fun acc '(i, k) => add acc (mul (into (rpx (fst (pos i)) (snd (pos i)) c)) k))
                        (combine (zrange 0 (zlen ker)) ker) (A c)) cs).
  Proof.
    intros HP. unfold correlate1.
    assert (HI : forall i k, In (i, k) (combine (zrange 0 (zlen ker)) ker) -> 0 <= i < zlen ker).
    { intros i k H. apply in_combine_l in H. apply in_zrange in H. auto. }
    revert A HI. generalize (combine (zrange 0 (zlen ker)) ker) as l.
    induction l as [|(i & k) l IH]; intros A HI; auto.
    cbn [for_each]. destruct (HP i) as (H1 & H2); [eapply HI; left; reflexivity|].
    destruct (pos i) as (px & py) eqn:Ep. cbn [fst snd] in H1, H2.
    destruct (get_some im px py (proj1 Him) H1 H2) as (p & G).
    unfold get_pixel. rewrite G. cbn [unwrap bind].
    rewrite accumulate_map by (eapply Him; eauto). rewrite IH by (intros; eapply HI; right; eauto).
    f_equal. apply map_ext. intros c. cbn [fold_left]. rewrite Ep. unfold rpx at 3. cbn [fst snd]. rewrite G. auto.
  Qed.

  (** the pixel computed by [finish] *)
  Lemma finish_ok (zt : T) out (A : Z -> K) x y :
    0 <= x < iw out -> 0 <= y < ih out -> wf out -> get out x y = Some (map (fun _ => zt) cs) ->
    finish K T zero f x y (out, map A cs) = Ok (put out x y (map (fun c => f (A c)) cs), map (fun _ => zero) cs).
  Proof.
    intros Hx Hy W G. unfold finish. unfold get_pixel. rewrite G. cbn [unwrap bind].
    rewrite put_pixel_ok by auto. cbn [bind]. unfold store, reset. rewrite combine_map, !map_map. auto.
  Qed.

  Definition outimg (F : Z -> Z -> Z -> T) : image (list T) := gen w h (fun x y => map (fun c => F c x y) cs).

  Lemma outimg_spec F G : 0 <= ch -> (forall c x y, 0 <= c < ch -> 0 <= x < w -> 0 <= y < h -> F c x y = G c x y) -> image_of ch w h (outimg F) G.
  Proof.
    intros Hc HE. destruct Him as ((Hw & Hh & _) & _). unfold outimg, image_of. splits; auto.
    - split; [apply wf_gen; auto|]. intros x y p Gp. pose proof (get_inb _ _ _ _ Gp) as (Hx & Hy). cbn [iw ih gen] in Hx, Hy.
      rewrite get_gen_in in Gp by auto. injection Gp as <-. rewrite zlen_map. unfold cs. rewrite zlen_zrange. lia.
    - intros x y Hx Hy. eexists. split; [apply get_gen_in; auto|]. intros c Hcc. rewrite znth_map. unfold cs.
      rewrite znth_zrange by lia. cbn [option_map]. do 2 f_equal. rewrite Z.add_0_l. auto.
  Qed.

  (** the raster loop common to all the filters *)
  Lemma filter_loop zt (pixel : Z -> Z -> list K -> res (list K)) (F : Z -> Z -> Z -> K) :
    (forall x y, 0 <= x < w -> 0 <= y < h -> pixel x y (map (fun _ => zero) cs) = Ok (map (fun c => F c x y) cs)) ->
    for_range 0 h (fun y st => for_range 0 w (fun x st =>
        let '(out, acc) := st in acc <- pixel x y acc ;; finish K T zero f x y (out, acc)) st)
      (new_image w h (map (fun _ => zt) cs), map (fun _ => zero) cs) =
    Ok (outimg (fun c x y => f (F c x y)), map (fun _ => zero) cs).
  Proof.
    intros HP. destruct Him as ((Hw & Hh & _) & _).
    apply (raster_fill_acc w h (fun x y => map (fun c => f (F c x y)) cs)
      (fun y x st => let '(out, acc) := st in acc <- pixel x y acc ;; finish K T zero f x y (out, acc))); auto.
    - apply wf_gen; auto.
    - intros x y o Hx Hy W E1 E2 G. rewrite HP by auto. cbn [bind].
      apply finish_ok with (zt := zt); auto; try lia.
      rewrite G. unfold new_image. rewrite get_gen_in; auto.
  Qed.

  (** ** 2-D *)
  Variable k : kernel K.
  Hypothesis (Hkw : 0 < kwidth k) (Hkh : 0 < kheight k) (Hkl : zlen (kdata k) = kwidth k * kheight k) (Hk32 : kwidth k * kheight k < 2 ^ 32).

  Lemma combine_app_l {X Y} (a1 a2 : list X) (b1 b2 : list Y) : length a1 = length b1 ->
    combine (a1 ++ a2) (b1 ++ b2) = combine a1 b1 ++ combine a2 b2.
  Proof. revert b1; induction a1; destruct b1; simpl; intros; try discriminate; auto. f_equal; auto. Qed.

  (** kernel value by index *)
  Definition kv (i : Z) : K := nth_d zero (kdata k) i.
  Lemma kernel_get_ok x y : 0 <= x < kwidth k -> 0 <= y < kheight k -> kernel_get k x y = Ok (kv (y * kwidth k + x)).
  Proof.
    intros Hx Hy. unfold kernel_get, assert. assert (x <? kwidth k = true) as -> by lia. assert (y <? kheight k = true) as -> by lia.
    cbn [bind]. pose proof (idx_range (kwidth k) (kheight k) x y Hx Hy).
    assert (0 <= y * kwidth k) by nia.
    unfold chk_u, u_fits. assert ((0 <=? y * kwidth k) && (y * kwidth k <? 2 ^ 32) = true) as -> by lia. cbn [bind].
    assert ((0 <=? y * kwidth k + x) && (y * kwidth k + x <? 2 ^ 32) = true) as -> by lia. cbn [bind].
    destruct (znth_some (kdata k) (y * kwidth k + x) ltac:(lia)) as (v & E). unfold vget, kv, nth_d. rewrite E. auto.
  Qed.
  Lemma data_enum : combine (zrange 0 (zlen (kdata k))) (kdata k) = map (fun i => (i, kv i)) (zrange 0 (zlen (kdata k))).
  Proof.
    rewrite (list_as_map_d zero (kdata k) (zlen (kdata k)) eq_refl) at 2.
    set (l := zrange 0 _). rewrite <- (map_id l) at 1. rewrite combine_map. auto.
  Qed.

  Definition cstep (x y c : Z) (acc : K) (i : Z) : K :=
    add acc (mul (into (rpx (Z.min (w - 1) (Z.max 0 (x + i mod kwidth k - kwidth k / 2)))
                            (Z.min (h - 1) (Z.max 0 (y + i / kwidth k - kheight k / 2))) c)) (kv i)).

  Lemma correlate_at_ok x y (A : Z -> K) : 0 < w -> 0 < h ->
    correlate_at S K add mul into im k x y (map A cs) =
    Ok (map (fun c => fold_left (cstep x y c) (zrange 0 (zlen (kdata k))) (A c)) cs).
  Proof.
    intros Hw Hh. unfold correlate_at.
    assert (ROW : forall ky (A : Z -> K), 0 <= ky < kheight k ->
      for_range 0 (kwidth k) (fun k_x acc =>
        p <- get_pixel im (Z.min (iw im - 1) (Z.max 0 (x + k_x - kwidth k / 2))) (Z.min (ih im - 1) (Z.max 0 (y + ky - kheight k / 2))) ;;
        w0 <- kernel_get k k_x ky ;; Ok (accumulate S K add mul into acc p w0)) (map A cs) =
      Ok (map (fun c => fold_left (cstep x y c) (zrange (ky * kwidth k) ((ky + 1) * kwidth k)) (A c)) cs)).
    { intros ky B Hky.
      match goal with |- for_range 0 _ ?bd ?st = _ =>
      destruct (for_range_ind (fun j acc => acc = map (fun c => fold_left (cstep x y c) (zrange (ky * kwidth k) (ky * kwidth k + j)) (B c)) cs)
        0 (kwidth k) bd st) as (s' & E & ->) end; try lia.
      - apply map_ext. intros c. rewrite zrange_empty by lia. auto.
      - intros j s Hj ->.
        set (xp := Z.min (iw im - 1) _). set (yp := Z.min (ih im - 1) _).
        destruct (get_some im xp yp (proj1 Him)) as (p & G); [subst xp; fold w; lia|subst yp; fold h; lia|].
        unfold get_pixel. rewrite G. cbn [unwrap bind]. rewrite kernel_get_ok by lia. cbn [bind].
        eexists; split; [reflexivity|]. rewrite accumulate_map by (eapply Him; eauto).
        apply map_ext. intros c. replace (ky * kwidth k + (j + 1)) with (ky * kwidth k + j + 1) by lia.
        rewrite zrange_snoc by lia. rewrite fold_left_app. cbn [fold_left]. unfold cstep at 2.
        rewrite Z.add_comm, Z_mod_plus_full, Z.mod_small by lia. rewrite Z.div_add, (Z.div_small j) by lia. rewrite Z.add_0_l.
        fold w in xp. fold h in yp. fold xp. fold yp. unfold rpx. rewrite G. reflexivity.
      - rewrite E. do 2 f_equal. replace (ky * kwidth k + kwidth k) with ((ky + 1) * kwidth k) by lia. auto. }
    match goal with |- for_range 0 _ ?bd ?st = _ =>
    destruct (for_range_ind (fun j acc => acc = map (fun c => fold_left (cstep x y c) (zrange 0 (j * kwidth k)) (A c)) cs)
        0 (kheight k) bd st) as (s' & E & ->) end; try lia.
    - auto.
    - intros ky s Hky ->. rewrite ROW by auto. eexists; split; [reflexivity|]. apply map_ext. intros c.
      rewrite (zrange_split 0 (ky * kwidth k) ((ky + 1) * kwidth k)) by nia. rewrite fold_left_app. auto.
    - rewrite E. do 2 f_equal. rewrite Hkl. replace (kheight k * kwidth k) with (kwidth k * kheight k) by lia. auto.
  Qed.

  Definition res2 (c x y : Z) : T := f (weighted_sum zero add mul into (kdata k)
     (fun i => rep_chan d im c (x + i mod kwidth k - kwidth k / 2) (y + i / kwidth k - kheight k / 2))).

  Lemma fold_left_map {X Y Z0} (g : X -> Y) (op : Z0 -> Y -> Z0) l a : fold_left op (map g l) a = fold_left (fun a x => op a (g x)) l a.
  Proof. revert a; induction l; simpl; auto. Qed.
  Lemma fold_left_ext_in {X Y} (op op' : X -> Y -> X) l a : (forall x y, In y l -> op x y = op' x y) -> fold_left op l a = fold_left op' l a.
  Proof. revert a; induction l as [|y l IH]; intros a0 H; simpl; auto. rewrite (H a0 y) by (left; auto). apply IH. intros; apply H; right; auto. Qed.

  Lemma cstep_sum c x y : 0 < w -> 0 < h -> f (fold_left (cstep x y c) (zrange 0 (zlen (kdata k))) zero) = res2 c x y.
  Proof.
    intros Hw Hh. unfold res2, weighted_sum. rewrite data_enum, fold_left_map. f_equal. apply fold_left_ext_in.
    intros a i Hi. unfold cstep, rep_chan, rpx, border, nth_d. fold w h. do 3 f_equal.
    replace (Z.min (w - 1) (Z.max 0 (x + i mod kwidth k - kwidth k / 2))) with (zclamp 0 (w - 1) (x + i mod kwidth k - kwidth k / 2)) by (unfold zclamp; lia).
    replace (Z.min (h - 1) (Z.max 0 (y + i / kwidth k - kheight k / 2))) with (zclamp 0 (h - 1) (y + i / kwidth k - kheight k / 2)) by (unfold zclamp; lia).
    auto.
  Qed.

  Lemma filter2d_ok zt : 0 <= ch ->
    exists out, filter2d S K T zero add mul into f ch ch zt im k = Ok out /\ image_of ch w h out res2.
  Proof.
    intros Hc. unfold filter2d, assert. rewrite Z.eqb_refl. cbn [bind]. fold cs w h.
    rewrite (filter_loop zt (fun x y acc => correlate_at S K add mul into im k x y acc)
      (fun c x y => fold_left (cstep x y c) (zrange 0 (zlen (kdata k))) zero)).
    - cbn [bind]. eexists; split; [reflexivity|]. apply outimg_spec; auto. intros. apply cstep_sum; lia.
    - intros x y Hx Hy. rewrite correlate_at_ok by lia. auto.
  Qed.

  Lemma filter_row_ok zt y : 0 <= y < h -> 0 <= ch ->
    filter_row S K T zero add mul into f ch zt im k y = Ok (map (fun x => map (fun c => res2 c x y) cs) (zrange 0 w)).
  Proof.
    intros Hy Hc. destruct Him as ((Hw & Hh & _) & _). unfold filter_row. fold w cs.
    match goal with |- context [for_range 0 w ?bd ?st] =>
    destruct (for_range_ind (fun j '(row, op, acc) => row = map (fun x => map (fun c => res2 c x y) cs) (zrange 0 j) /\ (exists g : Z -> T, op = map g cs) /\ acc = map (fun _ => zero) cs)
      0 w bd st) as (((row & op) & acc) & E & -> & _ & _) end; auto.
    - splits; eauto.
    - intros x ((row & op) & acc) Hx (-> & (g & ->) & ->). rewrite correlate_at_ok by lia. cbn [bind].
      eexists; split; [reflexivity|]. cbv beta iota. unfold store, reset. rewrite combine_map, !map_map. splits.
      + rewrite zrange_snoc by lia. rewrite map_app. f_equal. simpl. f_equal. apply map_ext. intros c. apply cstep_sum; lia.
      + eexists. reflexivity.
      + auto.
    - rewrite E. cbn [bind]. auto.
  Qed.

  Lemma filter2d_parallel_ok zt : 0 <= ch ->
    filter2d_parallel S K T zero add mul into f ch ch zt im k = filter2d S K T zero add mul into f ch ch zt im k.
  Proof.
    intros Hc. destruct Him as ((Hw & Hh & _) & _). unfold filter2d_parallel, filter2d, assert. rewrite Z.eqb_refl. cbn [bind]. fold cs w h.
    rewrite (filter_loop zt (fun x y acc => correlate_at S K add mul into im k x y acc)
      (fun c x y => fold_left (cstep x y c) (zrange 0 (zlen (kdata k))) zero))
      by (intros x y Hx Hy; rewrite correlate_at_ok by lia; auto).
    cbn [bind].
    rewrite (mapM_ok _ (fun y => map (fun x => map (fun c => res2 c x y) cs) (zrange 0 w)))
      by (intros y Hy; apply in_zrange in Hy; apply filter_row_ok; auto).
    cbn [bind].
    rewrite (gen_res_ok w h _ (fun x y => map (fun c => res2 c x y) cs)).
    - f_equal. apply gen_ext. intros x y Hx Hy. apply map_ext. intros c. symmetry. apply cstep_sum; lia.
    - intros x y Hx Hy. rewrite vget_mapz by auto. cbn [bind]. rewrite (vget_mapz w (fun x => map (fun c => res2 c x y) cs)) by auto. auto.
  Qed.

  (** ** 1-D *)
  Lemma correlate1_ext ker pos pos' acc :
    (forall i, 0 <= i < zlen ker -> pos i = pos' i) ->
    correlate1 S K add mul into im ker pos acc = correlate1 S K add mul into im ker pos' acc.
  Proof.
    intros HE. unfold correlate1.
    assert (HI : forall i k, In (i, k) (combine (zrange 0 (zlen ker)) ker) -> 0 <= i < zlen ker).
    { intros i k0 H. apply in_combine_l in H. apply in_zrange in H. auto. }
    revert acc HI. generalize (combine (zrange 0 (zlen ker)) ker) as l.
    induction l as [|(i & k0) l IH]; intros acc HI; auto. cbn [for_each]. rewrite HE by (eapply HI; left; reflexivity).
    destruct (pos' i). destruct (get_pixel im z z0); auto. cbn [bind]. apply IH. intros; eapply HI; right; eauto.
  Qed.

  Definition resh (ker : list K) (c x y : Z) : T :=
    f (weighted_sum zero add mul into ker (fun i => rep_chan d im c (x + i - zlen ker / 2) y)).
  Definition resv (ker : list K) (c x y : Z) : T :=
    f (weighted_sum zero add mul into ker (fun i => rep_chan d im c x (y + i - zlen ker / 2))).

  Lemma border_id n i : 0 <= i < n -> border n i = i.
  Proof. unfold border, zclamp. lia. Qed.

  Lemma horizontal_ok zt ker : 0 <= ch ->
    exists out, horizontal_filter S K T zero add mul into f ch zt im ker = Ok out /\ image_of ch w h out (resh ker).
  Proof.
    intros Hc. destruct Him as ((Hw & Hh & _) & _).
    pose (ref := fun (x y : Z) acc => correlate1 S K add mul into im ker (fun i => (border w (x + i - zlen ker / 2), y)) acc).
    assert (L := filter_loop zt ref (fun c x y => weighted_sum zero add mul into ker (fun i => rep_chan d im c (x + i - zlen ker / 2) y))).
    assert (HL : forall x y, 0 <= x < w -> 0 <= y < h -> ref x y (map (fun _ => zero) cs) =
       Ok (map (fun c => weighted_sum zero add mul into ker (fun i => rep_chan d im c (x + i - zlen ker / 2) y)) cs)).
    { intros x y Hx Hy. unfold ref. rewrite correlate1_ok.
      - f_equal. apply map_ext. intros c. unfold weighted_sum. apply fold_left_ext_in. intros a (i & k0) _. cbn [fst snd].
        unfold rep_chan, rpx, nth_d. fold w h. rewrite (border_id h y) by auto. auto.
      - intros i Hi. cbn [fst snd]. split; [unfold border, zclamp; lia|auto]. }
    specialize (L HL). exists (outimg (resh ker)). split; [|apply outimg_spec; auto].
    unfold horizontal_filter. fold w h cs. pose proof (zlen_nonneg ker) as Hk0.
    assert (Hhalf : 0 <= zlen ker / 2 /\ 2 * (zlen ker / 2) <= zlen ker <= 2 * (zlen ker / 2) + 1).
    { pose proof (Z.div_mod (zlen ker) 2 ltac:(lia)). pose proof (Z.mod_pos_bound (zlen ker) 2 ltac:(lia)). lia. }
    set (hk := zlen ker / 2) in *. destruct (zlen ker >=? w) eqn:Eb.
    - match goal with |- bind ?m _ = _ => assert (EQ : m = Ok (outimg (resh ker), map (fun _ => zero) cs)) end.
      { etransitivity; [|exact L]. apply for_range_ext. intros y st Hy. apply for_range_ext. intros x (o & a) Hx.
        unfold ref. rewrite (correlate1_ext ker _ (fun i => (border w (x + i - hk), y))); [reflexivity|].
        intros i Hi. f_equal. unfold border, zclamp. lia. }
      rewrite EQ. auto.
    - match goal with |- bind ?m _ = _ => assert (EQ : m = Ok (outimg (resh ker), map (fun _ => zero) cs)) end.
      { etransitivity; [|exact L]. apply for_range_ext. intros y st Hy.
        match goal with |- _ = ?r => set (R := r) end.
        assert (ER : forall lo hi (posx : Z -> Z -> Z) st, (forall x i, lo <= x < hi -> 0 <= i < zlen ker -> posx x i = border w (x + i - hk)) ->
          for_range lo hi (fun x st => let '(out, acc) := st in
            acc <- correlate1 S K add mul into im ker (fun i => (posx x i, y)) acc ;; finish K T zero f x y (out, acc)) st =
          for_range lo hi (fun x st => let '(out, acc) := st in acc <- ref x y acc ;; finish K T zero f x y (out, acc)) st).
        { intros lo hi posx st' HE. apply for_range_ext. intros x (o & a) Hx. unfold ref.
          rewrite (correlate1_ext ker _ (fun i => (border w (x + i - hk), y))); [reflexivity|]. intros i Hi. f_equal. apply HE; auto. }
        rewrite (ER 0 hk (fun x i => Z.max 0 (x + i - hk))) by (intros; unfold border, zclamp; lia).
        unfold R. rewrite (for_range_split 0 hk w) by lia.
        match goal with |- bind ?a _ = bind ?b _ => destruct a; auto end. cbn [bind].
        rewrite (ER hk (w - hk) (fun x i => x + i - hk)) by (intros; unfold border, zclamp; lia).
        rewrite (for_range_split hk (w - hk) w) by lia.
        match goal with |- bind ?a _ = bind ?b _ => destruct a; auto end. cbn [bind].
        apply (ER (w - hk) w (fun x i => Z.min (x + i - hk) (w - 1))). intros; unfold border, zclamp; lia. }
      rewrite EQ. auto.
  Qed.

  Lemma vertical_ok zt ker : 0 <= ch ->
    exists out, vertical_filter S K T zero add mul into f ch zt im ker = Ok out /\ image_of ch w h out (resv ker).
  Proof.
    intros Hc. destruct Him as ((Hw & Hh & _) & _).
    pose (ref := fun (x y : Z) acc => correlate1 S K add mul into im ker (fun i => (x, border h (y + i - zlen ker / 2))) acc).
    assert (L := filter_loop zt ref (fun c x y => weighted_sum zero add mul into ker (fun i => rep_chan d im c x (y + i - zlen ker / 2)))).
    assert (HL : forall x y, 0 <= x < w -> 0 <= y < h -> ref x y (map (fun _ => zero) cs) =
       Ok (map (fun c => weighted_sum zero add mul into ker (fun i => rep_chan d im c x (y + i - zlen ker / 2))) cs)).
    { intros x y Hx Hy. unfold ref. rewrite correlate1_ok.
      - f_equal. apply map_ext. intros c. unfold weighted_sum. apply fold_left_ext_in. intros a (i & k0) _. cbn [fst snd].
        unfold rep_chan, rpx, nth_d. fold w h. rewrite (border_id w x) by auto. auto.
      - intros i Hi. cbn [fst snd]. split; [auto|unfold border, zclamp; lia]. }
    specialize (L HL). exists (outimg (resv ker)). split; [|apply outimg_spec; auto].
    unfold vertical_filter. fold w h cs. pose proof (zlen_nonneg ker) as Hk0.
    assert (Hhalf : 0 <= zlen ker / 2 /\ 2 * (zlen ker / 2) <= zlen ker <= 2 * (zlen ker / 2) + 1).
    { pose proof (Z.div_mod (zlen ker) 2 ltac:(lia)). pose proof (Z.mod_pos_bound (zlen ker) 2 ltac:(lia)). lia. }
    set (hk := zlen ker / 2) in *.
    assert (ER : forall lo hi (posy : Z -> Z -> Z) st, (forall y i, lo <= y < hi -> 0 <= i < zlen ker -> posy y i = border h (y + i - hk)) ->
        for_range lo hi (fun y st => for_range 0 w (fun x st => let '(out, acc) := st in
          acc <- correlate1 S K add mul into im ker (fun i => (x, posy y i)) acc ;; finish K T zero f x y (out, acc)) st) st =
        for_range lo hi (fun y st => for_range 0 w (fun x st => let '(out, acc) := st in acc <- ref x y acc ;; finish K T zero f x y (out, acc)) st) st).
    { intros lo hi posy st' HE. apply for_range_ext. intros y st Hy. apply for_range_ext. intros x (o & a) Hx. unfold ref.
      rewrite (correlate1_ext ker _ (fun i => (x, border h (y + i - hk)))); [reflexivity|]. intros i Hi. f_equal. apply HE; auto. }
    destruct (zlen ker >=? h) eqn:Eb.
    - rewrite (ER 0 h (fun y i => Z.max 0 (Z.min (y + i - hk) (h - 1)))) by (intros; unfold border, zclamp; lia).
      rewrite L. auto.
    - rewrite (for_range_split 0 hk h) in L by lia.
      rewrite (ER 0 hk (fun y i => Z.max 0 (y + i - hk))) by (intros; unfold border, zclamp; lia).
      match type of L with bind ?a _ = _ => destruct a as [s1| |] end; try discriminate. cbn [bind] in L |- *.
      rewrite (for_range_split hk (h - hk) h) in L by lia.
      rewrite (ER hk (h - hk) (fun y i => y + i - hk)) by (intros; unfold border, zclamp; lia).
      match type of L with bind ?a _ = _ => destruct a as [s2| |] end; try discriminate. cbn [bind] in L |- *.
      rewrite (ER (h - hk) h (fun y i => Z.min (y + i - hk) (h - 1))) by (intros; unfold border, zclamp; lia).
      rewrite L. auto.
  Qed.
End FP.

(** ** integer sums *)
Lemma weighted_sum_Z_gen (src : Z -> Z) (g : Z -> Z) : forall (l : list Z) a,
  fold_left (fun acc i => acc + src i * g i) l a = a + fold_right (fun i acc => src i * g i + acc) 0 l.
Proof. induction l as [|i l IH]; intros a; simpl; [lia|]. rewrite IH. lia. Qed.
Lemma enum_map (ws : list Z) : combine (zrange 0 (zlen ws)) ws = map (fun i => (i, nth_d 0 ws i)) (zrange 0 (zlen ws)).
Proof.
  rewrite (list_as_map_d 0 ws (zlen ws) eq_refl) at 2.
  set (l := zrange 0 _). rewrite <- (map_id l) at 1. rewrite combine_map. auto.
Qed.
Lemma weighted_sum_Z ws (src : Z -> Z) :
  weighted_sum 0 Z.add Z.mul (fun v => v) ws src = zsum 0 (zlen ws) (fun i => src i * nth_d 0 ws i).
Proof.
  unfold weighted_sum. rewrite enum_map, fold_left_map. rewrite weighted_sum_Z_gen. unfold zsum. lia.
Qed.

(** a sum over kw*kh row-major indices is a double sum *)
Lemma zsum_rows kw kh (g : Z -> Z) : 0 < kw -> 0 <= kh ->
  zsum 0 (kw * kh) g = zsum 0 kh (fun j => zsum 0 kw (fun i => g (j * kw + i))).
Proof.
  intros Hw. revert kh. apply (natlike_ind (fun kh => zsum 0 (kw * kh) g = zsum 0 kh (fun j => zsum 0 kw (fun i => g (j * kw + i))))).
  - rewrite Z.mul_0_r, !zsum_empty by lia. auto.
  - intros kh Hk IH. unfold Z.succ. rewrite (zsum_snoc 0 kh) by lia. rewrite <- IH.
    rewrite (zsum_split 0 (kw * kh) (kw * (kh + 1))) by nia. f_equal.
    replace (kw * (kh + 1)) with (kw + kh * kw) by lia. replace (kw * kh) with (0 + kh * kw) by lia.
    rewrite <- zsum_shift. apply zsum_ext. intros i _. f_equal. lia.
Qed.

(** ** box filter *)
Lemma div_bound_255 s n : 0 < n -> 0 <= s <= 255 * n -> 0 <= s / n <= 255.
Proof. intros Hn Hs. split; [apply Z.div_pos; lia|]. apply Z.div_le_upper_bound; lia. Qed.

(** one buffer pass: window sums by differences of the running sum *)
Lemma window_diff (f : Z -> Z) len r buf x : 0 <= r -> 0 < len -> 0 <= x < len -> zlen buf = len + 2 * r ->
  (forall i, 0 <= i < zlen buf -> znth buf i = Some (zsum 0 (i + 1) (fun j => replicate f len (j - r)))) ->
  (forall i, 0 <= i < len -> 0 <= f i <= 255) ->
  let W := zsum (x - r) (x + r + 1) (replicate f len) in
  0 <= W <= 255 * (2 * r + 1) /\
  (x = 0 -> vget buf (2 * r) = Ok W) /\
  (0 < x -> exists u l, vget buf (x + 2 * r) = Ok u /\ vget buf (x - 1) = Ok l /\ u - l = W).
Proof.
  intros Hr Hl Hx Hb HZ Hf W.
  assert (HW : 0 <= W <= 255 * (2 * r + 1)).
  { assert (Hf' : forall i, 0 <= replicate f len i <= 255) by (intros; apply Hf; unfold zclamp; lia). split.
    - apply zsum_nonneg. intros; apply Hf'.
    - assert (W <= zsum (x - r) (x + r + 1) (fun _ => 255)) by (apply zsum_le; intros; apply Hf').
      rewrite zsum_const in H by lia. lia. }
  destruct (c14_window_sums f buf len r x) as (hi & E & H0 & H1); auto; try lia.
  splits; try lia; intros Hx0.
  - subst x. apply vget_ok. rewrite Z.add_0_l in E. rewrite E. f_equal. auto.
  - destruct (H1 Hx0) as (lo & El & Ed). exists hi, lo. rewrite !vget_ok. auto.
Qed.

Lemma gp_gen' {A} w h (F : Z -> Z -> A) a b : 0 <= a < w -> 0 <= b < h -> get_pixel (gen w h F) a b = Ok (F a b).
Proof. intros. apply get_pixel_ok. apply get_gen_in; auto. Qed.
Lemma pp_gen' {A} w h (F : Z -> Z -> A) a b v : 0 <= a < w -> 0 <= b < h ->
  put_pixel (gen w h F) a b v = Ok (gen w h (fun x y => if (x =? a) && (y =? b) then v else F x y)).
Proof.
  intros Ha Hb. rewrite put_pixel_ok by auto. f_equal. assert (W : wf (gen w h F)) by (apply wf_gen; lia).
  apply image_ext; auto; try (apply wf_put; auto); try (apply wf_gen; lia).
  intros x y Hx Hy. rewrite get_put by auto. rewrite iw_put in Hx. rewrite ih_put in Hy. cbn [iw ih gen] in Hx, Hy.
  rewrite !get_gen_in by auto. destruct ((x =? a) && (y =? b)); auto.
Qed.

Lemma gen_px (im : image Z) : wf im -> im = gen (iw im) (ih im) (px im).
Proof.
  intros W. pose proof W as (Hw & Hh & _). apply image_ext; auto. { apply wf_gen; auto. }
  intros x y Hx Hy. rewrite get_gen_in by auto. unfold px. destruct (get_some im x y W Hx Hy) as (v & ->). auto.
Qed.

Lemma box_ok im rx ry : gray8 im -> 0 < iw im -> 0 < ih im -> 0 <= rx -> 0 <= ry ->
  (iw im + 2 * rx) * 255 < 2 ^ 32 -> (ih im + 2 * ry) * 255 < 2 ^ 32 ->
  box_filter im rx ry = Ok (gen (iw im) (ih im) (box_mean im rx ry)).
Proof.
  intros Hg Hw Hh Hrx Hry Bx By. pose proof Hg as (W & Hp8). unfold box_filter.
  assert ((iw im =? 0) || (ih im =? 0) = false) as -> by lia.
  set (w := iw im) in *. set (h := ih im) in *.
  assert (C : forall z, 0 <= z < 2 ^ 32 -> chk_u 32 z = Ok z).
  { intros z Hz. unfold chk_u, u_fits. assert ((0 <=? z) && (z <? 2 ^ 32) = true) as -> by lia. auto. }
  rewrite !C by lia. cbn [bind]. rewrite !C by lia. cbn [bind].
  assert (P8 : forall x y, 0 <= px im x y <= 255).
  { intros x y. unfold px. destruct (get im x y) eqn:E; [eapply Hp8; eauto|lia]. }
  assert (RS : forall x y, 0 <= y < h -> zsum (x - rx) (x + rx + 1) (replicate (fun x0 => px im x0 y) w) / (2 * rx + 1) = row_mean im rx x y).
  { intros x y Hy. unfold row_mean. f_equal. apply zsum_ext. intros i _. unfold replicate, gray_rep, px, border. fold w h.
    replace (zclamp 0 (h - 1) y) with y by (unfold zclamp; lia). auto. }
  (* rows *)
  match goal with |- context [for_range 0 h ?bd ?st] =>
  destruct (for_range_ind (fun y '(out, buf) => zlen buf = w + 2 * rx /\
      out = gen w h (fun a b => if b <? y then row_mean im rx a b else 0)) 0 h bd st) as ((out & buf) & E & Lb & ->) end; try lia.
  { split; [rewrite zlen_map, zlen_zrange; lia|]. apply gen_ext. intros a b Ha Hb. assert (b <? 0 = false) as -> by lia. auto. }
  { intros y (out & buf) Hy (Lb & ->).
    destruct (c14_row_running_sum im y buf rx) as (buf' & Eb & Lb' & HZ); auto; try (fold w; lia). rewrite Eb. cbn [bind].
    assert (WD := fun x Hx => window_diff (fun x => px im x y) w rx buf' x Hrx Hw Hx ltac:(lia) ltac:(intros; apply HZ; lia) ltac:(intros; apply P8)).
    destruct (WD 0 ltac:(lia)) as (WB & W0 & _). rewrite (W0 eq_refl). cbn [bind].
    rewrite pp_gen' by lia. cbn [bind].
    match goal with |- context [for_range 1 w ?bd ?st] =>
    destruct (for_range_ind (fun x out => out = gen w h (fun a b => if (b <? y) || ((b =? y) && (a <? x)) then row_mean im rx a b else 0)) 1 w bd st) as (o2 & E2 & ->) end; try lia.
    - apply gen_ext. intros a b Ha Hb. destruct ((a =? 0) && (b =? y)) eqn:E1.
      + assert (a = 0 /\ b = y) as (-> & ->) by lia. assert ((y <? y) || (y =? y) && (0 <? 1) = true) as -> by lia.
        rewrite RS by auto. apply Z.mod_small. rewrite <- RS by auto. pose proof (div_bound_255 _ (2 * rx + 1) ltac:(lia) WB). lia.
      + destruct (b <? y) eqn:E2; destruct (_ || _) eqn:E3; auto; lia.
    - intros x o Hx ->. destruct (WD x ltac:(lia)) as (WB' & _ & W1). destruct (W1 ltac:(lia)) as (u & l & Eu & El & Ed).
      rewrite Eu. cbn [bind]. rewrite El. cbn [bind]. rewrite Ed. rewrite C by lia. cbn [bind]. rewrite pp_gen' by lia. eexists; split; [reflexivity|].
      apply gen_ext. intros a b Ha Hb. destruct ((a =? x) && (b =? y)) eqn:E1.
      + assert (a = x /\ b = y) as (-> & ->) by lia. assert ((y <? y) || (y =? y) && (x <? x + 1) = true) as -> by lia.
        rewrite RS by auto. apply Z.mod_small. rewrite <- RS by auto. pose proof (div_bound_255 _ (2 * rx + 1) ltac:(lia) WB'). lia.
      + destruct (_ || _) eqn:E2; destruct ((b <? y) || _) eqn:E3 in |- *; auto; lia.
    - rewrite E2. cbn [bind]. eexists; split; [reflexivity|]. split; [lia|]. apply gen_ext. intros a b Ha Hb.
      destruct (_ || _) eqn:E3; destruct (b <? y + 1) eqn:E4; auto; lia. }
  rewrite E. cbn [bind]. rewrite ?C by lia. cbn [bind].
  assert (RM : forall a b, 0 <= b < h -> 0 <= row_mean im rx a b <= 255).
  { intros a b Hb. rewrite <- RS by auto. apply div_bound_255; [lia|].
    assert (Hf' : forall i, 0 <= replicate (fun x0 => px im x0 b) w i <= 255) by (intros; apply P8). split.
    - apply zsum_nonneg. intros; apply Hf'.
    - assert (zsum (a - rx) (a + rx + 1) (replicate (fun x0 => px im x0 b) w) <= zsum (a - rx) (a + rx + 1) (fun _ => 255)) by (apply zsum_le; intros; apply Hf').
      rewrite zsum_const in H by lia. lia. }
  set (HM := gen w h (fun a b => if b <? h then row_mean im rx a b else 0)).
  assert (EHM : HM = gen w h (row_mean im rx)).
  { apply gen_ext. intros a b Ha Hb. assert (b <? h = true) as -> by lia. auto. }
  rewrite EHM. clear EHM HM E.
  assert (CS : forall x y, 0 <= x < w -> zsum (y - ry) (y + ry + 1) (replicate (fun y0 => row_mean im rx x y0) h) / (2 * ry + 1) = box_mean im rx ry x y).
  { intros x y Hx. unfold box_mean. f_equal. apply zsum_ext. intros i _. unfold replicate, row_mean. f_equal. apply zsum_ext. intros j _.
    unfold gray_rep. fold w h. unfold border. replace (zclamp 0 (h - 1) (zclamp 0 (h - 1) i)) with (zclamp 0 (h - 1) i) by (unfold zclamp; lia). auto. }
  match goal with |- context [for_range 0 w ?bd ?st] =>
  destruct (for_range_ind (fun x '(out, buf) => zlen buf = h + 2 * ry /\
      out = gen w h (fun a b => if a <? x then box_mean im rx ry a b else row_mean im rx a b)) 0 w bd st) as ((out & buf') & E & Lb' & ->) end; try lia.
  { split; [rewrite zlen_map, zlen_zrange; lia|]. apply gen_ext. intros a b Ha Hb. assert (a <? 0 = false) as -> by lia. auto. }
  { intros x (out & buf2) Hx (L2 & ->).
    set (cur := gen w h _).
    assert (BM : forall a b, 0 <= a < w -> 0 <= b < h -> 0 <= box_mean im rx ry a b <= 255).
    { intros a b Ha Hb. rewrite <- CS by auto. apply div_bound_255; [lia|].
      assert (Hf' : forall i, 0 <= replicate (fun y0 => row_mean im rx a y0) h i <= 255) by (intros; apply RM; unfold zclamp; lia). split.
      - apply zsum_nonneg. intros; apply Hf'.
      - assert (zsum (b - ry) (b + ry + 1) (replicate (fun y0 => row_mean im rx a y0) h) <= zsum (b - ry) (b + ry + 1) (fun _ => 255)) by (apply zsum_le; intros; apply Hf').
        rewrite zsum_const in H by lia. lia. }
    assert (G8 : gray8 cur).
    { split; [apply wf_gen; lia|]. intros a b v Gv. pose proof (get_inb _ _ _ _ Gv) as (Ha & Hb). cbn [iw ih gen cur] in Ha, Hb.
      unfold cur in Gv. rewrite get_gen_in in Gv by auto. injection Gv as <-. unfold is_u8. destruct (a <? x); auto. }
    destruct (c14_column_running_sum cur x buf2 ry) as (b3 & E3 & L3 & HZ); auto; try (unfold cur; cbn [iw ih gen]; lia).
    assert (HZ' : forall i, 0 <= i < zlen b3 -> znth b3 i = Some (zsum 0 (i + 1) (fun j => replicate (fun y0 => row_mean im rx x y0) h (j - ry)))).
    { intros i Hi. rewrite HZ by lia. f_equal. apply zsum_ext. intros j _. unfold replicate. change (ih cur) with h.
      unfold px, cur. rewrite get_gen_in by (auto; unfold zclamp; lia). assert (x <? x = false) as -> by lia. auto. }
    rewrite E3. cbn [bind].
    assert (WD := fun y Hy => window_diff (fun y => row_mean im rx x y) h ry b3 y Hry Hh Hy ltac:(lia) HZ' ltac:(intros; apply RM; auto)).
    destruct (WD 0 ltac:(lia)) as (WB & W0 & _). rewrite (W0 eq_refl). cbn [bind].
    unfold cur. rewrite pp_gen' by lia. cbn [bind].
    match goal with |- context [for_range 1 h ?bd ?st] =>
    destruct (for_range_ind (fun y out => out = gen w h (fun a b => if (a <? x) || ((a =? x) && (b <? y)) then box_mean im rx ry a b else row_mean im rx a b)) 1 h bd st) as (o2 & E2 & ->) end; try lia.
    - apply gen_ext. intros a b Ha Hb. destruct ((a =? x) && (b =? 0)) eqn:E1.
      + assert (a = x /\ b = 0) as (-> & ->) by lia. assert ((x <? x) || (x =? x) && (0 <? 1) = true) as -> by lia.
        rewrite CS by auto. apply Z.mod_small. pose proof (BM x 0 Hx Hb). lia.
      + destruct (a <? x) eqn:E2; destruct (_ || _) eqn:E4; auto; lia.
    - intros y o Hy ->. destruct (WD y ltac:(lia)) as (WB' & _ & W1). destruct (W1 ltac:(lia)) as (u & l & Eu & El & Ed).
      rewrite Eu. cbn [bind]. rewrite El. cbn [bind]. rewrite Ed. rewrite C by lia. cbn [bind]. rewrite pp_gen' by lia. eexists; split; [reflexivity|].
      apply gen_ext. intros a b Ha Hb. destruct ((a =? x) && (b =? y)) eqn:E1.
      + assert (a = x /\ b = y) as (-> & ->) by lia. assert ((x <? x) || (x =? x) && (y <? y + 1) = true) as -> by lia.
        rewrite CS by auto. apply Z.mod_small. pose proof (BM x y Hx Hb). lia.
      + destruct (_ || _) eqn:E2; destruct ((a <? x) || _) eqn:E4 in |- *; auto; lia.
    - rewrite E2. cbn [bind]. eexists; split; [reflexivity|]. split; [lia|]. apply gen_ext. intros a b Ha Hb.
      destruct (_ || _) eqn:E4; destruct (a <? x + 1) eqn:E5; auto; lia. }
  rewrite E. cbn [bind]. f_equal. apply gen_ext. intros a b Ha Hb. assert (a <? w = true) as -> by lia. auto.
Qed.
