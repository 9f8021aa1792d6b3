From Verif Require Import Base BaseProofs GeomProofs IntegralModel IntegralSpec IntegralProofs RasterProofs StatsSpec ContrastModel ContrastSpec.

Lemma as_i32_id z : - 2 ^ 31 <= z < 2 ^ 31 -> as_i32 z = z.
Proof. intros H. unfold as_i32. rewrite Z.mod_small; lia. Qed.

Lemma get_luma im x y : get (luma im) x y = option_map (fun v => [v]) (get im x y).
Proof. apply get_map_data. Qed.

Lemma luma_channels im : gray8 im -> channels8 1 (luma im).
Proof.
  intros (Hwf & Hp). split.
  - destruct Hwf as (A & B & C). split; [|split]; auto. cbn [iw ih idata luma]. rewrite zlen_map. auto.
  - intros x y p E. rewrite get_luma in E. destruct (get im x y) as [v|] eqn:G; [|discriminate].
    injection E as <-. split; auto. intros u [<-|[]]. eapply Hp; eauto.
Qed.

Lemma chan_luma im x y : chan (luma im) 0 x y = px im x y.
Proof. unfold chan, px. rewrite get_luma. destruct (get im x y); auto. Qed.

Lemma px_range im x y : gray8 im -> 0 <= px im x y <= 255.
Proof. intros (_ & H). unfold px. destruct (get im x y) eqn:E; [|lia]. apply H in E. exact E. Qed.

Lemma rect_sum_bound f B x0 x1 y0 y1 : x0 <= x1 -> y0 <= y1 ->
  (forall x y, 0 <= f x y <= B) -> 0 <= rect_sum f x0 x1 y0 y1 <= B * ((x1 - x0) * (y1 - y0)).
Proof.
  intros Hx Hy Hf. unfold rect_sum. split.
  - apply zsum_nonneg. intros. apply zsum_nonneg. intros. apply Hf.
  - transitivity (zsum y0 y1 (fun _ => B * (x1 - x0))).
    + apply zsum_le. intros y _. transitivity (zsum x0 x1 (fun _ => B)).
      * apply zsum_le. intros. apply Hf.
      * rewrite zsum_const by lia. lia.
    + rewrite zsum_const by lia. lia.
Qed.

Section Adaptive.
  Variable im : image Z.
  Hypothesis Hg : gray8 im.
  Variables (r delta : Z).
  Hypothesis Hr : 0 < r < 2 ^ 31.
  Hypothesis Hd : 256 - 2 ^ 31 <= delta < 2 ^ 31.
  Hypothesis Hsz : 255 * (iw im * ih im) < 2 ^ 31.
  Hypothesis Hw : iw im < 2 ^ 31.
  Hypothesis Hh : ih im < 2 ^ 31.

  Lemma window_facts x y : 0 <= x < iw im -> 0 <= y < ih im ->
    0 < window_area im r x y < 2 ^ 31 /\ 0 <= window_total im r x y <= 255 * window_area im r x y /\
    0 <= window_total im r x y / window_area im r x y <= 255.
  Proof.
    intros Hx Hy.
    assert (Ha : 0 < window_area im r x y <= iw im * ih im).
    { unfold window_area, hi_, lo_. split; [apply Z.mul_pos_pos; lia|].
      apply Z.mul_le_mono_nonneg; lia. }
    assert (Ht : 0 <= window_total im r x y <= 255 * window_area im r x y).
    { unfold window_total, window_area. 
      replace (hi_ (iw im) x r - lo_ x r + 1) with (hi_ (iw im) x r + 1 - lo_ x r) by lia.
      replace (hi_ (ih im) y r - lo_ y r + 1) with (hi_ (ih im) y r + 1 - lo_ y r) by lia.
      apply rect_sum_bound; try (unfold hi_, lo_; lia). intros; apply px_range; auto. }
    splits; try lia.
    - apply Z.div_pos; lia.
    - apply Z.div_le_upper_bound; lia.
  Qed.

  Lemma adaptive_px_ok integral x y out :
    integral_image Debug 32 1 (luma im) = Ok integral ->
    0 <= x < iw im -> 0 <= y < ih im -> wf out -> iw out = iw im -> ih out = ih im ->
    exists out', adaptive_px im integral r delta x y out = Ok out' /\
      out' = if adaptive_spec im r delta x y =? 255 then put out x y 255 else out.
  Proof.
    intros EI Hx Hy Wo Ew Eh. unfold adaptive_px.
    pose proof Hg as (Wi & _).
    destruct (get_some im x y Wi Hx Hy) as (v & Ev).
    assert (get_pixel im x y = Ok v) as -> by (apply get_pixel_ok; auto). cbn [bind].
    rewrite !as_i32_id by lia. unfold chk_i, i_fits, chk_u, u_fits.
    assert ((- 2 ^ (32 - 1) <=? y - r) && (y - r <? 2 ^ (32 - 1)) = true) as -> by lia.
    assert ((- 2 ^ (32 - 1) <=? x - r) && (x - r <? 2 ^ (32 - 1)) = true) as -> by lia.
    assert ((0 <=? y + r) && (y + r <? 2 ^ 32) = true) as -> by lia.
    assert ((0 <=? x + r) && (x + r <? 2 ^ 32) = true) as -> by lia. cbn [bind].
    fold (lo_ y r) (lo_ x r) (hi_ (ih im) y r) (hi_ (iw im) x r).
    destruct (window_facts x y Hx Hy) as (WA & WT & WM).
    assert (Lx : 0 <= lo_ x r <= x) by (unfold lo_; lia).
    assert (Ly : 0 <= lo_ y r <= y) by (unfold lo_; lia).
    assert (Hxx : x <= hi_ (iw im) x r < iw im) by (unfold hi_; lia).
    assert (Hyy : y <= hi_ (ih im) y r < ih im) by (unfold hi_; lia).
    assert ((0 <=? hi_ (ih im) y r - lo_ y r) && (hi_ (ih im) y r - lo_ y r <? 2 ^ 32) = true) as -> by lia.
    assert ((0 <=? hi_ (iw im) x r - lo_ x r) && (hi_ (iw im) x r - lo_ x r <? 2 ^ 32) = true) as -> by lia. cbn [bind].
    rewrite (Z.mul_comm (hi_ (ih im) y r - lo_ y r + 1)). fold (window_area im r x y).
    assert ((0 <=? window_area im r x y) && (window_area im r x y <? 2 ^ 32) = true) as -> by lia. cbn [bind].
    assert (SUM : sum_image_pixels Debug 32 integral (lo_ x r) (lo_ y r) (hi_ (iw im) x r) (hi_ (ih im) y r) =
                  Ok [window_total im r x y]).
    { pose proof (luma_channels im Hg) as HL.
      assert (TOT : forall x1 y1, 0 <= x1 <= iw im -> 0 <= y1 <= ih im ->
                0 <= IntegralProofs.S (luma im) false 0 x1 y1 < 2 ^ 31).
      { intros x1 y1 H1 H2. 
        assert (E1 : IntegralProofs.S (luma im) false 0 x1 y1 = rect_sum (px im) 0 x1 0 y1).
        { unfold IntegralProofs.S, rect_sum. apply zsum_ext; intros; apply zsum_ext; intros. unfold F, val. apply chan_luma. }
        rewrite E1. pose proof (rect_sum_bound (px im) 255 0 x1 0 y1 ltac:(lia) ltac:(lia) (fun a b => px_range im a b Hg)).
        assert ((x1 - 0) * (y1 - 0) <= iw im * ih im) by (apply Z.mul_le_mono_nonneg; lia). lia. }
      assert (Hf' : Debug = Debug -> forall c, 0 <= c < 1 -> IntegralProofs.S (luma im) false c (iw (luma im)) (ih (luma im)) < 2 ^ 32).
      { intros _ c Hc. assert (c = 0) by lia. subst. cbn [iw ih luma].
        specialize (TOT (iw im) (ih im) ltac:(lia) ltac:(lia)). lia. }
      destruct (integral_ok Debug 32 1 (luma im) false ltac:(lia) HL Hf') as (ii & E & _ & _ & _ & HG); cbn [iw ih luma]; try lia.
      assert (ii = integral) by (unfold integral_image in EI; rewrite E in EI; congruence). subst ii.
      rewrite (sum_ok Debug 32 1 (luma im) false ltac:(lia) HL Hf' integral _ _ _ _ HG); cbn [iw ih luma]; try lia.
      - change (zrange 0 1) with [0]. cbn [map red]. f_equal. f_equal.
        assert (E2 : rect_sum (F (luma im) false 0) (lo_ x r) (hi_ (iw im) x r + 1) (lo_ y r) (hi_ (ih im) y r + 1) = window_total im r x y).
        { unfold window_total, rect_sum. apply zsum_ext; intros; apply zsum_ext; intros. unfold F, val. apply chan_luma. }
        exact E2.
      - intros _ c Hc. assert (c = 0) by lia. subst.
        pose proof (TOT (hi_ (iw im) x r + 1) (hi_ (ih im) y r + 1) ltac:(lia) ltac:(lia)).
        pose proof (TOT (lo_ x r) (lo_ y r) ltac:(lia) ltac:(lia)). lia. }
    rewrite SUM. cbn [bind]. unfold vget. cbn [znth]. 
    change (znth [window_total im r x y] 0) with (Some (window_total im r x y)). cbn [bind unwrap].
    unfold assert. assert (negb (window_area im r x y =? 0) = true) as -> by lia. cbn [bind].
    rewrite as_i32_id by lia.
    assert ((- 2 ^ (32 - 1) <=? window_total im r x y / window_area im r x y - delta) &&
            (window_total im r x y / window_area im r x y - delta <? 2 ^ (32 - 1)) = true) as -> by lia. cbn [bind].
    unfold adaptive_spec. unfold px at 1. rewrite Ev. rewrite Z.geb_leb.
    destruct (window_total im r x y / window_area im r x y - delta <=? v).
    - rewrite put_pixel_ok by lia. eauto.
    - eauto.
  Qed.

  Lemma adaptive_ok : exists out, adaptive_threshold im r delta = Ok out /\ out = gen (iw im) (ih im) (adaptive_spec im r delta).
  Proof.
    pose proof Hg as (Wi & _). pose proof Wi as (Hw0 & Hh0 & _).
    unfold adaptive_threshold, assert. assert (0 <? r = true) as -> by lia. cbn [bind].
    assert (exists integral, integral_image Debug 32 1 (luma im) = Ok integral) as (ii & EI).
    { pose proof (luma_channels im Hg) as HL.
      destruct (integral_ok Debug 32 1 (luma im) false ltac:(lia) HL) as (ii & E & _); cbn [iw ih luma]; try lia.
      - intros _ c Hc. assert (c = 0) by lia. subst.
        assert (E1 : IntegralProofs.S (luma im) false 0 (iw im) (ih im) = rect_sum (px im) 0 (iw im) 0 (ih im)).
        { unfold IntegralProofs.S, rect_sum. apply zsum_ext; intros; apply zsum_ext; intros. unfold F, val. apply chan_luma. }
        change (IntegralProofs.S (luma im) false 0 (iw im) (ih im) < 2 ^ 32). rewrite E1.
        pose proof (rect_sum_bound (px im) 255 0 (iw im) 0 (ih im) ltac:(lia) ltac:(lia) (fun a b => px_range im a b Hg)). lia.
      - eauto. }
    rewrite EI. cbn [bind].
    eexists; split; [|reflexivity].
    apply (raster_fill (iw im) (ih im) (adaptive_spec im r delta) (fun y x o => adaptive_px im ii r delta x y o)); auto.
    { apply wf_new; auto. }
    intros x y o Hx Hy Wo E1 E2 HR _.
    destruct (adaptive_px_ok ii x y o EI Hx Hy Wo E1 E2) as (o' & Eo & ->).
    eexists; split; [exact Eo|].
    unfold adaptive_spec. destruct (px im x y >=? window_total im r x y / window_area im r x y - delta); auto.
    cbn [Z.eqb]. symmetry. apply put_same; auto. rewrite HR by lia. unfold new_image. apply get_gen_in; auto.
  Qed.
End Adaptive.

(** ** stretch *)
Lemma stretch_level_ok imin imax omin omax c :
  is_u8 imin -> is_u8 imax -> is_u8 omin -> is_u8 omax -> is_u8 c -> imin < imax -> omin <= omax ->
  stretch_level imin imax omin omax c = Ok (stretched imin imax omin omax c) /\ omin <= stretched imin imax omin omax c <= omax.
Proof.
  unfold is_u8. intros H1 H2 H3 H4 H5 Hi Ho. unfold stretch_level, stretched, chk_u, u_fits, assert. rewrite Z.geb_leb.
  assert ((0 <=? imax - imin) && (imax - imin <? 2 ^ 16) = true) as -> by lia.
  assert ((0 <=? omax - omin) && (omax - omin <? 2 ^ 16) = true) as -> by lia. cbn [bind].
  destruct (Z.leb_spec c imin). { rewrite Z.mod_small by lia. split; auto; lia. }
  destruct (Z.leb_spec imax c). { rewrite Z.mod_small by lia. split; auto; lia. }
  assert ((0 <=? c - imin) && (c - imin <? 2 ^ 16) = true) as -> by lia. cbn [bind].
  assert (0 <= (c - imin) * (omax - omin) <= 255 * 255) by nia.
  assert ((0 <=? (c - imin) * (omax - omin)) && ((c - imin) * (omax - omin) <? 2 ^ 16) = true) as -> by lia. cbn [bind].
  assert (negb (imax - imin =? 0) = true) as -> by lia. cbn [bind].
  assert (0 <= (c - imin) * (omax - omin) / (imax - imin)) by (apply Z.div_pos; lia).
  assert ((c - imin) * (omax - omin) / (imax - imin) <= omax - omin) by (apply Z.div_le_upper_bound; nia).
  set (q := (c - imin) * (omax - omin) / (imax - imin)) in *.
  assert ((0 <=? q + omin) && (q + omin <? 2 ^ 16) = true) as -> by lia. cbn [bind].
  rewrite Z.mod_small by lia. split; [f_equal|]; lia.
Qed.

Lemma stretched_mono imin imax omin omax a b :
  imin < imax -> omin <= omax -> a <= b -> stretched imin imax omin omax a <= stretched imin imax omin omax b.
Proof.
  intros Hi Ho Hab. unfold stretched. rewrite !Z.geb_leb.
  assert (Q : forall c, imin < c < imax -> 0 <= (c - imin) * (omax - omin) / (imax - imin) <= omax - omin).
  { intros c Hc. split; [apply Z.div_pos; nia|apply Z.div_le_upper_bound; nia]. }
  destruct (Z.leb_spec a imin); destruct (Z.leb_spec b imin); try lia;
    destruct (Z.leb_spec imax a); destruct (Z.leb_spec imax b); try lia.
  - specialize (Q b ltac:(lia)). lia.
  - specialize (Q a ltac:(lia)). lia.
  - apply Z.add_le_mono_l. apply Z.div_le_mono; nia.
Qed.

Lemma map_without_alpha_ok nc f g p :
  (forall v, In v p -> f v = Ok (g v)) ->
  map_without_alpha nc f p = Ok (map (fun '(i, c) => if i <? nc then g c else c) (combine (zrange 0 (zlen p)) p)).
Proof.
  intros Hf. unfold map_without_alpha. 
  assert (Hc : forall ic, In ic (combine (zrange 0 (zlen p)) p) -> In (snd ic) p) by (intros (i & c) Hin; apply in_combine_r in Hin; auto).
  induction (combine (zrange 0 (zlen p)) p) as [|(i & c) l IH]; auto.
  simpl. rewrite IH by (intros; apply Hc; right; auto).
  rewrite Hf by (apply (Hc (i, c)); left; auto). destruct (i <? nc); auto.
Qed.


