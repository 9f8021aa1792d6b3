From Verif Require Import Base BaseProofs GeomProofs IntegralModel IntegralSpec.
Ltac Zify.zify_post_hook ::= Z.div_mod_to_equations.

(** what is stored for the exact value z *)
Definition red (m : build) (n z : Z) : Z := match m with Debug => z | Release => z mod 2 ^ n end.

Lemma arith_ok m n z z' : 0 <= n -> red m n z = red m n z' -> (m = Debug -> 0 <= z' < 2 ^ n) ->
  arith m n z = Ok (red m n z').
Proof.
  intros Hn E H. destruct m; simpl in *.
  - subst z'. unfold chk_u, u_fits. assert ((0 <=? z) && (z <? 2 ^ n) = true) as ->; auto.
    specialize (H eq_refl). lia.
  - congruence.
Qed.

Lemma red_add m n a b : 0 <= n -> red m n (red m n a + red m n b) = red m n (a + b).
Proof. intros Hn. destruct m; simpl; auto. symmetry. apply Z.add_mod. lia. Qed.
Lemma red_sub m n a b : 0 <= n -> red m n (red m n a - red m n b) = red m n (a - b).
Proof. intros Hn. destruct m; simpl; auto. symmetry. apply Zminus_mod. Qed.
Lemma red_0 m n : 0 <= n -> red m n 0 = 0.
Proof. intros Hn. destruct m; reflexivity. Qed.
Lemma red_idem m n a : 0 <= n -> red m n (red m n a) = red m n a.
Proof. intros Hn. destruct m; simpl; auto. apply Z.mod_mod. lia. Qed.

Lemma combine_map {X Y W} (f : X -> Y) (g : X -> W) l :
  combine (map f l) (map g l) = map (fun x => (f x, g x)) l.
Proof. induction l; simpl; congruence. Qed.

Lemma mapM_map {X Y W} (f : Y -> res W) (g : X -> Y) (k : X -> W) l :
  (forall x, In x l -> f (g x) = Ok (k x)) -> mapM f (map g l) = Ok (map k l).
Proof.
  induction l as [|x l IH]; intros H; [reflexivity|]. cbn [map mapM].
  rewrite H by (left; auto). cbn [bind]. rewrite IH by (intros; apply H; right; auto). reflexivity.
Qed.

Lemma list_as_map (p : list Z) ch : zlen p = ch ->
  p = map (fun c => match znth p c with Some v => v | None => 0 end) (zrange 0 ch).
Proof.
  intros <-. apply znth_ext; [rewrite map_length, zrange_length; unfold zlen; lia|].
  intros i Hi. destruct (znth_some p i Hi) as (v & E).
  rewrite znth_map, znth_zrange by lia. cbn [option_map]. rewrite Z.add_0_l, E. auto.
Qed.

Section IP.
Variables (m : build) (n ch : Z) (im : image (list Z)) (sq : bool).
Hypothesis (Hn : 8 <= n) (Him : channels8 ch im).
Notation w := (iw im).
Notation h := (ih im).
Notation R := (red m n).
Notation cs := (zrange 0 ch).

Definition val (v : Z) : Z := if sq then v * v else v.
Definition F c x y := val (chan im c x y).
Definition S c x y := rect_sum (F c) 0 x 0 y.

Lemma chan_range c x y : 0 <= chan im c x y <= 255.
Proof.
  unfold chan. destruct (get im x y) as [p|] eqn:E; [|lia].
  destruct (znth p c) as [v|] eqn:Ev; [|lia]. destruct Him as (_ & H).
  destruct (H x y p E) as (_ & Hv). apply znth_In in Ev. apply Hv in Ev. unfold is_u8 in Ev. lia.
Qed.

Lemma F_nonneg c x y : 0 <= F c x y.
Proof. pose proof (chan_range c x y). unfold F, val. destruct sq; nia. Qed.

Lemma rect_nonneg c x0 x1 y0 y1 : 0 <= rect_sum (F c) x0 x1 y0 y1.
Proof. apply zsum_nonneg. intros. apply zsum_nonneg. intros. apply F_nonneg. Qed.

Lemma rect_mono c x0 x1 x1' y0 y1 y1' : x0 <= x1 <= x1' -> y0 <= y1 <= y1' ->
  rect_sum (F c) x0 x1 y0 y1 <= rect_sum (F c) x0 x1' y0 y1'.
Proof.
  intros Hx Hy. unfold rect_sum. rewrite (zsum_split y0 y1 y1') by lia.
  assert (0 <= zsum y1 y1' (fun y => zsum x0 x1' (fun x => F c x y))).
  { apply zsum_nonneg; intros; apply zsum_nonneg; intros; apply F_nonneg. }
  assert (zsum y0 y1 (fun y => zsum x0 x1 (fun x => F c x y)) <= zsum y0 y1 (fun y => zsum x0 x1' (fun x => F c x y))).
  { apply zsum_le. intros y _. rewrite (zsum_split x0 x1 x1') by lia.
    assert (0 <= zsum x1 x1' (fun x => F c x y)) by (apply zsum_nonneg; intros; apply F_nonneg). lia. }
  lia.
Qed.

Definition rowS c y x := zsum 0 x (fun x' => F c x' y).

Lemma S_row c x y : 0 <= y -> S c x (y + 1) = S c x y + rowS c y x.
Proof. intros Hy. unfold S, rect_sum. rewrite zsum_snoc by lia. reflexivity. Qed.

Hypothesis (Hfit : m = Debug -> forall c, 0 <= c < ch -> S c w h < 2 ^ n).

Lemma S_bound c x y : 0 <= c < ch -> 0 <= x <= w -> 0 <= y <= h -> m = Debug -> 0 <= S c x y < 2 ^ n.
Proof.
  intros Hc Hx Hy Hm. split; [apply rect_nonneg|].
  eapply Z.le_lt_trans; [|apply (Hfit Hm c Hc)]. apply rect_mono; lia.
Qed.

Lemma add_channels_ok x y p :
  0 <= x < w -> 0 <= y < h -> get im x y = Some p ->
  add_channels m n sq (map (fun c => R (rowS c y x)) cs) p = Ok (map (fun c => R (rowS c y (x + 1))) cs).
Proof.
  intros Hx Hy Ep. destruct Him as (_ & H). destruct (H x y p Ep) as (Lp & Hv).
  unfold add_channels. rewrite (list_as_map p ch Lp) at 1. rewrite combine_map.
  apply mapM_map. intros c Hc. apply in_zrange in Hc.
  assert (Ec : match znth p c with Some v => v | None => 0 end = chan im c x y) by (unfold chan; rewrite Ep; auto).
  rewrite Ec. pose proof (chan_range c x y) as Cr.
  assert (B : m = Debug -> 0 <= rowS c y (x + 1) < 2 ^ n).
  { intros Hm. pose proof (S_row c (x + 1) y ltac:(lia)).
    pose proof (S_bound c (x + 1) y Hc ltac:(lia) ltac:(lia) Hm).
    pose proof (S_bound c (x + 1) (y + 1) Hc ltac:(lia) ltac:(lia) Hm).
    assert (0 <= rowS c y (x + 1)) by (apply zsum_nonneg; intros; apply F_nonneg). lia. }
  assert (Es : rowS c y (x + 1) = rowS c y x + val (chan im c x y)).
  { unfold rowS. rewrite zsum_snoc by lia. reflexivity. }
  assert (0 <= rowS c y x) by (apply zsum_nonneg; intros; apply F_nonneg).
  assert (FN := F_nonneg c x y). unfold F in FN.
  assert (V : (if sq then arith m n (chan im c x y * chan im c x y) else Ok (chan im c x y)) = Ok (R (val (chan im c x y)))).
  { unfold val in *. destruct sq.
    - apply arith_ok; auto; [lia|]. intros Hm. specialize (B Hm). lia.
    - f_equal. destruct m; simpl; auto. rewrite Z.mod_small; auto.
      assert (2 ^ 8 <= 2 ^ n) by (apply Z.pow_le_mono_r; lia). lia. }
  rewrite V. cbn [bind]. apply arith_ok; [lia| |auto].
  rewrite red_add by lia. f_equal. lia.
Qed.

Definition outval x y := map (fun c => R (S c x y)) cs.

Lemma above_ok x y :
  0 <= x < w -> 0 <= y < h ->
  map2_channels m n Z.add (outval (x + 1) y) (map (fun c => R (rowS c y (x + 1))) cs) = Ok (outval (x + 1) (y + 1)).
Proof.
  intros Hx Hy. unfold map2_channels, outval. rewrite combine_map. apply mapM_map.
  intros c Hc. apply in_zrange in Hc. apply arith_ok; [lia| |].
  - rewrite red_add by lia. rewrite S_row by lia. reflexivity.
  - apply S_bound; auto; lia.
Qed.

Lemma outval_0 x y : x = 0 \/ y = 0 -> outval x y = map (fun _ => 0) cs.
Proof.
  intros H. unfold outval. apply map_ext_in. intros c _.
  assert (S c x y = 0) as ->; [|apply red_0; lia].
  unfold S, rect_sum. destruct H as [->| ->].
  - rewrite (zsum_ext _ _ _ (fun _ => 0 * 0)) by (intros; rewrite zsum_empty by lia; auto).
    rewrite zsum_scal. lia.
  - apply zsum_empty. lia.
Qed.

Lemma integral_ok :
  w + 1 < 2 ^ 32 -> h + 1 < 2 ^ 32 ->
  exists out, integral_image_impl m n ch im sq = Ok out /\ wf out /\ iw out = w + 1 /\ ih out = h + 1 /\
    forall x y, 0 <= x <= w -> 0 <= y <= h -> get out x y = Some (outval x y).
Proof.
  intros Hw32 Hh32. destruct Him as (Hwf & _). pose proof Hwf as (Hw0 & Hh0 & _).
  unfold integral_image_impl. unfold chk_u, u_fits.
  assert ((0 <=? w + 1) && (w + 1 <? 2 ^ 32) = true) as -> by lia.
  assert ((0 <=? h + 1) && (h + 1 <? 2 ^ 32) = true) as -> by lia. cbn [bind].
  set (zeros := map (fun _ => 0) cs).
  assert (G0 : forall x y, 0 <= x <= w -> 0 <= y <= h -> get (new_image (w + 1) (h + 1) zeros) x y = Some zeros)
    by (intros; unfold new_image; rewrite get_gen_in by lia; auto).
  destruct ((w =? 0) || (h =? 0)) eqn:E0.
  - eexists; split; [reflexivity|]. splits; auto; [apply wf_new; lia|].
    intros x y Hx Hy. rewrite G0 by auto. f_equal. unfold outval. apply map_ext_in. intros c _.
    assert (S c x y = 0) as ->; [|symmetry; apply red_0; lia].
    unfold S, rect_sum. destruct (Z.eq_dec h 0) as [Eh|Eh]; [apply zsum_empty; lia|].
    rewrite (zsum_ext _ _ _ (fun _ => 0 * 0)) by (intros; rewrite zsum_empty by lia; auto).
    rewrite zsum_scal. lia.
  - (* row loop *)
    match goal with |- context [for_range 0 h ?bd ?st] =>
    destruct (for_range_ind (fun y (out : image (list Z)) => wf out /\ iw out = w + 1 /\ ih out = h + 1 /\
       forall a b, 0 <= a <= w -> 0 <= b <= h -> get out a b = Some (if b <=? y then outval a b else zeros))
       0 h bd st) as (out & E & HP) end; try lia.
    + splits; auto; [apply wf_new; lia|]. intros a b Ha Hb. rewrite G0 by auto.
      destruct (b <=? 0) eqn:Eb; auto. f_equal. symmetry. apply outval_0. lia.
    + intros y out Hy (Wo & Ew & Eh & HG).
      match goal with |- context [for_range 0 w ?bd ?st] =>
      destruct (for_range_ind (fun x '(o, sum) => wf o /\ iw o = w + 1 /\ ih o = h + 1 /\
         sum = map (fun c => R (rowS c y x)) cs /\
         forall a b, 0 <= a <= w -> 0 <= b <= h ->
           get o a b = Some (if (b <=? y) || ((b =? y + 1) && (a <=? x)) then outval a b else zeros))
         0 w bd st) as ((o & sum) & E & HP) end; try lia.
      * splits; auto.
        -- unfold zeros. apply map_ext_in. intros c _. unfold rowS. rewrite zsum_empty by lia. symmetry; apply red_0; lia.
        -- intros a b Ha Hb. rewrite HG by auto. f_equal.
           destruct (b <=? y) eqn:Eb; simpl; auto.
           destruct ((b =? y + 1) && (a <=? 0)) eqn:Ea; auto. symmetry; apply outval_0. lia.
      * intros x (o & sum) Hx (Wo' & Ew' & Eh' & Es & HG').
        destruct (get_some im x y Hwf) as (p & Ep); try lia.
        unfold get_pixel. rewrite Ep. cbn [unwrap bind].
        rewrite Es, (add_channels_ok x y p) by (auto; lia). cbn [bind].
        rewrite HG' by lia. assert ((y <=? y) || ((y =? y + 1) && (x + 1 <=? x)) = true) as -> by lia.
        cbn [unwrap bind]. rewrite above_ok by lia. cbn [bind].
        rewrite put_pixel_ok by lia. cbn [bind].
        eexists; split; [reflexivity|]. cbv beta iota. splits; auto.
        -- apply wf_put; auto.
        -- intros a b Ha Hb. rewrite get_put by (auto; lia).
           destruct ((a =? x + 1) && (b =? y + 1)) eqn:Eab.
           ++ assert (a = x + 1) by lia. assert (b = y + 1) by lia. subst a b.
              assert ((y + 1 <=? y) || ((y + 1 =? y + 1) && (x + 1 <=? x + 1)) = true) as -> by lia. auto.
           ++ rewrite HG' by auto. f_equal.
              destruct (b <=? y) eqn:Eb; simpl; auto.
              destruct (b =? y + 1) eqn:Eb'; simpl; auto.
              destruct (Z.leb_spec a x); destruct (Z.leb_spec a (x + 1)); auto; lia.
      * rewrite E. cbn [bind]. destruct HP as (Wo' & Ew' & Eh' & Es & HG').
        eexists; split; [reflexivity|]. splits; auto.
        intros a b Ha Hb. rewrite HG' by auto. f_equal.
        destruct (Z.leb_spec b y); destruct (Z.leb_spec b (y + 1)); simpl; auto; try lia.
        -- assert ((b =? y + 1) && (a <=? w) = true) as -> by lia. auto.
        -- assert (b =? y + 1 = false) as -> by lia. auto.
    + exists out. split; auto. destruct HP as (Wo & Ew & Eh & HG). splits; auto.
      intros x y Hx Hy. rewrite HG by auto. assert (y <=? h = true) as -> by lia. auto.
Qed.

Lemma rect_diff c l t r b : 0 <= l <= r + 1 -> 0 <= t <= b + 1 ->
  rect_sum (F c) l (r + 1) t (b + 1) = S c (r + 1) (b + 1) + S c l t - S c (r + 1) t - S c l (b + 1).
Proof.
  intros Hx Hy. unfold S, rect_sum.
  rewrite (zsum_split 0 t (b + 1) (fun y => zsum 0 (r + 1) _)) by lia.
  rewrite (zsum_split 0 t (b + 1) (fun y => zsum 0 l _)) by lia.
  assert (E : zsum t (b + 1) (fun y => zsum 0 (r + 1) (fun x => F c x y)) =
          zsum t (b + 1) (fun y => zsum 0 l (fun x => F c x y)) + zsum t (b + 1) (fun y => zsum l (r + 1) (fun x => F c x y))).
  { rewrite <- zsum_plus. apply zsum_ext. intros y _. apply zsum_split. lia. }
  lia.
Qed.

Lemma sum_ok out l t r b :
  (forall x y, 0 <= x <= w -> 0 <= y <= h -> get out x y = Some (outval x y)) ->
  w + 1 < 2 ^ 32 -> h + 1 < 2 ^ 32 ->
  0 <= l <= r -> r < w -> 0 <= t <= b -> b < h ->
  (m = Debug -> forall c, 0 <= c < ch -> S c (r + 1) (b + 1) + S c l t < 2 ^ n) ->
  sum_image_pixels m n out l t r b = Ok (map (fun c => R (rect_sum (F c) l (r + 1) t (b + 1))) cs).
Proof.
  intros HG Hw Hh Hl Hr Ht Hb Hno. unfold sum_image_pixels, chk_u, u_fits.
  assert ((0 <=? r + 1) && (r + 1 <? 2 ^ 32) = true) as -> by lia.
  assert ((0 <=? b + 1) && (b + 1 <? 2 ^ 32) = true) as -> by lia. cbn [bind].
  unfold get_pixel. rewrite !HG by lia. cbn [unwrap bind].
  assert (MO : forall c, S c l t <= S c (r + 1) t /\ S c l t <= S c l (b + 1) /\ S c (r + 1) t <= S c (r + 1) (b + 1) /\ 0 <= S c l t
               /\ 0 <= S c (r + 1) t /\ 0 <= S c l (b + 1)).
  { intros c. unfold S. splits; try (apply rect_mono; lia); apply rect_nonneg. }
  assert (A1 : map2_channels m n Z.add (outval (r + 1) (b + 1)) (outval l t) =
               Ok (map (fun c => R (S c (r + 1) (b + 1) + S c l t)) cs)).
  { unfold map2_channels, outval. rewrite combine_map. apply mapM_map. intros c Hc. apply in_zrange in Hc.
    apply arith_ok; [lia|apply red_add; lia|]. intros Hm. specialize (Hno Hm c Hc). specialize (MO c). lia. }
  rewrite A1. cbn [bind].
  assert (A2 : map2_channels m n Z.sub (map (fun c => R (S c (r + 1) (b + 1) + S c l t)) cs) (outval (r + 1) t) =
               Ok (map (fun c => R (S c (r + 1) (b + 1) + S c l t - S c (r + 1) t)) cs)).
  { unfold map2_channels, outval. rewrite combine_map. apply mapM_map. intros c Hc. apply in_zrange in Hc.
    apply arith_ok; [lia|apply red_sub; lia|]. intros Hm. specialize (Hno Hm c Hc). specialize (MO c). lia. }
  rewrite A2. cbn [bind].
  unfold map2_channels, outval. rewrite combine_map. apply mapM_map. intros c Hc. apply in_zrange in Hc.
  rewrite rect_diff by lia.
  apply arith_ok; [lia|apply red_sub; lia|]. intros Hm. specialize (Hno Hm c Hc). specialize (MO c).
  pose proof (rect_diff c l t r b ltac:(lia) ltac:(lia)).
  pose proof (rect_nonneg c l (r + 1) t (b + 1)). lia.
Qed.
End IP.

(** ** running sums *)
Lemma run_fill_ok (g : Z -> Z) (v : Z -> res Z) lo hi buf :
  0 <= lo <= hi -> hi <= zlen buf ->
  (forall i, lo <= i < hi -> v i = Ok (g i)) -> (forall i, 0 <= i < hi -> 0 <= g i) ->
  zsum 0 hi g < 2 ^ 32 ->
  (forall i, 0 <= i < lo -> znth buf i = Some (zsum 0 (i + 1) g)) ->
  exists buf', run_fill lo hi v (buf, zsum 0 lo g) = Ok (buf', zsum 0 hi g) /\ zlen buf' = zlen buf /\
    (forall i, 0 <= i < hi -> znth buf' i = Some (zsum 0 (i + 1) g)).
Proof.
  intros Hlo Hhi Hv Hg Hs Hb. unfold run_fill.
  match goal with |- context [for_range lo hi ?b ?st] =>
  destruct (for_range_ind (fun k '(bf, sum) => zlen bf = zlen buf /\ sum = zsum 0 k g /\
     (forall i, 0 <= i < k -> znth bf i = Some (zsum 0 (i + 1) g))) lo hi b st) as ((bf & sum) & E & HP) end; try lia.
  - splits; auto.
  - intros i (bf & sum) Hi (L & Es & HZ). rewrite Hv by lia. cbn [bind].
    assert (Es' : sum + g i = zsum 0 (i + 1) g) by (rewrite zsum_snoc by lia; lia). rewrite Es'.
    assert (zsum 0 (i + 1) g <= zsum 0 hi g).
    { rewrite (zsum_split 0 (i + 1) hi) by lia.
      assert (0 <= zsum (i + 1) hi g) by (apply zsum_nonneg; intros; apply Hg; lia). lia. }
    assert (0 <= zsum 0 (i + 1) g) by (apply zsum_nonneg; intros; apply Hg; lia).
    unfold chk_u, u_fits. assert ((0 <=? zsum 0 (i + 1) g) && (zsum 0 (i + 1) g <? 2 ^ 32) = true) as -> by lia.
    cbn [bind]. rewrite vset_ok by lia. cbn [bind]. eexists; split; [reflexivity|]. cbv beta iota.
    rewrite zupd_zlen. splits; auto. intros j Hj. rewrite znth_zupd by lia.
    destruct (Z.eqb_spec j i) as [->|]; auto. apply HZ; lia.
  - destruct HP as (L & -> & HZ). exists bf. auto.
Qed.

Lemma running_sum_ok (f : Z -> Z) len padding buffer (v2 : Z -> res Z) :
  0 < len -> 0 <= padding -> len + 2 * padding <= zlen buffer ->
  (forall i, 0 <= i < len -> 0 <= f i <= 255) ->
  (forall i, padding <= i < padding + len -> v2 i = Ok (f (i - padding))) ->
  zlen buffer * 255 < 2 ^ 32 ->
  exists buf,
    (st <- run_fill 0 padding (fun _ => Ok (f 0)) (buffer, 0) ;;
     st <- run_fill padding (padding + len) v2 st ;;
     '(buf, _) <- run_fill (padding + len) (zlen buffer) (fun _ => Ok (f (len - 1))) st ;;
     Ok buf) = Ok buf /\ zlen buf = zlen buffer /\
    forall i, 0 <= i < zlen buffer -> znth buf i = Some (zsum 0 (i + 1) (fun j => replicate f len (j - padding))).
Proof.
  intros Hl Hp Hb Hf Hv Hsz.
  set (g := fun j => replicate f len (j - padding)).
  assert (Hg : forall i, 0 <= g i <= 255) by (intros i; apply Hf; unfold zclamp; lia).
  assert (HS : forall k, 0 <= k <= zlen buffer -> zsum 0 k g < 2 ^ 32).
  { intros k Hk. assert (zsum 0 k g <= zsum 0 k (fun _ => 255)) by (apply zsum_le; intros; apply Hg).
    rewrite zsum_const in H by lia. lia. }
  change (buffer, 0) with (buffer, zsum 0 0 g).
  assert (Hg0 : forall i, 0 <= g i) by (intros; apply Hg).
  destruct (run_fill_ok g (fun _ => Ok (f 0)) 0 padding buffer) as (b1 & E1 & L1 & Z1); auto; try lia; try (apply HS; lia).
  { intros i Hi. unfold g, replicate. do 2 f_equal. unfold zclamp; lia. }
  rewrite E1. cbn [bind].
  destruct (run_fill_ok g v2 padding (padding + len) b1) as (b2 & E2 & L2 & Z2); auto; try lia; try (apply HS; lia).
  { intros i Hi. rewrite Hv by lia. unfold g, replicate. do 2 f_equal. unfold zclamp; lia. }
  rewrite E2. cbn [bind].
  destruct (run_fill_ok g (fun _ => Ok (f (len - 1))) (padding + len) (zlen buffer) b2) as (b3 & E3 & L3 & Z3); auto; try lia; try (apply HS; lia).
  { intros i Hi. unfold g, replicate. do 2 f_equal. unfold zclamp; lia. }
  rewrite E3. cbn [bind]. exists b3. splits; auto. congruence.
Qed.
