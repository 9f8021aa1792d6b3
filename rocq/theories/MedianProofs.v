From Verif Require Import Base BaseProofs GeomProofs RasterProofs IntegralSpec IntegralProofs StatsProofs FilterSpec FilterProofs MedianModel MedianSpec.
Local Ltac Zify.zify_post_hook ::= idtac.

Definition HS (ch : Z) (M : Z -> Z -> Z) : list (list Z) := mapz ch (fun c => mapz 256 (fun v => M c v)).
Lemma HS_ext ch M M' : (forall c v, 0 <= c < ch -> 0 <= v < 256 -> M c v = M' c v) -> HS ch M = HS ch M'.
Proof.
  intros H. unfold HS. apply map_ext_in. intros c Hc. apply in_zrange in Hc. apply map_ext_in. intros v Hv. apply in_zrange in Hv. auto.
Qed.
Lemma chk_ok n z : 0 <= z < 2 ^ n -> chk_u n z = Ok z.
Proof. intros H. unfold chk_u, u_fits. assert ((0 <=? z) && (z <? 2 ^ n) = true) as -> by lia. auto. Qed.

Section Med.
  Variables (ch : Z) (im : image (list Z)).
  Hypothesis (Him : channels8 ch im) (Hch : 0 <= ch).
  Let w := iw im.
  Let h := ih im.

  Definition lev (x y c v : Z) : Z := if chan im c x y =? v then 1 else 0.

  Lemma bump_ok d x y M : 0 <= x < w -> 0 <= y < h ->
    (forall c v, 0 <= c < ch -> 0 <= v < 256 -> 0 <= M c v + d * lev x y c v < 2 ^ 32) ->
    bump d im x y (HS ch M) = Ok (HS ch (fun c v => M c v + d * lev x y c v)).
  Proof.
    intros Hx Hy HB. unfold bump. destruct (get_some im x y (proj1 Him) Hx Hy) as (p & G).
    destruct (proj2 Him x y p G) as (Lp & Hp).
    unfold get_pixel. rewrite G. cbn [unwrap bind]. rewrite Lp.
    match goal with |- for_range 0 ch ?b ?st = _ =>
    destruct (for_range_ind (fun k s => s = HS ch (fun c v => M c v + (if c <? k then d * lev x y c v else 0))) 0 ch b st) as (s & E & HP) end; auto.
    - apply HS_ext. intros c v Hc Hv. assert (c <? 0 = false) as -> by lia. lia.
    - intros i s Hi ->. destruct (znth_some p i) as (u & Eu); [lia|]. unfold vget at 1. rewrite Eu. cbn [unwrap bind].
      assert (Hu : 0 <= u < 256) by (apply znth_In in Eu; apply Hp in Eu; unfold is_u8 in Eu; lia).
      assert (EL : forall v, lev x y i v = if u =? v then 1 else 0) by (intros; unfold lev, chan; rewrite G, Eu; auto).
      unfold HS at 1. rewrite vget_mapz by auto. cbn [bind]. rewrite vget_mapz by auto. cbn [bind].
      assert (i <? i = false) as -> by lia. rewrite Z.add_0_r.
      specialize (HB i u Hi Hu) as HBu. rewrite EL, Z.eqb_refl in HBu. rewrite chk_ok by lia. cbn [bind].
      rewrite vset_mapz by auto. cbn [bind]. unfold HS at 1. rewrite vset_mapz by auto.
      eexists; split; [reflexivity|].
      unfold HS. apply map_ext_in. intros c Hc'. apply in_zrange in Hc'.
      destruct (Z.eqb_spec c i) as [->|Hne].
      + apply map_ext_in. intros v Hv. apply in_zrange in Hv. assert (i <? i + 1 = true) as -> by lia. try (assert (i <? i = false) as -> by lia).
        rewrite EL, (Z.eqb_sym u v). destruct (Z.eqb_spec v u) as [->|]; lia.
      + apply map_ext_in. intros v Hv. destruct (Z.ltb_spec c i); destruct (Z.ltb_spec c (i + 1)); auto; lia.
    - rewrite E, HP. f_equal. apply HS_ext. intros c v Hc Hv. assert (c <? ch = true) as -> by lia. auto.
  Qed.

  (** median scan *)
  Lemma median_scan_ok (M : Z -> Z) n : (forall v, 0 <= v < 256 -> 0 <= M v) -> zsum 0 256 M = n -> 0 < n < 2 ^ 31 ->
    forall fuel i count, Z.of_nat fuel = 256 - i -> 0 <= i <= 256 -> count = zsum 0 i M -> 2 * count < n ->
    exists m, median_scan fuel i count (mapz 256 M) n = Ok m /\ i <= m < 256 /\ 2 * zsum 0 m M < n /\ n <= 2 * zsum 0 (m + 1) M.
  Proof.
    intros HM Hn Hb. induction fuel as [|fuel IH]; intros i count Hf Hi Hc Hlt.
    - assert (i = 256) by lia. subst i. lia.
    - cbn [median_scan]. rewrite vget_mapz by lia. cbn [bind].
      assert (EC : count + M i = zsum 0 (i + 1) M) by (rewrite zsum_snoc by lia; lia). rewrite EC.
      assert (LE : 0 <= zsum 0 (i + 1) M <= n).
      { split; [apply zsum_nonneg; intros; apply HM; lia|]. rewrite <- Hn, (zsum_split 0 (i + 1) 256) by lia.
        assert (0 <= zsum (i + 1) 256 M) by (apply zsum_nonneg; intros; apply HM; lia). lia. }
      rewrite chk_ok by lia. cbn [bind]. rewrite chk_ok by lia. cbn [bind].
      destruct (2 * zsum 0 (i + 1) M >=? n) eqn:E.
      + exists i. splits; auto; try lia.
      + destruct (IH (i + 1) (zsum 0 (i + 1) M)) as (m & E' & H1 & H2 & H3); try lia. exists m. splits; auto; lia.
  Qed.

  Variables (rx ry : Z).
  Hypothesis (Hrx : 0 <= rx) (Hry : 0 <= ry) (Hw : 0 < w) (Hh : 0 < h).
  Let N := (2 * rx + 1) * (2 * ry + 1).
  Hypothesis (HN : N < 2 ^ 31).

  (** indicator in the border-replicated image *)
  Definition I (a b c v : Z) : Z := if rep_chan 0 im c a b =? v then 1 else 0.
  Lemma I_lev a b c v : I a b c v = lev (border w a) (border h b) c v.
  Proof. unfold I, lev, rep_chan, chan. fold w h. auto. Qed.
  Lemma I_range a b c v : 0 <= I a b c v <= 1.
  Proof. unfold I. destruct (_ =? _); lia. Qed.

  Definition W (x y c v : Z) : Z := window_count im rx ry x y c v.
  Definition colc (y a c v : Z) : Z := zsum (y - ry) (y + ry + 1) (fun b => I a b c v).
  Definition rowc (x b c v : Z) : Z := zsum (x - rx) (x + rx + 1) (fun a => I a b c v).

  Lemma W_cols x y c v : W x y c v = zsum (- rx) (rx + 1) (fun d => colc y (x + d) c v).
  Proof.
    unfold W, window_count. replace (x - rx) with (- rx + x) by lia. replace (x + rx + 1) with (rx + 1 + x) by lia.
    rewrite <- zsum_shift. apply zsum_ext. intros d _. unfold colc. rewrite (Z.add_comm d x). reflexivity.
  Qed.
  Lemma W_rows x y c v : W x y c v = zsum (- ry) (ry + 1) (fun d => rowc x (y + d) c v).
  Proof.
    unfold W, window_count. rewrite zsum_swap by lia. replace (y - ry) with (- ry + y) by lia. replace (y + ry + 1) with (ry + 1 + y) by lia.
    rewrite <- zsum_shift. apply zsum_ext. intros d _. unfold rowc. rewrite (Z.add_comm d y). reflexivity.
  Qed.

  Lemma sum01 lo hi (f : Z -> Z) : lo <= hi -> (forall i, 0 <= f i <= 1) -> 0 <= zsum lo hi f <= hi - lo.
  Proof.
    intros Hl Hf. split; [apply zsum_nonneg; intros; apply Hf|].
    assert (zsum lo hi f <= zsum lo hi (fun _ => 1)) by (apply zsum_le; intros; apply Hf). rewrite zsum_const in H by lia. lia.
  Qed.
  Lemma colc_range y a c v : 0 <= colc y a c v <= 2 * ry + 1.
  Proof. unfold colc. pose proof (sum01 (y - ry) (y + ry + 1) (fun b => I a b c v) ltac:(lia) ltac:(intros; apply I_range)). lia. Qed.
  Lemma rowc_range x b c v : 0 <= rowc x b c v <= 2 * rx + 1.
  Proof. unfold rowc. pose proof (sum01 (x - rx) (x + rx + 1) (fun a => I a b c v) ltac:(lia) ltac:(intros; apply I_range)). lia. Qed.

  (** exchanging one element per step *)
  Lemma slide_ok r B (P Q : Z -> Z * Z) (A A' : Z -> Z -> Z -> Z) body :
    0 <= r -> 0 <= B -> (2 * r + 1) * B < 2 ^ 31 ->
    (forall d hist, - r <= d < r + 1 -> body d hist = (hist <- bump (-1) im (fst (P d)) (snd (P d)) hist ;; bump 1 im (fst (Q d)) (snd (Q d)) hist)) ->
    (forall d, - r <= d < r + 1 -> 0 <= fst (P d) < w /\ 0 <= snd (P d) < h /\ 0 <= fst (Q d) < w /\ 0 <= snd (Q d) < h) ->
    (forall d c v, - r <= d < r + 1 -> 0 <= A d c v <= B /\ 0 <= A' d c v <= B /\ 0 <= A d c v - lev (fst (P d)) (snd (P d)) c v /\
        A' d c v = A d c v - lev (fst (P d)) (snd (P d)) c v + lev (fst (Q d)) (snd (Q d)) c v) ->
    for_range (- r) (r + 1) body (HS ch (fun c v => zsum (- r) (r + 1) (fun d => A d c v))) =
    Ok (HS ch (fun c v => zsum (- r) (r + 1) (fun d => A' d c v))).
  Proof.
    intros Hr HB0 HB Hbody HPQ HA.
    destruct (for_range_ind (fun k s => s = HS ch (fun c v => zsum (- r) k (fun d => A' d c v) + zsum k (r + 1) (fun d => A d c v)))
      (- r) (r + 1) body (HS ch (fun c v => zsum (- r) (r + 1) (fun d => A d c v)))) as (s & E & HP); try lia.
    - apply HS_ext. intros c v _ _. rewrite (zsum_empty (- r) (- r)) by lia. lia.
    - intros k s Hk ->. rewrite Hbody by auto. destruct (HPQ k Hk) as (p1 & p2 & q1 & q2).
      assert (BD : forall c v, 0 <= zsum (- r) k (fun d => A' d c v) <= (k + r) * B /\ 0 <= zsum (k + 1) (r + 1) (fun d => A d c v) <= (r - k) * B).
      { intros c v. splits.
        - apply zsum_nonneg. intros d Hd. apply HA. lia.
        - assert (zsum (- r) k (fun d => A' d c v) <= zsum (- r) k (fun _ => B)) by (apply zsum_le; intros; apply HA; lia). rewrite zsum_const in H by lia. lia.
        - apply zsum_nonneg. intros d Hd. apply HA. lia.
        - assert (zsum (k + 1) (r + 1) (fun d => A d c v) <= zsum (k + 1) (r + 1) (fun _ => B)) by (apply zsum_le; intros; apply HA; lia). rewrite zsum_const in H by lia. lia. }
      assert (SUM : (k + r) * B + B + (r - k) * B = (2 * r + 1) * B) by lia.
      assert (L01 : forall a b c v, 0 <= lev a b c v <= 1) by (intros; unfold lev; destruct (_ =? _); lia).
      rewrite bump_ok; auto.
      2:{ intros c v Hc Hv. rewrite (zsum_cons k (r + 1)) by lia. destruct (BD c v) as (b1 & b2). destruct (HA k c v Hk) as (a1 & a2 & a3 & a4).
          specialize (L01 (fst (P k)) (snd (P k)) c v). lia. }
      cbn [bind]. rewrite bump_ok; auto.
      2:{ intros c v Hc Hv. rewrite (zsum_cons k (r + 1)) by lia. destruct (BD c v) as (b1 & b2). destruct (HA k c v Hk) as (a1 & a2 & a3 & a4). lia. }
      eexists; split; [reflexivity|]. apply HS_ext. intros c v Hc Hv. rewrite (zsum_cons k (r + 1)) by lia. rewrite (zsum_snoc (- r) k) by lia.
      destruct (HA k c v Hk) as (a1 & a2 & a3 & a4). lia.
    - rewrite E, HP. f_equal. apply HS_ext. intros c v _ _. rewrite (zsum_empty (r + 1) (r + 1)) by lia. lia.
  Qed.

  Lemma colc_next y a c v : colc y a c v = colc (y - 1) a c v - I a (y - 1 - ry) c v + I a (y + ry) c v.
  Proof.
    unfold colc. rewrite (zsum_cons (y - 1 - ry)) by lia. replace (y - 1 - ry + 1) with (y - ry) by lia.
    replace (y - 1 + ry + 1) with (y + ry) by lia. rewrite zsum_snoc by lia. lia.
  Qed.
  Lemma rowc_next x b c v : rowc x b c v = rowc (x - 1) b c v - I (x - 1 - rx) b c v + I (x + rx) b c v.
  Proof.
    unfold rowc. rewrite (zsum_cons (x - 1 - rx)) by lia. replace (x - 1 - rx + 1) with (x - rx) by lia.
    replace (x - 1 + rx + 1) with (x + rx) by lia. rewrite zsum_snoc by lia. lia.
  Qed.
  Lemma colc_first y a c v : I a (y - ry) c v <= colc y a c v.
  Proof.
    unfold colc. rewrite zsum_cons by lia. assert (0 <= zsum (y - ry + 1) (y + ry + 1) (fun b => I a b c v)) by (apply zsum_nonneg; intros; apply I_range). lia.
  Qed.
  Lemma colc_last y a c v : I a (y + ry) c v <= colc y a c v.
  Proof.
    unfold colc. rewrite zsum_snoc by lia. assert (0 <= zsum (y - ry) (y + ry) (fun b => I a b c v)) by (apply zsum_nonneg; intros; apply I_range). lia.
  Qed.
  Lemma rowc_first x b c v : I (x - rx) b c v <= rowc x b c v.
  Proof.
    unfold rowc. rewrite zsum_cons by lia. assert (0 <= zsum (x - rx + 1) (x + rx + 1) (fun a => I a b c v)) by (apply zsum_nonneg; intros; apply I_range). lia.
  Qed.

  (** the median at (x, y) *)
  Definition medc (x y c : Z) : Z := match median_scan 256 0 0 (mapz 256 (W x y c)) N with Ok m => m | _ => 0 end.

  Lemma rep_u8 c a b : 0 <= rep_chan 0 im c a b <= 255.
  Proof.
    unfold rep_chan. destruct (get im _ _) as [p|] eqn:G; [|lia]. destruct (znth p c) eqn:Z0; [|lia].
    apply znth_In in Z0. apply (proj2 Him _ _ _ G) in Z0. unfold is_u8 in Z0. lia.
  Qed.
  Lemma sum_ind u : 0 <= u < 256 -> zsum 0 256 (fun v => if u =? v then 1 else 0) = 1.
  Proof.
    intros Hu. rewrite (zsum_split 0 u 256), (zsum_cons u 256) by lia.
    rewrite (zsum_ext 0 u _ (fun _ => 0)) by (intros v Hv; assert (u =? v = false) as -> by lia; auto).
    rewrite (zsum_ext (u + 1) 256 _ (fun _ => 0)) by (intros v Hv; assert (u =? v = false) as -> by lia; auto).
    rewrite !zsum_const by lia. rewrite Z.eqb_refl. lia.
  Qed.
  Lemma W_total x y c : zsum 0 256 (W x y c) = N.
  Proof.
    unfold W, window_count. rewrite zsum_swap by lia.
    rewrite (zsum_ext (x - rx) (x + rx + 1) _ (fun _ => 2 * ry + 1)).
    - rewrite zsum_const by lia. unfold N. lia.
    - intros a _. rewrite zsum_swap by lia. rewrite (zsum_ext _ _ _ (fun _ => 1)).
      + rewrite zsum_const by lia. lia.
      + intros b _. apply sum_ind. pose proof (rep_u8 c a b). lia.
  Qed.
  Lemma W_nonneg x y c v : 0 <= W x y c v.
  Proof. unfold W, window_count. apply zsum_nonneg. intros. apply zsum_nonneg. intros. destruct (_ =? _); lia. Qed.
  Lemma W_le x y c v : W x y c v <= N.
  Proof.
    rewrite W_cols. assert (zsum (- rx) (rx + 1) (fun d => colc y (x + d) c v) <= zsum (- rx) (rx + 1) (fun _ => 2 * ry + 1)) by (apply zsum_le; intros; apply colc_range).
    rewrite zsum_const in H by lia. unfold N. lia.
  Qed.

  Lemma medc_ok x y c : median_scan 256 0 0 (mapz 256 (W x y c)) N = Ok (medc x y c) /\ is_median (W x y c) N (medc x y c).
  Proof.
    assert (0 < N) by (unfold N; nia).
    destruct (median_scan_ok (W x y c) N) with (fuel := 256%nat) (i := 0) (count := 0) as (m & E & H1 & H2 & H3); try lia.
    - intros; apply W_nonneg.
    - apply W_total.
    - rewrite zsum_empty by lia. auto.
    - unfold medc. rewrite E. split; auto. assert (Z0 := zsum_snoc 0 m (W x y c) ltac:(lia)).
      pose proof (W_total x y c) as T. rewrite (zsum_split 0 (m + 1) 256) in T by lia.
      unfold is_median, is_u8. splits; try lia.
  Qed.

  Let zeros := map (fun _ : Z => 0) (zrange 0 ch).
  Definition medpx (x y : Z) : list Z := map (fun c => medc x y c) (zrange 0 ch).

  Lemma set_ok F x y : 0 <= x < w -> 0 <= y < h -> zlen (F x y) = ch ->
    set_to_median (HS ch (fun c v => W x y c v)) N (gen w h F) x y =
    Ok (gen w h (fun a b => if (a =? x) && (b =? y) then medpx x y else F a b)).
  Proof.
    intros Hx Hy HF. unfold set_to_median. rewrite gp_gen' by auto. cbn [bind]. rewrite HF.
    rewrite (mapM_ok _ (fun c => medc x y c)).
    - cbn [bind]. rewrite pp_gen' by auto. auto.
    - intros c Hc. apply in_zrange in Hc. unfold channel_median, HS. rewrite vget_mapz by auto. cbn [bind]. apply medc_ok.
  Qed.

  Definition part (cond : Z -> Z -> bool) : image (list Z) := gen w h (fun a b => if cond a b then medpx a b else zeros).
  Lemma zlen_zeros : zlen zeros = ch.
  Proof. unfold zeros. rewrite zlen_map, zlen_zrange. lia. Qed.
  Lemma zlen_med x y : zlen (medpx x y) = ch.
  Proof. unfold medpx. rewrite zlen_map, zlen_zrange. lia. Qed.
  Lemma set_part cond cond' x y : 0 <= x < w -> 0 <= y < h ->
    (forall a b, 0 <= a < w -> 0 <= b < h -> cond' a b = ((a =? x) && (b =? y)) || cond a b) ->
    set_to_median (HS ch (fun c v => W x y c v)) N (part cond) x y = Ok (part cond').
  Proof.
    intros Hx Hy HE. unfold part. rewrite set_ok; auto.
    - f_equal. apply gen_ext. intros a b Ha Hb. rewrite HE by auto. destruct ((a =? x) && (b =? y)) eqn:E; simpl; auto.
      assert (a = x /\ b = y) as (-> & ->) by lia. auto.
    - destruct (cond x y); [apply zlen_med|apply zlen_zeros].
  Qed.

  Lemma border_max n i : i <= n - 1 -> border n i = Z.max 0 i.
  Proof. unfold border, zclamp. lia. Qed.
  Lemma border_min n i : 0 < n -> 0 <= i -> border n i = Z.min i (n - 1).
  Proof. unfold border, zclamp. lia. Qed.
  Lemma border_mm n i : 0 < n -> border n i = Z.min (Z.max 0 i) (n - 1).
  Proof. unfold border, zclamp. lia. Qed.
  Lemma border_rg n i : 0 < n -> 0 <= border n i < n.
  Proof. unfold border, zclamp. lia. Qed.

  Lemma down_ok x : 0 <= x < w ->
    slide_down_column (HS ch (fun c v => W x 0 c v)) N im (part (fun a b => a <? x)) x rx ry =
    Ok (HS ch (fun c v => W x (h - 1) c v), part (fun a b => a <? x + 1)).
  Proof.
    intros Hx. unfold slide_down_column, assert. fold w h. assert (x <? w = true) as -> by lia. cbn [bind].
    rewrite (set_part _ (fun a b => (a <? x) || ((a =? x) && (b <? 1)))) by (auto; intros; lia). cbn [bind].
    match goal with |- for_range 1 h ?bd ?st = _ =>
    destruct (for_range_ind (fun y '(hist, out) => hist = HS ch (fun c v => W x (y - 1) c v) /\ out = part (fun a b => (a <? x) || ((a =? x) && (b <? y)))) 1 h bd st)
      as ((hist & out) & E & -> & ->) end; try lia; auto.
    - intros y (hist & out) Hy (-> & ->).
      assert (EQ : forall x y, HS ch (fun c v => W x y c v) = HS ch (fun c v => zsum (- rx) (rx + 1) (fun d => colc y (x + d) c v))).
      { intros; apply HS_ext; intros; apply W_cols. }
      rewrite (EQ x (y - 1)).
      rewrite (slide_ok rx (2 * ry + 1) (fun d => (border w (x + d), border h (y - 1 - ry))) (fun d => (border w (x + d), border h (y + ry)))
        (fun d c v => colc (y - 1) (x + d) c v) (fun d c v => colc y (x + d) c v)); try lia.
      + cbn [bind]. rewrite <- EQ.
        rewrite (set_part _ (fun a b => (a <? x) || ((a =? x) && (b <? y + 1)))) by (auto; intros; lia). cbn [bind].
        eexists; split; [reflexivity|]. split; auto. apply HS_ext. intros. f_equal. lia.
      + intros d hist Hd. cbn [fst snd]. unfold decr, incr. rewrite border_mm by lia.
        rewrite (border_max h (y - 1 - ry)) by lia. rewrite (border_min h (y + ry)) by lia.
        replace (y - 1 - ry) with (y - ry - 1) by lia. auto.
      + intros d Hd. cbn [fst snd]. splits; apply border_rg; auto.
      + intros d c v Hd. cbn [fst snd]. rewrite <- !I_lev. pose proof (colc_first (y - 1) (x + d) c v).
        splits; try apply colc_range; try lia. apply colc_next.
    - rewrite E. do 2 f_equal. unfold part. apply gen_ext. intros a b Ha Hb.
      destruct (_ || _) eqn:E1; destruct (a <? x + 1) eqn:E2; auto; lia.
  Qed.

  Lemma up_ok x : 0 <= x < w ->
    slide_up_column (HS ch (fun c v => W x (h - 1) c v)) N im (part (fun a b => a <? x)) x rx ry =
    Ok (HS ch (fun c v => W x 0 c v), part (fun a b => a <? x + 1)).
  Proof.
    intros Hx. unfold slide_up_column, assert. fold w h. assert (x <? w = true) as -> by lia. cbn [bind].
    rewrite (set_part _ (fun a b => (a <? x) || ((a =? x) && (b >=? h - 1)))) by (auto; intros; lia). cbn [bind].
    match goal with |- for_range_rev 0 _ ?bd ?st = _ =>
    destruct (for_range_rev_ind (fun y '(hist, out) => hist = HS ch (fun c v => W x y c v) /\ out = part (fun a b => (a <? x) || ((a =? x) && (b >=? y)))) 0 (h - 1) bd st)
      as ((hist & out) & E & -> & ->) end; try lia; auto.
    - intros y (hist & out) Hy (-> & ->).
      assert (EQ : forall x y, HS ch (fun c v => W x y c v) = HS ch (fun c v => zsum (- rx) (rx + 1) (fun d => colc y (x + d) c v))).
      { intros; apply HS_ext; intros; apply W_cols. }
      rewrite (EQ x (y + 1)).
      rewrite (slide_ok rx (2 * ry + 1) (fun d => (border w (x + d), border h (y + 1 + ry))) (fun d => (border w (x + d), border h (y - ry)))
        (fun d c v => colc (y + 1) (x + d) c v) (fun d c v => colc y (x + d) c v)); try lia.
      + cbn [bind]. rewrite <- EQ.
        rewrite (set_part _ (fun a b => (a <? x) || ((a =? x) && (b >=? y)))) by (auto; intros; lia). cbn [bind].
        eexists; split; [reflexivity|]. split; auto.
      + intros d hist Hd. cbn [fst snd]. unfold decr, incr. rewrite border_mm by lia.
        rewrite (border_max h (y - ry)) by lia. rewrite (border_min h (y + 1 + ry)) by lia.
        replace (y + 1 + ry) with (y + ry + 1) by lia. auto.
      + intros d Hd. cbn [fst snd]. splits; apply border_rg; auto.
      + intros d c v Hd. cbn [fst snd]. rewrite <- !I_lev. pose proof (colc_last (y + 1) (x + d) c v).
        splits; try apply colc_range; try lia. pose proof (colc_next (y + 1) (x + d) c v) as CN.
        replace (y + 1 - 1) with y in CN by lia. lia.
    - rewrite E. do 2 f_equal. unfold part. apply gen_ext. intros a b Ha Hb.
      destruct (_ || _) eqn:E1; destruct (a <? x + 1) eqn:E2; auto; lia.
  Qed.

  Lemma right_ok x y : 1 <= x < w -> 0 <= y < h ->
    slide_right (HS ch (fun c v => W (x - 1) y c v)) im x y rx ry = Ok (HS ch (fun c v => W x y c v)).
  Proof.
    intros Hx Hy. unfold slide_right, assert. fold w h. assert (x <? w = true) as -> by lia. assert (y <? h = true) as -> by lia. cbn [bind].
    assert (EQ : forall x y, HS ch (fun c v => W x y c v) = HS ch (fun c v => zsum (- ry) (ry + 1) (fun d => rowc x (y + d) c v))).
    { intros; apply HS_ext; intros; apply W_rows. }
    rewrite !EQ.
    apply (slide_ok ry (2 * rx + 1) (fun d => (border w (x - 1 - rx), border h (y + d))) (fun d => (border w (x + rx), border h (y + d)))
        (fun d c v => rowc (x - 1) (y + d) c v) (fun d c v => rowc x (y + d) c v)); try lia.
    + intros d hist Hd. cbn [fst snd]. unfold decr, incr. rewrite (border_mm h) by lia.
      rewrite (border_max w (x - 1 - rx)) by lia. rewrite (border_min w (x + rx)) by lia.
      replace (x - 1 - rx) with (x - rx - 1) by lia. auto.
    + intros d Hd. cbn [fst snd]. splits; apply border_rg; auto.
    + intros d c v Hd. cbn [fst snd]. rewrite <- !I_lev. pose proof (rowc_first (x - 1) (y + d) c v).
      splits; try apply rowc_range; try lia. apply rowc_next.
  Qed.

  Lemma init_ok : initialise_histogram ch im rx ry = Ok (HS ch (fun c v => W 0 0 c v), N).
  Proof.
    assert (HNr : 2 * rx + 1 <= N) by (unfold N; nia). assert (HNy : 2 * ry + 1 <= N) by (unfold N; nia).
    unfold initialise_histogram. rewrite !chk_ok by lia. cbn [bind]. rewrite !chk_ok by lia. cbn [bind].
    fold N. assert (0 <= N) by lia. rewrite chk_ok by lia. cbn [bind]. fold w h.
    match goal with |- context [for_range (- ry) (ry + 1) ?bd ?st] =>
    destruct (for_range_ind (fun k s => s = HS ch (fun c v => zsum (- ry) k (fun d => rowc 0 (0 + d) c v))) (- ry) (ry + 1) bd st) as (s & E & ->) end; try lia.
    - apply HS_ext. intros. rewrite zsum_empty by lia. auto.
    - intros dy s Hdy ->.
      match goal with |- context [for_range (- rx) (rx + 1) ?bd ?st] =>
      destruct (for_range_ind (fun k s => s = HS ch (fun c v => zsum (- ry) dy (fun d => rowc 0 (0 + d) c v) + zsum (- rx) k (fun a => I a dy c v))) (- rx) (rx + 1) bd st) as (s & E & ->) end; try lia.
      + apply HS_ext. intros. rewrite (zsum_empty (- rx)) by lia. lia.
      + intros dx s Hdx ->. unfold incr. rewrite <- !border_mm by lia.
        assert (BD : forall c v, 0 <= zsum (- ry) dy (fun d => rowc 0 (0 + d) c v) <= (dy + ry) * (2 * rx + 1) /\ 0 <= zsum (- rx) dx (fun a => I a dy c v) <= 2 * rx).
        { intros c v. splits.
          - apply zsum_nonneg. intros. apply rowc_range.
          - assert (zsum (- ry) dy (fun d => rowc 0 (0 + d) c v) <= zsum (- ry) dy (fun _ => 2 * rx + 1)) by (apply zsum_le; intros; apply rowc_range). rewrite zsum_const in H0 by lia. lia.
          - apply zsum_nonneg. intros; apply I_range.
          - pose proof (sum01 (- rx) dx (fun a => I a dy c v) ltac:(lia) ltac:(intros; apply I_range)). lia. }
        rewrite bump_ok; try (apply border_rg; auto).
        * eexists; split; [reflexivity|]. apply HS_ext. intros c v _ _. rewrite (zsum_snoc (- rx) dx) by lia. rewrite I_lev. lia.
        * intros c v Hc Hv. rewrite <- I_lev. pose proof (I_range dx dy c v). destruct (BD c v) as (b1 & b2).
          assert ((dy + ry) * (2 * rx + 1) <= 2 * ry * (2 * rx + 1)) by nia. assert (N = 2 * ry * (2 * rx + 1) + 2 * rx + 1) by (unfold N; lia). lia.
      + rewrite E. eexists; split; [reflexivity|]. apply HS_ext. intros c v _ _. rewrite (zsum_snoc (- ry) dy) by lia. f_equal.
    - rewrite E. cbn [bind]. do 2 f_equal. apply HS_ext. intros c v _ _. rewrite W_rows. auto.
  Qed.

  Lemma median_ok : w + rx < 2 ^ 31 -> h + ry < 2 ^ 31 ->
    median_filter ch im rx ry = Ok (gen w h (fun a b => medpx a b)).
  Proof.
    intros Gx Gy. unfold median_filter. fold w h. assert ((w =? 0) || (h =? 0) = false) as -> by lia.
    rewrite !chk_ok by lia. cbn [bind]. assert ((w + rx >? 2 ^ 31 - 1) || (h + ry >? 2 ^ 31 - 1) = false) as -> by lia.
    rewrite init_ok. cbn [bind].
    assert (E0 : new_image w h (map (fun _ => 0) (zrange 0 ch)) = part (fun a b => a <? 0)).
    { unfold part, new_image. apply gen_ext. intros a b Ha Hb. assert (a <? 0 = false) as -> by lia. auto. }
    rewrite E0, down_ok by lia. cbn [bind].
    match goal with |- context [for_range 1 w ?bd ?st] =>
    destruct (for_range_ind (fun x '(hist, out) => hist = HS ch (fun c v => W (x - 1) (if x mod 2 =? 0 then 0 else h - 1) c v) /\ out = part (fun a b => a <? x)) 1 w bd st)
      as ((hist & out) & E & _ & ->) end; try lia.
    - split; auto.
    - intros x (hist & out) Hx (-> & ->).
      assert (PAR : (x + 1) mod 2 =? 0 = negb (x mod 2 =? 0)).
      { pose proof (Z.mod_pos_bound x 2 ltac:(lia)). assert (x mod 2 = 0 \/ x mod 2 = 1) as [M|M] by lia.
        - rewrite Z.add_mod, M by lia. reflexivity.
        - rewrite Z.add_mod, M by lia. reflexivity. }
      rewrite PAR. destruct (x mod 2 =? 0).
      + rewrite right_ok by lia. cbn [bind]. rewrite down_ok by lia. eexists; split; [reflexivity|]. split; auto.
        apply HS_ext. intros. cbn [negb]. f_equal. lia.
      + rewrite right_ok by lia. cbn [bind]. rewrite up_ok by lia. eexists; split; [reflexivity|]. split; auto.
        apply HS_ext. intros. cbn [negb]. f_equal. lia.
    - rewrite E. cbn [bind]. f_equal. unfold part. apply gen_ext. intros a b Ha Hb. assert (a <? w = true) as -> by lia. auto.
  Qed.
End Med.
