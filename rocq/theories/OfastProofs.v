From Coq Require Import Sorted Permutation.
From Verif Require Import Base BaseProofs RasterProofs CornerModel CornerSpec CornerProofs Float SuppressProofs LineProofs OfastModel OfastSpec.
Local Ltac Zify.zify_post_hook ::= idtac.

(** * Sorting *)
Lemma insert_perm a l : Permutation (insert_desc a l) (a :: l).
Proof.
  induction l as [|b l IH]; cbn [insert_desc]; [reflexivity|]. destruct (snd b <=? snd a); [reflexivity|].
  rewrite IH. apply perm_swap.
Qed.
Lemma sort_perm l : Permutation (sort_desc l) l.
Proof. induction l as [|a l IH]; cbn; [reflexivity|]. rewrite insert_perm. now rewrite IH. Qed.
Lemma insert_sorted a l : StronglySorted better l -> (forall b, In b l -> raster_before a b) -> StronglySorted better (insert_desc a l).
Proof.
  induction l as [|b l IH]; intros S R; cbn [insert_desc].
  - constructor; constructor.
  - inversion S as [|b' l' S' F]; subst. rewrite Forall_forall in F. destruct (snd b <=? snd a) eqn:E.
    + constructor; [exact S|]. rewrite Forall_forall. intros c [<- | Hc].
      * unfold better. destruct (Z.eq_dec (snd a) (snd b)); [right; split; [assumption|apply R; left; reflexivity]|left; lia].
      * pose proof (F c Hc) as B. unfold better in *. destruct (Z.eq_dec (snd a) (snd c)); [right; split; [assumption|apply R; right; assumption]|left; lia].
    + constructor; [apply IH; [exact S'|intros; apply R; right; assumption]|]. rewrite Forall_forall. intros c Hc.
      apply (Permutation_in _ (insert_perm a l)) in Hc. destruct Hc as [<- | Hc]; [left; lia|auto].
Qed.
Lemma sort_sorted l : StronglySorted raster_before l -> StronglySorted better (sort_desc l).
Proof.
  induction l as [|a l IH]; intros S; cbn; [constructor|]. inversion S as [|b' l' S' F]; subst. rewrite Forall_forall in F.
  apply insert_sorted; [auto|]. intros b Hb. apply F. exact (Permutation_in _ (sort_perm l) Hb).
Qed.
Lemma sorted_app {A} (R : A -> A -> Prop) l1 l2 : StronglySorted R (l1 ++ l2) ->
  StronglySorted R l1 /\ forall a b, In a l1 -> In b l2 -> R a b.
Proof.
  induction l1 as [|a l1 IH]; cbn [app]; intros S; [split; [constructor|intros ? ? []]|].
  inversion S as [|b' l' S' F]; subst. rewrite Forall_forall in F. destruct (IH S') as (S1 & H).
  split; [constructor; [exact S1|]; rewrite Forall_forall; intros; apply F, in_or_app; auto|].
  intros b c [<- | Hb] Hc; [apply F, in_or_app; auto|auto].
Qed.

(** * Corners in the margin *)
Lemma margin_ok im t e : wf im -> iw im < 2 ^ 32 -> ih im < 2 ^ 32 -> 0 <= t <= 255 -> 0 <= e ->
  exists l, margin_corners im t e = Ok l /\ StronglySorted raster_before l /\ forall c, In c l <-> scored_corner im t e c.
Proof.
  intros W W1 W2 Ht He. unfold margin_corners.
  pose (Q (y0 x0 : Z) (l : list (Z * Z * Z)) := StronglySorted raster_before l /\
    forall x y s, In (x, y, s) l <-> (y < y0 \/ y = y0 /\ x < x0) /\ scored_corner im t e (x, y, s)).
  destruct (Z_lt_dec e (ih im - e)) as [Hh|Hh].
  2: { rewrite for_range_empty by lia. exists []. split; [reflexivity|]. split; [constructor|]. intros [[x y] s]. unfold scored_corner, in_margin. cbn [In]. split; [tauto|]. intros (M & _). lia. }
  destruct (Z_lt_dec e (iw im - e)) as [Hw|Hw].
  2: { match goal with |- context [for_range e (ih im - e) ?b ?s] =>
      destruct (for_range_ind (fun _ l => l = []) e (ih im - e) b s) as (l & E & ->) end; [lia|reflexivity| |].
    - intros y l Hy ->. rewrite for_range_empty by lia. eauto.
    - exists []. split; [exact E|]. split; [constructor|]. intros [[x y] s]. unfold scored_corner, in_margin. cbn [In]. split; [tauto|]. intros (M & _). lia. }
  match goal with |- context [for_range e (ih im - e) ?b ?s] =>
    destruct (for_range_ind (fun y l => Q y e l) e (ih im - e) b s) as (l & E & S1 & S2) end; try lia.
  - split; [constructor|]. intros x y s. cbn [In]. unfold scored_corner, in_margin. split; [tauto|]. intros (H & M & _). lia.
  - intros y l Hy HQ.
    match goal with |- context [for_range e (iw im - e) ?b ?s] =>
      destruct (for_range_ind (fun x l => Q y x l) e (iw im - e) b s) as (l' & E & S1 & S2) end; try lia; [exact HQ| |].
    + intros x acc Hx (S1 & S2).
      destruct (is_corner_ok Nine im t x y W W1 W2 ltac:(lia)) as (b & Eb & Hb). cbn [is_corner] in Eb. rewrite Eb. cbn [bind]. destruct b.
      * destruct (score_corner Nine im t x y W W1 W2 Ht ltac:(now apply Hb)) as (s & -> & LT). cbn [bind].
        assert (C0 : fast_corner 9 im t x y) by (now apply Hb). change (largest_threshold (fun t => fast_corner 9 im t x y) t s) in LT.
        eexists. split; [reflexivity|]. split.
        { apply sorted_snoc; [exact S1|]. intros [[x' y'] s'] H. apply S2 in H. unfold raster_before. cbn [fst snd]. lia. }
        intros x' y' s'. rewrite in_app_iff. cbn [In]. rewrite S2. split.
        { intros [(H & H')|[H|[]]]; [split; [lia|exact H']|]. injection H as <- <- <-. split; [lia|]. split; [unfold in_margin; lia|]. split; [exact C0|exact LT]. }
        { intros (H & M & C & L). assert (D : (y' < y \/ y' = y /\ x' < x) \/ (y' = y /\ x' = x)) by lia.
          destruct D as [D|(-> & ->)]; [left; split; [exact D|]; split; [exact M|split; [exact C|exact L]]|]. right. left. now rewrite (largest_unique _ _ _ _ L LT). }
      * exists acc. split; [reflexivity|]. split; [exact S1|]. intros x' y' s'. rewrite S2. split.
        { intros (H & H'). split; [lia|exact H']. }
        { intros (H & M & C & L). split; [|split; [exact M|split; [exact C|exact L]]]. assert (D : (y' < y \/ y' = y /\ x' < x) \/ (y' = y /\ x' = x)) by lia.
          destruct D as [D|(-> & ->)]; [exact D|]. assert (false = true) by (now apply Hb). discriminate. }
    + exists l'. split; [exact E|]. split; [exact S1|]. intros x' y' s'. rewrite S2. unfold scored_corner, in_margin. split; intros (H & M & C & L); (split; [|split; [exact M|split; [exact C|exact L]]]); lia.
  - exists l. split; [exact E|]. split; [exact S1|]. intros [[x y] s]. rewrite S2. split; [tauto|]. intros H. split; [|exact H]. destruct H as (M & _). unfold in_margin in M. lia.
Qed.

Lemma best_ok im t e n l : StronglySorted raster_before l -> (forall c, In c l <-> scored_corner im t e c) -> 0 <= n ->
  best_corners im t e n (if zlen (sort_desc l) <? n then sort_desc l else firstn (Z.to_nat n) (sort_desc l)).
Proof.
  intros S C Hn. pose proof (sort_sorted l S) as SS. assert (IN : forall c, In c (sort_desc l) <-> scored_corner im t e c).
  { intros c. rewrite <- C. split; apply Permutation_in; [|symmetry]; apply sort_perm. }
  set (m := sort_desc l) in *. clearbody m. destruct (zlen m <? n) eqn:E.
  - split; [exact SS|]. split; [lia|]. split; [intros c; apply IN|]. intros c Hc. left. apply IN, Hc.
  - pose proof (firstn_skipn (Z.to_nat n) m) as FS. rewrite <- FS in SS. destruct (sorted_app _ _ _ SS) as (S1 & B).
    assert (L : zlen (firstn (Z.to_nat n) m) = n). { unfold zlen in *. rewrite firstn_length. lia. }
    split; [exact S1|]. split; [lia|]. split.
    + intros c Hc. apply IN. rewrite <- FS. apply in_or_app. auto.
    + intros c Hc. apply IN in Hc. rewrite <- FS in Hc. apply in_app_or in Hc. destruct Hc as [Hc|Hc]; [auto|]. right. split; [exact L|]. intros d Hd. auto.
Qed.

(** * Moments *)
Lemma weighted_loop (rd : Z -> res Z) (g : Z -> Z) (st : Z -> Z) d lo hi c0 s0 :
  lo <= hi <= lo + 31 -> Z.abs c0 <= 15 -> Z.abs d = 1 -> Z.abs s0 <= 31 * 31 * 46 * 255 -> (forall c, st c = c + d) ->
  (forall i, lo <= i < hi -> rd i = Ok (g i) /\ 0 <= g i <= 255) ->
  for_range lo hi (fun i '(s, c) => p <- rd i ;; m <- chk_i 32 (c * p) ;; s <- chk_i 32 (s + m) ;; c <- chk_i 32 (st c) ;; Ok (s, c)) (s0, c0)
  = Ok (s0 + zsum lo hi (fun i => (c0 + d * (i - lo)) * g i), c0 + d * (hi - lo)) /\
  Z.abs (zsum lo hi (fun i => (c0 + d * (i - lo)) * g i)) <= 31 * 46 * 255.
Proof.
  intros Hl Hc Hd Hs ST R.
  match goal with |- for_range lo hi ?b ?s = _ /\ _ =>
    destruct (for_range_ind (fun i p => p = (s0 + zsum lo i (fun i => (c0 + d * (i - lo)) * g i), c0 + d * (i - lo)) /\
      Z.abs (zsum lo i (fun i => (c0 + d * (i - lo)) * g i)) <= (i - lo) * 46 * 255) lo hi b s) as (p & E & -> & B) end.
  - lia.
  - rewrite zsum_empty by lia. split; [f_equal; lia|lia].
  - intros i p Hi (-> & B). destruct (R i Hi) as (-> & G). cbn [bind].
    assert (Bc : Z.abs (c0 + d * (i - lo)) <= 46) by nia. set (c := c0 + d * (i - lo)) in *.
    assert (Bm : Z.abs (c * g i) <= 46 * 255) by (rewrite Z.abs_mul; apply Z.mul_le_mono_nonneg; lia).
    rewrite chk_i_ok by lia. cbn [bind]. rewrite chk_i_ok by lia. cbn [bind]. rewrite chk_i_ok by (rewrite ST; lia). cbn [bind].
    eexists. split; [reflexivity|]. rewrite zsum_snoc by lia. fold c. split; [|lia].
    f_equal; [lia|]. rewrite ST. unfold c. lia.
  - split; [exact E|]. lia.
Qed.

Definition xmin (x : Z) := Z.max 0 (x - 15).
Definition xmax (w x : Z) := Z.min (x + 16) w.

Lemma outer_loop (rd : Z -> Z -> res Z) (g : Z -> Z -> Z) (st : Z -> Z) d lo hi lo' hi' c0 :
  lo <= hi <= lo + 31 -> lo' <= hi' <= lo' + 31 -> Z.abs c0 <= 15 -> Z.abs d = 1 -> (forall c, st c = c + d) ->
  (forall j i, lo' <= j < hi' -> lo <= i < hi -> rd j i = Ok (g j i) /\ 0 <= g j i <= 255) ->
  for_range lo' hi' (fun j s =>
    ' (s, _) <- for_range lo hi (fun i '(s, c) => p <- rd j i ;; m <- chk_i 32 (c * p) ;; s <- chk_i 32 (s + m) ;; c <- chk_i 32 (st c) ;; Ok (s, c)) (s, c0) ;;
    Ok s) 0
  = Ok (zsum lo' hi' (fun j => zsum lo hi (fun i => (c0 + d * (i - lo)) * g j i))).
Proof.
  intros Hl Hl' Hc Hd ST R.
  match goal with |- for_range lo' hi' ?b ?s1 = _ =>
    destruct (for_range_ind (fun j s => s = zsum lo' j (fun j => zsum lo hi (fun i => (c0 + d * (i - lo)) * g j i)) /\
      Z.abs s <= (j - lo') * (31 * 46 * 255)) lo' hi' b s1) as (p & E & -> & B) end.
  - lia.
  - rewrite zsum_empty by lia. lia.
  - intros j s Hj (Es & B). destruct (weighted_loop (rd j) (g j) st d lo hi c0 s Hl Hc Hd) as (-> & B'); auto; [lia|].
    cbn [bind]. eexists. split; [reflexivity|]. rewrite zsum_snoc by lia. rewrite <- Es. split; [reflexivity|lia].
  - exact E.
Qed.

Lemma moments_ok im x y : gray8 im -> 0 <= x < iw im -> 0 <= y < ih im -> iw im <= 2 ^ 32 - 17 -> ih im <= 2 ^ 32 - 17 ->
  intensity_moments im x y 15 = Ok
   (zsum (xmin y) (xmax (ih im) y) (fun b => zsum (xmin x) (xmax (iw im) x) (fun a => (a - xmin x - 15) * px0 im a b)),
    zsum (xmin x) (xmax (iw im) x) (fun a => zsum (xmin y) (xmax (ih im) y) (fun b => (15 - (b - xmin y)) * px0 im a b))).
Proof.
  intros (W & U) Hx Hy Bw Bh. unfold intensity_moments. rewrite !chk_u_ok by lia. cbn [bind]. rewrite !chk_u_ok by lia. cbn [bind].
  replace (y + 15 + 1) with (y + 16) by lia. replace (x + 15 + 1) with (x + 16) by lia.
  fold (xmin x) (xmin y) (xmax (iw im) x) (xmax (ih im) y).
  assert (PX : forall a b, xmin x <= a < xmax (iw im) x -> xmin y <= b < xmax (ih im) y -> get_pixel im a b = Ok (px0 im a b) /\ 0 <= px0 im a b <= 255).
  { intros a b Ha Hb. unfold xmin, xmax in *. destruct (get_some im a b W) as (v & G); [lia|lia|]. unfold px0. rewrite G. split; [now apply get_pixel_ok|exact (U _ _ _ G)]. }
  rewrite (outer_loop (fun b a => get_pixel im a b) (fun b a => px0 im a b) (fun c => c + 1) 1); try (unfold xmin, xmax; lia); [|intros; apply PX; assumption].
  cbn [bind].
  rewrite (outer_loop (fun a b => get_pixel im a b) (fun a b => px0 im a b) (fun c => c - 1) (-1)); try (unfold xmin, xmax; lia); [|intros; apply PX; assumption].
  cbn [bind]. f_equal. f_equal; apply zsum_ext; intros j Hj; apply zsum_ext; intros i Hi; f_equal; lia.
Qed.

Lemma zsum_widen lo hi lo' hi' f : lo' <= lo -> hi <= hi' -> (lo' < hi' -> lo <= hi) -> (forall i, lo' <= i < hi' -> ~ lo <= i < hi -> f i = 0) -> zsum lo hi f = zsum lo' hi' f.
Proof.
  intros H1 H2 H3 Z0. destruct (Z_lt_dec lo' hi') as [L|L].
  - specialize (H3 L). rewrite (zsum_split lo' lo hi') by lia. rewrite (zsum_split lo hi hi') by lia.
    rewrite (zsum_ext lo' lo f (fun _ => 0)) by (intros; apply Z0; lia). rewrite (zsum_ext hi hi' f (fun _ => 0)) by (intros; apply Z0; lia).
    rewrite !zsum_const by lia. lia.
  - rewrite !zsum_empty by lia. reflexivity.
Qed.

Lemma moments_exact im x y : gray8 im -> 15 <= x < iw im -> 15 <= y < ih im -> iw im <= 2 ^ 32 - 17 -> ih im <= 2 ^ 32 - 17 ->
  intensity_moments im x y 15 = Ok (moment_x im x y 15, - moment_y im x y 15).
Proof.
  intros G Hx Hy Bw Bh. rewrite moments_ok by (auto; lia). unfold moment_x, moment_y.
  assert (OUT : forall a b, ~ (0 <= a < iw im /\ 0 <= b < ih im) -> px0 im a b = 0).
  { intros a b H. unfold px0. destruct (get im a b) as [v|] eqn:E; [|reflexivity]. apply get_inb in E. lia. }
  f_equal. f_equal.
  - rewrite (zsum_widen (xmin y) (xmax (ih im) y) (y - 15) (y + 15 + 1)); try (unfold xmin, xmax; lia).
    + apply zsum_ext. intros b Hb. rewrite (zsum_widen (xmin x) (xmax (iw im) x) (x - 15) (x + 15 + 1)); try (unfold xmin, xmax; lia).
      * apply zsum_ext. intros a Ha. f_equal. unfold xmin. lia.
      * intros a Ha N. rewrite OUT; [lia|]. unfold xmin, xmax in N. lia.
    + intros b Hb N. rewrite (zsum_ext _ _ _ (fun _ => 0)); [rewrite zsum_const by (unfold xmin, xmax; lia); lia|]. intros a Ha. rewrite OUT; [lia|]. unfold xmin, xmax in *. lia.
  - rewrite (zsum_swap (xmin x)). replace (- zsum (y - 15) (y + 15 + 1) _) with (-1 * zsum (y - 15) (y + 15 + 1) (fun b => zsum (x - 15) (x + 15 + 1) (fun a => (b - y) * px0 im a b))) by lia.
    rewrite <- zsum_scal. rewrite (zsum_widen (xmin y) (xmax (ih im) y) (y - 15) (y + 15 + 1)); try (unfold xmin, xmax; lia).
    + apply zsum_ext. intros b Hb. rewrite <- zsum_scal. rewrite (zsum_widen (xmin x) (xmax (iw im) x) (x - 15) (x + 15 + 1)); try (unfold xmin, xmax; lia).
      * apply zsum_ext. intros a Ha. rewrite Z.mul_assoc. f_equal. unfold xmin. lia.
      * intros a Ha N. rewrite OUT; [lia|]. unfold xmin, xmax in N. lia.
    + intros b Hb N. rewrite (zsum_ext _ _ _ (fun _ => 0)); [rewrite zsum_const by (unfold xmin, xmax; lia); lia|]. intros a Ha. rewrite OUT; [lia|]. unfold xmin, xmax in *. lia.
Qed.
