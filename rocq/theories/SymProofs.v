From Verif Require Import Base BaseProofs RasterProofs FilterSpec GradientSpec DistanceModel DistanceSpec Props_Distance IntegralSpec MedianSpec SymSpec.
Local Ltac Zify.zify_post_hook ::= idtac.

(** the way back *)
Definition back (s : symmetry) (w h X Y : Z) : Z * Z :=
  let a := if transposed s then Y else X in
  let b := if transposed s then X else Y in
  (if mirror_x s then w - 1 - a else a, if mirror_y s then h - 1 - b else b).

Ltac cases s := unfold place, back in *; destruct s as [[|] [|] [|]]; cbn [transposed mirror_x mirror_y fst snd] in *.

Lemma place_back s w h X Y : place s w h (fst (back s w h X Y)) (snd (back s w h X Y)) = (X, Y).
Proof. cases s; f_equal; lia. Qed.
Lemma back_place s w h x y : back s w h (fst (place s w h x y)) (snd (place s w h x y)) = (x, y).
Proof. cases s; f_equal; lia. Qed.

Lemma get_in_range {B} (im : image B) x y p : get im x y = Some p -> 0 <= x < iw im /\ 0 <= y < ih im.
Proof. unfold get. destruct (inb im x y) eqn:I; [|discriminate]. unfold inb in I. intros _. lia. Qed.

Section Moved.
  Context {A : Type} (s : symmetry) (im im' : image A) (M : moved s im im').
  Let w := iw im. Let h := ih im.
  Lemma back_in X Y : 0 <= X < iw im' -> 0 <= Y < ih im' ->
    0 <= fst (back s w h X Y) < w /\ 0 <= snd (back s w h X Y) < h.
  Proof using M. destruct M as (_ & _ & E1 & E2 & _). unfold w, h. rewrite E1, E2. clear. cases s; lia. Qed.
  Lemma place_in x y : 0 <= x < w -> 0 <= y < h ->
    0 <= fst (place s w h x y) < iw im' /\ 0 <= snd (place s w h x y) < ih im'.
  Proof using M. destruct M as (_ & _ & E1 & E2 & _). rewrite E1, E2. unfold w, h. clear. cases s; lia. Qed.
  Lemma moved_back X Y : get im' X Y = get im (fst (back s w h X Y)) (snd (back s w h X Y)).
  Proof using M.
    pose proof M as (W & W' & E1 & E2 & H).
    assert (F : 0 <= X < iw im' -> 0 <= Y < ih im' -> get im' X Y = get im (fst (back s w h X Y)) (snd (back s w h X Y))).
    { intros HX HY. destruct (back_in X Y HX HY) as (B1 & B2). rewrite <- (H _ _ B1 B2).
      fold w h. now rewrite place_back. }
    destruct (get im' X Y) as [p|] eqn:E.
    - destruct (get_in_range im' X Y p E). now apply F.
    - destruct (get im (fst (back s w h X Y)) (snd (back s w h X Y))) as [q|] eqn:E'; [|reflexivity].
      destruct (get_in_range im _ _ q E') as (R1 & R2). destruct (place_in _ _ R1 R2) as (P1 & P2).
      rewrite place_back in P1, P2. cbn [fst snd] in P1, P2. exact (F P1 P2).
  Qed.
  Lemma moved_all P : all_px P im -> all_px P im'.
  Proof using M. intros H x y a E. rewrite moved_back in E. exact (H _ _ _ E). Qed.
End Moved.
Lemma moved_gray8 s im im' : moved s im im' -> gray8 im -> gray8 im'.
Proof. intros M (W & G). split; [apply M|]. exact (moved_all s im im' M _ G). Qed.

Lemma moved_gen {A} s w h w' h' (f f' : Z -> Z -> A) : 0 <= w -> 0 <= h ->
  w' = (if transposed s then h else w) -> h' = (if transposed s then w else h) ->
  (forall x y, 0 <= x < w -> 0 <= y < h -> f' (fst (place s w h x y)) (snd (place s w h x y)) = f x y) ->
  moved s (gen w h f) (gen w' h' f').
Proof.
  intros Hw Hh Ew Eh H. assert (0 <= w' /\ 0 <= h') by (rewrite Ew, Eh; destruct (transposed s); lia).
  split; [apply wf_gen; lia|]. split; [apply wf_gen; lia|]. cbn [iw ih gen]. split; [exact Ew|]. split; [exact Eh|].
  intros x y Hx Hy. rewrite (get_gen_in w h) by auto. rewrite <- (H x y Hx Hy). apply get_gen_in; rewrite ?Ew, ?Eh; cases s; lia.
Qed.

(** ** Distances *)
Lemma dist_place l s w h x1 y1 x2 y2 :
  dist l (fst (place s w h x1 y1)) (snd (place s w h x1 y1)) (fst (place s w h x2 y2)) (snd (place s w h x2 y2)) = dist l x1 y1 x2 y2.
Proof. unfold dist. destruct l; cases s; lia. Qed.

Section Dist.
  Context (s : symmetry) (im im' : image Z) (M : moved s im im').
  Let w := iw im. Let h := ih im.
  Lemma source_back from X Y : source from im' X Y <-> source from im (fst (back s w h X Y)) (snd (back s w h X Y)).
  Proof using M. destruct from; unfold source, is_fg, is_bg; now rewrite (moved_back s im im' M X Y). Qed.
  Lemma source_place from x y : source from im' (fst (place s w h x y)) (snd (place s w h x y)) <-> source from im x y.
  Proof using M. rewrite source_back, back_place. reflexivity. Qed.
  Lemma nearest_place l from x y m : nearest l (source from im) x y m ->
    nearest l (source from im') (fst (place s w h x y)) (snd (place s w h x y)) m.
  Proof using M.
    intros ((fx & fy & S & D) & L). split.
    - exists (fst (place s w h fx fy)), (snd (place s w h fx fy)). split; [now apply source_place|]. now rewrite dist_place.
    - intros X Y SX. apply source_back in SX. specialize (L _ _ SX).
      rewrite <- (dist_place l s w h) in L. now rewrite place_back in L.
  Qed.
  Lemma source_dec from (P : Prop) : wf im -> ((exists x y, source from im x y) -> P) -> ((forall x y, ~ source from im x y) -> P) -> P.
  Proof using.
    intros W H1 H2.
    set (t := fun v => match from with Foreground => negb (v =? 0) | Background => v =? 0 end).
    destruct (existsb t (idata im)) eqn:E.
    - apply H1. apply existsb_exists in E. destruct E as (v & I & T). destruct (In_get im v W I) as (x & y & G).
      exists x, y. unfold t in T. destruct from; cbn [source]; [exists v; split; [exact G|lia]|].
      unfold is_bg. rewrite G. f_equal. lia.
    - apply H2. intros x y S.
      assert (T : exists v, get im x y = Some v /\ t v = true).
      { unfold t. destruct from; cbn [source] in S; [destruct S as (v & G & N); exists v; split; [exact G|lia]|].
        exists 0. split; [exact S|reflexivity]. }
      destruct T as (v & G & T). apply get_In in G. rewrite <- not_true_iff_false in E. apply E. apply existsb_exists. eauto.
  Qed.
  Lemma dt_moved l from : gray8 im -> iw im + ih im < 2 ^ 32 -> both_moved s (dt_impl l from im) (dt_impl l from im').
  Proof using M.
    intros G B. pose proof M as (W & W' & E1 & E2 & _). pose proof (moved_gray8 s im im' M G) as G'.
    assert (S : iw im' + ih im' = iw im + ih im) by (rewrite E1, E2; destruct (transposed s); lia).
    destruct (dt_char l from im G B) as (o & Eo & Wo & Ow & Oh & H).
    destruct (dt_char l from im' G' ltac:(lia)) as (o' & Eo' & Wo' & Ow' & Oh' & H').
    exists o, o'. split; [exact Eo|]. split; [exact Eo'|].
    split; [exact Wo|]. split; [exact Wo'|]. rewrite Ow, Oh, Ow', Oh'. split; [exact E1|]. split; [exact E2|].
    intros x y Hx Hy. destruct (H x y Hx Hy) as (v & Gv & V1 & V2).
    destruct (place_in s im im' M x y Hx Hy) as (P1 & P2). destruct (H' _ _ P1 P2) as (v' & Gv' & V1' & V2').
    rewrite Gv, Gv'. f_equal.
    apply (source_dec from _ W).
    - intros (fx & fy & F). destruct (nearest_exists l from im x y fx fy F) as (m & Nm).
      rewrite (V2 m Nm). apply V2'. exact (nearest_place l from x y m Nm).
    - intros N. rewrite (V1 N). rewrite <- S. apply V1'. intros X Y F. apply source_back in F. exact (N _ _ F).
  Qed.
End Dist.
Lemma moved_map s f im im' : moved s im im' -> moved s (map_data f im) (map_data f im').
Proof.
  intros (W & W' & E1 & E2 & H).
  assert (V : forall i : image Z, wf i -> wf (map_data f i)).
  { intros i (A1 & A2 & A3). split; [exact A1|]. split; [exact A2|]. cbn [map_data idata iw ih]. rewrite zlen_map. exact A3. }
  split; [now apply V|]. split; [now apply V|]. split; [exact E1|]. split; [exact E2|].
  intros x y Hx Hy. cbn [map_data iw ih] in *. unfold map_data. rewrite !get_map_data. now rewrite H.
Qed.

(** ** Replicated borders *)
Lemma border_mirror n a : 0 < n -> border n (n - 1 - a) = n - 1 - border n a.
Proof. intros. unfold border, zclamp. lia. Qed.
Section Rep.
  Context (s : symmetry).
  Lemma border_back w h X Y : 0 < w -> 0 < h ->
    back s w h (border (if transposed s then h else w) X) (border (if transposed s then w else h) Y) =
    (border w (fst (back s w h X Y)), border h (snd (back s w h X Y))).
  Proof using. intros Hw Hh. cases s; rewrite ?border_mirror by lia; reflexivity. Qed.
  Lemma rep_back (im im' : image (list Z)) c X Y : moved s im im' -> 0 < iw im -> 0 < ih im ->
    rep_chan 0 im' c X Y = rep_chan 0 im c (fst (back s (iw im) (ih im) X Y)) (snd (back s (iw im) (ih im) X Y)).
  Proof using.
    intros M Hw Hh. pose proof M as (_ & _ & E1 & E2 & _). unfold rep_chan. rewrite E1, E2.
    rewrite (moved_back s im im' M). rewrite border_back by auto. reflexivity.
  Qed.
  Lemma gray_back (im im' : image Z) X Y : moved s im im' -> 0 < iw im -> 0 < ih im ->
    gray_rep im' X Y = gray_rep im (fst (back s (iw im) (ih im) X Y)) (snd (back s (iw im) (ih im) X Y)).
  Proof using.
    intros M Hw Hh. pose proof M as (_ & _ & E1 & E2 & _). unfold gray_rep. rewrite E1, E2.
    rewrite (moved_back s im im' M). rewrite border_back by auto. reflexivity.
  Qed.
End Rep.

Ltac near w x := repeat match goal with |- context [w - 1 - ?e] =>
  first [replace (w - 1 - e) with x by ring | replace (w - 1 - e) with (x - 1) by ring | replace (w - 1 - e) with (x + 1) by ring] end.

Lemma deriv_place s (im im' : image (list Z)) a b c x y : moved s im im' -> 0 < iw im -> 0 < ih im ->
  let X := fst (place s (iw im) (ih im) x y) in let Y := snd (place s (iw im) (ih im) x y) in
  deriv_x a b im' c X Y ^ 2 + deriv_y a b im' c X Y ^ 2 = deriv_x a b im c x y ^ 2 + deriv_y a b im c x y ^ 2.
Proof.
  intros M Hw Hh X Y. unfold X, Y, deriv_x, deriv_y, px_rep. clear X Y.
  rewrite !(rep_back s im im' c _ _ M Hw Hh). clear M. generalize (rep_chan 0 im c). intros R.
  generalize dependent (iw im). intros w Hw. generalize dependent (ih im). intros h Hh.
  cases s; near w x; near h y; ring.
Qed.

(** ** Sums over windows *)
Lemma zsum_mirror lo hi k f : zsum lo hi (fun i => f (k - i)) = zsum (k - hi + 1) (k - lo + 1) f.
Proof.
  destruct (Z_le_dec hi lo) as [L|L].
  { rewrite !zsum_empty by lia. reflexivity. }
  assert (G : forall n lo, 0 <= n -> zsum lo (lo + n) (fun i => f (k - i)) = zsum (k - (lo + n) + 1) (k - lo + 1) f).
  { intros n lo0 Hn. revert lo0. pattern n. apply natlike_ind; [| |exact Hn].
    - intros l0. rewrite !zsum_empty by lia. reflexivity.
    - intros m Hm IH l0. replace (l0 + Z.succ m) with ((l0 + m) + 1) by lia. rewrite zsum_snoc by lia. rewrite IH.
      rewrite (zsum_cons (k - (l0 + m + 1) + 1)) by lia.
      replace (k - (l0 + m + 1) + 1 + 1) with (k - (l0 + m) + 1) by lia.
      replace (k - (l0 + m + 1) + 1) with (k - (l0 + m)) by lia. ring. }
  specialize (G (hi - lo) lo ltac:(lia)). now replace (lo + (hi - lo)) with hi in G by lia.
Qed.
Lemma window_mirror n x r f : zsum (n - 1 - x - r) (n - 1 - x + r + 1) (fun a => f (n - 1 - a)) = zsum (x - r) (x + r + 1) f.
Proof. rewrite (zsum_mirror _ _ (n - 1)). f_equal; lia. Qed.

Definition turned (s : symmetry) (rx ry : Z) : Z * Z := if transposed s then (ry, rx) else (rx, ry).
Lemma window_sum s w h rx ry x y (R : Z -> Z -> Z) :
  let X := fst (place s w h x y) in let Y := snd (place s w h x y) in
  let rX := fst (turned s rx ry) in let rY := snd (turned s rx ry) in
  zsum (X - rX) (X + rX + 1) (fun a => zsum (Y - rY) (Y + rY + 1) (fun b => R (fst (back s w h a b)) (snd (back s w h a b)))) =
  zsum (x - rx) (x + rx + 1) (fun a => zsum (y - ry) (y + ry + 1) (fun b => R a b)).
Proof.
  intros X Y rX rY. unfold X, Y, rX, rY, turned. clear X Y rX rY.
  cases s.
  - rewrite zsum_swap. rewrite (window_mirror w x rx (fun p => zsum (h - 1 - y - ry) (h - 1 - y + ry + 1) (fun b => R p (h - 1 - b)))).
    apply zsum_ext. intros i _. apply (window_mirror h y ry (fun q => R i q)).
  - rewrite zsum_swap. apply (window_mirror w x rx (fun p => zsum (y - ry) (y + ry + 1) (fun b => R p b))).
  - rewrite zsum_swap. apply zsum_ext. intros i _. apply (window_mirror h y ry (fun q => R i q)).
  - apply zsum_swap.
  - rewrite (window_mirror w x rx (fun p => zsum (h - 1 - y - ry) (h - 1 - y + ry + 1) (fun b => R p (h - 1 - b)))).
    apply zsum_ext. intros i _. apply (window_mirror h y ry (fun q => R i q)).
  - apply (window_mirror w x rx (fun p => zsum (y - ry) (y + ry + 1) (fun b => R p b))).
  - apply zsum_ext. intros i _. apply (window_mirror h y ry (fun q => R i q)).
  - reflexivity.
Qed.
Lemma window_count_place s (im im' : image (list Z)) rx ry x y c v : moved s im im' -> 0 < iw im -> 0 < ih im ->
  window_count im' (fst (turned s rx ry)) (snd (turned s rx ry)) (fst (place s (iw im) (ih im) x y)) (snd (place s (iw im) (ih im) x y)) c v =
  window_count im rx ry x y c v.
Proof.
  intros M Hw Hh. unfold window_count.
  rewrite <- (window_sum s (iw im) (ih im) rx ry x y (fun a b => if rep_chan 0 im c a b =? v then 1 else 0)).
  apply zsum_ext. intros a _. apply zsum_ext. intros b _. now rewrite (rep_back s im im' c a b M Hw Hh).
Qed.
(** without an exchange of axes, the mean of means as well *)
Lemma box_mean_place s (im im' : image Z) rx ry x y : upright s -> moved s im im' -> 0 < iw im -> 0 < ih im ->
  box_mean im' rx ry (fst (place s (iw im) (ih im) x y)) (snd (place s (iw im) (ih im) x y)) = box_mean im rx ry x y.
Proof.
  intros U M Hw Hh. unfold box_mean. f_equal.
  assert (RM : forall X Y, row_mean im' rx X Y = row_mean im rx (fst (back s (iw im) (ih im) X Y)) (snd (back s (iw im) (ih im) X Y))).
  { intros X Y. unfold row_mean. f_equal.
    rewrite (zsum_ext _ _ (fun i => gray_rep im' i Y) (fun i => gray_rep im (fst (back s (iw im) (ih im) i Y)) (snd (back s (iw im) (ih im) i Y))))
      by (intros; now apply gray_back).
    clear M. unfold upright in U. cases s; try discriminate; try reflexivity.
    - rewrite <- (window_mirror (iw im) (iw im - 1 - X) rx (fun p => gray_rep im p (ih im - 1 - Y))).
      f_equal; lia.
    - rewrite <- (window_mirror (iw im) (iw im - 1 - X) rx (fun p => gray_rep im p Y)). f_equal; lia. }
  rewrite (zsum_ext _ _ _ (fun j => row_mean im rx (fst (back s (iw im) (ih im) (fst (place s (iw im) (ih im) x y)) j)) (snd (back s (iw im) (ih im) (fst (place s (iw im) (ih im) x y)) j))))
    by (intros; now apply RM).
  clear M RM. unfold upright in U. cases s; try discriminate.
  - rewrite <- (window_mirror (ih im) y ry (fun q => row_mean im rx x q)). apply zsum_ext. intros i _. f_equal. lia.
  - apply zsum_ext. intros i _. f_equal. lia.
  - rewrite <- (window_mirror (ih im) y ry (fun q => row_mean im rx x q)). reflexivity.
  - reflexivity.
Qed.
