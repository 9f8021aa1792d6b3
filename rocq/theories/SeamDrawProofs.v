From Verif Require Import Base BaseProofs RasterProofs SuppressProofs PolygonProofs SeamModel SeamSpec SeamProofs.
Local Ltac Zify.zify_post_hook ::= idtac.

(** ** Columns deleted from one row *)
Definition del (c : Z) (l : list Z) : list Z := firstn (Z.to_nat c) l ++ skipn (Z.to_nat c + 1) l.
Fixpoint remaining (l cols : list Z) : list Z :=
  match cols with [] => l | c :: cs => remaining (del c l) cs end.

Lemma znth_nth_error {A} (l : list A) i : 0 <= i -> znth l i = nth_error l (Z.to_nat i).
Proof. intros H. unfold znth. destruct (Z.leb_spec 0 i); [reflexivity|lia]. Qed.
Lemma nth_error_skipn' {A} (l : list A) n i : nth_error (skipn n l) i = nth_error l (n + i).
Proof. revert l; induction n as [|n IH]; intros l; [reflexivity|]. destruct l; cbn; [destruct i; reflexivity|apply IH]. Qed.
Lemma nth_error_firstn' {A} (l : list A) n i : (i < n)%nat -> nth_error (firstn n l) i = nth_error l i.
Proof. revert l i; induction n as [|n IH]; intros l i H; [lia|]. destruct l; [reflexivity|]. destruct i; [reflexivity|]. cbn. apply IH. lia. Qed.
Lemma znth_del l c i : 0 <= c < zlen l -> 0 <= i -> znth (del c l) i = znth l (if i <? c then i else i + 1).
Proof.
  intros Hc Hi. unfold del. assert (LF : length (firstn (Z.to_nat c) l) = Z.to_nat c) by (apply firstn_length_le; unfold zlen in *; lia).
  destruct (Z.ltb_spec i c).
  - rewrite !znth_nth_error by lia. rewrite nth_error_app1 by lia. apply nth_error_firstn'. lia.
  - rewrite !znth_nth_error by lia. rewrite nth_error_app2 by lia. rewrite nth_error_skipn'. f_equal. lia.
Qed.
Lemma zlen_del l c : 0 <= c < zlen l -> zlen (del c l) = zlen l - 1.
Proof. intros H. unfold del, zlen in *. rewrite app_length, firstn_length, skipn_length. lia. Qed.

(** [l]: original columns left, [r]: original columns deleted so far, width w *)
Definition row_inv (w : Z) (l r : list Z) : Prop :=
  zlen l = w - zlen r /\
  (forall i p, 0 <= i -> znth l i = Some p -> 0 <= p < w) /\
  (forall i j p q, 0 <= i < j -> znth l i = Some p -> znth l j = Some q -> p < q) /\
  (forall i p, 0 <= i -> znth l i = Some p -> i + Z.of_nat (cnt_lt p r) = p).

Lemma cnt_lt_snoc x r q : Z.of_nat (cnt_lt x (r ++ [q])) = Z.of_nat (cnt_lt x r) + (if q <? x then 1 else 0).
Proof.
  unfold cnt_lt. rewrite filter_app, app_length. cbn [filter]. destruct (q <? x); cbn [length]; lia.
Qed.

Lemma row_inv_init w : 0 <= w -> row_inv w (zrange 0 w) [].
Proof.
  intros Hw. unfold row_inv. assert (Z0 : forall i p, 0 <= i -> znth (zrange 0 w) i = Some p -> p = i /\ i < w).
  { intros i p Hi H. pose proof (znth_range _ _ _ H) as R. rewrite zlen_zrange in R by lia.
    rewrite znth_zrange in H by lia. inversion H. lia. }
  splits.
  - rewrite zlen_zrange by lia. change (zlen (@nil Z)) with 0. lia.
  - intros i p Hi H. apply Z0 in H; lia.
  - intros i j p q Hi H1 H2. apply Z0 in H1, H2; lia.
  - intros i p Hi H. apply Z0 in H; [|lia]. change (cnt_lt p []) with O. lia.
Qed.

Lemma row_inv_step w l r c q : row_inv w l r -> 0 <= c -> znth l c = Some q -> row_inv w (del c l) (r ++ [q]).
Proof.
  intros (H1 & H2 & H3 & H4) Hc Hq. pose proof (znth_range _ _ _ Hq) as R.
  unfold row_inv. splits.
  - rewrite zlen_del, zlen_app by lia. change (zlen [q]) with 1. lia.
  - intros i p Hi. rewrite znth_del by lia. destruct (i <? c); apply H2; lia.
  - intros i j p p' Hij. rewrite !znth_del by lia.
    destruct (Z.ltb_spec i c), (Z.ltb_spec j c); apply H3; lia.
  - intros i p Hi. rewrite znth_del by lia. rewrite cnt_lt_snoc. destruct (Z.ltb_spec i c) as [L|L]; intros E.
    + specialize (H4 i p Hi E). assert (p < q) by (apply (H3 i c); auto; lia).
      rewrite (proj2 (Z.ltb_ge q p)) by lia. lia.
    + specialize (H4 (i + 1) p ltac:(lia) E). assert (q < p) by (apply (H3 c (i + 1)); auto; lia).
      rewrite (proj2 (Z.ltb_lt q p)) by lia. lia.
Qed.

(** every column is in range at its time *)
Fixpoint cols_ok (w : Z) (cols : list Z) : Prop :=
  match cols with [] => True | c :: cs => 0 <= c < w /\ cols_ok (w - 1) cs end.

Lemma removed_step : forall cols l c, cols_ok (zlen l) cols -> 0 <= c < zlen l - zlen cols ->
  exists q, znth (remaining l cols) c = Some q /\
    removed_columns l (cols ++ [c]) = removed_columns l cols ++ [q] /\ remaining l (cols ++ [c]) = del c (remaining l cols).
Proof.
  induction cols as [|d cols IH]; intros l c Hok Hc.
  - change (zlen (@nil Z)) with 0 in Hc. destruct (znth_some l c) as (q & Eq); [lia|]. exists q.
    cbn [remaining removed_columns app]. rewrite Eq. splits; auto.
  - cbn [cols_ok] in Hok. destruct Hok as (Hd & Hok). rewrite zlen_cons in Hc.
    destruct (znth_some l d) as (o & Eo); [lia|].
    rewrite <- (zlen_del l d) in Hok by lia. pose proof (zlen_nonneg cols).
    destruct (IH (del d l) c Hok) as (q & E1 & E2 & E3); [rewrite zlen_del by lia; lia|].
    exists q. cbn [remaining removed_columns app]. rewrite Eo. fold (del d l). splits; auto. rewrite E2. reflexivity.
Qed.

Lemma cols_ok_app w a c : cols_ok w (a ++ [c]) <-> cols_ok w a /\ 0 <= c < w - zlen a.
Proof.
  revert w; induction a as [|d a IH]; intros w; cbn [cols_ok app].
  - change (zlen (@nil Z)) with 0. rewrite Z.sub_0_r. tauto.
  - rewrite IH, zlen_cons. intuition lia.
Qed.

Lemma row_inv_all w cols : 0 <= w -> cols_ok w cols ->
  row_inv w (remaining (zrange 0 w) cols) (removed_columns (zrange 0 w) cols) /\
  zlen (removed_columns (zrange 0 w) cols) = zlen cols.
Proof.
  intros Hw. induction cols as [|c cols IH] using rev_ind; intros H.
  - split; [apply row_inv_init; auto|reflexivity].
  - apply cols_ok_app in H as (H & Hc). destruct (IH H) as (I1 & I2).
    destruct (removed_step cols (zrange 0 w) c) as (q & E1 & E2 & E3); [rewrite zlen_zrange by lia; replace (Z.max 0 (w - 0)) with w by lia; replace (Z.max 0 w) with w by lia; auto|rewrite zlen_zrange by lia; lia|].
    rewrite E2, E3. split; [apply row_inv_step; auto; lia|]. rewrite !zlen_app, I2. reflexivity.
Qed.

(** ** The code's guess of the original column *)
Lemma count_ok r : forall x a, 0 <= a -> a + zlen r < 2 ^ 32 ->
  for_each r (fun o xo => if o <? x then chk_u 32 (xo + 1) else Ok xo) a = Ok (a + Z.of_nat (cnt_lt x r)).
Proof.
  induction r as [|o r IH]; intros x a Ha Hb; cbn [for_each].
  - change (cnt_lt x []) with O. f_equal. lia.
  - rewrite zlen_cons in Hb. pose proof (zlen_nonneg r). unfold cnt_lt. cbn [filter]. fold (cnt_lt x r).
    destruct (o <? x).
    + rewrite chk_u_ok by lia. cbn [bind length]. rewrite IH by lia. unfold cnt_lt. f_equal. lia.
    + cbn [bind]. rewrite IH by lia. reflexivity.
Qed.
Lemma cnt_same x p r : x <= p -> (forall o, In o r -> ~ (x <= o < p)) -> cnt_lt x r = cnt_lt p r.
Proof.
  intros Hp H. unfold cnt_lt. f_equal. apply filter_ext_in. intros o Ho. specialize (H o Ho).
  apply eq_iff_eq_true. rewrite !Z.ltb_lt. lia.
Qed.

(** ** draw_vertical_seams *)
Definition seams_fit (w h : Z) (seams : list (list Z)) : Prop :=
  forall done s rest, seams = done ++ s :: rest ->
    zlen s = h /\ forall y, 0 <= y < h -> 0 <= seam_at s h y < w - zlen done.
Definition no_confusion (w h : Z) (seams : list (list Z)) : Prop :=
  forall done s rest y p, seams = done ++ s :: rest -> 0 <= y < h ->
    removed_in_row w h (done ++ [s]) y = removed_in_row w h done y ++ [p] ->
    forall o, In o (removed_in_row w h done y) -> ~ (seam_at s h y <= o < p).

Lemma fit_cols w h seams y : 0 <= y < h -> seams_fit w h seams -> cols_ok w (map (fun s => seam_at s h y) seams).
Proof.
  intros Hy. induction seams as [|s seams IH] using rev_ind; intros F; [exact I|].
  rewrite map_app. cbn [map]. apply cols_ok_app. split.
  - apply IH. intros done t rest E. apply (F done t (rest ++ [s])). rewrite E, <- app_assoc. reflexivity.
  - rewrite zlen_map. apply (F seams s []); auto.
Qed.

Lemma combine_rows h s : 0 <= h -> zlen s = h ->
  combine (rev (zrange 0 h)) s = map (fun y => (y, seam_at s h y)) (rev (zrange 0 h)).
Proof.
  intros Hh Hl.
  assert (G : forall n (l : list Z), (length l <= n)%nat -> forall t, zlen t = zlen l ->
     (forall i y, znth l i = Some y -> exists x, znth t i = Some x /\ seam_at s h y = x) ->
     combine l t = map (fun y => (y, seam_at s h y)) l).
  { induction n as [|n IH]; intros l Hn t Ht H; destruct l as [|y l]; try reflexivity; [cbn in Hn; lia|].
    destruct t as [|x t]; [rewrite zlen_cons in Ht; pose proof (zlen_nonneg l); change (zlen (@nil Z)) with 0 in Ht; lia|].
    cbn [combine map]. f_equal.
    - destruct (H 0 y) as (x' & E & <-); [apply znth_cons_0|]. rewrite znth_cons_0 in E. inversion E. reflexivity.
    - apply IH; [cbn in Hn; lia|rewrite !zlen_cons in Ht; lia|].
      intros i y' Hi. pose proof (znth_range _ _ _ Hi). destruct (H (i + 1) y') as (x' & E & E').
      + rewrite znth_cons_S by lia. rewrite Z.add_simpl_r. exact Hi.
      + rewrite znth_cons_S in E by lia. rewrite Z.add_simpl_r in E. exists x'. auto. }
  assert (LR : length (rev (zrange 0 h)) = Z.to_nat h) by (rewrite rev_length, zrange_length; f_equal; lia).
  apply (G (length (rev (zrange 0 h)))); auto.
  - unfold zlen in *. rewrite LR. lia.
  - intros i y Hi. pose proof (znth_range _ _ _ Hi) as R. unfold zlen in R. rewrite LR in R.
    assert (y = h - 1 - i) as ->.
    { rewrite znth_nth_error in Hi by lia.
      apply nth_error_nth with (d := 0) in Hi. rewrite rev_nth in Hi by (rewrite zrange_length; lia).
      rewrite zrange_length in Hi. pose proof (znth_zrange 0 h (h - 1 - i) ltac:(lia)) as Hz.
      rewrite znth_nth_error in Hz by lia. apply nth_error_nth with (d := 0) in Hz.
      replace (Z.to_nat (h - 0) - S (Z.to_nat i))%nat with (Z.to_nat (h - 1 - i)) in Hi by lia. lia. }
    destruct (znth_some s i) as (x & Ex); [lia|]. exists x. split; auto. unfold seam_at.
    replace (h - 1 - (h - 1 - i)) with i by lia. rewrite Ex. reflexivity.
Qed.

Lemma for_each_map {X Y S} (g : X -> Y) (l : list X) (body : Y -> S -> res S) s :
  for_each (map g l) body s = for_each l (fun x => body (g x)) s.
Proof. revert s. induction l as [|x l IH]; intros s; [reflexivity|]. cbn [map for_each]. destruct (body (g x) s); cbn [bind]; auto. Qed.

Definition inlb (x : Z) (l : list Z) : bool := existsb (Z.eqb x) l.
Lemma inlb_In x l : inlb x l = true <-> In x l.
Proof.
  unfold inlb. rewrite existsb_exists. split.
  - intros (y & Hy & E). apply Z.eqb_eq in E. subst. auto.
  - intros H. exists x. split; auto. apply Z.eqb_refl.
Qed.
Lemma inlb_app x l q : inlb x (l ++ [q]) = inlb x l || (x =? q).
Proof. unfold inlb. rewrite existsb_app. cbn. rewrite orb_false_r. reflexivity. Qed.

Section Draw.
  Variables (im : image Z).
  Hypothesis (W : wf im) (Hw : iw im < 2 ^ 31).
  Local Notation w := (iw im).
  Local Notation h := (ih im).
  (** the picture in which the columns R y of row y are red *)
  Definition painted (R : Z -> list Z) (out : image (list Z)) : Prop :=
    wf out /\ iw out = w /\ ih out = h /\
    forall x y v, 0 <= x < w -> 0 <= y < h -> get im x y = Some v ->
      get out x y = Some (if inlb x (R y) then [255; 0; 0] else [v; v; v]).

  Lemma draw_row R out offs y x p : painted R out -> 0 <= y < h ->
    zlen offs = h -> znth offs y = Some (R y) -> zlen (R y) < 2 ^ 31 -> 0 <= x < w ->
    x + Z.of_nat (cnt_lt x (R y)) = p -> 0 <= p < w ->
    exists out' offs', draw_seam_px y x (out, offs) = Ok (out', offs') /\
      zlen offs' = h /\ (forall y', 0 <= y' < h -> znth offs' y' = if y' =? y then Some (R y ++ [p]) else znth offs y') /\
      painted (fun y' => if y' =? y then R y ++ [p] else R y') out'.
  Proof.
    intros (Wo & Ew & Eh & G) Hy Hl Ho HR Hx Ep Hp. unfold draw_seam_px.
    apply vget_ok in Ho. rewrite Ho. cbn [bind]. rewrite count_ok by lia. cbn [bind]. rewrite Ep.
    rewrite put_pixel_ok by lia. cbn [bind]. rewrite vset_ok by lia. cbn [bind].
    eexists _, _. split; [reflexivity|]. split; [rewrite zupd_zlen; auto|]. split.
    - intros y' Hy'. rewrite znth_zupd by lia. reflexivity.
    - unfold painted. splits; [apply wf_put; auto|rewrite iw_put; auto|rewrite ih_put; auto|].
      intros a b v Ha Hb Hv. rewrite get_put by (auto; lia). destruct (Z.eqb_spec b y) as [->|]; [|rewrite andb_false_r; apply G; auto].
      rewrite andb_true_r. rewrite inlb_app. destruct (Z.eqb_spec a p) as [->|]; [rewrite orb_true_r; reflexivity|].
      rewrite orb_false_r. apply G; auto.
  Qed.

  Lemma for_each_rev_range {S} (body : Z -> S -> res S) (P : Z -> S -> Prop) n s : 0 <= n -> P n s ->
    (forall i s, 0 <= i < n -> P (i + 1) s -> exists s', body i s = Ok s' /\ P i s') ->
    exists s', for_each (rev (zrange 0 n)) body s = Ok s' /\ P 0 s'.
  Proof.
    intros Hn. revert n Hn s.
    refine (natlike_ind _ _ _).
    - intros s HP _. exists s. split; auto.
    - intros k Hk IH s HP Hs. unfold Z.succ in *. rewrite zrange_snoc by lia. rewrite rev_app_distr. cbn [rev app for_each].
      destruct (Hs k s) as (s1 & -> & P1); [lia|auto|]. cbn [bind]. apply IH; auto. intros; apply Hs; auto; lia.
  Qed.

  Lemma draw_ok seams : seams_fit w h seams -> no_confusion w h seams ->
    exists out, draw_vertical_seams im seams = Ok out /\ painted (removed_in_row w h seams) out.
  Proof.
    intros F N. pose proof W as (W1 & W2 & W3). unfold draw_vertical_seams.
    destruct (for_each_ind (fun done (st : image (list Z) * list (list Z)) =>
       painted (removed_in_row w h done) (fst st) /\ zlen (snd st) = h /\
       forall y, 0 <= y < h -> znth (snd st) y = Some (removed_in_row w h done y)) seams
       (fun seam st => for_each (combine (rev (zrange 0 h)) seam) (fun '(y, x) st => draw_seam_px y x st) st)
       (mkImage w h (map (fun v => [v; v; v]) (idata im)), map (fun _ => []) (zrange 0 h)))
       as ((out & offs) & -> & (P & _)).
    - cbn [fst snd]. splits.
      + unfold painted. splits; [apply wf_map_data; auto|reflexivity|reflexivity|].
        intros x y v Hx Hy Hv. rewrite get_map_data, Hv. reflexivity.
      + rewrite zlen_map, zlen_zrange by lia. lia.
      + intros y Hy. rewrite znth_map, znth_zrange by lia. reflexivity.
    - intros done s rest (out & offs) E (P & Hl & Ho). cbn [fst snd] in *.
      destruct (F done s rest E) as (Hs & Hx). rewrite combine_rows by auto. rewrite for_each_map.
      pose proof (zlen_nonneg done).
      assert (FD : seams_fit w h done).
      { intros d' s' r' E'. apply (F d' s' (r' ++ s :: rest)). rewrite E, E', <- app_assoc. reflexivity. }
      assert (STEP : forall y, 0 <= y < h -> exists p, removed_in_row w h (done ++ [s]) y = removed_in_row w h done y ++ [p] /\
         seam_at s h y + Z.of_nat (cnt_lt (seam_at s h y) (removed_in_row w h done y)) = p /\ 0 <= p < w /\
         zlen (removed_in_row w h done y) = zlen done).
      { intros y Hy. specialize (Hx y Hy). pose proof (fit_cols w h done y Hy FD) as CK.
        destruct (row_inv_all w _ W1 CK) as (RI & RL). rewrite zlen_map in RL.
        destruct (removed_step (map (fun s => seam_at s h y) done) (zrange 0 w) (seam_at s h y)) as (q & E1 & E2 & E3).
        { rewrite zlen_zrange by lia. replace (Z.max 0 (w - 0)) with w by lia. auto. }
        { rewrite zlen_zrange, zlen_map by lia. lia. }
        exists q. assert (ER : removed_in_row w h (done ++ [s]) y = removed_in_row w h done y ++ [q]).
        { unfold removed_in_row. rewrite map_app. exact E2. }
        destruct RI as (_ & RB & _ & RC). specialize (RC (seam_at s h y) q ltac:(lia) E1). specialize (RB (seam_at s h y) q ltac:(lia) E1).
        fold (removed_in_row w h done y) in RC, RL. splits; auto; try lia.
        rewrite (cnt_same _ q); [lia|lia|]. apply (N done s rest y q E Hy ER). }
      match goal with |- context [for_each _ ?b _] => set (body := b) end.
      destruct (for_each_rev_range body (fun i (st : image (list Z) * list (list Z)) =>
        painted (fun y => if i <=? y then removed_in_row w h (done ++ [s]) y else removed_in_row w h done y) (fst st) /\ zlen (snd st) = h /\
        forall y, 0 <= y < h -> znth (snd st) y = Some (if i <=? y then removed_in_row w h (done ++ [s]) y else removed_in_row w h done y))
        h (out, offs)) as ((out1 & offs1) & E1 & (P1 & L1 & O1)); auto.
      + cbn [fst snd]. splits; auto.
        * destruct P as (Q1 & Q2 & Q3 & Q4). unfold painted; splits; auto. intros x y v Hx' Hy Hv.
          rewrite (proj2 (Z.leb_gt h y)) by lia. apply Q4; auto.
        * intros y Hy. rewrite (proj2 (Z.leb_gt h y)) by lia. apply Ho; auto.
      + intros i (o & of) Hi (PP & LL & OO). cbn [fst snd] in *. unfold body.
        destruct (STEP i Hi) as (p & ER & EP & HP & HL). specialize (Hx i Hi).
        set (R := fun y => if i + 1 <=? y then removed_in_row w h (done ++ [s]) y else removed_in_row w h done y) in *.
        assert (ERi : R i = removed_in_row w h done i) by (unfold R; rewrite (proj2 (Z.leb_gt (i + 1) i)) by lia; reflexivity).
        destruct (draw_row R o of i (seam_at s h i) p) as (o' & of' & Eo & L' & O' & P'); auto; try (rewrite ERi; auto; lia); try lia.
        { apply OO. auto. }
        rewrite Eo. exists (o', of'). split; [reflexivity|]. cbn [fst snd].
        assert (EQ : forall y, (if y =? i then R i ++ [p] else R y) =
           if i <=? y then removed_in_row w h (done ++ [s]) y else removed_in_row w h done y).
        { intros y. unfold R at 2. destruct (Z.eqb_spec y i) as [->|].
          - rewrite (proj2 (Z.leb_le i i)) by lia. rewrite ERi, ER. reflexivity.
          - assert ((i + 1 <=? y) = (i <=? y)) as -> by (apply eq_iff_eq_true; rewrite !Z.leb_le; lia). reflexivity. }
        splits; auto.
        * destruct P' as (Q1 & Q2 & Q3 & Q4). unfold painted; splits; auto. intros x y v Hx' Hy Hv.
          rewrite <- EQ. apply Q4; auto.
        * intros y Hy. rewrite O' by auto. rewrite <- EQ. destruct (y =? i); [reflexivity|]. apply OO; auto.
      + exists (out1, offs1). split; [exact E1|]. cbn [fst snd] in *. splits; auto.
        * destruct P1 as (Q1 & Q2 & Q3 & Q4). unfold painted; splits; auto. intros x y v Hx' Hy Hv.
          specialize (Q4 x y v Hx' Hy Hv). rewrite (proj2 (Z.leb_le 0 y)) in Q4 by lia. exact Q4.
        * intros y Hy. specialize (O1 y Hy). rewrite (proj2 (Z.leb_le 0 y)) in O1 by lia. exact O1.
    - cbn [bind fst] in *. exists out. auto.
  Qed.
End Draw.
