From Verif Require Import Base BaseProofs RasterProofs IntegralSpec StatsSpec StatsModel Props_Stats CornerModel CornerSpec CornerProofs Props_Corner SymSpec SymProofs.
Local Ltac Zify.zify_post_hook ::= idtac.

(** ** Histograms do not see positions *)
Lemma filter_rows {A} (t : A -> bool) (f : Z -> Z -> A) xs ys :
  zlen (filter t (flat_map (fun y => map (fun x => f x y) xs) ys)) =
  fold_right (fun y acc => fold_right (fun x acc => (if t (f x y) then 1 else 0) + acc) 0 xs + acc) 0 ys.
Proof.
  induction ys as [|y ys IH]; [reflexivity|]. cbn [flat_map fold_right]. rewrite filter_app, zlen_app, IH. f_equal.
  clear IH. induction xs as [|x xs IHx]; [reflexivity|]. cbn [map filter fold_right]. destruct (t (f x y)); rewrite ?zlen_cons; lia.
Qed.
Definition hit {A} (t : A -> bool) (o : option A) : bool := match o with Some p => t p | None => false end.
Lemma count_get {A} (im : image A) t : wf im ->
  zlen (filter t (idata im)) = zsum 0 (ih im) (fun y => zsum 0 (iw im) (fun x => if hit t (get im x y) then 1 else 0)).
Proof.
  intros W. pose proof W as (Hw & Hh & _).
  assert (E : mkImage (iw im) (ih im) (map (fun p => Some p) (idata im)) = gen (iw im) (ih im) (fun x y => get im x y)).
  { apply image_ext; [now apply wf_map_data|apply wf_gen; auto|reflexivity|reflexivity|].
    cbn [iw ih]. intros x y Hx Hy. rewrite get_map_data, get_gen_in by auto.
    destruct (get_some im x y W Hx Hy) as (p & G). rewrite G. reflexivity. }
  assert (F : zlen (filter t (idata im)) = zlen (filter (hit t) (map (fun p => Some p) (idata im)))).
  { generalize (idata im). intros l. induction l as [|a l IH]; [reflexivity|]. cbn [map filter hit]. destruct (t a); rewrite ?zlen_cons; lia. }
  rewrite F. replace (map (fun p => Some p) (idata im)) with (idata (gen (iw im) (ih im) (fun x y => get im x y))) by (rewrite <- E; reflexivity).
  unfold gen. cbn [idata]. rewrite filter_rows. reflexivity.
Qed.
Lemma whole_mirror n f : zsum 0 n (fun i => f (n - 1 - i)) = zsum 0 n f.
Proof. rewrite (zsum_mirror 0 n (n - 1)). f_equal; lia. Qed.
Lemma count_moved {A} s (im im' : image A) t : moved s im im' -> zlen (filter t (idata im')) = zlen (filter t (idata im)).
Proof.
  intros M. pose proof M as (W & W' & E1 & E2 & _). rewrite !count_get by auto. rewrite E1, E2.
  assert (H : forall X Y, (if hit t (get im' X Y) then 1 else 0) =
     (fun x y => if hit t (get im x y) then 1 else 0) (fst (back s (iw im) (ih im) X Y)) (snd (back s (iw im) (ih im) X Y))).
  { intros X Y. cbv beta. now rewrite (moved_back s im im' M X Y). }
  set (R := fun x y => if hit t (get im x y) then 1 else 0) in *.
  rewrite (zsum_ext _ _ _ (fun Y => zsum 0 (if transposed s then ih im else iw im) (fun X => R (fst (back s (iw im) (ih im) X Y)) (snd (back s (iw im) (ih im) X Y)))))
    by (intros; apply zsum_ext; intros; apply H).
  change (zsum 0 (ih im) (fun y => zsum 0 (iw im) (fun x => if hit t (get im x y) then 1 else 0))) with (zsum 0 (ih im) (fun y => zsum 0 (iw im) (fun x => R x y))).
  clear H M E1 E2. generalize (iw im), (ih im). intros w h. clearbody R.
  cases s.
  - rewrite (whole_mirror w (fun p => zsum 0 h (fun X => R p (h - 1 - X)))). rewrite zsum_swap.
    apply (whole_mirror h (fun q => zsum 0 w (fun i => R i q))).
  - rewrite (whole_mirror w (fun p => zsum 0 h (fun X => R p X))). apply zsum_swap.
  - rewrite zsum_swap. apply (whole_mirror h (fun q => zsum 0 w (fun i => R i q))).
  - apply zsum_swap.
  - rewrite (whole_mirror h (fun q => zsum 0 w (fun X => R (w - 1 - X) q))). apply zsum_ext. intros y _.
    apply (whole_mirror w (fun p => R p y)).
  - apply zsum_ext. intros y _. apply (whole_mirror w (fun p => R p y)).
  - apply (whole_mirror h (fun q => zsum 0 w (fun X => R X q))).
  - reflexivity.
Qed.
Lemma moved_channels8 ch s (im im' : image (list Z)) : moved s im im' -> channels8 ch im -> channels8 ch im'.
Proof.
  intros M (W & C). split; [apply M|]. intros x y p E. rewrite (moved_back s im im' M) in E. exact (C _ _ _ E).
Qed.
Lemma histogram_moved ch s (im im' : image (list Z)) : 0 <= ch -> channels8 ch im -> iw im * ih im < 2 ^ 32 -> moved s im im' ->
  histogram ch im' = histogram ch im.
Proof.
  intros Hch C B M. pose proof M as (_ & _ & E1 & E2 & _). pose proof (moved_channels8 ch s im im' M C) as C'.
  assert (B' : iw im' * ih im' < 2 ^ 32) by (rewrite E1, E2; destruct (transposed s); lia).
  destruct (c19_histogram ch im Hch C B) as (h & E & L & H). destruct (c19_histogram ch im' Hch C' B') as (h' & E' & L' & H').
  rewrite E, E'. f_equal. apply znth_ext. { unfold zlen in *; lia. }
  intros c Hc. destruct (H c) as (r & G & Lr & Hr); [lia|]. destruct (H' c) as (r' & G' & Lr' & Hr'); [lia|].
  rewrite G, G'. f_equal. apply znth_ext. { unfold zlen in *; lia. }
  intros v Hv. rewrite Hr, Hr' by lia. f_equal. apply (count_moved s im im' _ M).
Qed.
Lemma moved_luma s im im' : moved s im im' -> moved s (luma im) (luma im').
Proof.
  intros M. pose proof M as (W & W' & E1 & E2 & H). split; [now apply wf_map_data|]. split; [now apply wf_map_data|].
  split; [exact E1|]. split; [exact E2|]. intros x y Hx Hy. unfold luma. cbn [iw ih] in *. rewrite !get_map_data. now rewrite H.
Qed.
Lemma luma_channels8 im : gray8 im -> channels8 1 (luma im).
Proof.
  intros (W & G). split; [now apply wf_map_data|]. intros x y p E. unfold luma in E. rewrite get_map_data in E.
  destruct (get im x y) as [v|] eqn:Ev; [|discriminate]. injection E as <-. split; [reflexivity|].
  intros u [<-|[]]. exact (G _ _ _ Ev).
Qed.

(** ** FAST *)
(** circle pixel i of (x, y) goes to circle pixel [circle_sign s * i + circle_shift s] *)
Definition circle_sign (s : symmetry) : Z :=
  (if mirror_x s then -1 else 1) * (if mirror_y s then -1 else 1) * (if transposed s then -1 else 1).
Definition circle_shift (s : symmetry) : Z :=
  let d := if mirror_y s then 8 else 0 in if transposed s then 12 - d else d.
Lemma on_circle_moved s (im im' : image Z) x y i : moved s im im' ->
  on_circle im' (fst (place s (iw im) (ih im) x y)) (snd (place s (iw im) (ih im) x y)) (circle_sign s * i + circle_shift s) = on_circle im x y i.
Proof.
  intros M. unfold on_circle.
  assert (E : (circle_sign s * i + circle_shift s) mod 16 = (circle_sign s * (i mod 16) + circle_shift s) mod 16).
  { rewrite <- Z.add_mod_idemp_l by lia. rewrite <- (Z.mul_mod_idemp_r _ i) by lia. now rewrite Z.add_mod_idemp_l by lia. }
  rewrite E. pose proof (Z.mod_pos_bound i 16 ltac:(lia)) as B. generalize dependent (i mod 16). intros j _ B.
  assert (J : In j (zrange 0 16)) by (apply in_zrange; lia).
  cbn [zrange zseq Z.to_nat Z.sub Z.add Z.opp Z.pos_sub Pos.to_nat] in J. vm_compute in J.
  repeat (destruct J as [<-|J]); [..|destruct J];
    unfold circle_sign, circle_shift; cases s;
    match goal with |- match znth circle_offsets ?k with _ => _ end = _ =>
      let v := eval vm_compute in (znth circle_offsets k) in change (znth circle_offsets k) with v end;
    match goal with |- _ = match znth circle_offsets ?k with _ => _ end =>
      let v := eval vm_compute in (znth circle_offsets k) in change (znth circle_offsets k) with v end;
    cbv iota beta; rewrite (moved_back _ im im' M); unfold back; cbn [transposed mirror_x mirror_y fst snd]; f_equal; ring.
Qed.
Lemma fast_moved s len (im im' : image Z) t x y : moved s im im' -> 0 < len <= 16 -> fast_corner len im t x y ->
  fast_corner len im' t (fst (place s (iw im) (ih im) x y)) (snd (place s (iw im) (ih im) x y)).
Proof.
  intros M Hl (A & st & Hst & Q). pose proof M as (_ & _ & E1 & E2 & H).
  set (X := fst (place s (iw im) (ih im) x y)). set (Y := snd (place s (iw im) (ih im) x y)).
  split. { unfold away in *. rewrite E1, E2. unfold X, Y. clear - A. cases s; lia. }
  assert (OP : forall j p, on_circle im' X Y j = Some p -> on_circle im' X Y (j mod 16) = Some p).
  { intros j p. unfold on_circle. now rewrite Z.mod_mod by lia. }
  assert (PM : forall j k, on_circle im' X Y (j mod 16 + k) = on_circle im' X Y (j + k)).
  { intros j k. unfold on_circle. now rewrite Z.add_mod_idemp_l by lia. }
  assert (C : forall i, on_circle im' X Y (circle_sign s * i + circle_shift s) = on_circle im x y i).
  { intros i. apply (on_circle_moved s im im' x y i M). }
  assert (G : get im' X Y = get im x y).
  { unfold X, Y. apply H; unfold away in A; lia. }
  clearbody X Y. clear OP.
  assert (S : circle_sign s = 1 \/ circle_sign s = -1).
  { unfold circle_sign. destruct (mirror_x s), (mirror_y s), (transposed s); cbn; auto. }
  destruct S as [S|S]; rewrite S in C.
  - exists ((st + circle_shift s) mod 16). split; [apply Z.mod_pos_bound; lia|].
    destruct Q as [Q|Q]; [left|right]; intros k Hk; destruct (Q k Hk) as (c & p & P1 & P2 & P3); exists c, p;
      (split; [congruence|]; split; [|exact P3]); rewrite PM, <- P2, <- C; f_equal; ring.
  - exists ((circle_shift s - st - len + 1) mod 16). split; [apply Z.mod_pos_bound; lia|].
    destruct Q as [Q|Q]; [left|right]; intros k Hk; destruct (Q (len - 1 - k) ltac:(lia)) as (c & p & P1 & P2 & P3); exists c, p;
      (split; [congruence|]; split; [|exact P3]); rewrite PM, <- P2, <- C; f_equal; ring.
Qed.
(** the way back is a symmetry too *)
Definition inverse (s : symmetry) : symmetry :=
  if transposed s then mkSym true (mirror_y s) (mirror_x s) else s.
Lemma moved_inverse {A} s (im im' : image A) : moved s im im' -> moved (inverse s) im' im.
Proof.
  intros M. pose proof M as (W & W' & E1 & E2 & _). split; [exact W'|]. split; [exact W|].
  assert (T : transposed (inverse s) = transposed s) by (unfold inverse; destruct (transposed s) eqn:T; auto).
  rewrite T, E1, E2. split; [destruct (transposed s); reflexivity|]. split; [destruct (transposed s); reflexivity|].
  intros x y _ _. rewrite (moved_back s im im' M x y).
  f_equal; clear; unfold place, back, inverse; destruct s as [[|] [|] [|]]; cbn [transposed mirror_x mirror_y fst snd]; reflexivity.
Qed.
Lemma inverse_place s w h x y :
  place (inverse s) (if transposed s then h else w) (if transposed s then w else h) (fst (place s w h x y)) (snd (place s w h x y)) = (x, y).
Proof. unfold place, inverse; destruct s as [[|] [|] [|]]; cbn [transposed mirror_x mirror_y fst snd]; f_equal; lia. Qed.
Lemma fast_iff s len (im im' : image Z) t x y : moved s im im' -> 0 < len <= 16 ->
  fast_corner len im' t (fst (place s (iw im) (ih im) x y)) (snd (place s (iw im) (ih im) x y)) <-> fast_corner len im t x y.
Proof.
  intros M Hl. split; [|now apply fast_moved]. intros F. pose proof M as (_ & _ & E1 & E2 & _).
  apply (fast_moved (inverse s) len im' im t _ _ (moved_inverse s im im' M) Hl) in F.
  rewrite E1, E2, inverse_place in F. exact F.
Qed.
