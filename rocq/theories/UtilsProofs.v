(** Proofs about the comparison helpers. *)
From Coq Require Import Sorted.
From Verif Require Import Base BaseProofs ContrastModel UtilsModel UtilsSpec RasterProofs.
Local Ltac Zify.zify_post_hook ::= idtac.
Open Scope Z_scope.

Lemma znth_combine {A B} (l : list A) (m : list B) i :
  znth (combine l m) i = match znth l i, znth m i with Some a, Some b => Some (a, b) | _, _ => None end.
Proof.
  assert (N : forall T j, znth (@nil T) j = None).
  { intros T j. destruct (znth (@nil T) j) eqn:E; [|reflexivity].
    apply znth_range in E. change (zlen (@nil T)) with 0 in E. lia. }
  revert m i; induction l as [|a l IH]; intros m i.
  - cbn [combine]. rewrite !N. reflexivity.
  - destruct m as [|b m].
    + cbn [combine]. rewrite !N. destruct (znth (a :: l) i); reflexivity.
    + cbn [combine]. destruct (Z.ltb_spec i 0).
      { rewrite !znth_none by lia. reflexivity. }
      destruct (Z.eqb_spec i 0) as [->|]; [rewrite !znth_cons_0; reflexivity|].
      rewrite !znth_cons_S by lia. apply IH.
Qed.

(** sortedness by index *)
Lemma sorted_znth {A} (R : A -> A -> Prop) l : StronglySorted R l ->
  forall i j d e, i < j -> znth l i = Some d -> znth l j = Some e -> R d e.
Proof.
  induction 1 as [|a l S IH F]; intros i j d e L Hi Hj.
  - apply znth_range in Hi. change (zlen (@nil A)) with 0 in Hi. lia.
  - pose proof (znth_range _ _ _ Hi). pose proof (znth_range _ _ _ Hj).
    rewrite znth_cons_S in Hj by lia.
    destruct (Z.eqb_spec i 0) as [->|].
    + rewrite znth_cons_0 in Hi. inversion Hi; subst. rewrite Forall_forall in F. apply F.
      eapply znth_In; eauto.
    + rewrite znth_cons_S in Hi by lia. eapply IH with (i := i - 1) (j := j - 1); eauto. lia.
Qed.
Lemma znth_sorted {A} (R : A -> A -> Prop) l :
  (forall i j d e, i < j -> znth l i = Some d -> znth l j = Some e -> R d e) -> StronglySorted R l.
Proof.
  induction l as [|a l IH]; intros H; [constructor|].
  constructor.
  - apply IH. intros i j d e L Hi Hj. pose proof (znth_range _ _ _ Hi). pose proof (znth_range _ _ _ Hj).
    apply (H (i + 1) (j + 1)); [lia| |]; rewrite znth_cons_S by lia; rewrite Z.add_simpl_r; assumption.
  - apply Forall_forall. intros x Hx. apply In_znth in Hx. destruct Hx as (i & _ & Hi).
    pose proof (znth_range _ _ _ Hi).
    apply (H 0 (i + 1)); [lia|apply znth_cons_0|]. rewrite znth_cons_S by lia. rewrite Z.add_simpl_r. assumption.
Qed.
Lemma sorted_filter {A} (R : A -> A -> Prop) f l : StronglySorted R l -> StronglySorted R (filter f l).
Proof.
  induction 1 as [|a l S IH F]; cbn; [constructor|]. destruct (f a); [|assumption].
  constructor; [assumption|]. rewrite Forall_forall in F |- *. intros x Hx. apply F. apply filter_In in Hx. tauto.
Qed.
Lemma sorted_map {A B} (R : A -> A -> Prop) (R' : B -> B -> Prop) g l :
  (forall a b, R a b -> R' (g a) (g b)) -> StronglySorted R l -> StronglySorted R' (map g l).
Proof.
  intros HR; induction 1 as [|a l S IH F]; cbn; [constructor|]. constructor; [assumption|].
  rewrite Forall_forall in F |- *. intros x Hx. apply in_map_iff in Hx. destruct Hx as (z & <- & Hz). auto.
Qed.

Lemma znth_view {P} (im : image P) i : wf im ->
  znth (view_pixels im) i = option_map (fun p => (i mod iw im, i / iw im, p)) (znth (idata im) i).
Proof.
  intros (W & H & L). unfold view_pixels. rewrite znth_map, znth_combine.
  destruct (znth (idata im) i) as [p|] eqn:E.
  - pose proof (znth_range _ _ _ E). rewrite znth_zrange by lia. cbn. rewrite ?Z.add_0_l. reflexivity.
  - destruct (znth (zrange 0 (iw im * ih im)) i); reflexivity.
Qed.

(** the raster index of a position *)
Lemma raster_index {P} (im : image P) x y : 0 <= x < iw im ->
  (y * iw im + x) mod iw im = x /\ (y * iw im + x) / iw im = y.
Proof.
  intros H. rewrite Z.add_comm, Z.mod_add, Z.div_add by lia.
  rewrite Z.mod_small, Z.div_small by lia. lia.
Qed.
Lemma get_index {P} (im : image P) i p : wf im -> 0 < iw im -> znth (idata im) i = Some p ->
  get im (i mod iw im) (i / iw im) = Some p.
Proof.
  intros (W & H & L) Hw E. pose proof (znth_range _ _ _ E).
  unfold get. rewrite (proj2 (inb_spec im _ _)).
  - rewrite <- E. f_equal. pose proof (Z.div_mod i (iw im)). lia.
  - split; [apply Z.mod_pos_bound; lia|]. split; [apply Z.div_pos; lia|].
    apply Z.div_lt_upper_bound; lia.
Qed.

Section Diffs.
  Context {P : Type} (a b : image P) (is_diff : Z * Z * P -> Z * Z * P -> bool).
  Hypothesis (Wa : wf a) (Wb : wf b) (Ew : iw a = iw b) (Eh : ih a = ih b).
  Hypothesis Hne : 0 < iw a.

  Lemma znth_pairs i u : znth (combine (view_pixels a) (view_pixels b)) i = Some u <->
    exists p q, znth (idata a) i = Some p /\ znth (idata b) i = Some q /\
      u = ((i mod iw a, i / iw a, p), (i mod iw a, i / iw a, q)).
  Proof.
    rewrite znth_combine, !znth_view by assumption. rewrite <- Ew.
    destruct (znth (idata a) i), (znth (idata b) i); cbn; split; try discriminate.
    - intros E; inversion E; subst. exists p, p0. auto.
    - intros (p' & q' & E1 & E2 & ->). inversion E1; inversion E2; subst. reflexivity.
    - intros (p' & q' & E1 & E2 & _). discriminate.
    - intros (p' & q' & E1 & E2 & _). discriminate.
    - intros (p' & q' & E1 & E2 & _). discriminate.
  Qed.

  Definition dfun (u : (Z * Z * P) * (Z * Z * P)) : diff P :=
    let '((px, py, p), (qx, qy, q)) := u in mkDiff px py q p.
  Definition dlist := map dfun (filter (fun '(p, q) => is_diff p q) (combine (view_pixels a) (view_pixels b))).

  Lemma pixel_diffs_eq : 0 < ih a -> pixel_diffs a b is_diff = Ok dlist.
  Proof.
    intros Hh. unfold pixel_diffs, is_empty. rewrite <- Ew, <- Eh.
    replace ((iw a =? 0) || (ih a =? 0)) with false by lia. cbn [orb].
    apply mapM_ok. intros u Hu. apply filter_In in Hu. destruct Hu as (Hu & _).
    apply In_znth in Hu. destruct Hu as (i & _ & Hu). apply znth_pairs in Hu.
    destruct Hu as (p & q & _ & _ & ->). rewrite !Z.eqb_refl. reflexivity.
  Qed.

  Lemma dlist_in : lists_exactly a b (fun x y p q => is_diff (x, y, p) (x, y, q)) dlist.
  Proof.
    intros d. unfold dlist. rewrite in_map_iff. split.
    - intros (u & <- & Hu). apply filter_In in Hu. destruct Hu as (Hu & Hd).
      apply In_znth in Hu. destruct Hu as (i & _ & Hu). apply znth_pairs in Hu.
      destruct Hu as (p & q & Hp & Hq & ->). cbn. splits.
      + apply get_index; assumption.
      + rewrite Ew. apply get_index; [assumption|lia|assumption].
      + assumption.
    - intros (Ga & Gb & Hd). pose proof (get_inb _ _ _ _ Ga) as (Bx & By).
      destruct d as [x y q p]. cbn in *. exists ((x, y, p), (x, y, q)). split; [reflexivity|].
      apply filter_In. split; [|exact Hd].
      apply (znth_In _ (y * iw a + x)). apply znth_pairs.
      exists p, q. destruct (raster_index a x y Bx) as (-> & ->).
      unfold get in Ga, Gb. destruct (inb a x y); [|discriminate]. destruct (inb b x y); [|discriminate].
      rewrite <- Ew in Gb. auto.
  Qed.

  Lemma dlist_sorted : in_raster_order dlist.
  Proof.
    refine (sorted_znth (fun d e => raster_before (dx_ d) (dy_ d) (dx_ e) (dy_ e)) dlist _).
    apply (sorted_map (fun u v => raster_before (fst (fst (fst u))) (snd (fst (fst u))) (fst (fst (fst v))) (snd (fst (fst v))))).
    { intros [[[? ?] ?] [[? ?] ?]] [[[? ?] ?] [[? ?] ?]]. cbn. auto. }
    apply sorted_filter. apply znth_sorted. intros i j d e L Hi Hj.
    pose proof (proj1 (znth_pairs _ _) Hi) as (p & q & Hp & _ & ->).
    pose proof (proj1 (znth_pairs _ _) Hj) as (p' & q' & _ & _ & ->). cbn.
    pose proof (znth_range _ _ _ Hp).
    unfold raster_before.
    pose proof (Z.div_mod i (iw a)). pose proof (Z.div_mod j (iw a)).
    pose proof (Z.div_le_mono i j (iw a)). nia.
  Qed.
End Diffs.

Lemma pixel_diffs_empty {P} (a b : image P) is_diff :
  iw a = 0 \/ ih a = 0 \/ iw b = 0 \/ ih b = 0 -> pixel_diffs a b is_diff = Ok [].
Proof.
  intros H. unfold pixel_diffs, is_empty.
  replace (((iw a =? 0) || (ih a =? 0)) || ((iw b =? 0) || (ih b =? 0))) with true by lia. reflexivity.
Qed.

Lemma pixel_diffs_ok {P} (a b : image P) is_diff : wf a -> wf b -> iw a = iw b -> ih a = ih b ->
  exists l, pixel_diffs a b is_diff = Ok l /\ in_raster_order l /\
    lists_exactly a b (fun x y p q => is_diff (x, y, p) (x, y, q)) l.
Proof.
  intros Wa Wb Ew Eh. destruct (Z.eqb_spec (iw a) 0) as [E|E]; [|destruct (Z.eqb_spec (ih a) 0) as [F|F]].
  3: { exists (dlist a b is_diff). destruct Wa as (? & ? & ?). splits.
       - apply pixel_diffs_eq; try assumption; unfold wf; auto; lia.
       - apply dlist_sorted; try assumption; unfold wf; auto; lia.
       - apply dlist_in; try assumption; unfold wf; auto; lia. }
  all: exists []; splits; [apply pixel_diffs_empty; lia| |].
  1, 3: intros i j d e _ Hi; apply znth_range in Hi; change (zlen (@nil (diff P))) with 0 in Hi; lia.
  all: intros d; split; [intros []|intros (G & _)]; apply get_inb in G; lia.
Qed.

(** the description *)
Section Describe.
  Context {P : Type} (a b : image P) (l : list (diff P)).
  Hypothesis (Wa : wf a) (Wb : wf b) (Ew : iw a = iw b) (Eh : ih a = ih b).
  Hypothesis (Bw : iw a < 2 ^ 31 - 2) (Bh : ih a < 2 ^ 31 - 2).
  Hypothesis Hin : forall d, In d l -> 0 <= dx_ d < iw a /\ 0 <= dy_ d < ih a.

  Lemma fold_min (n m : Z) (k : list (diff P)) :
    fold_left (fun acc d => (Z.min (fst acc) (dx_ d), Z.min (snd acc) (dy_ d))) k (n, m) =
    (fold_left (fun acc d => Z.min acc (dx_ d)) k n, fold_left (fun acc d => Z.min acc (dy_ d)) k m).
  Proof. revert n m; induction k as [|d k IH]; intros n m; [reflexivity|]. cbn [fold_left fst snd]. apply IH. Qed.
  Lemma fold_max (n m : Z) (k : list (diff P)) :
    fold_left (fun acc d => (Z.max (fst acc) (dx_ d), Z.max (snd acc) (dy_ d))) k (n, m) =
    (fold_left (fun acc d => Z.max acc (dx_ d)) k n, fold_left (fun acc d => Z.max acc (dy_ d)) k m).
  Proof. revert n m; induction k as [|d k IH]; intros n m; [reflexivity|]. cbn [fold_left fst snd]. apply IH. Qed.
  Lemma fold_min_le (f : diff P -> Z) k n : fold_left (fun acc d => Z.min acc (f d)) k n <= n /\
    (forall d, In d k -> fold_left (fun acc d => Z.min acc (f d)) k n <= f d) /\
    (fold_left (fun acc d => Z.min acc (f d)) k n = n \/ exists d, In d k /\ fold_left (fun acc d => Z.min acc (f d)) k n = f d).
  Proof.
    revert n; induction k as [|d k IH]; intros n; cbn [fold_left].
    - splits; [lia|intros d []|left; reflexivity].
    - destruct (IH (Z.min n (f d))) as (A & B & C). splits.
      + lia.
      + intros e [<-|He]; [lia|auto].
      + destruct C as [C|(e & He & C)]; [|right; exists e; split; [right; assumption|assumption]].
        destruct (Z.min_spec n (f d)) as [(? & M)|(? & M)]; rewrite C, M; [left; reflexivity|].
        right; exists d; split; [left; reflexivity|reflexivity].
  Qed.
  Lemma fold_max_ge (f : diff P -> Z) k n : n <= fold_left (fun acc d => Z.max acc (f d)) k n /\
    (forall d, In d k -> f d <= fold_left (fun acc d => Z.max acc (f d)) k n) /\
    (fold_left (fun acc d => Z.max acc (f d)) k n = n \/ exists d, In d k /\ fold_left (fun acc d => Z.max acc (f d)) k n = f d).
  Proof.
    revert n; induction k as [|d k IH]; intros n; cbn [fold_left].
    - splits; [lia|intros d []|left; reflexivity].
    - destruct (IH (Z.max n (f d))) as (A & B & C). splits.
      + lia.
      + intros e [<-|He]; [lia|auto].
      + destruct C as [C|(e & He & C)]; [|right; exists e; split; [right; assumption|assumption]].
        destruct (Z.max_spec n (f d)) as [(? & M)|(? & M)]; rewrite C, M; [|left; reflexivity].
        right; exists d; split; [left; reflexivity|reflexivity].
  Qed.

  Lemma render_ok (im : image P) le t r bo : wf im -> 0 <= le <= r -> r < iw im -> 0 <= t <= bo -> bo < ih im ->
    iw im < 2 ^ 31 -> ih im < 2 ^ 31 ->
    exists ps, render_region im le t r bo = Ok ps.
  Proof.
    intros W Hx Hr Hy Hb S1 S2. unfold render_region.
    unfold chk_u, u_fits. replace ((0 <=? bo + 1) && (bo + 1 <? 2 ^ 32)) with true by lia.
    replace ((0 <=? r + 1) && (r + 1 <? 2 ^ 32)) with true by lia. cbn [bind].
    destruct (for_range_ind (fun y (acc : list P) => zlen acc = (y - t) * (r + 1 - le)) t (bo + 1)
      (fun y acc => for_range le (r + 1) (fun x acc => p <- get_pixel im x y ;; Ok (acc ++ [p])) acc) []) as (ps & E & K).
    - lia.
    - change (zlen (@nil P)) with 0. lia.
    - intros y acc Hy' HK.
      destruct (for_range_ind (fun x (acc' : list P) => zlen acc' = (y - t) * (r + 1 - le) + (x - le)) le (r + 1)
        (fun x acc => p <- get_pixel im x y ;; Ok (acc ++ [p])) acc) as (ps & E & K).
      + lia.
      + lia.
      + intros x acc' Hx' HK'. destruct (get_some im x y W) as (p & G); [lia|lia|].
        exists (acc' ++ [p]). split; [|rewrite zlen_app; change (zlen [p]) with 1; lia].
        rewrite (proj2 (get_pixel_ok im x y p) G). reflexivity.
      + exists ps. split; [exact E|]. rewrite K. lia.
    - rewrite E. cbn [bind]. exists ps. unfold assert.
      replace (zlen ps =? 0) with false by nia. reflexivity.
  Qed.

  Lemma describe_ok : l <> [] -> exists d, describe_pixel_diffs a b l = Ok d /\
    match d with
    | Region le t r bo => 0 <= le /\ r < iw a /\ 0 <= t /\ bo < ih a /\
        forall e, In e l -> le <= dx_ e <= r /\ t <= dy_ e <= bo
    | Listed k => k = map (fun d => (dx_ d, dy_ d, actual_ d, expected_ d)) (firstn 5 l)
    | Dimensions => False
    end.
  Proof.
    intros Hl. unfold describe_pixel_diffs. rewrite fold_min, fold_max. cbv zeta beta.
    destruct l as [|d0 l'] eqn:El; [contradiction|]. rewrite <- El in *. clear Hl.
    assert (H0 : In d0 l) by (rewrite El; left; reflexivity). clear El l'.
    destruct (fold_min_le dx_ l (2 ^ 32 - 1)) as (A1 & A2 & A3).
    destruct (fold_min_le dy_ l (2 ^ 32 - 1)) as (B1 & B2 & B3).
    destruct (fold_max_ge dx_ l 0) as (C1 & C2 & C3).
    destruct (fold_max_ge dy_ l 0) as (D1 & D2 & D3).
    set (tx := fold_left (fun acc d => Z.min acc (dx_ d)) l (2 ^ 32 - 1)) in *.
    set (ty := fold_left (fun acc d => Z.min acc (dy_ d)) l (2 ^ 32 - 1)) in *.
    set (bx := fold_left (fun acc d => Z.max acc (dx_ d)) l 0) in *.
    set (by_ := fold_left (fun acc d => Z.max acc (dy_ d)) l 0) in *.
    clearbody tx ty bx by_.
    pose proof (Hin d0 H0). pose proof (A2 d0 H0). pose proof (B2 d0 H0). pose proof (C2 d0 H0). pose proof (D2 d0 H0).
    assert (Tx : 0 <= tx) by (destruct A3 as [->|(e & He & ->)]; [lia|apply Hin in He; lia]).
    assert (Ty : 0 <= ty) by (destruct B3 as [->|(e & He & ->)]; [lia|apply Hin in He; lia]).
    assert (Bx : bx < iw a) by (destruct C3 as [->|(e & He & ->)]; [lia|apply Hin in He; lia]).
    assert (By : by_ < ih a) by (destruct D3 as [->|(e & He & ->)]; [lia|apply Hin in He; lia]).
    assert (AS : forall z, 0 <= z < 2 ^ 31 -> as_i32 z = z).
    { intros z Hz. unfold as_i32. rewrite Z.mod_small by lia. lia. }
    unfold chk_u, u_fits. replace ((0 <=? bx - tx) && (bx - tx <? 2 ^ 32)) with true by lia.
    replace ((0 <=? by_ - ty) && (by_ - ty <? 2 ^ 32)) with true by lia. cbn [bind].
    destruct (Z.max (bx - tx) (by_ - ty) <? 6) eqn:E6.
    - rewrite !AS by lia. unfold chk_i, i_fits.
      replace ((- 2 ^ (32 - 1) <=? tx - 2) && (tx - 2 <? 2 ^ (32 - 1))) with true by lia.
      replace ((- 2 ^ (32 - 1) <=? ty - 2) && (ty - 2 <? 2 ^ (32 - 1))) with true by lia.
      replace ((- 2 ^ (32 - 1) <=? iw a - 1) && (iw a - 1 <? 2 ^ (32 - 1))) with true by lia.
      replace ((- 2 ^ (32 - 1) <=? bx + 2) && (bx + 2 <? 2 ^ (32 - 1))) with true by lia.
      replace ((- 2 ^ (32 - 1) <=? ih a - 1) && (ih a - 1 <? 2 ^ (32 - 1))) with true by lia.
      replace ((- 2 ^ (32 - 1) <=? by_ + 2) && (by_ + 2 <? 2 ^ (32 - 1))) with true by lia.
      cbn [bind]. cbv zeta.
      rewrite !Z.mod_small by lia.
      destruct (render_ok a (Z.max 0 (tx - 2)) (Z.max 0 (ty - 2)) (Z.min (iw a - 1) (bx + 2)) (Z.min (ih a - 1) (by_ + 2)))
        as (ps & ->); [assumption|lia|lia|lia|lia|lia|lia|].
      destruct (render_ok b (Z.max 0 (tx - 2)) (Z.max 0 (ty - 2)) (Z.min (iw a - 1) (bx + 2)) (Z.min (ih a - 1) (by_ + 2)))
        as (qs & ->); [assumption|lia|lia|lia|lia|lia|lia|].
      cbn [bind]. eexists; split; [reflexivity|]. cbn. splits; try lia.
      all: specialize (A2 e H5); specialize (B2 e H5); specialize (C2 e H5); specialize (D2 e H5); specialize (Hin e H5); lia.
    - eexists; split; [reflexivity|]. reflexivity.
  Qed.
End Describe.

Lemma large_diff_ok tol p q : zlen p = zlen q ->
  exists b, large_diff tol p q = Ok b /\ (b = false <-> within tol p q).
Proof.
  revert q; induction p as [|u p IH]; intros [|v q] L.
  - exists false. split; [reflexivity|]. split; [|reflexivity]. intros _. split; [reflexivity|].
    intros i x y Hi. apply znth_range in Hi. change (zlen (@nil Z)) with 0 in Hi. lia.
  - rewrite zlen_cons in L. change (zlen (@nil Z)) with 0 in L. pose proof (zlen_nonneg q). lia.
  - rewrite zlen_cons in L. change (zlen (@nil Z)) with 0 in L. pose proof (zlen_nonneg p). lia.
  - rewrite !zlen_cons in L. cbn [large_diff].
    assert (D : (if v <? u then u - v else v - u) = Z.abs (u - v)) by (destruct (Z.ltb_spec v u); lia).
    rewrite D. destruct (Z.ltb_spec tol (Z.abs (u - v))).
    + exists true. split; [reflexivity|]. split; [discriminate|]. intros (_ & H').
      specialize (H' 0 u v (znth_cons_0 _ _) (znth_cons_0 _ _)). lia.
    + destruct (IH q) as (b & -> & Hb); [lia|]. exists b. split; [reflexivity|]. rewrite Hb. unfold within.
      rewrite !zlen_cons. split.
      * intros (_ & H'). split; [lia|]. intros i x y Hi Hj. pose proof (znth_range _ _ _ Hi).
        destruct (Z.eqb_spec i 0) as [->|]; [rewrite znth_cons_0 in *; inversion Hi; inversion Hj; subst; lia|].
        rewrite znth_cons_S in * by lia. eauto.
      * intros (_ & H'). split; [lia|]. intros i x y Hi Hj. pose proof (znth_range _ _ _ Hi).
        apply (H' (i + 1)); rewrite znth_cons_S by lia; rewrite Z.add_simpl_r; assumption.
Qed.
