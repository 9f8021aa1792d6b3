From Verif Require Import Base BaseProofs ComposeModel ComposeProofs GeomProofs MapModel.
Ltac Zify.zify_post_hook ::= Z.div_mod_to_equations.

(** ** the in-place parallel pass *)
Section ParMut.
Context {A : Type} (f : Z -> A -> option A) (l : list A).

Definition pinv (s : list A * list (tstat A)) : Prop :=
  zlen (fst s) = zlen l /\ zlen (snd s) = zlen l /\
  forall i a, znth l i = Some a ->
    match znth (snd s) i with
    | Some Todo => znth (fst s) i = Some a
    | Some (Loaded b) => b = a /\ znth (fst s) i = Some a
    | Some Done => exists b, f i a = Some b /\ znth (fst s) i = Some b
    | Some Panicked => f i a = None
    | None => False
    end.

Lemma pinv_init : pinv (l, map (fun _ => Todo) l).
Proof.
  split; [reflexivity|]. split; [simpl; apply zlen_map|]. intros i a Hi. simpl.
  rewrite znth_map, Hi. simpl. auto.
Qed.

Lemma pinv_step s i : pinv s -> pinv (pstep f s i).
Proof.
  destruct s as [buf st]. intros (L1 & L2 & H). simpl in *. unfold pstep.
  destruct (znth st i) as [t|] eqn:Et; [|unfold pinv; auto].
  pose proof (znth_range _ _ _ Et) as Hr. rewrite L2 in Hr.
  destruct (znth_some l i Hr) as (a & Ea).
  pose proof (H i a Ea) as Hi. rewrite Et in Hi.
  destruct t as [|b| |].
  - rewrite Hi. split; [auto|]. split; [simpl; rewrite zupd_zlen; auto|].
    intros j c Hj. simpl. rewrite znth_zupd by lia.
    destruct (Z.eqb_spec j i) as [->|Hne].
    + split; congruence.
    + apply H; auto.
  - destruct Hi as (-> & Hb). destruct (f i a) as [b|] eqn:Ef.
    + split; [simpl; rewrite zupd_zlen; auto|]. split; [simpl; rewrite zupd_zlen; auto|].
      intros j c Hj. simpl. rewrite !znth_zupd by lia.
      destruct (Z.eqb_spec j i) as [->|Hne].
      * exists b. split; [congruence|reflexivity].
      * apply H; auto.
    + split; [auto|]. split; [simpl; rewrite zupd_zlen; auto|].
      intros j c Hj. simpl. rewrite znth_zupd by lia.
      destruct (Z.eqb_spec j i) as [->|Hne]; [congruence|apply H; auto].
  - unfold pinv; simpl; auto.
  - unfold pinv; simpl; auto.
Qed.

Lemma pinv_run sched s : pinv s -> pinv (fold_left (pstep f) sched s).
Proof. revert s; induction sched as [|i sched IH]; intros s Hs; simpl; auto using pinv_step. Qed.

(** sequential result *)
Lemma seq_for_each_ok :
  (forall i a, znth l i = Some a -> f i a <> None) ->
  exists d, seq_for_each f l = Ok d /\ zlen d = zlen l /\
    forall i a, znth l i = Some a -> znth d i = f i a.
Proof.
  intros Hf. unfold seq_for_each.
  destruct (for_range_ind (fun k (d : list A) => zlen d = zlen l /\
    forall i a, znth l i = Some a -> znth d i = if i <? k then f i a else Some a)
    0 (zlen l) (fun i d => a <- vget d i ;; b <- unwrap (f i a) ;; vset d i b) l)
   as (d & E & L & H); auto using zlen_nonneg.
  - split; auto. intros i a Hi. pose proof (znth_range _ _ _ Hi).
    destruct (i <? 0) eqn:F; [lia|auto].
  - intros i d Hi (L & H). destruct (znth_some l i) as (a & Ea); [lia|].
    pose proof (H i a Ea) as Hd. destruct (i <? i) eqn:F; [lia|].
    unfold vget. rewrite Hd. cbn [unwrap bind].
    destruct (f i a) as [b|] eqn:Ef; [|exfalso; eapply Hf; eauto]. cbn [unwrap bind].
    rewrite vset_ok by lia. eexists; split; [reflexivity|].
    split; [rewrite zupd_zlen; auto|]. intros j c Hj. rewrite znth_zupd by lia.
    destruct (Z.eqb_spec j i) as [->|Hne].
    + destruct (i <? i + 1) eqn:F2; [congruence|lia].
    + rewrite (H j c Hj). destruct (j <? i) eqn:F2; destruct (j <? i + 1) eqn:F3; auto; lia.
  - exists d; split; auto. split; auto. intros i a Hi. rewrite (H i a Hi).
    pose proof (znth_range _ _ _ Hi). destruct (i <? zlen l) eqn:F; [auto|lia].
Qed.

Lemma seq_for_each_panic k a :
  znth l k = Some a -> f k a = None -> seq_for_each f l = Panic.
Proof.
  intros Hk Hf.
  (* least panicking index *)
  assert (exists k a, znth l k = Some a /\ f k a = None /\
            forall i b, 0 <= i < k -> znth l i = Some b -> f i b <> None) as (m & am & Hm & Fm & Min).
  { assert (Hk0 : 0 <= k) by (apply znth_range in Hk; lia).
    revert a Hk Hf. pattern k. apply Zlt_0_ind; [clear k Hk0|exact Hk0].
    intros k IH Hk0 a Hk Hf.
    assert (Dec : (forall i b, 0 <= i < k -> znth l i = Some b -> f i b <> None) \/
                  exists i b, 0 <= i < k /\ znth l i = Some b /\ f i b = None).
    { clear - Hk0. pattern k. apply natlike_ind; [| |exact Hk0]; clear k Hk0.
      - left; intros; lia.
      - intros k Hk [IH|IH].
        + destruct (znth l k) as [b|] eqn:Eb; [destruct (f k b) eqn:Ef|].
          * left. intros i c Hi Hc. destruct (Z.eq_dec i k) as [->|]; [congruence|].
            apply (IH i c); auto; lia.
          * right. exists k, b. split; [lia|auto].
          * left. intros i c Hi Hc. destruct (Z.eq_dec i k) as [->|]; [congruence|].
            apply (IH i c); auto; lia.
        + right. destruct IH as (i & b & Hi & H). exists i, b. split; [lia|auto]. }
    destruct Dec as [D|(i & b & Hi & Hb & Fb)].
    - exists k, a; auto.
    - apply (IH i Hi b Hb Fb). }
  unfold seq_for_each. pose proof (znth_range _ _ _ Hm) as Rm.
  rewrite (for_range_split 0 m) by lia.
  destruct (for_range_ind (fun k (d : list A) => zlen d = zlen l /\
    forall i a, znth l i = Some a -> k <= i -> znth d i = Some a)
    0 m (fun i d => a <- vget d i ;; b <- unwrap (f i a) ;; vset d i b) l)
   as (d & E & L & H); [lia|split; auto| |].
  - intros i d Hi (L & H). destruct (znth_some l i) as (c & Ec); [lia|].
    unfold vget. rewrite (H i c Ec) by lia. cbn [unwrap bind].
    destruct (f i c) as [b|] eqn:Ef; [|exfalso; eapply (Min i c); eauto; lia]. cbn [unwrap bind].
    rewrite vset_ok by lia. eexists; split; [reflexivity|].
    split; [rewrite zupd_zlen; auto|]. intros j e Hj Hij. rewrite znth_zupd by lia.
    destruct (Z.eqb_spec j i); [lia|]. apply H; auto; lia.
  - rewrite E. cbn [bind]. rewrite for_range_cons by lia.
    unfold vget at 1. rewrite (H m am Hm) by lia. cbn [unwrap bind]. rewrite Fm. reflexivity.
Qed.

Lemma par_for_each_seq sched :
  complete f sched l = true -> par_for_each f sched l = seq_for_each f l.
Proof.
  unfold complete, par_for_each. intros Hc.
  assert (Hi : pinv (par_run f sched l)) by (apply pinv_run, pinv_init).
  destruct (par_run f sched l) as [buf st]. simpl in Hc.
  destruct Hi as (L1 & L2 & H). simpl in *.
  rewrite forallb_forall in Hc.
  destruct (existsb is_panicked st) eqn:Ep.
  - apply existsb_exists in Ep. destruct Ep as (t & Ht & Pt).
    apply In_znth in Ht. destruct Ht as (i & Hi & Ei).
    destruct (znth_some l i) as (a & Ea); [lia|].
    specialize (H i a Ea). rewrite Ei in H. destruct t; try discriminate.
    symmetry; eapply seq_for_each_panic; eauto.
  - assert (Hd : forall i a, znth l i = Some a -> exists b, f i a = Some b /\ znth buf i = Some b).
    { intros i a Ha. specialize (H i a Ha). destruct (znth st i) as [t|] eqn:Et; [|tauto].
      pose proof (znth_In _ _ _ Et) as Hin. pose proof (Hc t Hin) as Hdn.
      destruct t; try discriminate; auto.
      exfalso. assert (existsb is_panicked st = true) by (apply existsb_exists; exists Panicked; auto).
      congruence. }
    destruct seq_for_each_ok as (d & E & L & Hs).
    { intros i a Ha. destruct (Hd i a Ha) as (b & -> & _). discriminate. }
    rewrite E. f_equal. apply znth_ext; [unfold zlen in *; lia|].
    intros i Hi. destruct (znth_some l i) as (a & Ea); [lia|].
    rewrite (Hs i a Ea). destruct (Hd i a Ea) as (b & -> & ->). reflexivity.
Qed.

(** every schedule that runs each task at least twice is complete *)
Lemma step_done_mono s i j :
  (exists t, znth (snd s) j = Some t /\ is_done t = true) ->
  (exists t, znth (snd (pstep f s i)) j = Some t /\ is_done t = true).
Proof.
  destruct s as [buf st]; simpl; intros (t & Et & Dt). unfold pstep.
  destruct (znth st i) as [ti|] eqn:Ei; [|eauto].
  pose proof (znth_range _ _ _ Ei) as Hr.
  destruct (Z.eq_dec i j) as [->|Hne].
  - rewrite Et in Ei; inversion Ei; subst ti. destruct t; try discriminate; eauto.
  - destruct ti; [destruct (znth buf i)| |eauto|eauto]; try (destruct (f i a)); simpl; eauto;
    rewrite znth_zupd by auto; destruct (Z.eqb_spec j i); try lia; eauto.
Qed.
End ParMut.

(** ** indexed collect *)
Section ParCollect.
Context {B : Type} (g : Z -> option B) (n : Z).

Definition cinv (s : list (tstat B)) : Prop :=
  zlen s = Z.max 0 n /\
  forall i, 0 <= i < n ->
    match znth s i with
    | Some Todo => True
    | Some (Loaded b) => g i = Some b
    | Some Panicked => g i = None
    | _ => False
    end.

Lemma cinv_run sched : cinv (collect_run g sched n).
Proof.
  unfold collect_run.
  assert (Hi : cinv (map (fun _ => Todo) (zrange 0 n))).
  { split; [rewrite zlen_map, zlen_zrange; lia|]. intros i Hi.
    rewrite znth_map, znth_zrange by lia. simpl; auto. }
  revert Hi. generalize (map (fun _ : Z => @Todo B) (zrange 0 n)).
  induction sched as [|i sched IH]; intros s Hs; simpl; auto.
  apply IH. destruct Hs as (L & H). unfold cstep.
  destruct (znth s i) as [t|] eqn:Et; [|split; auto].
  pose proof (znth_range _ _ _ Et) as Hr.
  destruct t; try (split; auto; fail).
  destruct (g i) as [b|] eqn:Eg; (split; [rewrite zupd_zlen; auto|]; intros j Hj;
    rewrite znth_zupd by lia; destruct (Z.eqb_spec j i) as [->|]; [auto|apply H; auto]).
Qed.

Lemma mapM_panic {X Y} (h : X -> res Y) l x :
  In x l -> h x = Panic -> (forall z, In z l -> h z <> Timeout) -> mapM h l = Panic.
Proof.
  induction l as [|z l IH]; intros Hin Hx Hn; [destruct Hin|].
  cbn [mapM]. destruct (h z) as [y| |] eqn:Ez.
  - cbn [bind]. rewrite IH; auto.
    + destruct Hin as [->|]; [congruence|auto].
    + intros; apply Hn; right; auto.
  - reflexivity.
  - exfalso; apply (Hn z); [left; auto|auto].
Qed.

Lemma par_collect_seq sched :
  collect_complete g sched n = true -> par_collect g sched n = seq_collect g n.
Proof.
  intros Hc. unfold collect_complete in Hc. rewrite forallb_forall in Hc.
  pose proof (cinv_run sched) as (L & H). unfold par_collect, seq_collect.
  set (s := collect_run g sched n) in *.
  destruct (existsb is_panicked s) eqn:Ep.
  - apply existsb_exists in Ep. destruct Ep as (t & Ht & Pt).
    rewrite (mapM_panic slot_value s t); auto.
    + apply In_znth in Ht. destruct Ht as (i & Hi & Ei).
      symmetry. apply (mapM_panic _ _ i).
      * apply in_zrange; lia.
      * specialize (H i). rewrite Ei in H. destruct t; try discriminate.
        rewrite H by lia; reflexivity.
      * intros z _. destruct (g z); discriminate.
    + destruct t; try discriminate; reflexivity.
    + intros z _; destruct z; discriminate.
  - assert (Hd : forall i, 0 <= i < n -> exists b, g i = Some b /\ znth s i = Some (Loaded b)).
    { intros i Hi. specialize (H i Hi). destruct (znth s i) as [t|] eqn:Et; [|tauto].
      pose proof (znth_In _ _ _ Et) as Hin. pose proof (Hc t Hin).
      destruct t; try discriminate; eauto.
      exfalso. assert (existsb is_panicked s = true) by (apply existsb_exists; exists Panicked; auto).
      congruence. }
    destruct (Z_le_dec n 0) as [Hn|Hn].
    + assert (s = []) as -> by (destruct s; auto; unfold zlen in L; simpl in L; lia).
      rewrite zrange_empty by lia. reflexivity.
    + destruct (Hd 0) as (b0 & _); [lia|].
      rewrite (mapM_ok slot_value (fun t => match t with Loaded b => b | _ => b0 end)).
      2:{ intros t Ht. apply In_znth in Ht. destruct Ht as (i & Hi & Ei).
          destruct (Hd i) as (b & _ & Eb); [lia|]. rewrite Ei in Eb; inversion Eb; reflexivity. }
      rewrite (mapM_ok _ (fun i => match g i with Some b => b | None => b0 end)).
      2:{ intros i Hi. apply in_zrange in Hi. destruct (Hd i Hi) as (b & -> & _). reflexivity. }
      f_equal. apply znth_ext.
      * rewrite !map_length. unfold zlen in L. rewrite zrange_length. lia.
      * intros i Hi. rewrite zlen_map in Hi. rewrite !znth_map, znth_zrange by lia.
        destruct (Hd i) as (b & Eg & Es); [lia|]. rewrite Es. simpl. rewrite Eg. reflexivity.
Qed.
End ParCollect.

Lemma par_flat_map_seq {A B} t (f : A -> list B) : forall l, par_flat_map t f l = flat_map f l.
Proof.
  induction t as [|k a IHa b IHb]; intros l; simpl; auto.
  rewrite IHa, IHb, <- flat_map_app, firstn_skipn. reflexivity.
Qed.

(** ** the map functions *)
Lemma map_subpixels_par {S T} sched (r : raw S) (f : S -> T) :
  collect_complete (fun i => option_map f (znth (rdata r) i)) sched (zlen (rdata r)) = true ->
  map_subpixels_parallel sched r f = map_subpixels r f.
Proof.
  intros Hc. unfold map_subpixels_parallel. rewrite par_collect_seq by auto.
  unfold seq_collect, map_subpixels.
  destruct (rdata r) as [|s0 d] eqn:Ed; [reflexivity|].
  rewrite (mapM_ok _ (fun i => match znth (s0 :: d) i with Some s => f s | None => f s0 end)).
  2:{ intros i Hi. apply in_zrange in Hi. destruct (znth_some (s0 :: d) i Hi) as (a & ->). reflexivity. }
  cbn [bind]. f_equal. apply znth_ext.
  - rewrite !map_length, zrange_length. unfold zlen; lia.
  - intros i Hi. rewrite zlen_map, zlen_zrange in Hi. pose proof (zlen_nonneg (s0 :: d)).
    rewrite !znth_map, znth_zrange by lia. destruct (znth_some (s0 :: d) i) as (a & Ea); [lia|].
    simpl option_map. replace (0 + i) with i by lia. rewrite Ea. reflexivity.
Qed.

Lemma map_subpixels_mut_seq {S} (r : raw S) (f : S -> S) :
  seq_for_each (fun _ a => Some (f a)) (rdata r) =
  for_range 0 (zlen (rdata r)) (fun i d => a <- vget d i ;; vset d i (f a)) (rdata r).
Proof. unfold seq_for_each. apply for_range_ext. intros; destruct (vget s j); reflexivity. Qed.

Lemma map_subpixels_mut_par {S} sched (r : raw S) (f : S -> S) :
  complete (fun _ a => Some (f a)) sched (rdata r) = true ->
  map_subpixels_mut_parallel sched r f = map_subpixels_mut r f.
Proof.
  intros Hc. unfold map_subpixels_mut_parallel, map_subpixels_mut.
  rewrite par_for_each_seq by auto. rewrite map_subpixels_mut_seq. reflexivity.
Qed.

Lemma map_subpixels_agree {S} (r : raw S) (f : S -> S) :
  rwf r -> map_subpixels_mut r f = map_subpixels r f.
Proof.
  intros (Hw & Hh & Hc & HL). unfold map_subpixels_mut, map_subpixels, from_vec.
  rewrite <- map_subpixels_mut_seq.
  destruct (seq_for_each_ok (fun _ a => Some (f a)) (rdata r)) as (d & E & L & H); [discriminate|].
  rewrite E. cbn [bind]. rewrite zlen_map.
  destruct (rw r * rh r * rc r <=? zlen (rdata r)) eqn:F; [|lia].
  do 2 f_equal. rewrite firstn_all2 by (rewrite map_length; unfold zlen in *; lia).
  apply znth_ext; [rewrite map_length; unfold zlen in *; lia|].
  intros i Hi. rewrite znth_map. destruct (znth_some (rdata r) i) as (a & Ea); [lia|].
  rewrite Ea. apply (H i a Ea).
Qed.

(** pixel content of the result of a flat_map with fixed-size pieces *)
Lemma flat_map_slice {X T} (f : X -> list T) c (l : list X) : forall i x,
  0 <= c -> (forall x, In x l -> zlen (f x) = c) -> znth l i = Some x ->
  firstn (Z.to_nat c) (skipn (Z.to_nat (i * c)) (flat_map f l)) = f x.
Proof.
  induction l as [|a l IH]; intros i x Hc Hf Hx.
  - apply znth_range in Hx; unfold zlen in Hx; simpl in Hx; lia.
  - cbn [flat_map]. pose proof (Hf a (or_introl eq_refl)) as La.
    destruct (Z.eq_dec i 0) as [->|Hi].
    + rewrite znth_cons_0 in Hx; inversion Hx; subst. simpl skipn.
      rewrite firstn_app. replace (Z.to_nat (zlen (f x)) - length (f x))%nat with 0%nat by (unfold zlen; lia).
      simpl. rewrite app_nil_r. apply firstn_all2. unfold zlen; lia.
    + assert (0 < i) by (apply znth_range in Hx; lia). rewrite znth_cons_S in Hx by auto.
      rewrite skipn_app. rewrite skipn_all2 by (unfold zlen in La; nia). simpl.
      replace (Z.to_nat (i * c) - length (f a))%nat with (Z.to_nat ((i - 1) * c)) by (unfold zlen in La; nia).
      apply IH; auto. intros; apply Hf; right; auto.
Qed.

Lemma flat_map_zlen {X T} (f : X -> list T) c (l : list X) :
  (forall x, In x l -> zlen (f x) = c) -> zlen (flat_map f l) = zlen l * c.
Proof.
  induction l as [|a l IH]; intros Hf; [reflexivity|].
  cbn [flat_map]. rewrite zlen_app, zlen_cons, IH by (intros; apply Hf; right; auto).
  rewrite Hf by (left; auto). lia.
Qed.

Lemma nth_pixel_zlen {S} (r : raw S) i :
  rwf r -> 0 <= i < rw r * rh r -> zlen (nth_pixel r i) = rc r.
Proof.
  intros (Hw & Hh & Hc & HL) Hi. unfold nth_pixel. apply zlen_firstn.
  rewrite zlen_skipn by nia. nia.
Qed.

Lemma from_flat_map {X T} (f : X -> list T) c w h (l : list X) :
  0 <= w -> 0 <= h -> 0 < c -> zlen l = w * h -> (forall x, In x l -> zlen (f x) = c) ->
  exists out, from_vec w h c (flat_map f l) = Ok out /\ rwf out /\ rw out = w /\ rh out = h /\ rc out = c /\
    forall i x, znth l i = Some x -> nth_pixel out i = f x.
Proof.
  intros Hw Hh Hc HL Hf. unfold from_vec.
  pose proof (flat_map_zlen f c l Hf) as Lf.
  destruct (w * h * c <=? zlen (flat_map f l)) eqn:F; [|nia].
  eexists; split; [reflexivity|].
  rewrite firstn_all2 by (unfold zlen in *; nia).
  split; [unfold rwf; simpl; nia|]. splits; auto.
  intros i x Hx. unfold nth_pixel; simpl. apply flat_map_slice; auto; lia.
Qed.

Lemma map_pixels2_pointwise {S S' T} c' (r1 : raw S) (r2 : raw S') (f : list S -> list S' -> list T) :
  rwf r1 -> rwf r2 -> 0 < c' -> rw r1 = rw r2 -> rh r1 = rh r2 ->
  (forall p q, zlen p = rc r1 -> zlen q = rc r2 -> zlen (f p q) = c') ->
  exists out, map_pixels2 c' r1 r2 f = Ok out /\ rwf out /\ rw out = rw r1 /\ rh out = rh r1 /\ rc out = c' /\
    forall x y, 0 <= x < rw r1 -> 0 <= y < rh r1 -> rpixel out x y = f (rpixel r1 x y) (rpixel r2 x y).
Proof.
  intros W1 W2 Hc Ew Eh Hf. pose proof W1 as (Hw & Hh & _). unfold map_pixels2.
  assert (Hcomb : forall i, 0 <= i < rw r1 * rh r1 ->
     znth (combine (pixels r1) (pixels r2)) i = Some (nth_pixel r1 i, nth_pixel r2 i)).
  { intros i Hi. unfold pixels. rewrite <- Ew, <- Eh.
    generalize (zrange_length 0 (rw r1 * rh r1)).
    assert (combine (map (nth_pixel r1) (zrange 0 (rw r1 * rh r1))) (map (nth_pixel r2) (zrange 0 (rw r1 * rh r1)))
      = map (fun i => (nth_pixel r1 i, nth_pixel r2 i)) (zrange 0 (rw r1 * rh r1))) as ->.
    { induction (zrange 0 (rw r1 * rh r1)); simpl; congruence. }
    intros _. rewrite znth_map, znth_zrange by lia. simpl. do 3 f_equal. }
  destruct (from_flat_map (fun '(p, q) => f p q) c' (rw r1) (rh r2) (combine (pixels r1) (pixels r2)))
    as (out & E & Wo & E1 & E2 & E3 & G); auto; try lia.
  - unfold zlen. rewrite combine_length. unfold pixels. rewrite !map_length, !zrange_length. nia.
  - intros (p & q) Hin. apply Hf.
    + apply in_combine_l in Hin. unfold pixels in Hin. apply in_map_iff in Hin.
      destruct Hin as (i & <- & Hi). apply in_zrange in Hi. apply nth_pixel_zlen; auto.
    + apply in_combine_r in Hin. unfold pixels in Hin. apply in_map_iff in Hin.
      destruct Hin as (i & <- & Hi). apply in_zrange in Hi. apply nth_pixel_zlen; auto.
  - exists out; split; [exact E|]. splits; auto; try lia.
    intros x y Hx Hy. unfold rpixel at 1. rewrite E1.
    rewrite (G _ (nth_pixel r1 (y * rw r1 + x), nth_pixel r2 (y * rw r1 + x))).
    + unfold rpixel. rewrite <- Ew. reflexivity.
    + apply Hcomb. apply idx_range; auto.
Qed.

Lemma enumerate_nth {S} (r : raw S) x y :
  rwf r -> 0 <= x < rw r -> 0 <= y < rh r ->
  znth (enumerate_pixels r) (y * rw r + x) = Some (x, y, rpixel r x y).
Proof.
  intros W Hx Hy. unfold enumerate_pixels.
  rewrite znth_map, znth_zrange by (pose proof (idx_range (rw r) (rh r) x y Hx Hy); lia).
  cbn [option_map]. rewrite Z.add_0_l. unfold rpixel.
  assert ((y * rw r + x) mod rw r = x) as ->
    by (rewrite Z.add_comm, Z.mod_add by lia; apply Z.mod_small; auto).
  assert ((y * rw r + x) / rw r = y) as ->
    by (rewrite Z.add_comm, Z.div_add by lia; rewrite Z.div_small by auto; lia).
  reflexivity.
Qed.

Lemma map_enumerated_pixels_pointwise {S T} c' (r : raw S) (f : Z -> Z -> list S -> list T) :
  rwf r -> 0 < c' -> (forall x y p, zlen p = rc r -> zlen (f x y p) = c') ->
  exists out, map_enumerated_pixels c' r f = Ok out /\ rwf out /\ rw out = rw r /\ rh out = rh r /\ rc out = c' /\
    forall x y, 0 <= x < rw r -> 0 <= y < rh r -> rpixel out x y = f x y (rpixel r x y).
Proof.
  intros W Hc Hf. pose proof W as (Hw & Hh & _). unfold map_enumerated_pixels.
  destruct (from_flat_map (fun '(x, y, p) => f x y p) c' (rw r) (rh r) (enumerate_pixels r))
    as (out & E & Wo & E1 & E2 & E3 & G); auto.
  - unfold enumerate_pixels. rewrite zlen_map, zlen_zrange. nia.
  - intros ((x & y) & p) Hin. apply Hf. unfold enumerate_pixels in Hin. apply in_map_iff in Hin.
    destruct Hin as (i & Ei & Hi). inversion Ei; subst. apply in_zrange in Hi. apply nth_pixel_zlen; auto.
  - exists out; split; [exact E|]. splits; auto. intros x y Hx Hy. unfold rpixel at 1. rewrite E1.
    rewrite (G _ _ (enumerate_nth r x y W Hx Hy)). reflexivity.
Qed.

Lemma map_pixels_pointwise {S T} c' (r : raw S) (f : list S -> list T) :
  rwf r -> 0 < c' -> (forall p, zlen p = rc r -> zlen (f p) = c') ->
  exists out, map_pixels c' r f = Ok out /\ rwf out /\ rw out = rw r /\ rh out = rh r /\ rc out = c' /\
    forall x y, 0 <= x < rw r -> 0 <= y < rh r -> rpixel out x y = f (rpixel r x y).
Proof.
  intros W Hc Hf. pose proof W as (Hw & Hh & _). unfold map_pixels.
  destruct (from_flat_map f c' (rw r) (rh r) (pixels r))
    as (out & E & Wo & E1 & E2 & E3 & G); auto.
  - unfold pixels. rewrite zlen_map, zlen_zrange. nia.
  - intros p Hin. apply Hf. unfold pixels in Hin. apply in_map_iff in Hin.
    destruct Hin as (i & <- & Hi). apply in_zrange in Hi. apply nth_pixel_zlen; auto.
  - exists out; split; [exact E|]. splits; auto. intros x y Hx Hy. unfold rpixel at 1. rewrite E1.
    rewrite (G _ (rpixel r x y)); [reflexivity|].
    unfold pixels. rewrite znth_map, znth_zrange by (pose proof (idx_range (rw r) (rh r) x y Hx Hy); lia).
    reflexivity.
Qed.

(** ** from_par_fn, crop, rows *)
Lemma gen_res_timeout_free {A} w h (f : Z -> Z -> option A) x y :
  0 <= x < w -> 0 <= y < h -> f x y = None -> gen_res w h (fun x y => unwrap (f x y)) = Panic.
Proof.
  intros Hx Hy Hf. unfold gen_res.
  assert (NT : forall v l, mapM (fun x => unwrap (f x v)) l <> Timeout).
  { intros v l. induction l as [|a l IH]; [discriminate|]. cbn [mapM].
    destruct (f a v); simpl; [|discriminate]. destruct (mapM _ l); simpl; congruence. }
  rewrite (mapM_panic _ _ y); auto.
  - apply in_zrange; auto.
  - apply (mapM_panic _ _ x); [apply in_zrange; auto|rewrite Hf; reflexivity|].
    intros z _; destruct (f z y); discriminate.
Qed.

Lemma all_or_none {A} (f : Z -> Z -> option A) w h :
  (forall x y, 0 <= x < w -> 0 <= y < h -> f x y <> None) \/
  exists x y, 0 <= x < w /\ 0 <= y < h /\ f x y = None.
Proof.
  destruct (existsb (fun y => existsb (fun x => match f x y with None => true | _ => false end) (zrange 0 w)) (zrange 0 h)) eqn:E.
  - right. apply existsb_exists in E. destruct E as (y & Hy & E). apply existsb_exists in E.
    destruct E as (x & Hx & E). apply in_zrange in Hx. apply in_zrange in Hy.
    exists x, y. splits; try lia. destruct (f x y); congruence.
  - left. intros x y Hx Hy Hn.
    assert (existsb (fun y => existsb (fun x => match f x y with None => true | _ => false end) (zrange 0 w)) (zrange 0 h) = true).
    { apply existsb_exists. exists y. split; [apply in_zrange; auto|].
      apply existsb_exists. exists x. split; [apply in_zrange; auto|]. rewrite Hn; auto. }
    congruence.
Qed.

(** closed form of gen_res when no closure call fails *)
Lemma gen_res_some {A} (w h : Z) (f : Z -> Z -> option A) :
  0 <= w -> 0 <= h -> (forall x y, 0 <= x < w -> 0 <= y < h -> f x y <> None) ->
  exists im, gen_res w h (fun x y => unwrap (f x y)) = Ok im /\ wf im /\ iw im = w /\ ih im = h /\
    forall x y, 0 <= x < w -> 0 <= y < h -> get im x y = f x y.
Proof.
  intros Hw Hh Hf.
  destruct (Z.eq_dec (w * h) 0) as [Hz|Hnz].
  - exists (mkImage w h []). split.
    + unfold gen_res. assert (mapM (fun y => mapM (fun x => unwrap (f x y)) (zrange 0 w)) (zrange 0 h)
        = Ok (map (fun _ => []) (zrange 0 h))) as ->.
      { destruct (Z.eq_dec w 0) as [->|]; [apply mapM_ok; reflexivity|].
        assert (h = 0) as -> by nia. reflexivity. }
      cbn [bind]. do 2 f_equal. induction (zrange 0 h); simpl; auto.
    + split; [unfold wf, zlen; simpl; lia|]. splits; auto. intros; nia.
  - destruct (f 0 0) as [a0|] eqn:E0; [|exfalso; apply (Hf 0 0); auto; nia].
    exists (gen w h (fun x y => match f x y with Some a => a | None => a0 end)). split.
    + apply gen_res_ok. intros x y Hx Hy. specialize (Hf x y Hx Hy).
      destruct (f x y); [reflexivity|congruence].
    + split; [apply wf_gen; auto|]. splits; auto. intros x y Hx Hy. rewrite get_gen_in by auto.
      specialize (Hf x y Hx Hy). destruct (f x y); congruence.
Qed.

Lemma from_par_fn_seq {A} sched (zero : A) w h (f : Z -> Z -> option A) :
  0 <= w -> 0 <= h ->
  complete (fun i _ => f (i mod w) (i / w)) sched (idata (new_image w h zero)) = true ->
  from_par_fn sched zero w h f = gen_res w h (fun x y => unwrap (f x y)).
Proof.
  intros Hw Hh Hc. unfold from_par_fn. rewrite par_for_each_seq by auto.
  pose proof (wf_new w h zero Hw Hh) as (_ & _ & L). rewrite iw_new, ih_new in L.
  set (d0 := idata (new_image w h zero)) in *.
  destruct (all_or_none f w h) as [Hall|(x & y & Hx & Hy & Hn)].
  - destruct (gen_res_some w h f Hw Hh Hall) as (im & -> & (_ & _ & Li) & Ew & Eh & G).
    destruct (seq_for_each_ok (fun i _ => f (i mod w) (i / w)) d0) as (d & E & Ld & Hd).
    { intros i a Hi. apply znth_range in Hi. rewrite L in Hi.
      apply Hall; [apply Z.mod_pos_bound; nia|]. split; [apply Z.div_pos; nia|].
      apply Z.div_lt_upper_bound; nia. }
    rewrite E. cbn [bind]. f_equal. destruct im as [w' h' di]. simpl in *. subst w' h'. f_equal.
    apply znth_ext; [unfold zlen in *; lia|].
    intros i Hi. assert (Hi' : 0 <= i < w * h) by lia.
    destruct (znth_some d0 i) as (a & Ea); [lia|]. rewrite (Hd i a Ea).
    assert (0 < w) by nia.
    assert (Hx : 0 <= i mod w < w) by (apply Z.mod_pos_bound; auto).
    assert (Hy : 0 <= i / w < h) by (split; [apply Z.div_pos; lia | apply Z.div_lt_upper_bound; nia]).
    rewrite <- (G (i mod w) (i / w)) by auto.
    unfold get, inb; simpl. destruct ((0 <=? i mod w) && (i mod w <? w) && (0 <=? i / w) && (i / w <? h)) eqn:F; [|lia].
    f_equal. lia.
  - rewrite (gen_res_timeout_free w h f x y) by auto.
    destruct (znth_some d0 (y * w + x)) as (a & Ea).
    { rewrite L. apply idx_range; auto. }
    rewrite (seq_for_each_panic _ d0 (y * w + x) a); auto.
    rewrite <- Hn. f_equal.
    + rewrite Z.add_comm, Z.mod_add by lia. apply Z.mod_small; auto.
    + rewrite Z.add_comm, Z.div_add by lia. rewrite Z.div_small by auto. lia.
Qed.

Lemma crop_parallel_eq {A} sched (zero : A) im rx ry rw rh :
  0 <= rw -> 0 <= rh ->
  complete (fun i _ => get im (rx + i mod rw) (ry + i / rw)) sched (idata (new_image rw rh zero)) = true ->
  crop_parallel sched zero im rx ry rw rh = crop im rx ry rw rh.
Proof.
  intros Hw Hh Hc. unfold crop_parallel, crop.
  destruct (chk_u 32 (rx + rw)); cbn [bind]; auto. destruct (assert (a <=? iw im)); cbn [bind]; auto.
  destruct (chk_u 32 (ry + rh)); cbn [bind]; auto. destruct (assert (a1 <=? ih im)); cbn [bind]; auto.
  rewrite from_par_fn_seq by auto. reflexivity.
Qed.

Lemma row_task_mapM {A} (f : Z -> Z -> option A) y xs :
  unwrap (row_task f y xs) = mapM (fun x => unwrap (f x y)) xs.
Proof.
  induction xs as [|x xs IH]; [reflexivity|]. cbn [row_task mapM].
  rewrite <- IH. destruct (f x y); simpl; auto. destruct (row_task f y xs); reflexivity.
Qed.

Lemma row_task_nth {A} (f : Z -> Z -> option A) y xs l i x :
  row_task f y xs = Some l -> znth xs i = Some x -> znth l i = f x y.
Proof.
  intros E Hx. assert (M : mapM (fun x => unwrap (f x y)) xs = Ok l)
    by (rewrite <- row_task_mapM, E; reflexivity).
  destruct (mapM_nth _ _ _ _ _ M Hx) as (a & -> & Ha). destruct (f x y); simpl in Ha; congruence.
Qed.

Lemma rows_parallel_seq {A} sched w h (f : Z -> Z -> option A) :
  0 <= w -> 0 <= h ->
  collect_complete (fun y => row_task f y (zrange 0 w)) sched h = true ->
  rows_parallel sched w h f = rows_sequential w h f.
Proof.
  intros Hw Hh Hc. unfold rows_parallel, rows_sequential. rewrite par_collect_seq by auto.
  unfold seq_collect.
  destruct (all_or_none f w h) as [Hall|(x & y & Hx & Hy & Hn)].
  - destruct (mapM_exists (fun i => unwrap (row_task f i (zrange 0 w))) (fun y l => row_task f y (zrange 0 w) = Some l) (zrange 0 h))
      as (rows & E & _).
    { intros y Hy. apply in_zrange in Hy.
      destruct (row_task f y (zrange 0 w)) as [l|] eqn:El; [exists l; auto|].
      exfalso. assert (forall xs, (forall x, In x xs -> 0 <= x < w) -> row_task f y xs <> None) as G.
      { induction xs as [|x xs IH]; intros Hxs; [discriminate|]. cbn [row_task].
        destruct (f x y) eqn:Ef.
        - destruct (row_task f y xs) eqn:Er; [discriminate|].
          exfalso; apply IH; auto. intros; apply Hxs; right; auto.
        - exfalso. apply (Hall x y); auto. apply Hxs; left; auto. }
      apply (G (zrange 0 w)); auto. intros x Hx; apply in_zrange in Hx; auto. }
    rewrite E. cbn [bind]. unfold gen_res.
    assert (EX : forall l1, (forall y, In y l1 -> 0 <= y < h) ->
       mapM (fun y => mapM (fun x => row <- vget rows y;; vget row x) (zrange 0 w)) l1 =
       mapM (fun y => mapM (fun x => unwrap (f x y)) (zrange 0 w)) l1).
    { induction l1 as [|y l1 IH]; intros Hl; [reflexivity|]. cbn [mapM].
      rewrite IH by (intros; apply Hl; right; auto).
      assert (Hy : 0 <= y < h) by (apply Hl; left; auto).
      destruct (mapM_nth _ _ _ y y E) as (row & Er & Erow).
      { rewrite znth_zrange by lia. f_equal; lia. }
      unfold vget at 1. rewrite Er. cbn [unwrap bind].
      assert (mapM (fun x => vget row x) (zrange 0 w) = mapM (fun x => unwrap (f x y)) (zrange 0 w)) as ->; [|reflexivity].
      assert (G : forall l2, (forall x, In x l2 -> 0 <= x < w) ->
        mapM (fun x => vget row x) l2 = mapM (fun x => unwrap (f x y)) l2).
      { induction l2 as [|x l2 IH2]; intros Hl2; [reflexivity|]. cbn [mapM].
        rewrite IH2 by (intros; apply Hl2; right; auto).
        assert (Hx : 0 <= x < w) by (apply Hl2; left; auto).
        destruct (row_task f y (zrange 0 w)) as [row'|] eqn:Et; [|discriminate].
        simpl in Erow. inversion Erow; subst row'.
        unfold vget. rewrite (row_task_nth f y _ _ x x Et); [reflexivity|].
        rewrite znth_zrange by lia. f_equal; lia. }
      apply G. intros x Hx; apply in_zrange in Hx; auto. }
    rewrite EX; [reflexivity|]. intros y Hy; apply in_zrange in Hy; auto.
  - rewrite (gen_res_timeout_free w h f x y) by auto.
    rewrite (mapM_panic _ _ y); auto.
    + apply in_zrange; auto.
    + rewrite row_task_mapM. apply (mapM_panic _ _ x); [apply in_zrange; auto|rewrite Hn; reflexivity|].
      intros z _; destruct (f z y); discriminate.
    + intros z _. destruct (row_task f z (zrange 0 w)); discriminate.
Qed.

(** a complete schedule exists for any task set: run everything twice in order *)
Lemma complete_twice {A} (f : Z -> A -> option A) l :
  complete f (flat_map (fun i => [i; i]) (zrange 0 (zlen l))) l = true.
Proof.
  unfold complete, par_run. apply forallb_forall. intros t Ht.
  assert (G : forall k, 0 <= k <= zlen l ->
    let s := fold_left (pstep f) (flat_map (fun i => [i; i]) (zrange 0 k)) (l, map (fun _ => Todo) l) in
    pinv f l s /\ forall j, 0 <= j < k -> exists t, znth (snd s) j = Some t /\ is_done t = true).
  { intros k [Hk0 Hk]. revert Hk. pattern k. apply natlike_ind; [| |exact Hk0]; clear k Hk0.
    - intros _. split; [apply pinv_init|intros; lia].
    - intros k Hk0 IH Hk. cbv zeta. unfold Z.succ. rewrite zrange_snoc by lia.
      rewrite flat_map_app, fold_left_app. destruct IH as (Pi & Pd); [lia|].
      set (s := fold_left (pstep f) (flat_map (fun i => [i; i]) (zrange 0 k)) (l, map (fun _ => Todo) l)) in *.
      cbn [flat_map app fold_left]. split; [apply pinv_step, pinv_step; auto|].
      intros j Hj. destruct (Z.eq_dec j k) as [->|Hne].
      + destruct s as [buf st]. destruct Pi as (L1 & L2 & H). cbn [fst snd] in *.
        destruct (znth_some l k) as (a & Ea); [lia|]. specialize (H k a Ea).
        destruct (znth st k) as [tk|] eqn:Et; [|tauto].
        assert (E1 : pstep f (buf, st) k = match tk with
           | Todo => (buf, zupd st k (Loaded a))
           | Loaded b => match f k b with Some c => (zupd buf k c, zupd st k Done) | None => (buf, zupd st k Panicked) end
           | _ => (buf, st) end).
        { unfold pstep. rewrite Et. destruct tk; auto. rewrite H; auto. }
        rewrite E1. clear E1. destruct tk as [|b| |].
        * unfold pstep. rewrite znth_zupd by lia. rewrite Z.eqb_refl.
          destruct (f k a); simpl; rewrite znth_zupd by (rewrite zupd_zlen; lia); rewrite Z.eqb_refl; eauto.
        * destruct (f k b); apply step_done_mono; simpl; rewrite znth_zupd by lia; rewrite Z.eqb_refl; eauto.
        * apply step_done_mono; simpl; eauto.
        * apply step_done_mono; simpl; eauto.
      + apply step_done_mono, step_done_mono. apply Pd; lia. }
  destruct (G (zlen l)) as ((_ & L2 & _) & Hd); [pose proof (zlen_nonneg l); lia|].
  apply In_znth in Ht. destruct Ht as (i & Hi & Ei).
  destruct (Hd i) as (t' & Et' & Dt'); [lia|]. congruence.
Qed.

Lemma pixels_zlen {S} (r : raw S) : rwf r -> zlen (pixels r) = rw r * rh r.
Proof. intros (Hw & Hh & _). unfold pixels. rewrite zlen_map, zlen_zrange. nia. Qed.

Lemma map_pixels2_panics_iff {S S' T} c' (r1 : raw S) (r2 : raw S') (f : list S -> list S' -> list T) :
  rwf r1 -> rwf r2 -> 0 < c' ->
  (forall p q, zlen p = rc r1 -> zlen q = rc r2 -> zlen (f p q) = c') ->
  map_pixels2 c' r1 r2 f = Panic <-> Z.min (rw r1 * rh r1) (rw r2 * rh r2) < rw r1 * rh r2.
Proof.
  intros W1 W2 Hc Hf. unfold map_pixels2, from_vec.
  rewrite (flat_map_zlen _ c').
  - assert (zlen (combine (pixels r1) (pixels r2)) = Z.min (rw r1 * rh r1) (rw r2 * rh r2)) as ->.
    { rewrite <- !pixels_zlen by auto. unfold zlen. rewrite combine_length. lia. }
    destruct (rw r1 * rh r2 * c' <=? Z.min (rw r1 * rh r1) (rw r2 * rh r2) * c') eqn:E.
    + split; [discriminate|]. intros H. nia.
    + split; [|reflexivity]. intros _. nia.
  - intros (p & q) Hin. apply Hf.
    + apply in_combine_l in Hin. unfold pixels in Hin. apply in_map_iff in Hin.
      destruct Hin as (i & <- & Hi). apply in_zrange in Hi. apply nth_pixel_zlen; auto.
    + apply in_combine_r in Hin. unfold pixels in Hin. apply in_map_iff in Hin.
      destruct Hin as (i & <- & Hi). apply in_zrange in Hi. apply nth_pixel_zlen; auto.
Qed.

Lemma warp_rows_parallel_ok {A} sched w (f : Z -> Z -> A) rows :
  complete (fun y _ => Some (map (fun x => f x y) (zrange 0 w))) sched rows = true ->
  warp_rows_parallel sched w f rows = Ok (map (fun y => map (fun x => f x y) (zrange 0 w)) (zrange 0 (zlen rows))).
Proof.
  intros Hc. unfold warp_rows_parallel. rewrite par_for_each_seq by auto.
  destruct (seq_for_each_ok (fun y _ => Some (map (fun x => f x y) (zrange 0 w))) rows) as (d & E & L & H); [discriminate|].
  rewrite E. f_equal. apply znth_ext.
  - rewrite map_length, zrange_length. unfold zlen in *; lia.
  - intros i Hi. rewrite znth_map, znth_zrange by lia. destruct (znth_some rows i) as (a & Ea); [lia|].
    rewrite (H i a Ea). reflexivity.
Qed.
