From Coq Require Import Relations Permutation.
From Verif Require Import Base BaseProofs UnionFindModel UnionFindSpec.

(** root of [i] in the parent array *)
Inductive rootof (par : list Z) : Z -> Z -> Prop :=
| ro_here i : znth par i = Some i -> rootof par i i
| ro_step i p r : znth par i = Some p -> p <> i -> rootof par p r -> rootof par i r.

Lemma rootof_fun par i r r' : rootof par i r -> rootof par i r' -> r = r'.
Proof.
  intros H; revert r'; induction H as [i Hi|i p r Hi Hne H IH]; intros r' H'; inversion H'; subst; try congruence.
  apply IH. assert (p = p0) by congruence. subst; auto.
Qed.

Lemma rootof_root par i r : rootof par i r -> znth par r = Some r.
Proof. induction 1; auto. Qed.

(** acyclicity witness *)
Definition ranked (n : Z) (par : list Z) (rank : Z -> Z) (B : Z) : Prop :=
  zlen par = n /\
  forall i p, znth par i = Some p ->
    0 <= p < n /\ 0 <= rank i < B /\ (p <> i -> rank i < rank p).

Lemma rootof_total n par rank B i : ranked n par rank B -> 0 <= i < n -> exists r, rootof par i r /\ 0 <= r < n.
Proof.
  intros (L & H).
  assert (G : forall k i, Z.of_nat k = B - rank i -> 0 <= i < n -> exists r, rootof par i r /\ 0 <= r < n).
  { induction k as [k IH] using (well_founded_induction lt_wf). intros j Hk Hj.
    destruct (znth_some par j) as (p & Ep); [lia|]. destruct (H j p Ep) as (Hp & Hr & Hlt).
    destruct (Z.eq_dec p j) as [->|Hne]; [exists j; split; auto; constructor; auto|].
    destruct (znth_some par p) as (pp & Epp); [lia|]. destruct (H p pp Epp) as (_ & Hr' & _).
    destruct (IH (Z.to_nat (B - rank p))) with (i := p) as (r & Hro & Hrn); try lia.
    exists r; split; auto. econstructor 2; eauto. }
  intros Hi. destruct (znth_some par i) as (p & Ep); [lia|]. destruct (H i p Ep) as (_ & Hr & _).
  apply (G (Z.to_nat (B - rank i))); lia.
Qed.

Lemma rootof_range n par rank B i r : ranked n par rank B -> rootof par i r -> 0 <= i < n /\ 0 <= r < n.
Proof.
  intros (L & H) R. induction R as [i Hi|i p r Hi Hne R IH].
  - apply znth_range in Hi; lia.
  - apply znth_range in Hi; lia.
Qed.

(** path halving at j *)
Lemma halve_preserves n par rank B j p pp :
  ranked n par rank B -> znth par j = Some p -> znth par p = Some pp ->
  ranked n (zupd par j pp) rank B /\ forall k r, rootof par k r <-> rootof (zupd par j pp) k r.
Proof.
  intros (L & H) Ej Ep. pose proof (znth_range _ _ _ Ej) as Rj. rewrite L in Rj.
  destruct (H j p Ej) as (Hp & Hrj & Hlt1). destruct (H p pp Ep) as (Hpp & Hrp & Hlt2).
  assert (RK : ranked n (zupd par j pp) rank B).
  { split; [rewrite zupd_zlen; auto|]. intros i q. rewrite znth_zupd by lia.
    destruct (Z.eqb_spec i j) as [->|Hne]; [|apply H].
    intros E; inversion E; subst q. splits; try lia.
    intros Hne. destruct (Z.eq_dec p j) as [->|]; [rewrite Ej in Ep; congruence|].
    destruct (Z.eq_dec pp p) as [->|]; lia. }
  split; auto.
  assert (F : forall k r, rootof par k r -> rootof (zupd par j pp) k r).
  { intros k r R. induction R as [k Hk|k q r Hk Hne R IH].
    - constructor. rewrite znth_zupd by lia. destruct (Z.eqb_spec k j) as [->|]; auto. congruence.
    - destruct (Z.eq_dec k j) as [->|Hkj].
      + assert (q = p) by congruence. subst q.
        destruct (Z.eq_dec pp p) as [->|Hpp2].
        * econstructor 2; [rewrite znth_zupd by lia; rewrite Z.eqb_refl; reflexivity|auto|auto].
        * inversion IH as [? E|? q' ? E Hne' R']; subst.
          -- rewrite znth_zupd in E by lia. destruct (Z.eqb_spec r j); congruence.
          -- rewrite znth_zupd in E by lia. destruct (Z.eqb_spec p j); [congruence|].
             assert (q' = pp) by congruence. subst q'.
             econstructor 2; [rewrite znth_zupd by lia; rewrite Z.eqb_refl; reflexivity| |auto].
             intros ->. pose proof (Hlt1 Hne). pose proof (Hlt2 Hpp2). lia.
      + econstructor 2; [rewrite znth_zupd by lia; destruct (Z.eqb_spec k j); [congruence|eauto]|auto|auto]. }
  intros k r; split; auto. intros R'.
  destruct (rootof_range _ _ _ _ _ _ RK R') as (Hk & _).
  destruct (rootof_total n par rank B k) as (r0 & R0 & _); [split; auto|auto|].
  rewrite (rootof_fun _ _ _ _ R' (F _ _ R0)). auto.
Qed.

Lemma root_loop_ok n rank B : forall fuel visited par j,
  ranked n par rank B -> 0 <= j < n ->
  NoDup visited -> (forall v, In v visited -> 0 <= v < n /\ rank v < rank j) ->
  (n < Z.of_nat (length visited + fuel))%Z ->
  exists r par', root_loop fuel par j = Ok (r, par') /\ rootof par j r /\
    ranked n par' rank B /\ (forall k r, rootof par k r <-> rootof par' k r).
Proof.
  induction fuel as [|fuel IH]; intros visited par j RK Hj ND Hv Hf.
  - exfalso.
    assert (NoDup (j :: visited)) as ND'.
    { constructor; auto. intros Hin. destruct (Hv j Hin); lia. }
    assert (incl (j :: visited) (zrange 0 n)) as INC.
    { intros v [<-|Hin]; apply in_zrange; [auto|]. destruct (Hv v Hin); auto. }
    apply NoDup_incl_length in INC; auto. rewrite zrange_length in INC. simpl in INC. lia.
  - cbn [root_loop]. pose proof RK as (L & H).
    destruct (znth_some par j) as (p & Ep); [lia|]. destruct (H j p Ep) as (Hp & Hr & Hlt).
    destruct (znth_some par p) as (pp & Epp); [lia|].
    unfold vget. rewrite Ep. cbn [unwrap bind]. rewrite Epp. cbn [unwrap bind].
    rewrite vset_ok by lia. cbn [bind].
    destruct (halve_preserves n par rank B j p pp RK Ep Epp) as (RK' & Hro).
    destruct (Z.eqb_spec j p) as [<-|Hne].
    + exists j, (zupd par j pp). split; [reflexivity|]. split; [constructor; auto|]. split; auto.
    + destruct (IH (j :: visited) (zupd par j pp) p) as (r & par' & E & R & RK2 & Hro2); auto.
      * constructor; auto. intros Hin. destruct (Hv j Hin); lia.
      * assert (rank j < rank p) by (apply Hlt; auto).
        intros v [<-|Hin]; [lia|]. destruct (Hv v Hin); lia.
      * simpl length in *. lia.
      * exists r, par'. split; [exact E|]. split.
        { econstructor 2; eauto. apply Hro; auto. }
        split; auto. intros k r0. rewrite Hro. auto.
Qed.

(** ** forest invariant *)
Definition finv (n : Z) (f : forest) : Prop :=
  count f = n /\ 0 <= n /\ zlen (tree_size f) = n /\ exists rank B, ranked n (parent f) rank B.

Definition froot (f : forest) := rootof (parent f).

Definition same_roots (f g : forest) : Prop := forall k r, froot f k r <-> froot g k r.

Lemma root_ok n f i : finv n f -> 0 <= i < n ->
  exists r f', root f i = Ok (r, f') /\ froot f i r /\ 0 <= r < n /\ finv n f' /\ same_roots f f'.
Proof.
  intros (Hc & Hn & Ht & rank & B & RK) Hi. unfold root, assert. rewrite Hc.
  destruct (i <? n) eqn:E; [|lia]. cbn [bind].
  destruct (root_loop_ok n rank B (S (Z.to_nat n)) [] (parent f) i) as (r & par' & El & R & RK' & Hro); auto.
  - constructor.
  - intros v [].
  - simpl length. lia.
  - rewrite El. cbn [bind]. exists r. eexists. split; [reflexivity|]. split; [exact R|].
    split; [exact (proj2 (rootof_range _ _ _ _ _ _ RK R))|]. split.
    + unfold finv; simpl. splits; auto. exists rank, B; auto.
    + exact Hro.
Qed.

Lemma froot_total n f i : finv n f -> 0 <= i < n -> exists r, froot f i r /\ 0 <= r < n.
Proof. intros (_ & _ & _ & rank & B & RK) Hi. eapply rootof_total; eauto. Qed.

Lemma froot_fun f i r r' : froot f i r -> froot f i r' -> r = r'.
Proof. apply rootof_fun. Qed.

Lemma find_ok n f i j : finv n f -> 0 <= i < n -> 0 <= j < n ->
  exists b f', find f i j = Ok (b, f') /\ finv n f' /\ same_roots f f' /\
    (b = true <-> exists r, froot f i r /\ froot f j r).
Proof.
  intros Hf Hi Hj. pose proof Hf as (Hc & _). unfold find, assert. rewrite Hc.
  destruct ((i <? n) && (j <? n)) eqn:E; [|lia]. cbn [bind].
  destruct (root_ok n f i Hf Hi) as (p & f1 & E1 & R1 & _ & Hf1 & S1). rewrite E1. cbn [bind].
  destruct (root_ok n f1 j Hf1 Hj) as (q & f2 & E2 & R2 & _ & Hf2 & S2). rewrite E2. cbn [bind].
  exists (p =? q), f2. split; [reflexivity|]. split; auto. split.
  { intros k r. rewrite (S1 k r). apply S2. }
  apply S1 in R2. rewrite Z.eqb_eq. split.
  - intros ->. exists q; auto.
  - intros (r & Ra & Rb). rewrite (froot_fun _ _ _ _ R1 Ra). apply (froot_fun _ _ _ _ Rb R2).
Qed.

(** linking root p under root q *)
Lemma link_preserves n par rank B p q :
  ranked n par rank B -> 0 <= p < n -> 0 <= q < n -> p <> q ->
  znth par p = Some p -> znth par q = Some q ->
  (exists rank' B', ranked n (zupd par p q) rank' B') /\
  forall k r, rootof par k r -> rootof (zupd par p q) k (if r =? p then q else r).
Proof.
  intros (L & H) Hp Hq Hne Ep Eq. split.
  - exists (fun x => if x =? q then B else rank x), (B + 1).
    split; [rewrite zupd_zlen; auto|]. intros i x. rewrite znth_zupd by lia.
    destruct (H q q Eq) as (_ & Hrq & _).
    destruct (Z.eqb_spec i p) as [->|Hip].
    + intros E; inversion E; subst x. rewrite Z.eqb_refl.
      destruct (H p p Ep) as (_ & Hrp & _).
      destruct (Z.eqb_spec p q); splits; lia.
    + intros Ex. destruct (H i x Ex) as (Hx & Hr & Hlt).
      assert (Hx' : 0 <= rank x < B).
      { destruct (znth_some par x) as (xx & Exx); [lia|]. destruct (H x xx Exx); tauto. }
      destruct (Z.eqb_spec i q) as [->|Hiq].
      * assert (x = q) by congruence. subst x. rewrite Z.eqb_refl. splits; lia.
      * destruct (Z.eqb_spec x q) as [->|Hxq]; splits; lia.
  - intros k r R. induction R as [k Hk|k x r Hk Hkx R IH].
    + destruct (Z.eqb_spec k p) as [->|Hkp].
      * econstructor 2; [rewrite znth_zupd by lia; rewrite Z.eqb_refl; reflexivity|auto|].
        constructor. rewrite znth_zupd by lia. destruct (Z.eqb_spec q p); congruence.
      * constructor. rewrite znth_zupd by lia. destruct (Z.eqb_spec k p); congruence.
    + econstructor 2; [|exact Hkx|exact IH].
      rewrite znth_zupd by lia. destruct (Z.eqb_spec k p); congruence.
Qed.

(** number of self-parents *)
Definition nroots (par : list Z) : Z :=
  fold_left (fun acc '(i, p) => acc + (if i =? p then 1 else 0))
            (combine (zrange 0 (zlen par)) par) 0.

Lemma fold_count_acc (l : list (Z * Z)) a :
  fold_left (fun acc '(i, p) => acc + (if i =? p then 1 else 0)) l a =
  a + fold_left (fun acc '(i, p) => acc + (if i =? p then 1 else 0)) l 0.
Proof.
  revert a; induction l as [|(i & p) l IH]; intros a; cbn [fold_left]; [lia|].
  rewrite IH, (IH (0 + _)). lia.
Qed.

Lemma nroots_zsum par : nroots par = zsum 0 (zlen par) (fun i => if match znth par i with Some p => i =? p | None => false end then 1 else 0).
Proof.
  unfold nroots.
  assert (G : forall (l : list Z) s,
    fold_left (fun acc '(i, p) => acc + (if i =? p then 1 else 0)) (combine (zseq s (length l)) l) 0 =
    zsum s (s + zlen l) (fun i => if match znth l (i - s) with Some p => i =? p | None => false end then 1 else 0)).
  { induction l as [|a l IH]; intros s.
    - rewrite zsum_empty by (unfold zlen; simpl; lia). reflexivity.
    - cbn [length zseq combine fold_left]. rewrite fold_count_acc, IH.
      rewrite zlen_cons. rewrite (zsum_cons s) by (pose proof (zlen_nonneg l); lia).
      rewrite Z.sub_diag, znth_cons_0. rewrite Z.add_0_l. f_equal.
      replace (s + (1 + zlen l)) with (s + 1 + zlen l) by lia.
      apply zsum_ext. intros i Hi. rewrite znth_cons_S by lia.
      replace (i - s - 1) with (i - (s + 1)) by lia. reflexivity. }
  specialize (G par 0). unfold zrange. replace (Z.to_nat (zlen par - 0)) with (length par) by (unfold zlen; lia).
  rewrite G. rewrite Z.add_0_l. apply zsum_ext. intros i Hi. rewrite Z.sub_0_r. reflexivity.
Qed.

Lemma zsum_update lo hi f g k :
  lo <= k < hi -> (forall i, lo <= i < hi -> i <> k -> f i = g i) -> zsum lo hi f = zsum lo hi g + (f k - g k).
Proof.
  intros Hk H. rewrite (zsum_split lo k hi f), (zsum_split lo k hi g) by lia.
  rewrite (zsum_cons k hi f), (zsum_cons k hi g) by lia.
  rewrite (zsum_ext lo k f g) by (intros; apply H; lia).
  rewrite (zsum_ext (k + 1) hi f g) by (intros; apply H; lia). lia.
Qed.

(** same roots implies same number of roots *)
Lemma nroots_same n par par' rank B rank' B' :
  ranked n par rank B -> ranked n par' rank' B' ->
  (forall k r, rootof par k r <-> rootof par' k r) -> nroots par = nroots par'.
Proof.
  intros RK RK' H. rewrite !nroots_zsum. destruct RK as (L & RK), RK' as (L' & RK'). rewrite L, L'.
  apply zsum_ext. intros i Hi.
  destruct (znth_some par i) as (p & Ep); [lia|]. destruct (znth_some par' i) as (p' & Ep'); [lia|].
  rewrite Ep, Ep'.
  destruct (Z.eqb_spec i p) as [<-|Hne]; destruct (Z.eqb_spec i p') as [<-|Hne']; auto.
  - assert (R : rootof par i i) by (constructor; auto). apply H in R.
    inversion R as [? E|? x ? E Hx R']; subst; try congruence.
    apply rootof_root in R'. congruence.
  - assert (R : rootof par' i i) by (constructor; auto). apply H in R.
    inversion R as [? E|? x ? E Hx R']; subst; try congruence.
    apply rootof_root in R'. congruence.
Qed.

Lemma nroots_link par p q :
  0 <= p < zlen par -> p <> q -> znth par p = Some p -> nroots (zupd par p q) = nroots par - 1.
Proof.
  intros Hp Hne Ep. rewrite !nroots_zsum, zupd_zlen.
  rewrite (zsum_update 0 (zlen par) _ (fun i => if match znth par i with Some p => i =? p | None => false end then 1 else 0) p); auto.
  - rewrite znth_zupd by auto. rewrite Z.eqb_refl, Ep, Z.eqb_refl.
    destruct (Z.eqb_spec p q); [congruence|lia].
  - intros i Hi Hip. rewrite znth_zupd by auto. destruct (Z.eqb_spec i p); congruence.
Qed.

Definition rel (f : forest) i j : Prop := exists r, froot f i r /\ froot f j r.

Lemma union_ok n f i j : finv n f -> 0 <= i < n -> 0 <= j < n ->
  exists f', union f i j = Ok f' /\ finv n f' /\
    (forall a b, 0 <= a < n -> 0 <= b < n ->
      (rel f' a b <-> rel f a b \/ (rel f a i /\ rel f b j) \/ (rel f a j /\ rel f b i))) /\
    (rel f i j -> num_trees f' = num_trees f) /\
    (~ rel f i j -> num_trees f' = num_trees f - 1).
Proof.
  intros Hf Hi Hj. pose proof Hf as (Hc & Hn & _). unfold union, assert. rewrite Hc.
  destruct ((i <? n) && (j <? n)) eqn:E; [|lia]. cbn [bind].
  destruct (root_ok n f i Hf Hi) as (p & f1 & E1 & R1 & Hp & Hf1 & S1). rewrite E1. cbn [bind].
  destruct (root_ok n f1 j Hf1 Hj) as (q & f2 & E2 & R2 & Hq & Hf2 & S2). rewrite E2. cbn [bind].
  assert (S12 : same_roots f f2) by (intros k r; rewrite (S1 k r); apply S2).
  apply S1 in R2.
  pose proof Hf as (_ & _ & _ & rank0 & B0 & RK0).
  pose proof Hf2 as (Hc2 & _ & Ht2 & rank & B & RK).
  assert (NR : nroots (parent f) = nroots (parent f2)) by (eapply nroots_same; eauto).
  assert (relS : forall a b, rel f a b <-> rel f2 a b).
  { intros a b; split; intros (r & Ra & Rb); exists r; split; apply S12; auto. }
  destruct (Z.eqb_spec p q) as [<-|Hpq].
  - exists f2; split; [reflexivity|]. split; auto.
    assert (Rij : rel f i j) by (exists p; auto).
    split; [|split; [intros _; symmetry; exact NR|tauto]].
    intros a b Ha Hb. rewrite <- relS. split; [tauto|].
    intros [H|[((r & Ra & Ri) & (r' & Rb & Rj))|((r & Ra & Rj) & (r' & Rb & Ri))]]; auto.
    + exists p. rewrite (froot_fun _ _ _ _ R1 Ri), <- (froot_fun _ _ _ _ R1 Ri).
      assert (r = p) by (eapply froot_fun; eauto). assert (r' = p) by (eapply froot_fun; eauto). subst; auto.
    + exists p. assert (r = p) by (eapply froot_fun; eauto). assert (r' = p) by (eapply froot_fun; eauto). subst; auto.
  - assert (Nij : ~ rel f i j).
    { intros (r & Ra & Rb). apply Hpq. rewrite (froot_fun _ _ _ _ R1 Ra). eapply froot_fun; eauto. }
    destruct (znth_some (tree_size f2) p) as (ps & Eps); [lia|].
    destruct (znth_some (tree_size f2) q) as (qs & Eqs); [lia|].
    unfold vget. rewrite Eps. cbn [unwrap bind]. rewrite Eqs. cbn [unwrap bind].
    assert (L2 : zlen (parent f2) = n) by (destruct RK; auto).
    assert (Fp : froot f2 i p) by (apply S12; auto). assert (Fq : froot f2 j q) by (apply S12; auto).
    assert (Zp : znth (parent f2) p = Some p) by (eapply rootof_root; eauto).
    assert (Zq : znth (parent f2) q = Some q) by (eapply rootof_root; eauto).
    (* generic conclusion for either link direction *)
    assert (GEN : forall u v ts, (u = p /\ v = q) \/ (u = q /\ v = p) -> zlen ts = n ->
      let f' := mkForest (count f2) (zupd (parent f2) u v) ts in
      finv n f' /\
      (forall a b, 0 <= a < n -> 0 <= b < n ->
        (rel f' a b <-> rel f a b \/ (rel f a i /\ rel f b j) \/ (rel f a j /\ rel f b i))) /\
      num_trees f' = num_trees f - 1).
    { intros u v ts Huv Lts. cbv zeta.
      assert (Hu : 0 <= u < n) by (destruct Huv as [(-> & ->)|(-> & ->)]; auto).
      assert (Hv : 0 <= v < n) by (destruct Huv as [(-> & ->)|(-> & ->)]; auto).
      assert (Huv' : u <> v) by (destruct Huv as [(-> & ->)|(-> & ->)]; auto).
      assert (Zu : znth (parent f2) u = Some u) by (destruct Huv as [(-> & ->)|(-> & ->)]; auto).
      assert (Zv : znth (parent f2) v = Some v) by (destruct Huv as [(-> & ->)|(-> & ->)]; auto).
      destruct (link_preserves n (parent f2) rank B u v RK) as (RK' & HR); auto.
      splits.
      - unfold finv; simpl. splits; auto.
      - intros a b Ha Hb. rewrite relS. rewrite (relS a i), (relS b j), (relS a j), (relS b i).
        destruct (froot_total n f2 a Hf2 Ha) as (ra & Ra & _).
        destruct (froot_total n f2 b Hf2 Hb) as (rb & Rb & _).
        pose proof (HR _ _ Ra) as Ra'. pose proof (HR _ _ Rb) as Rb'.
        assert (X : forall c rc d rd, froot f2 c rc -> froot f2 d rd -> (rel f2 c d <-> rc = rd)).
        { intros c rc d rd Rc Rd. split.
          - intros (r & H1 & H2). rewrite (froot_fun _ _ _ _ Rc H1). eapply froot_fun; eauto.
          - intros ->. exists rd; auto. }
        rewrite (X a ra b rb), (X a ra i p), (X b rb j q), (X a ra j q), (X b rb i p) by auto.
        assert (Y : rel (mkForest (count f2) (zupd (parent f2) u v) ts) a b <->
                    (if ra =? u then v else ra) = (if rb =? u then v else rb)).
        { split.
          - intros (r & H1 & H2). unfold froot in H1, H2; simpl in H1, H2.
            rewrite (rootof_fun _ _ _ _ Ra' H1). symmetry. eapply rootof_fun; eauto.
          - intros Eq. exists (if ra =? u then v else ra). unfold froot; simpl. split; auto. rewrite Eq; auto. }
        rewrite Y.
        destruct (Z.eqb_spec ra u); destruct (Z.eqb_spec rb u); destruct Huv as [(? & ?)|(? & ?)]; subst; split; intros; try lia; auto.
      - change (nroots (zupd (parent f2) u v) = nroots (parent f) - 1). rewrite NR. apply nroots_link; auto. lia. }
    destruct (ps <? qs) eqn:Eps2.
    + rewrite vset_ok by lia. cbn [bind]. rewrite vset_ok by lia. cbn [bind].
      destruct (GEN p q (zupd (tree_size f2) q (ps + qs))) as (G1 & G2 & G3); [auto|rewrite zupd_zlen; auto|].
      eexists; split; [reflexivity|]. splits; auto. tauto.
    + rewrite vset_ok by lia. cbn [bind]. rewrite vset_ok by lia. cbn [bind].
      destruct (GEN q p (zupd (tree_size f2) p (ps + qs))) as (G1 & G2 & G3); [auto|rewrite zupd_zlen; auto|].
      eexists; split; [reflexivity|]. splits; auto. tauto.
Qed.

(** ** link with the specification *)
Lemma connected_mono p1 p2 i j : (forall x, In x p1 -> In x p2) -> connected p1 i j -> connected p2 i j.
Proof.
  intros H C. induction C as [a b Hab|a|a b _ IH|a b c _ IH1 _ IH2].
  - apply rst_step. auto.
  - apply rst_refl.
  - apply rst_sym; auto.
  - eapply rst_trans; eauto.
Qed.

Definition tracks (n : Z) (f : forest) (pairs : list (Z * Z)) : Prop :=
  finv n f /\ (forall a b, In (a, b) pairs -> 0 <= a < n /\ 0 <= b < n) /\
  forall a b, 0 <= a < n -> 0 <= b < n -> (rel f a b <-> connected pairs a b).

Lemma connected_range n pairs a b :
  (forall a b, In (a, b) pairs -> 0 <= a < n /\ 0 <= b < n) ->
  connected pairs a b -> a = b \/ (0 <= a < n /\ 0 <= b < n).
Proof.
  intros H C. induction C as [x y Hxy|x|x y _ IH|x y z _ IH1 _ IH2]; auto; lia.
Qed.

Lemma finv_new n : 0 <= n -> finv n (forest_new n).
Proof.
  intros Hn. unfold finv, forest_new; simpl. splits; auto.
  - rewrite zlen_map, zlen_zrange. lia.
  - exists (fun _ => 0), 1. split; [rewrite zlen_zrange; lia|].
    intros i p E. pose proof (znth_range _ _ _ E) as R. rewrite zlen_zrange in R.
    rewrite znth_zrange in E by lia. inversion E; subst. splits; lia.
Qed.

Lemma froot_new n i r : 0 <= n -> froot (forest_new n) i r <-> (i = r /\ 0 <= i < n).
Proof.
  intros Hn. unfold froot; simpl. split.
  - intros R. inversion R as [? E|? p ? E Hne R']; subst;
    pose proof (znth_range _ _ _ E) as Hr; rewrite zlen_zrange in Hr;
    rewrite znth_zrange in E by lia; inversion E; subst; lia.
  - intros (-> & Hr). constructor. rewrite znth_zrange by lia. f_equal; lia.
Qed.

Lemma tracks_new n : 0 <= n -> tracks n (forest_new n) [].
Proof.
  intros Hn. split; [apply finv_new; auto|]. split; [intros a b []|].
  intros a b Ha Hb. split.
  - intros (r & Ra & Rb). apply froot_new in Ra; auto. apply froot_new in Rb; auto.
    assert (a = b) by lia. subst. apply rst_refl.
  - intros C. assert (a = b).
    { clear -C. induction C; try congruence. destruct H. }
    subst. exists b. split; apply froot_new; auto.
Qed.

Lemma tracks_same n f f' pairs :
  tracks n f pairs -> finv n f' -> same_roots f f' -> tracks n f' pairs.
Proof.
  intros (_ & Hr & H) Hf' S. split; auto. split; auto. intros a b Ha Hb.
  rewrite <- (H a b Ha Hb). split; intros (r & R1 & R2); exists r; split; apply S; auto.
Qed.

Lemma tracks_union n f pairs i j f' :
  tracks n f pairs -> 0 <= i < n -> 0 <= j < n -> union f i j = Ok f' ->
  tracks n f' (pairs ++ [(i, j)]) /\
  (connected pairs i j -> num_trees f' = num_trees f) /\
  (~ connected pairs i j -> num_trees f' = num_trees f - 1).
Proof.
  intros (Hf & Hr & H) Hi Hj E.
  destruct (union_ok n f i j Hf Hi Hj) as (f1 & E1 & Hf1 & R1 & N1 & N2).
  rewrite E in E1; inversion E1; subst f1; clear E1.
  split; [|split; intros C; [apply N1|apply N2]; rewrite (H i j Hi Hj); auto].
  split; auto. split.
  { intros a b Hin. apply in_app_or in Hin. destruct Hin as [Hin|[Eq|[]]]; [auto|]. inversion Eq; subst; auto. }
  intros a b Ha Hb. rewrite (R1 a b Ha Hb).
  rewrite (H a b), (H a i), (H b j), (H a j), (H b i) by auto. split.
  - assert (M : forall c d, connected pairs c d -> connected (pairs ++ [(i, j)]) c d)
      by (intros c d; apply connected_mono; intros; apply in_or_app; auto).
    assert (Cij : connected (pairs ++ [(i, j)]) i j) by (apply rst_step; apply in_or_app; right; left; auto).
    intros [C|[(C1 & C2)|(C1 & C2)]]; auto.
    + apply rst_trans with i; [apply M; auto|]. apply rst_trans with j; [exact Cij|]. apply rst_sym; apply M; auto.
    + apply rst_trans with j; [apply M; auto|]. apply rst_trans with i; [apply rst_sym; exact Cij|]. apply rst_sym; apply M; auto.
  - assert (G : forall a b, connected (pairs ++ [(i, j)]) a b ->
      connected pairs a b \/ (connected pairs a i /\ connected pairs b j) \/ (connected pairs a j /\ connected pairs b i)).
    { clear. intros a b C. induction C as [x y Hxy|x|x y _ IH|x y z _ IH1 _ IH2].
      - apply in_app_or in Hxy. destruct Hxy as [Hxy|[Eq|[]]]; [left; apply rst_step; auto|].
        inversion Eq; subst. right; left. split; apply rst_refl.
      - left; apply rst_refl.
      - destruct IH as [IH|[(I1 & I2)|(I1 & I2)]]; [left; apply rst_sym; auto|auto|auto].
      - assert (Sy : forall c d, connected pairs c d -> connected pairs d c) by (intros; apply rst_sym; auto).
        assert (Tr : forall c d e, connected pairs c d -> connected pairs d e -> connected pairs c e)
          by (intros; eapply rst_trans; eauto).
        destruct IH1 as [IH1|[(I1 & I2)|(I1 & I2)]]; destruct IH2 as [IH2|[(J1 & J2)|(J1 & J2)]]; eauto 6. }
    intros C. apply G in C. exact C.
Qed.

Lemma run_ops_tracks n : 0 <= n -> forall ops f pairs,
  tracks n f pairs -> (forall o, In o ops -> op_in_range n o) ->
  exists f', run_ops ops f = Ok f' /\ tracks n f' (pairs ++ united ops) /\
    exists k, merges pairs (united ops) k /\ num_trees f' = num_trees f - k.
Proof.
  intros Hn. induction ops as [|o ops IH]; intros f pairs T Hr.
  - exists f. split; [reflexivity|]. rewrite app_nil_r. split; auto. exists 0. split; [constructor|lia].
  - unfold run_ops; cbn [for_each].
    assert (Ho : op_in_range n o) by (apply Hr; left; auto).
    assert (Hr' : forall o, In o ops -> op_in_range n o) by (intros; apply Hr; right; auto).
    destruct o as [i j|i|i j]; cbn [run_op united] in *.
    + destruct Ho as (Hi & Hj). pose proof T as (Hf & _ & HT).
      destruct (union_ok n f i j Hf Hi Hj) as (f1 & E1 & Hf1 & _ & _ & _).
      destruct (tracks_union n f pairs i j f1 T Hi Hj E1) as (T1 & N1 & N2).
      rewrite E1. cbn [bind].
      destruct (IH f1 (pairs ++ [(i, j)]) T1 Hr') as (f2 & E2 & T2 & k & Mk & Nk).
      exists f2. split; [exact E2|]. rewrite <- app_assoc in T2. split; [exact T2|].
      assert (D : connected pairs i j \/ ~ connected pairs i j).
      { rewrite <- (HT i j Hi Hj). destruct (froot_total n f i Hf Hi) as (r1 & R1 & _).
        destruct (froot_total n f j Hf Hj) as (r2 & R2 & _).
        destruct (Z.eq_dec r1 r2) as [->|Hne]; [left; exists r2; auto|].
        right. intros (r & Ra & Rb). apply Hne. rewrite (froot_fun _ _ _ _ R1 Ra). eapply froot_fun; eauto. }
      destruct D as [D|D].
      * exists k. split; [apply merges_skip; auto|]. rewrite Nk, N1 by auto. lia.
      * exists (k + 1). split; [apply merges_join; auto|]. rewrite Nk, N2 by auto. lia.
    + pose proof T as (Hf & _).
      destruct (root_ok n f i Hf Ho) as (r & f1 & E1 & _ & _ & Hf1 & S1). rewrite E1. cbn [bind].
      destruct (IH f1 pairs (tracks_same n f f1 pairs T Hf1 S1) Hr') as (f2 & E2 & T2 & k & Mk & Nk).
      exists f2. split; [exact E2|]. split; auto. exists k. split; auto. rewrite Nk.
      destruct Hf as (_ & _ & _ & ra & Ba & RKa). destruct Hf1 as (_ & _ & _ & rb & Bb & RKb).
      change (nroots (parent f1) - k = nroots (parent f) - k).
      rewrite (nroots_same n (parent f) (parent f1) ra Ba rb Bb); auto.
    + destruct Ho as (Hi & Hj). pose proof T as (Hf & _).
      destruct (find_ok n f i j Hf Hi Hj) as (b & f1 & E1 & Hf1 & S1 & _). rewrite E1. cbn [bind].
      destruct (IH f1 pairs (tracks_same n f f1 pairs T Hf1 S1) Hr') as (f2 & E2 & T2 & k & Mk & Nk).
      exists f2. split; [exact E2|]. split; auto. exists k. split; auto. rewrite Nk.
      destruct Hf as (_ & _ & _ & ra & Ba & RKa). destruct Hf1 as (_ & _ & _ & rb & Bb & RKb).
      change (nroots (parent f1) - k = nroots (parent f) - k).
      rewrite (nroots_same n (parent f) (parent f1) ra Ba rb Bb); auto.
Qed.

Lemma num_trees_new n : 0 <= n -> num_trees (forest_new n) = n.
Proof.
  intros Hn. change (nroots (zrange 0 n) = n). rewrite nroots_zsum, zlen_zrange.
  rewrite (zsum_ext _ _ _ (fun _ => 1)).
  - rewrite zsum_const by lia. lia.
  - intros i Hi. rewrite znth_zrange by lia. destruct (Z.eqb_spec i (0 + i)); lia.
Qed.

Lemma uf_history n ops :
  0 <= n -> (forall o, In o ops -> op_in_range n o) ->
  exists f k, run_ops ops (forest_new n) = Ok f /\ tracks n f (united ops) /\
    merges [] (united ops) k /\ num_trees f = n - k.
Proof.
  intros Hn Hr. destruct (run_ops_tracks n Hn ops (forest_new n) [] (tracks_new n Hn) Hr)
    as (f & E & T & k & Mk & Nk).
  exists f, k. rewrite num_trees_new in Nk by auto. auto.
Qed.

Lemma find_tracks n f pairs i j :
  tracks n f pairs -> 0 <= i < n -> 0 <= j < n ->
  exists b f', find f i j = Ok (b, f') /\ tracks n f' pairs /\ (b = true <-> connected pairs i j).
Proof.
  intros T Hi Hj. pose proof T as (Hf & _ & H).
  destruct (find_ok n f i j Hf Hi Hj) as (b & f1 & E1 & Hf1 & S1 & Hb).
  exists b, f1. split; auto. split; [eapply tracks_same; eauto|].
  rewrite Hb. apply H; auto.
Qed.

Lemma root_tracks n f pairs i :
  tracks n f pairs -> 0 <= i < n ->
  exists r f', root f i = Ok (r, f') /\ tracks n f' pairs /\ 0 <= r < n /\ connected pairs i r /\
    (forall j, 0 <= j < n -> connected pairs i j -> froot f j r) /\ froot f i r.
Proof.
  intros T Hi. pose proof T as (Hf & _ & H).
  destruct (root_ok n f i Hf Hi) as (r & f1 & E1 & R1 & Hr & Hf1 & S1).
  exists r, f1. splits; auto; try lia.
  - eapply tracks_same; eauto.
  - apply H; auto. exists r. split; auto. constructor. eapply rootof_root; eauto.
  - intros j Hj C. apply H in C; auto. destruct C as (r' & Ra & Rb).
    rewrite (froot_fun _ _ _ _ R1 Ra). auto.
Qed.

(** ** trees *)
Lemma assoc_none m k : assoc m k = None <-> ~ In k (map fst m).
Proof.
  induction m as [|(a & b) m IH]; simpl; [tauto|].
  destruct (Z.eqb_spec a k) as [->|Hne]; split; intros H; try discriminate; try tauto.
  all: intros [?|?]; [congruence|apply IH in H; auto].
Qed.

Lemma concat_zupd_perm {A} (l : list (list A)) i s x :
  znth l i = Some s -> Permutation (concat (zupd l i (s ++ [x]))) (concat l ++ [x]).
Proof.
  unfold znth, zupd. destruct (0 <=? i); [|discriminate].
  generalize (Z.to_nat i) as n. clear i. revert l. intros l n; revert l.
  induction n as [|n IH]; intros [|a l] H; simpl in *; try discriminate.
  - inversion H; subst. rewrite <- !app_assoc. apply Permutation_app_head.
    apply Permutation_cons_append.
  - rewrite <- app_assoc. apply Permutation_app_head. auto.
Qed.

Lemma trees_ok n f pairs :
  tracks n f pairs ->
  exists sets f', trees f = Ok (sets, f') /\ tracks n f' pairs /\ partition_of n (connected pairs) sets.
Proof.
  intros T. pose proof T as (Hf & Hpr & HT). pose proof Hf as (Hc & Hn & _).
  unfold trees. rewrite Hc.
  (* rt i = root of i in the original forest *)
  match goal with |- context [for_range 0 n ?b ?st] =>
  destruct (for_range_ind (fun k '(sets, rs, g) =>
     tracks n g pairs /\ same_roots f g /\
     Permutation (concat sets) (zrange 0 k) /\
     (forall s, In s sets -> s <> []) /\
     (forall r idx, assoc rs r = Some idx -> exists s, znth sets idx = Some s /\ s <> [] /\
         forall i, In i s -> froot f i r) /\
     (forall idx s, znth sets idx = Some s -> exists r, assoc rs r = Some idx) /\
     (forall i r, 0 <= i < k -> froot f i r -> exists idx s, assoc rs r = Some idx /\ znth sets idx = Some s /\ In i s) /\
     (forall r idx, assoc rs r = Some idx -> exists i, 0 <= i < k /\ froot f i r))
     0 n b st) as (s & E & HP) end; auto.
  - splits; auto.
    + intros k r; tauto.
    + intros r idx; discriminate.
    + intros idx s Hs. apply znth_range in Hs. unfold zlen in Hs; simpl in Hs; lia.
    + intros; lia.
    + intros r idx; discriminate.
  - intros i ((sets & rs) & g) Hi (Tg & Sg & Perm & NE & A1 & A2 & A3 & A4).
    pose proof Tg as (Hg & _).
    destruct (root_ok n g i Hg Hi) as (r & g1 & E1 & R1 & Hr & Hg1 & S1). rewrite E1. cbn [bind].
    assert (Rf : froot f i r) by (apply Sg; auto).
    assert (Sg1 : same_roots f g1) by (intros a b; rewrite (Sg a b); apply S1).
    assert (Tg1 : tracks n g1 pairs) by (eapply tracks_same; eauto).
    rewrite zrange_snoc by lia.
    destruct (assoc rs r) as [idx|] eqn:Ea.
    + destruct (A1 r idx Ea) as (s & Es & Hsne & Hs).
      unfold vget. rewrite Es. cbn [unwrap bind].
      pose proof (znth_range _ _ _ Es) as Ridx. rewrite vset_ok by auto. cbn [bind].
      eexists; split; [reflexivity|]. cbv beta iota. splits; auto.
      * eapply perm_trans; [apply concat_zupd_perm; eauto|].
        apply Permutation_app_tail; auto.
      * intros s' Hin. apply In_znth in Hin. destruct Hin as (m & Hm & Em). rewrite znth_zupd in Em by auto.
        destruct (Z.eqb_spec m idx); [inversion Em; destruct s; discriminate|].
        apply NE. eapply znth_In; eauto.
      * intros r' idx' Ha'. destruct (A1 r' idx' Ha') as (s' & Es' & Hne' & Hs').
        rewrite znth_zupd by auto. destruct (Z.eqb_spec idx' idx) as [->|Hne].
        -- exists (s ++ [i]). split; auto. split; [destruct s; discriminate|].
           assert (s' = s) by congruence. subst s'.
           intros x Hx. apply in_app_or in Hx. destruct Hx as [Hx|[<-|[]]]; auto.
           destruct s as [|x s]; [congruence|].
           assert (r' = r) by (eapply froot_fun; [apply (Hs' x); left; auto|apply (Hs x); left; auto]).
           subst; auto.
        -- exists s'; auto.
      * intros idx' s' Es'. rewrite znth_zupd in Es' by auto.
        destruct (Z.eqb_spec idx' idx) as [->|Hne]; [eauto|eauto].
      * intros j rj Hj Rj. destruct (Z.eq_dec j i) as [->|Hji].
        -- assert (rj = r) by (eapply froot_fun; eauto). subst rj. exists idx, (s ++ [i]).
           split; auto. rewrite znth_zupd by auto. rewrite Z.eqb_refl. split; auto. apply in_or_app; right; left; auto.
        -- destruct (A3 j rj) as (idx' & s' & Ha' & Es' & Hin); auto; [lia|].
           destruct (Z.eq_dec idx' idx) as [->|Hne].
           ++ exists idx, (s ++ [i]). split; auto. rewrite znth_zupd by auto. rewrite Z.eqb_refl. split; auto.
              apply in_or_app; left. congruence.
           ++ exists idx', s'. split; auto. rewrite znth_zupd by auto.
              destruct (Z.eqb_spec idx' idx); [congruence|auto].
      * intros r' idx' Ha'. destruct (A4 r' idx' Ha') as (j & Hj & Rj). exists j; split; auto; lia.
    + eexists; split; [reflexivity|]. cbv beta iota.
      assert (SNOC : forall m, znth (sets ++ [[i]]) m = if m =? zlen sets then Some [i] else znth sets m).
      { intros m. destruct (Z.eqb_spec m (zlen sets)) as [->|Hne].
        - rewrite znth_app_r by lia. rewrite Z.sub_diag. reflexivity.
        - destruct (Z_lt_dec m (zlen sets)); [rewrite znth_app_l by lia; auto|].
          rewrite znth_app_r by lia. rewrite (znth_none sets m) by lia.
          apply znth_none. change (zlen [[i]]) with 1. lia. }
      splits; auto.
      * rewrite concat_app. simpl. apply Permutation_app_tail; auto.
      * intros s Hin. apply in_app_or in Hin. destruct Hin as [Hin|[<-|[]]]; [auto|discriminate].
      * intros r' idx'. cbn [assoc]. destruct (Z.eqb_spec r r') as [<-|Hne].
        -- intros Eq; inversion Eq; subst idx'. exists [i]. rewrite SNOC, Z.eqb_refl. split; auto.
           split; [discriminate|]. intros x [<-|[]]; auto.
        -- intros Ha'. destruct (A1 r' idx' Ha') as (s' & Es' & Hs'). exists s'. split; auto.
           rewrite SNOC. pose proof (znth_range _ _ _ Es'). destruct (Z.eqb_spec idx' (zlen sets)); [lia|auto].
      * intros idx' s'. rewrite SNOC. destruct (Z.eqb_spec idx' (zlen sets)) as [->|Hne].
        -- intros _. exists r. cbn [assoc]. rewrite Z.eqb_refl. reflexivity.
        -- intros Es'. destruct (A2 idx' s' Es') as (r' & Ha'). exists r'. cbn [assoc].
           destruct (Z.eqb_spec r r'); [congruence|auto].
      * intros j rj Hj Rj. destruct (Z.eq_dec j i) as [->|Hji].
        -- assert (rj = r) by (eapply froot_fun; eauto). subst rj. exists (zlen sets), [i].
           cbn [assoc]. rewrite Z.eqb_refl. rewrite SNOC, Z.eqb_refl. splits; auto. left; auto.
        -- destruct (A3 j rj) as (idx' & s' & Ha' & Es' & Hin); auto; [lia|].
           exists idx', s'. cbn [assoc]. destruct (Z.eqb_spec r rj); [congruence|]. split; auto.
           rewrite SNOC. pose proof (znth_range _ _ _ Es'). destruct (Z.eqb_spec idx' (zlen sets)); [lia|auto].
      * intros r' idx'. cbn [assoc]. destruct (Z.eqb_spec r r') as [<-|Hne].
        -- intros _. exists i. split; auto. lia.
        -- intros Ha'. destruct (A4 r' idx' Ha') as (j & Hj & Rj). exists j; split; auto; lia.
  - destruct s as ((sets & rs) & g). rewrite E. cbn [bind].
    destruct HP as (Tg & Sg & Perm & NE & A1 & A2 & A3 & A4).
    exists sets, g. split; [reflexivity|]. split; auto.
    unfold partition_of. splits; auto.
    + eapply Permutation_NoDup; [apply Permutation_sym; eauto|apply NoDup_zrange].
    + intros i. rewrite <- (in_zrange 0 n i). split; apply Permutation_in; auto. apply Permutation_sym; auto.
    + intros s i j Hs Hin Hj.
      apply In_znth in Hs. destruct Hs as (idx & _ & Es). destruct (A2 idx s Es) as (r & Ha).
      destruct (A1 r idx Ha) as (s' & Es' & _ & Hs'). assert (s' = s) by congruence. subst s'.
      assert (Hi : 0 <= i < n).
      { apply in_zrange. eapply Permutation_in; [eauto|]. apply in_concat. exists s. split; auto.
        eapply znth_In; eauto. }
      rewrite <- HT by auto. split.
      * intros Hj'. exists r; auto.
      * intros (r' & Ri & Rj). assert (r' = r) by (apply (froot_fun f i); auto). subst r'.
        destruct (A3 j r) as (idx' & s' & Ha' & Es'' & Hin'); auto.
        assert (idx' = idx) by congruence. subst. congruence.
Qed.
