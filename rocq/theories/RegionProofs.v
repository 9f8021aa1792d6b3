From Coq Require Import Relations Permutation.
From Verif Require Import Base BaseProofs GeomProofs UnionFindModel UnionFindSpec UnionFindProofs RegionModel RegionSpec.

Section RP.
Context {A : Type} (eqb : A -> A -> bool) (eqb_ok : forall a b, eqb a b = true <-> a = b).
Variables (im : image A) (conn : connectivity) (bg : A).
Hypothesis (Hwf : wf im).
Notation w := (iw im).
Notation h := (ih im).
Notation n := (iw im * ih im).
Notation Path := (path im conn).

(** neighbours visited before (x, y) *)
Definition prior (x y a b : Z) : Prop :=
  (a = x - 1 /\ b = y) \/ (a = x /\ b = y - 1) \/
  (conn = Eight /\ ((a = x - 1 /\ b = y - 1) \/ (a = x + 1 /\ b = y - 1))).

Lemma neigh_prior x y a b :
  neighbours conn (x, y) (a, b) <-> prior x y a b \/ prior a b x y.
Proof.
  unfold neighbours, prior. destruct conn; cbn [fst snd]; split; intros H.
  - assert (X : ((a = x - 1 /\ b = y) \/ (a = x /\ b = y - 1)) \/ ((x = a - 1 /\ y = b) \/ (x = a /\ y = b - 1))) by lia.
    tauto.
  - destruct H as [[?|[?|(? & _)]]|[?|[?|(? & _)]]]; try discriminate; lia.
  - assert (X : ((a = x - 1 /\ b = y) \/ (a = x /\ b = y - 1) \/ (a = x - 1 /\ b = y - 1) \/ (a = x + 1 /\ b = y - 1)) \/
                ((x = a - 1 /\ y = b) \/ (x = a /\ y = b - 1) \/ (x = a - 1 /\ y = b - 1) \/ (x = a + 1 /\ y = b - 1))) by lia.
    tauto.
  - destruct H as [[?|[?|(_ & ?)]]|[?|[?|(_ & ?)]]]; lia.
Qed.

Lemma neigh_sym p q : neighbours conn p q -> neighbours conn q p.
Proof. destruct p, q. rewrite !neigh_prior. tauto. Qed.

Lemma path_sym p q : Path p q -> Path q p.
Proof.
  intros H; induction H as [p q (N & c & H1 & H2)|p|p q r _ IH1 _ IH2].
  - apply rt_step. split; [apply neigh_sym; auto|]. exists c; auto.
  - apply rt_refl.
  - eapply rt_trans; eauto.
Qed.

Lemma path_trans p q r : Path p q -> Path q r -> Path p r.
Proof. intros; eapply rt_trans; eauto. Qed.

Lemma path_colour p q : Path p q -> forall c, get im (fst p) (snd p) = Some c -> get im (fst q) (snd q) = Some c.
Proof.
  intros H; induction H as [p q (N & c & H1 & H2)|p|p q r _ IH1 _ IH2]; intros c' H'; auto.
  congruence.
Qed.

(** pixels with raster index below k *)
Definition done (k a b : Z) : Prop := inb im a b = true /\ b * w + a < k.
Definition fg (a b : Z) : Prop := exists c, get im a b = Some c /\ c <> bg.
Definition fresh (a b : Z) : Prop := forall c, get im a b = Some c ->
  c <> bg /\ forall a' b', prior a b a' b' -> get im a' b' <> Some c.
Definition fresh_all (k : Z) : Prop := forall a b, done k a b -> fresh a b.

Lemma done_S x y a b : inb im x y = true -> (done (y * w + x + 1) a b <-> done (y * w + x) a b \/ (a = x /\ b = y)).
Proof.
  intros Hi. unfold done. split.
  - intros (H1 & H2). destruct (Z.eq_dec (b * w + a) (y * w + x)) as [E|E]; [|left; split; auto; lia].
    right. apply inb_spec in H1, Hi. apply (idx_inj w); lia.
  - intros [(H1 & H2)|(-> & ->)]; split; auto; lia.
Qed.

Lemma not_done_self x y : ~ done (y * w + x) x y.
Proof. unfold done; lia. Qed.

Lemma prior_done x y a b : inb im x y = true -> prior x y a b -> inb im a b = true -> done (y * w + x) a b.
Proof.
  intros H1 H2 H3. split; auto. apply inb_spec in H1, H3. unfold prior in H2. nia.
Qed.

Lemma get_fg_inb a b : fg a b -> inb im a b = true.
Proof. intros (c & H & _). apply get_inb in H. apply inb_spec; lia. Qed.

Lemma all_done a b : inb im a b = true -> done n a b.
Proof. intros H. split; auto. apply inb_spec in H. nia. Qed.

Lemma fresh_all_isolated : fresh_all n <-> all_isolated im conn bg.
Proof.
  unfold all_isolated. split.
  - intros F. split.
    + intros x y c H. assert (I : inb im x y = true) by (apply get_inb in H; apply inb_spec; lia).
      apply (F x y (all_done _ _ I) c H).
    + intros x y x' y' c N H H'. apply neigh_prior in N.
      assert (I : inb im x y = true) by (apply get_inb in H; apply inb_spec; lia).
      assert (I' : inb im x' y' = true) by (apply get_inb in H'; apply inb_spec; lia).
      destruct N as [N|N].
      * apply (F x y (all_done _ _ I) c H) in N. auto.
      * apply (F x' y' (all_done _ _ I') c H') in N. auto.
  - intros (F1 & F2) a b _ c H. split; [eapply F1; eauto|].
    intros a' b' N. eapply F2; eauto. apply neigh_prior; auto.
Qed.

(** ** gathering the labels of matching earlier neighbours *)
Lemma try_adj_ok out cur g nx ny adj :
  iw out = w -> ih out = h -> wf out -> (g = true -> inb im nx ny = true) ->
  exists extra, try_adj eqb im out cur g nx ny adj = Ok (adj ++ extra) /\
    forall l, In l extra <-> g = true /\ get im nx ny = Some cur /\ get out nx ny = Some l.
Proof.
  intros Hw Hh Hwo Hg. unfold try_adj. destruct g.
  - specialize (Hg eq_refl). destruct (get_some im nx ny Hwf) as (c & Ec); [apply inb_spec in Hg; lia|apply inb_spec in Hg; lia|].
    assert (Io : inb out nx ny = true) by (unfold inb in *; rewrite Hw, Hh; auto).
    destruct (get_some out nx ny Hwo) as (lo & El); [apply inb_spec in Io; lia|apply inb_spec in Io; lia|].
    unfold get_pixel. rewrite Ec. cbn [unwrap bind].
    destruct (eqb c cur) eqn:E.
    + rewrite El. cbn [unwrap bind]. exists [lo]. split; auto. apply eqb_ok in E. subst c.
      intros l. simpl. split; [intros [<-|[]]; auto|]. intros (_ & _ & H); left; congruence.
    + exists []. rewrite app_nil_r. split; auto. intros l. simpl. split; [tauto|].
      intros (_ & H & _). inversion H; subst. rewrite (proj2 (eqb_ok cur cur) eq_refl) in E. discriminate.
  - exists []. rewrite app_nil_r. split; auto. intros l; simpl. split; [tauto|]. intros (H & _); discriminate.
Qed.

Definition gather out cur x y : res (list Z) :=
  adj <- try_adj eqb im out cur (0 <? x) (x - 1) y [] ;;
  adj <- try_adj eqb im out cur (0 <? y) x (y - 1) adj ;;
  adj <- try_adj eqb im out cur ((0 <? y) && is_eight conn && (0 <? x)) (x - 1) (y - 1) adj ;;
  try_adj eqb im out cur ((0 <? y) && is_eight conn && (x <? iw im - 1)) (x + 1) (y - 1) adj.

Lemma gather_ok out cur x y :
  iw out = w -> ih out = h -> wf out -> inb im x y = true ->
  exists adj, gather out cur x y = Ok adj /\
    forall l, In l adj <-> exists a b, prior x y a b /\ get im a b = Some cur /\ get out a b = Some l.
Proof.
  intros Hw Hh Hwo Hi. pose proof (proj1 (inb_spec _ _ _) Hi) as Hi'. unfold gather.
  destruct (try_adj_ok out cur (0 <? x) (x - 1) y [] Hw Hh Hwo) as (e1 & E1 & S1).
  { intros; apply inb_spec; lia. } rewrite E1; cbn [bind app].
  destruct (try_adj_ok out cur (0 <? y) x (y - 1) e1 Hw Hh Hwo) as (e2 & E2 & S2).
  { intros; apply inb_spec; lia. } rewrite E2; cbn [bind].
  destruct (try_adj_ok out cur ((0 <? y) && is_eight conn && (0 <? x)) (x - 1) (y - 1) (e1 ++ e2) Hw Hh Hwo) as (e3 & E3 & S3).
  { intros; apply inb_spec; lia. } rewrite E3; cbn [bind].
  destruct (try_adj_ok out cur ((0 <? y) && is_eight conn && (x <? w - 1)) (x + 1) (y - 1) ((e1 ++ e2) ++ e3) Hw Hh Hwo) as (e4 & E4 & S4).
  { intros; apply inb_spec; lia. } rewrite E4.
  eexists; split; [reflexivity|]. intros l. rewrite !in_app_iff, S1, S2, S3, S4. unfold prior. split.
  - intros [[[(_ & H)|(_ & H)]|(G & H)]|(G & H)].
    + exists (x - 1), y. split; [left; lia|auto].
    + exists x, (y - 1). split; [right; left; lia|auto].
    + exists (x - 1), (y - 1). destruct conn; simpl in G; [lia|]. split; [right; right; split; auto; lia|auto].
    + exists (x + 1), (y - 1). destruct conn; simpl in G; [lia|]. split; [right; right; split; auto; lia|auto].
  - intros (a & b & P & H1 & H2).
    assert (I : inb im a b = true) by (apply get_inb in H1; apply inb_spec; lia). apply inb_spec in I.
    destruct P as [(-> & ->)|[(-> & ->)|(C & [(-> & ->)|(-> & ->)])]].
    + left; left; left. split; [lia|auto].
    + left; left; right. split; [lia|auto].
    + left; right. rewrite C; simpl. split; [lia|auto].
    + right. rewrite C; simpl. split; [lia|auto].
Qed.

Lemma fold_min_le l : forall m, fold_left Z.min l m <= m.
Proof. induction l as [|a l IH]; intros m; simpl; [lia|]. specialize (IH (Z.min m a)). lia. Qed.

Lemma fold_min_In l : forall m, fold_left Z.min l m = m \/ In (fold_left Z.min l m) l.
Proof.
  induction l as [|a l IH]; intros m; simpl; auto.
  destruct (IH (Z.min m a)) as [E|E]; [|auto].
  rewrite E. destruct (Z.min_dec m a) as [E2|E2]; rewrite E2; auto.
Qed.

Lemma fold_min_In' l m : l <> [] -> (forall x, In x l -> x < m) -> In (fold_left Z.min l m) l.
Proof.
  intros Hne H. destruct (fold_min_In l m) as [E|E]; auto. exfalso.
  destruct l as [|a l]; [congruence|]. simpl in E.
  assert (a < m) by (apply H; left; auto).
  pose proof (fold_min_le l (Z.min m a)). lia.
Qed.

(** ** first pass *)
Definition P1 (k : Z) (st : image Z * forest * Z) : Prop :=
  let '(out, f, next) := st in
  exists pairs (rep : Z -> Z * Z),
  wf out /\ iw out = w /\ ih out = h /\
  tracks n f pairs /\
  1 <= next <= 1 + k /\
  (forall a b, done k a b -> fg a b -> exists l, get out a b = Some l /\ 1 <= l < next /\ Path (a, b) (rep l)) /\
  (forall a b, inb im a b = true -> ~ (done k a b /\ fg a b) -> get out a b = Some 0) /\
  (forall i j, In (i, j) pairs -> 1 <= i < next /\ 1 <= j < next /\ Path (rep i) (rep j)) /\
  (forall a b a' b' l l', done k a b -> done k a' b' -> fg a b -> same_colour_step im conn (a, b) (a', b') ->
     get out a b = Some l -> get out a' b' = Some l' -> connected pairs l l') /\
  (next = 1 + k -> fresh_all k /\ forall a b, done k a b -> get out a b = Some (b * w + a + 1)) /\
  (fresh_all k -> next = 1 + k).

Lemma unions_ok f pairs m l : tracks n f pairs -> 0 <= m < n -> (forall x, In x l -> 0 <= x < n) ->
  exists f', for_each l (fun x f => union f m x) f = Ok f' /\ tracks n f' (pairs ++ map (fun x => (m, x)) l).
Proof.
  intros T Hm. revert f pairs T. induction l as [|x l IH]; intros f pairs T Hl; cbn [for_each map].
  - exists f. rewrite app_nil_r. auto.
  - assert (Hx : 0 <= x < n) by (apply Hl; left; auto).
    destruct (union_ok n f m x) as (f1 & E1 & _); [apply T|auto|auto|].
    rewrite E1; cbn [bind]. destruct (tracks_union n f pairs m x f1 T Hm Hx E1) as (T1 & _).
    destruct (IH f1 _ T1) as (f2 & E2 & T2); [intros; apply Hl; right; auto|].
    exists f2. split; auto. rewrite <- app_assoc in T2. exact T2.
Qed.

Lemma conn_sym pairs a b : connected pairs a b -> connected pairs b a.
Proof. apply rst_sym. Qed.
Lemma conn_trans pairs a b c : connected pairs a b -> connected pairs b c -> connected pairs a c.
Proof. intros; eapply rst_trans; eauto. Qed.
Lemma conn_app pairs q a b : connected pairs a b -> connected (pairs ++ q) a b.
Proof. apply connected_mono. intros; apply in_or_app; auto. Qed.

Lemma inb_same (out : image Z) x y : iw out = w -> ih out = h -> inb out x y = inb im x y.
Proof. intros Hw Hh. unfold inb. rewrite Hw, Hh; auto. Qed.

Lemma label_step x y st :
  n < 2 ^ 32 -> inb im x y = true -> P1 (y * w + x) st ->
  match label_pixel eqb im conn bg y x st with
  | Ok st' => P1 (y * w + x + 1) st'
  | Panic => fresh_all n
  | Timeout => False
  end.
Proof.
  intros Hn Hi. destruct st as ((out & f) & next).
  intros (pairs & rep & Hwo & Hw & Hh & T & Hnx & HL & H0 & Hp & HC & HF2 & HF3).
  pose proof (proj1 (inb_spec _ _ _) Hi) as Hi'.
  assert (Hk : 0 <= y * w + x < n) by nia.
  destruct (get_some im x y Hwf) as (cur & Ecur); [lia|lia|].
  unfold label_pixel. unfold get_pixel at 1. rewrite Ecur. cbn [unwrap bind].
  destruct (eqb cur bg) eqn:Eb.
  { (* background *)
    apply eqb_ok in Eb. subst cur.
    assert (NF : ~ fg x y) by (intros (c & E & Hc); congruence).
    exists pairs, rep. splits; auto; try lia.
    - intros a b D F. apply done_S in D; auto. destruct D as [D|(-> & ->)]; [auto|tauto].
    - intros a b I ND. apply H0; auto. intros (D & F). apply ND. split; auto. apply done_S; auto.
    - intros a b a' b' l l' D D' F S. apply done_S in D; auto. apply done_S in D'; auto.
      destruct D as [D|(-> & ->)]; [|tauto].
      destruct D' as [D'|(-> & ->)]; [eauto|].
      destruct S as (_ & c & S1 & S2). simpl in S1, S2. destruct F as (c' & F1 & F2). congruence.
    - intros FA. exfalso. destruct (FA x y) with (c := bg) as (F & _); auto. apply done_S; auto. }
  assert (Hcb : cur <> bg).
  { intros ->. rewrite (proj2 (eqb_ok bg bg) eq_refl) in Eb. discriminate. }
  assert (FG : fg x y) by (exists cur; auto).
  destruct (gather_ok out cur x y Hw Hh Hwo Hi) as (adj & Eg & Hadj).
  unfold gather in Eg.
  destruct (try_adj eqb im out cur (0 <? x) (x - 1) y []) as [a1| |]; cbn [bind] in Eg |- *; try discriminate.
  destruct (try_adj eqb im out cur (0 <? y) x (y - 1) a1) as [a2| |]; cbn [bind] in Eg |- *; try discriminate.
  destruct (try_adj eqb im out cur ((0 <? y) && is_eight conn && (0 <? x)) (x - 1) (y - 1) a2) as [a3| |]; cbn [bind] in Eg |- *; try discriminate.
  rewrite Eg. cbn [bind]. clear a1 a2 a3 Eg.
  assert (Io : inb out x y = true) by (rewrite inb_same; auto).
  (* a prior neighbour's label, when the neighbour has the same colour *)
  assert (PL : forall a b, prior x y a b -> get im a b = Some cur ->
     done (y * w + x) a b /\ fg a b /\ exists l, get out a b = Some l /\ In l adj /\ 1 <= l < next /\ Path (a, b) (rep l)).
  { intros a b P E. assert (I : inb im a b = true) by (apply get_inb in E; apply inb_spec; lia).
    assert (D := prior_done x y a b Hi P I). assert (F : fg a b) by (exists cur; auto).
    destruct (HL a b D F) as (l & El & Hl & Pl). splits; auto; try lia. exists l. splits; auto; try lia.
    apply Hadj. exists a, b; auto. }
  destruct adj as [|a0 adj0].
  - (* fresh label *)
    assert (NP : forall a b, prior x y a b -> get im a b <> Some cur).
    { intros a b P E. destruct (PL a b P E) as (_ & _ & l & _ & [] & _). }
    assert (Fxy : fresh x y).
    { intros c Ec. assert (c = cur) by congruence. subst c. split; auto. }
    rewrite put_pixel_ok by (rewrite ?Hw, ?Hh; lia). cbn [bind].
    unfold chk_u, u_fits.
    destruct ((0 <=? next + 1) && (next + 1 <? 2 ^ 32)) eqn:Ec; cbn [bind].
    + exists pairs, (fun l => if l =? next then (x, y) else rep l).
      assert (G : forall a b, get (put out x y next) a b = if (a =? x) && (b =? y) then Some next else get out a b)
        by (intros; apply get_put; auto; rewrite ?Hw, ?Hh; lia).
      splits; auto; try lia.
      * apply wf_put; auto.
      * intros a b D F. rewrite G. apply done_S in D; auto. destruct D as [D|(-> & ->)].
        -- destruct ((a =? x) && (b =? y)) eqn:Exy.
           { exfalso. apply (not_done_self x y). assert (a = x) by lia. assert (b = y) by lia. subst; auto. }
           destruct (HL a b D F) as (l & El & Hl & Pl). exists l. splits; auto; try lia.
           destruct (Z.eqb_spec l next); [lia|auto].
        -- rewrite !Z.eqb_refl. simpl. exists next. splits; auto; try lia. rewrite Z.eqb_refl. apply rt_refl.
      * intros a b I ND. rewrite G. destruct ((a =? x) && (b =? y)) eqn:Exy.
        { exfalso. apply ND. assert (a = x) by lia. assert (b = y) by lia. subst. split; auto. apply done_S; auto. }
        apply H0; auto. intros (D & F). apply ND. split; auto. apply done_S; auto.
      * intros i j Hin. destruct (Hp i j Hin) as (H1 & H2 & H3). splits; auto; try lia.
        destruct (Z.eqb_spec i next); [lia|]. destruct (Z.eqb_spec j next); [lia|auto].
      * intros a b a' b' l l' D D' F S. rewrite !G. apply done_S in D; auto. apply done_S in D'; auto.
        pose proof S as (N & c & S1 & S2). simpl in S1, S2.
        destruct D as [D|(-> & ->)]; destruct D' as [D'|(-> & ->)].
        -- destruct ((a =? x) && (b =? y)) eqn:Exy.
           { exfalso. apply (not_done_self x y). assert (a = x) by lia. assert (b = y) by lia. subst; auto. }
           destruct ((a' =? x) && (b' =? y)) eqn:Exy'.
           { exfalso. apply (not_done_self x y). assert (a' = x) by lia. assert (b' = y) by lia. subst; auto. }
           intros; apply (HC a b a' b'); auto.
        -- exfalso. apply neigh_prior in N. destruct N as [N|N].
           ++ apply prior_done in N; auto; [|apply D]. destruct N as (_ & N), D as (_ & D). lia.
           ++ apply (NP _ _ N). congruence.
        -- exfalso. apply neigh_prior in N. destruct N as [N|N].
           ++ apply (NP _ _ N). congruence.
           ++ apply prior_done in N; auto; [|apply D']. destruct N as (_ & N), D' as (_ & D'). lia.
        -- rewrite !Z.eqb_refl. simpl. intros E1 E2; inversion E1; inversion E2; subst. apply rst_refl.
      * intros E. destruct HF2 as (FA & LA); [lia|]. split.
        -- intros a b D. apply done_S in D; auto. destruct D as [D|(-> & ->)]; auto.
        -- intros a b D. rewrite G. destruct ((a =? x) && (b =? y)) eqn:Exy.
           { f_equal. assert (a = x) by lia. assert (b = y) by lia. subst a b. lia. }
           apply LA. apply done_S in D; auto. destruct D as [D|(-> & ->)]; auto. lia.
      * intros FA. rewrite HF3; [lia|]. intros a b D. apply FA. apply done_S; auto.
    + assert (E1 : next = 1 + (y * w + x)) by lia. destruct (HF2 E1) as (FA & _).
      assert (E2 : n = y * w + x + 1) by lia.
      rewrite E2. intros a b D. apply done_S in D; auto. destruct D as [D|(-> & ->)]; auto.
  - (* joins earlier labels *)
    remember (a0 :: adj0) as adj eqn:Eadj.
    assert (NE : adj <> []) by (subst; discriminate). clear Eadj a0 adj0.
    assert (AR : forall l, In l adj -> 1 <= l < next).
    { intros l Hl. apply Hadj in Hl. destruct Hl as (a & b & P & E & El).
      destruct (PL a b P E) as (_ & _ & l' & El' & _ & Hl' & _). assert (l = l') by congruence. subst; auto. }
    set (m := fold_left Z.min adj (2 ^ 32 - 1)).
    assert (Hm : In m adj).
    { apply fold_min_In'; auto. intros l Hl. apply AR in Hl. lia. }
    assert (Rm := AR m Hm).
    rewrite put_pixel_ok by (rewrite ?Hw, ?Hh; lia). cbn [bind].
    destruct (unions_ok f pairs m adj T) as (f' & Ef & T').
    { lia. } { intros l Hl. apply AR in Hl. lia. }
    rewrite Ef. cbn [bind].
    assert (PX : forall l, In l adj -> Path (x, y) (rep l)).
    { intros l Hl. apply Hadj in Hl. destruct Hl as (a & b & P & E & El).
      destruct (PL a b P E) as (_ & _ & l' & El' & _ & Hl' & Pl). assert (l = l') by congruence. subst l'.
      eapply path_trans; [|exact Pl]. apply rt_step. split; [apply neigh_prior; auto|]. exists cur; auto. }
    exists (pairs ++ map (fun l => (m, l)) adj), rep.
    assert (G : forall a b, get (put out x y m) a b = if (a =? x) && (b =? y) then Some m else get out a b)
      by (intros; apply get_put; auto; rewrite ?Hw, ?Hh; lia).
    splits; auto; try lia.
    + apply wf_put; auto.
    + intros a b D F. rewrite G. destruct ((a =? x) && (b =? y)) eqn:Exy.
      { assert (a = x) by lia. assert (b = y) by lia. subst. exists m. splits; auto; lia. }
      apply done_S in D; auto. destruct D as [D|(-> & ->)]; [auto|lia].
    + intros a b I ND. rewrite G. destruct ((a =? x) && (b =? y)) eqn:Exy.
      { exfalso. apply ND. assert (a = x) by lia. assert (b = y) by lia. subst. split; auto. apply done_S; auto. }
      apply H0; auto. intros (D & F). apply ND. split; auto. apply done_S; auto.
    + intros i j Hin. apply in_app_or in Hin. destruct Hin as [Hin|Hin]; [auto|].
      apply in_map_iff in Hin. destruct Hin as (l & E & Hl). inversion E; subst i j.
      pose proof (AR l Hl). splits; auto; try lia.
      eapply path_trans; [apply path_sym; apply PX; auto|apply PX; auto].
    + assert (CM : forall l, In l adj -> connected (pairs ++ map (fun l => (m, l)) adj) m l).
      { intros l Hl. apply rst_step. apply in_or_app. right. apply in_map_iff. exists l; auto. }
      intros a b a' b' l l' D D' F S. rewrite !G. apply done_S in D; auto. apply done_S in D'; auto.
      pose proof S as (N & c & S1 & S2). simpl in S1, S2.
      destruct ((a =? x) && (b =? y)) eqn:Exy; destruct ((a' =? x) && (b' =? y)) eqn:Exy'.
      * intros E1 E2; inversion E1; inversion E2; subst. apply rst_refl.
      * intros E1 E2; inversion E1; subst l. assert (a = x) by lia. assert (b = y) by lia. subst a b.
        destruct D' as [D'|(-> & ->)]; [|lia].
        apply CM. apply Hadj. exists a', b'. splits; auto; try lia; [|congruence].
        apply neigh_prior in N. destruct N as [N|N]; auto. exfalso.
        apply prior_done in N; auto; [|apply D']. destruct N as (_ & N), D' as (_ & D'). lia.
      * intros E1 E2; inversion E2; subst l'. assert (a' = x) by lia. assert (b' = y) by lia. subst a' b'.
        destruct D as [D|(-> & ->)]; [|lia].
        apply rst_sym. apply CM. apply Hadj. exists a, b. splits; auto; try lia; [|congruence].
        apply neigh_prior in N. destruct N as [N|N]; auto. exfalso.
        apply prior_done in N; auto; [|apply D]. destruct N as (_ & N), D as (_ & D). lia.
      * destruct D as [D|(-> & ->)]; [|lia]. destruct D' as [D'|(-> & ->)]; [|lia].
        intros. apply conn_app. apply (HC a b a' b'); auto.
    + intros FA. exfalso. apply Hadj in Hm. destruct Hm as (a & b & P & E & _).
      destruct (FA x y) with (c := cur) as (_ & F); auto; [apply done_S; auto|]. apply (F a b P E).
Qed.

Lemma P1_init : 0 < n -> P1 0 (new_image w h 0, forest_new n, 1).
Proof.
  intros Hn. assert (0 <= w /\ 0 <= h) as (W & H) by (destruct Hwf as (? & ? & ?); auto).
  exists [], (fun _ => (0, 0)).
  assert (ND : forall a b, ~ done 0 a b).
  { intros a b (I & D). apply inb_spec in I. nia. }
  splits; auto; try lia.
  - apply wf_new; auto.
  - apply tracks_new. lia.
  - intros a b D. exfalso; eapply ND; eauto.
  - intros a b I _. unfold new_image. apply inb_spec in I. rewrite get_gen_in by lia. auto.
  - intros i j [].
  - intros a b a' b' l l' D. exfalso; eapply ND; eauto.
  - intros _. split; intros a b D; exfalso; eapply ND; eauto.
Qed.

Lemma fresh_dec a b : inb im a b = true -> fresh a b \/ ~ fresh a b.
Proof.
  intros I. pose proof Hwf as (Hw0 & Hh0 & _). pose proof (proj1 (inb_spec _ _ _) I) as I'.
  destruct (get_some im a b Hwf) as (c & Ec); try lia.
  destruct (eqb c bg) eqn:Eb.
  { right. intros F. apply eqb_ok in Eb. subst. destruct (F bg Ec); auto. }
  assert (Hcb : c <> bg).
  { intros ->. rewrite (proj2 (eqb_ok bg bg) eq_refl) in Eb. discriminate. }
  destruct (gather_ok (new_image w h 0) c a b) as (adj & _ & Hadj); auto.
  { apply wf_new; auto. }
  destruct adj as [|l adj].
  - left. intros c' Ec'. assert (c' = c) by congruence. subst c'. split; auto.
    intros a' b' P E. destruct (proj2 (Hadj 0)) as [].
    exists a', b'. splits; auto. apply get_inb in E. unfold new_image. rewrite get_gen_in by lia. auto.
  - right. intros F. destruct (proj1 (Hadj l)) as (a' & b' & P & E & _); [left; auto|].
    destruct (F c Ec) as (_ & F'). apply (F' a' b' P E).
Qed.

Lemma all_isolated_dec : all_isolated im conn bg \/ ~ all_isolated im conn bg.
Proof.
  rewrite <- fresh_all_isolated.
  destruct (bounded_dec (fun a => forall b, 0 <= b < h -> fresh a b) 0 w) as [Y|(a & Ha & N)].
  - intros a Ha. destruct (bounded_dec (fun b => fresh a b) 0 h) as [Y|(b & Hb & N)].
    + intros b Hb. apply fresh_dec. apply inb_spec; lia.
    + auto.
    + right. intros F. apply N. apply F; auto.
  - left. intros a b (I & _). apply inb_spec in I. apply Y; lia.
  - right. intros F. apply N. intros b Hb. apply F. apply all_done. apply inb_spec; lia.
Qed.

(** ** second pass *)
Section Second.
Variables (out1 : image Z) (f0 : forest).

Definition P2 (k : Z) (st : image Z * forest * list Z * Z) : Prop :=
  let '(out, f, ol, count) := st in
  wf out /\ iw out = w /\ ih out = h /\
  finv n f /\ same_roots f0 f /\ zlen ol = n /\ 1 <= count <= 1 + k /\
  (forall a b, done k a b -> fg a b -> exists l r m,
     get out1 a b = Some l /\ froot f0 l r /\ get out a b = Some m /\ znth ol r = Some m /\ 1 <= m < count /\
     forall j, 0 < j < m -> exists a' b', done k a' b' /\ b' * w + a' < b * w + a /\ get out a' b' = Some j) /\
  (forall a b, inb im a b = true -> ~ (done k a b /\ fg a b) -> get out a b = get out1 a b) /\
  (forall r m, znth ol r = Some m -> m = 0 \/ (1 <= m < count /\ exists a b l, done k a b /\ fg a b /\
     get out1 a b = Some l /\ froot f0 l r)) /\
  (forall r r' m, znth ol r = Some m -> znth ol r' = Some m -> m <> 0 -> r = r') /\
  (forall j, 0 < j < count -> exists a b, done k a b /\ get out a b = Some j) /\
  (exists rs, NoDup rs /\ Z.of_nat (length rs) = count - 1 /\
     forall r, In r rs <-> 1 <= r < n /\ exists m, znth ol r = Some m /\ m <> 0).

Hypothesis (Hf0 : finv n f0) (L1 : forall a b, fg a b -> exists l, get out1 a b = Some l /\ 1 <= l)
  (HR : forall l r, 1 <= l -> froot f0 l r -> 1 <= r).

Lemma relabel_step x y st :
  n < 2 ^ 32 -> inb im x y = true -> P2 (y * w + x) st ->
  match relabel_pixel eqb im bg y x st with
  | Ok st' => P2 (y * w + x + 1) st'
  | Panic => fg x y /\ exists l, get out1 x y = Some l /\ n <= l
  | Timeout => False
  end.
Proof.
  intros Hn Hi. destruct st as (((out & f) & ol) & count).
  intros (Hwo & Hw & Hh & Hf & SR & Hol & Hc & HD & HU & HO & HI & HK & rs & NDr & Lrs & Hrs).
  pose proof (proj1 (inb_spec _ _ _) Hi) as Hi'.
  assert (Hk : 0 <= y * w + x < n) by nia.
  destruct (get_some im x y Hwf) as (cur & Ecur); [lia|lia|].
  unfold relabel_pixel. unfold get_pixel at 1. rewrite Ecur. cbn [unwrap bind].
  destruct (eqb cur bg) eqn:Eb.
  { apply eqb_ok in Eb. subst cur.
    assert (NF : ~ fg x y) by (intros (c & E & Hc'); congruence).
    unfold P2. splits; auto; try lia.
    - intros a b D F. apply done_S in D; auto. destruct D as [D|(-> & ->)]; [|tauto].
      destruct (HD a b D F) as (l & r & m & E1 & E2 & E3 & E4 & E5 & E6).
      exists l, r, m. splits; auto; try lia. intros j Hj. destruct (E6 j Hj) as (a' & b' & D' & X).
      exists a', b'. split; auto. apply done_S; auto.
    - intros a b I ND. apply HU; auto. intros (D & F). apply ND. split; auto. apply done_S; auto.
    - intros r m E. destruct (HO r m E) as [->|(Hm & a & b & l & D & X)]; auto.
      right. split; [lia|]. exists a, b, l. split; auto. apply done_S; auto.
    - intros j Hj. destruct (HK j Hj) as (a & b & D & X). exists a, b. split; auto. apply done_S; auto.
    - exists rs. auto. }
  assert (Hcb : cur <> bg).
  { intros ->. rewrite (proj2 (eqb_ok bg bg) eq_refl) in Eb. discriminate. }
  assert (FG : fg x y) by (exists cur; auto).
  assert (Io : inb out x y = true) by (rewrite inb_same; auto).
  destruct (L1 x y FG) as (l & El & Hl).
  assert (El' : get out x y = Some l).
  { rewrite HU; auto. intros (D & _). apply (not_done_self x y D). }
  unfold get_pixel. rewrite El'. cbn [unwrap bind].
  destruct (Z_lt_dec l n) as [Hln|Hln].
  2:{ destruct Hf as (Hcnt & _). unfold root, assert. rewrite Hcnt.
      assert (l <? n = false) as -> by lia. cbn [bind]. split; auto. exists l. split; auto. lia. }
  destruct (root_ok n f l Hf) as (r & f' & Er & Rr & Hr & Hf' & SR'); [lia|].
  rewrite Er. cbn [bind].
  assert (R0 : froot f0 l r) by (apply SR; auto).
  assert (Hr1 : 1 <= r) by (eapply HR; eauto).
  assert (SR2 : same_roots f0 f') by (intros a b; rewrite (SR a b); apply SR').
  destruct (znth_some ol r) as (ov & Eov); [lia|].
  unfold vget. rewrite Eov. cbn [unwrap bind].
  (* combined facts about the chosen label *)
  assert (GOAL : forall m count',
    ((ov = 0 /\ m = count /\ count' = count + 1) \/ (ov <> 0 /\ m = ov /\ count' = count)) ->
    P2 (y * w + x + 1) (put out x y m, f', zupd ol r m, count')).
  { intros m count' Hcase.
    assert (Hm1 : 1 <= m < count').
    { destruct (HO r ov Eov) as [->|(Hov & _)]; lia. }
    assert (Hcc : count <= count' <= count + 1) by lia.
    assert (G : forall a b, get (put out x y m) a b = if (a =? x) && (b =? y) then Some m else get out a b)
      by (intros; apply get_put; auto; rewrite ?Hw, ?Hh; lia).
    assert (GD : forall a b, done (y * w + x) a b -> get (put out x y m) a b = get out a b).
    { intros a b D. rewrite G. destruct ((a =? x) && (b =? y)) eqn:Exy; auto.
      exfalso. apply (not_done_self x y). assert (a = x) by lia. assert (b = y) by lia. subst; auto. }
    assert (DS : forall a b, done (y * w + x) a b -> done (y * w + x + 1) a b)
      by (intros; apply done_S; auto).
    assert (ZO : forall r', znth (zupd ol r m) r' = if r' =? r then Some m else znth ol r')
      by (intros; apply znth_zupd; lia).
    unfold P2. splits; auto; try lia.
    - apply wf_put; auto.
    - rewrite zupd_zlen; auto.
    - intros a b D F. apply done_S in D; auto. destruct D as [D|(-> & ->)].
      + destruct (HD a b D F) as (l' & r' & m' & E1 & E2 & E3 & E4 & E5 & E6).
        exists l', r', m'. rewrite GD by auto. splits; auto; try lia.
        * rewrite ZO. destruct (Z.eqb_spec r' r) as [->|]; auto.
          assert (ov = m') by congruence. f_equal. lia.
        * intros j Hj. destruct (E6 j Hj) as (a' & b' & D' & X & Y). exists a', b'. rewrite GD by auto. auto.
      + exists l, r, m. splits; auto; try lia.
        * rewrite G, !Z.eqb_refl. reflexivity.
        * rewrite ZO, Z.eqb_refl. reflexivity.
        * intros j Hj. destruct Hcase as [(-> & -> & ->)|(Hov & -> & ->)].
          -- destruct (HK j Hj) as (a & b & D & E). exists a, b. rewrite GD by auto. splits; auto; try lia. apply D.
          -- destruct (HO r ov Eov) as [?|(Hov' & a & b & l' & D & F' & E & R)]; [lia|].
             destruct (HD a b D F') as (l2 & r2 & m2 & E1 & E2 & E3 & E4 & E5 & E6).
             assert (l2 = l') by congruence. subst l2.
             assert (r2 = r) by (eapply froot_fun; eauto). subst r2.
             assert (m2 = ov) by congruence. subst m2.
             destruct (E6 j Hj) as (a' & b' & D' & X & Y). exists a', b'. rewrite GD by auto. splits; auto; try lia. apply D'.
    - intros a b I ND. rewrite G. destruct ((a =? x) && (b =? y)) eqn:Exy.
      { exfalso. apply ND. assert (a = x) by lia. assert (b = y) by lia. subst. split; auto. apply done_S; auto. }
      apply HU; auto. intros (D & F). apply ND. split; auto.
    - intros r' m'. rewrite ZO. destruct (Z.eqb_spec r' r) as [->|Hne].
      + intros E; inversion E; subst m'. right. split; [lia|]. exists x, y, l. splits; auto; try lia. apply done_S; auto.
      + intros E. destruct (HO r' m' E) as [->|(Hm' & a & b & l' & D & X)]; auto.
        right. split; [lia|]. exists a, b, l'. split; auto.
    - intros r1 r2 m'. rewrite !ZO.
      assert (NEW : forall r', r' <> r -> znth ol r' = Some m -> False).
      { intros r' Hne E. destruct Hcase as [(-> & -> & ->)|(Hov & -> & ->)].
        - destruct (HO r' count E) as [?|(? & _)]; lia.
        - apply Hne. eapply HI; eauto. }
      destruct (Z.eqb_spec r1 r) as [->|Hne1]; destruct (Z.eqb_spec r2 r) as [->|Hne2]; auto.
      + intros E1 E2 _. inversion E1; subst m'. exfalso; eauto.
      + intros E1 E2 _. inversion E2; subst m'. exfalso; eauto.
      + eauto.
    - intros j Hj. destruct (Z_lt_dec j count) as [Hjc|Hjc].
      + destruct (HK j) as (a & b & D & E); [lia|]. exists a, b. rewrite GD by auto. auto.
      + exists x, y. split; [apply done_S; auto|]. rewrite G, !Z.eqb_refl. simpl. f_equal. lia.
    - destruct Hcase as [(-> & -> & ->)|(Hov & -> & ->)].
      + exists (r :: rs). splits.
        * constructor; auto. intros Hin. apply Hrs in Hin. destruct Hin as (_ & m' & E & Hm'). congruence.
        * simpl length. lia.
        * intros r'. rewrite ZO. simpl In. rewrite Hrs. destruct (Z.eqb_spec r' r) as [->|Hne].
          -- split; [intros _; split; [lia|]; exists count; split; auto; lia|auto].
          -- split; [intros [?|?]; [congruence|auto]|auto].
      + exists rs. splits; auto; try lia. intros r'. rewrite Hrs, ZO. destruct (Z.eqb_spec r' r) as [->|Hne]; [|tauto].
        rewrite Eov. tauto. }
  destruct (ov <? 1) eqn:Eo.
  - assert (Ho : ov = 0) by (destruct (HO r ov Eov) as [->|(Hov & _)]; lia).
    unfold chk_u, u_fits.
    assert ((0 <=? count + 1) && (count + 1 <? 2 ^ 32) = true) as ->.
    { assert (INC : incl (r :: rs) (zrange 1 n)).
      { intros r' [<-|Hin]; apply in_zrange; [lia|]. apply Hrs in Hin. tauto. }
      apply NoDup_incl_length in INC.
      - rewrite zrange_length in INC. simpl length in INC. lia.
      - constructor; auto. intros Hin. apply Hrs in Hin. destruct Hin as (_ & m' & E & Hm'). congruence. }
    cbn [bind]. rewrite vset_ok by lia. cbn [bind]. rewrite put_pixel_ok by (rewrite ?Hw, ?Hh; lia). cbn [bind].
    apply GOAL. lia.
  - cbn [bind]. rewrite vset_ok by lia. cbn [bind]. rewrite put_pixel_ok by (rewrite ?Hw, ?Hh; lia). cbn [bind].
    apply GOAL. destruct (HO r ov Eov) as [->|(Hov & _)]; lia.
Qed.
End Second.

Lemma P2_init out1 f0 : 0 < n -> wf out1 -> iw out1 = w -> ih out1 = h -> finv n f0 ->
  P2 out1 f0 0 (out1, f0, map (fun _ => 0) (zrange 0 n), 1).
Proof.
  intros Hn Hwo Hw Hh Hf.
  assert (ND : forall a b, ~ done 0 a b).
  { intros a b (I & D). apply inb_spec in I. nia. }
  assert (Z0 : forall r m, znth (map (fun _ : Z => 0) (zrange 0 n)) r = Some m -> m = 0).
  { intros r m E. rewrite znth_map in E. destruct (znth (zrange 0 n) r); simpl in E; congruence. }
  unfold P2. splits; auto; try lia.
  - intros a b; tauto.
  - rewrite zlen_map, zlen_zrange. lia.
  - intros a b D. exfalso; eapply ND; eauto.
  - intros r m E. left; eauto.
  - intros r r' m E _ Hne. exfalso. apply Hne. eauto.
  - exists []. splits; auto; [constructor|]. intros r; simpl. split; [tauto|]. intros (_ & m & E & Hm).
    apply Hm. eauto.
Qed.

Definition pass1 := for_range 0 h (fun y st => for_range 0 w (fun x st => label_pixel eqb im conn bg y x st) st)
           (new_image w h 0, forest_new n, 1).
Definition pass2 out f := for_range 0 h (fun y st => for_range 0 w (fun x st => relabel_pixel eqb im bg y x st) st)
           (out, f, map (fun _ => 0) (zrange 0 n), 1).

Lemma cc_unfold : n < 2 ^ 32 -> 0 < w -> 0 < h ->
  connected_components eqb im conn bg =
  ('(out, f, _) <- pass1 ;; '(out, _, _, _) <- pass2 out f ;; Ok out).
Proof.
  intros Hn Hw Hh. unfold connected_components.
  assert (2 ^ 32 <=? n = false) as -> by lia.
  assert ((w =? 0) || (h =? 0) = false) as -> by lia. reflexivity.
Qed.

Lemma P1_tracks_root k out f next : P1 k (out, f, next) ->
  (forall a b, done k a b -> fg a b -> exists l, get out a b = Some l /\ 1 <= l < next) /\
  finv n f /\ (forall l r, 1 <= l -> froot f l r -> 1 <= r).
Proof.
  intros (pairs & rep & Hwo & Hw & Hh & T & Hnx & HL & H0 & Hp & HC & HF2 & HF3).
  splits.
  - intros a b D F. destruct (HL a b D F) as (l & ? & ? & _). eauto.
  - apply T.
  - intros l r Hl R. pose proof T as (Hf & _ & HT).
    pose proof Hf as (_ & _ & _ & rank & B & RK).
    destruct (rootof_range _ _ _ _ _ _ RK R) as (R1 & R2).
    assert (C : connected pairs l r).
    { apply HT; auto. exists r. split; auto. constructor. eapply rootof_root; eauto. }
    assert (G : forall a b, connected pairs a b -> (1 <= a <-> 1 <= b)).
    { intros a b Cab. induction Cab as [a b Hab|a|a b _ IH|a b c _ IH1 _ IH2]; try tauto.
      apply Hp in Hab. lia. }
    apply (G _ _ C); auto.
Qed.

Lemma cc_correct : n < 2 ^ 32 -> ~ (0 < n /\ all_isolated im conn bg) ->
  exists out, connected_components eqb im conn bg = Ok out /\ is_component_labelling im conn bg out.
Proof.
  intros Hn HI. pose proof Hwf as (Hw0 & Hh0 & _).
  destruct (Z.eq_dec n 0) as [Hz|Hz].
  { exists (new_image w h 0). split.
    - unfold connected_components. assert (2 ^ 32 <=? n = false) as -> by lia.
      assert ((w =? 0) || (h =? 0) = true) as -> by nia. reflexivity.
    - assert (NG : forall x y c, get im x y = Some c -> False).
      { intros x y c E. apply get_inb in E. nia. }
      unfold is_component_labelling. splits; auto.
      + apply wf_new; auto.
      + intros x y E. exfalso; eauto.
      + intros x y c E. exfalso; eauto.
      + intros x y c x' y' c' E. exfalso; eauto. }
  assert (Hp : 0 < n) by nia. assert (0 < w /\ 0 < h) as (Hw & Hh) by nia.
  rewrite cc_unfold by auto.
  assert (NFA : ~ fresh_all n) by (rewrite fresh_all_isolated; tauto).
  destruct (raster_ind (fun x y => P1 (y * w + x)) 0 h 0 (fun _ => w) w
     (fun y x st => label_pixel eqb im conn bg y x st) (new_image w h 0, forest_new n, 1))
    as (((out1 & f1) & next) & E1 & HP1); auto; try lia.
  { apply P1_init; auto. }
  { intros x y st Hx Hy HP. assert (I : inb im x y = true) by (apply inb_spec; auto).
    pose proof (label_step x y st Hn I HP) as L.
    destruct (label_pixel eqb im conn bg y x st) as [st'| |]; try contradiction.
    exists st'. split; auto. replace (y * w + (x + 1)) with (y * w + x + 1) by lia. auto. }
  { intros y st Hy HP. replace ((y + 1) * w + 0) with (y * w + w) by lia. auto. }
  fold pass1 in E1. rewrite E1. cbn [bind].
  replace (h * w + 0) with n in HP1 by lia.
  destruct (P1_tracks_root _ _ _ _ HP1) as (HL1 & Hf1 & HR1).
  pose proof HP1 as (pairs & rep & Hwo & Hwo1 & Hho1 & T & Hnx & HL & H0 & Hpp & HC & HF2 & HF3).
  assert (Hnext : next <= n).
  { destruct (Z.eq_dec next (1 + n)) as [E|E]; [|lia]. destruct (HF2 E); tauto. }
  assert (L1 : forall a b, fg a b -> exists l, get out1 a b = Some l /\ 1 <= l).
  { intros a b F. destruct (HL1 a b) as (l & El & Hl); auto; [apply all_done; apply get_fg_inb; auto|]. exists l; split; auto; lia. }
  destruct (raster_ind (fun x y => P2 out1 f1 (y * w + x)) 0 h 0 (fun _ => w) w
     (fun y x st => relabel_pixel eqb im bg y x st) (out1, f1, map (fun _ => 0) (zrange 0 n), 1))
    as ((((out2 & f2) & ol) & cnt) & E2 & HP2); auto; try lia.
  { apply P2_init; auto. }
  { intros x y st Hx Hy HP. assert (I : inb im x y = true) by (apply inb_spec; auto).
    pose proof (relabel_step out1 f1 L1 HR1 x y st Hn I HP) as L.
    destruct (relabel_pixel eqb im bg y x st) as [st'| |]; try contradiction.
    - exists st'. split; auto. replace (y * w + (x + 1)) with (y * w + x + 1) by lia. auto.
    - exfalso. destruct L as (F & l & El & Hl).
      destruct (HL1 x y (all_done _ _ I) F) as (l' & El' & Hl'). assert (l = l') by congruence. lia. }
  { intros y st Hy HP. replace ((y + 1) * w + 0) with (y * w + w) by lia. auto. }
  fold (pass2 out1 f1) in E2. rewrite E2. cbn [bind].
  replace (h * w + 0) with n in HP2 by lia.
  destruct HP2 as (Hwo2 & Hw2 & Hh2 & Hf2 & SR & Hol & Hc & HD & HU & HO & HIj & HK & _).
  assert (FGI : forall x y c, get im x y = Some c -> c <> bg -> fg x y /\ done n x y).
  { intros x y c E Hcb. assert (F : fg x y) by (exists c; auto). split; auto. apply all_done. apply get_fg_inb; auto. }
  assert (CP : forall l l', connected pairs l l' -> Path (rep l) (rep l')).
  { intros l l' C. induction C as [a b Hab|a|a b _ IH|a b c _ IH1 _ IH2].
    - apply Hpp; auto.
    - apply rt_refl.
    - apply path_sym; auto.
    - eapply path_trans; eauto. }
  assert (G : forall p q, Path p q -> fg (fst p) (snd p) -> forall l l',
     get out1 (fst p) (snd p) = Some l -> get out1 (fst q) (snd q) = Some l' -> connected pairs l l').
  { intros p q P. induction P as [p q S|p|p q r0 P1' IH1 P2' IH2]; intros Fp a b Ea Eb.
    - destruct p as (px & py), q as (qx & qy). simpl in *.
      assert (Iq : inb im qx qy = true).
      { destruct S as (_ & c & _ & E). simpl in E. apply get_inb in E; apply inb_spec; lia. }
      apply (HC px py qx qy); auto; apply all_done; auto. apply get_fg_inb; auto.
    - assert (a = b) by congruence. subst. apply rst_refl.
    - assert (Fq : fg (fst q) (snd q)).
      { destruct Fp as (c & E & Hcb). exists c. split; auto. eapply path_colour; eauto. }
      destruct (HL (fst q) (snd q)) as (m & Em & _); auto; [apply all_done; apply get_fg_inb; auto|].
      eapply conn_trans; eauto. }
  exists out2. split; auto. unfold is_component_labelling. splits; auto.
  - intros x y E. assert (I : inb im x y = true) by (apply get_inb in E; apply inb_spec; lia).
    assert (NF : ~ fg x y) by (intros (c & E' & Hcb); congruence).
    rewrite HU by tauto. apply H0; tauto.
  - intros x y c E Hcb. destruct (FGI x y c E Hcb) as (F & D).
    destruct (HD x y D F) as (l & r & m & X1 & X2 & X3 & X4 & X5 & X6).
    exists m. splits; auto; try lia. intros k Hk. destruct (X6 k Hk) as (a & b & Dab & Hlt & Eab).
    exists a, b. split; auto. unfold earlier; simpl.
    destruct Dab as (I & _). apply inb_spec in I. apply get_inb in E.
    destruct (Z_lt_dec b y); [left; auto|]. right. assert (b = y) by nia. subst; split; auto; lia.
  - intros x y c x' y' c' E Hcb E' Hcb'.
    destruct (FGI x y c E Hcb) as (F & D). destruct (FGI x' y' c' E' Hcb') as (F' & D').
    destruct (HD x y D F) as (l & r & m & X1 & X2 & X3 & X4 & X5 & _).
    destruct (HD x' y' D' F') as (l' & r' & m' & Y1 & Y2 & Y3 & Y4 & Y5 & _).
    destruct (HL x y D F) as (l0 & X6 & X7 & X8). assert (l0 = l) by congruence. subst l0.
    destruct (HL x' y' D' F') as (l0 & Y6 & Y7 & Y8). assert (l0 = l') by congruence. subst l0.
    rewrite X3, Y3.
    assert (S1 : Some m = Some m' <-> r = r').
    { split; [intros Em; inversion Em; subst; eapply HIj; eauto; lia|intros ->; congruence]. }
    assert (S2 : r = r' <-> connected pairs l l').
    { destruct T as (_ & _ & HT). rewrite <- HT by lia. split.
      - intros <-. exists r; auto.
      - intros (r0 & A1 & A2). rewrite (froot_fun _ _ _ _ X2 A1). eapply froot_fun; eauto. }
    rewrite S1, S2. split.
    + intros C. eapply path_trans; [exact X8|]. eapply path_trans; [|apply path_sym; exact Y8].
      apply CP; auto.
    + intros P. clear S1 S2.
      apply (G _ _ P); auto.
Qed.

Lemma cc_panics : 0 < n -> all_isolated im conn bg \/ 2 ^ 32 <= n ->
  connected_components eqb im conn bg = Panic.
Proof.
  intros Hp HI. destruct (Z_le_dec (2 ^ 32) n) as [Hbig|Hsm].
  { unfold connected_components. assert (2 ^ 32 <=? n = true) as -> by lia. reflexivity. }
  destruct HI as [HI|?]; [|lia].
  pose proof Hwf as (Hw0 & Hh0 & _). assert (0 < w /\ 0 < h) as (Hw & Hh) by nia.
  assert (Hn : n < 2 ^ 32) by lia.
  rewrite cc_unfold by auto. apply fresh_all_isolated in HI.
  assert (O1 : okp (P1 n) pass1).
  { replace n with (h * w + 0) at 1 by lia. unfold pass1.
    apply (raster_okp (fun x y => P1 (y * w + x)) 0 h 0 w (fun y x st => label_pixel eqb im conn bg y x st)); try lia.
    - apply P1_init; auto.
    - intros x y st Hx Hy HP. assert (I : inb im x y = true) by (apply inb_spec; auto).
      pose proof (label_step x y st Hn I HP) as L.
      destruct (label_pixel eqb im conn bg y x st) as [st'| |]; simpl; try contradiction; auto.
      replace (y * w + (x + 1)) with (y * w + x + 1) by lia. auto.
    - intros y st Hy HP. replace ((y + 1) * w + 0) with (y * w + w) by lia. auto. }
  destruct pass1 as [((out1 & f1) & next)| |]; simpl in O1; try contradiction; auto. cbn [bind].
  destruct (P1_tracks_root _ _ _ _ O1) as (HL1 & Hf1 & HR1).
  pose proof O1 as (pairs & rep & Hwo & Hwo1 & Hho1 & T & Hnx & HL & H0 & Hpp & HC & HF2 & HF3).
  assert (L1 : forall a b, fg a b -> exists l, get out1 a b = Some l /\ 1 <= l).
  { intros a b F. destruct (HL1 a b) as (l & El & Hl); auto; [apply all_done; apply get_fg_inb; auto|]. exists l; split; auto; lia. }
  assert (O2 : okp (P2 out1 f1 n) (pass2 out1 f1)).
  { replace n with (h * w + 0) at 1 by lia. unfold pass2.
    apply (raster_okp (fun x y => P2 out1 f1 (y * w + x)) 0 h 0 w (fun y x st => relabel_pixel eqb im bg y x st)); try lia.
    - apply P2_init; auto.
    - intros x y st Hx Hy HP. assert (I : inb im x y = true) by (apply inb_spec; auto).
      pose proof (relabel_step out1 f1 L1 HR1 x y st Hn I HP) as L.
      destruct (relabel_pixel eqb im bg y x st) as [st'| |]; simpl; try contradiction; auto.
      replace (y * w + (x + 1)) with (y * w + x + 1) by lia. auto.
    - intros y st Hy HP. replace ((y + 1) * w + 0) with (y * w + w) by lia. auto. }
  destruct (pass2 out1 f1) as [(((out2 & f2) & ol) & cnt)| |]; simpl in O2; try contradiction; auto.
  exfalso. destruct O2 as (Hwo2 & Hw2 & Hh2 & Hf2 & SR & Hol & Hc & HD & _).
  destruct (HF2 (HF3 HI)) as (_ & LA).
  assert (I : inb im (w - 1) (h - 1) = true) by (apply inb_spec; lia).
  pose proof (all_done _ _ I) as D. destruct (get_some im (w - 1) (h - 1) Hwf) as (c & E); try lia.
  assert (F : fg (w - 1) (h - 1)). { exists c. split; auto. apply (HI _ _ D c E). }
  destruct (HD _ _ D F) as (l & r & m & X1 & X2 & _).
  rewrite LA in X1 by auto. inversion X1 as [El].
  destruct Hf1 as (_ & _ & _ & rank & B & RK). destruct (rootof_range _ _ _ _ _ _ RK X2). lia.
Qed.
End RP.
