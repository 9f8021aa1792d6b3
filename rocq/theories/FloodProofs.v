(** Proofs for C36/C37. *)
From Verif Require Import Base BaseProofs LineModel LineSpec LineProofs ShapeProofs FloodModel FloodSpec.
Local Ltac Zify.zify_post_hook ::= idtac.

Lemma filter_len_le {X} (f g : X -> bool) l : (forall x, In x l -> f x = true -> g x = true) ->
  (length (filter f l) <= length (filter g l))%nat.
Proof.
  induction l as [|a l IH]; intros H; [cbn; lia|]. cbn [filter].
  assert (IHl : (length (filter f l) <= length (filter g l))%nat) by (apply IH; intros; apply H; cbn; auto).
  destruct (f a) eqn:Ef.
  - rewrite (H a) by (cbn; auto). cbn [length]. lia.
  - destruct (g a); cbn [length]; lia.
Qed.
Lemma filter_len_lt {X} (f g : X -> bool) l x0 : (forall x, In x l -> f x = true -> g x = true) ->
  In x0 l -> g x0 = true -> f x0 = false ->
  (length (filter f l) < length (filter g l))%nat.
Proof.
  induction l as [|a l IH]; intros H I G F; [destruct I|].
  assert (LE : (length (filter f l) <= length (filter g l))%nat)
    by (apply filter_len_le; intros; apply H; cbn; auto).
  cbn [filter]. destruct I as [-> | I].
  - rewrite G, F. cbn [length]. lia.
  - assert (LT : (length (filter f l) < length (filter g l))%nat) by (apply IH; auto; intros; apply H; cbn; auto).
    destruct (f a) eqn:Ef.
    + rewrite (H a) by (cbn; auto). cbn [length]. lia.
    + destruct (g a); cbn [length]; lia.
Qed.

Section Flood.
Context {A : Type} (eqb : A -> A -> bool) (T fill : A).
Hypothesis NE : eqb fill T = false.

Local Notation uf im x y := (inside eqb im x y T = true).
Local Notation nuf im x y := (inside eqb im x y T = false).

Lemma inside_spec im x y : uf im x y <-> has_colour eqb im T x y.
Proof.
  unfold inside, has_colour. destruct ((x <? 0) || (y <? 0)) eqn:E.
  - split; [discriminate|]. intros (p & G & _). apply get_inb in G. lia.
  - destruct (get im x y) as [p|]; split.
    + intros H. exists p. auto.
    + intros (p' & [= <-] & H). exact H.
    + discriminate.
    + intros (p & G & _). discriminate.
Qed.
Lemma uf_inb im x y : uf im x y -> 0 <= x < iw im /\ 0 <= y < ih im.
Proof. intros H. apply inside_spec in H. destruct H as (p & G & _). apply get_inb in G. lia. Qed.

(** [im'] is [im] with some pixels of row [y0] that had the target colour filled *)
Definition upd (y0 : Z) (im im' : image A) : Prop :=
  wf im' /\ iw im' = iw im /\ ih im' = ih im /\
  forall x y p, get im x y = Some p ->
    get im' x y = Some p \/ (get im' x y = Some fill /\ uf im x y /\ y = y0).

Lemma upd_refl y0 im : wf im -> upd y0 im im.
Proof. intros W. unfold upd. splits; auto. Qed.

Lemma upd_uf y0 im im' x y : wf im -> upd y0 im im' -> uf im' x y -> uf im x y.
Proof.
  intros W (W' & Ew & Eh & H) U. pose proof (uf_inb _ _ _ U) as B. rewrite Ew, Eh in B.
  apply inside_spec in U. destruct U as (p & G & E).
  destruct (get im x y) as [q|] eqn:Gq.
  - destruct (H _ _ _ Gq) as [H'|(H' & U & _)]; [|exact U].
    apply inside_spec. exists q. split; [exact Gq|]. congruence.
  - exfalso. destruct (get_some im x y W) as (q & E'); try lia. congruence.
Qed.
Lemma upd_nuf y0 im im' x y : wf im -> upd y0 im im' -> nuf im x y -> nuf im' x y.
Proof. intros W U H. destruct (inside eqb im' x y T) eqn:E; [|reflexivity]. rewrite (upd_uf y0 im im') in H by auto. discriminate. Qed.
Lemma upd_row y0 im im' x y : wf im -> upd y0 im im' -> uf im x y -> nuf im' x y -> y = y0.
Proof.
  intros W (W' & Ew & Eh & H) U N. apply inside_spec in U. destruct U as (p & G & E).
  destruct (H _ _ _ G) as [H'|(_ & _ & ->)]; [|reflexivity].
  exfalso. assert (uf im' x y) by (apply inside_spec; exists p; auto). congruence.
Qed.

Lemma upd_trans y0 a b c : wf a -> upd y0 a b -> upd y0 b c -> upd y0 a c.
Proof.
  intros W U1 U2. pose proof U1 as (W1 & Ew1 & Eh1 & H1). pose proof U2 as (W2 & Ew2 & Eh2 & H2).
  unfold upd. splits; auto; try congruence. intros x y p G.
  destruct (H1 _ _ _ G) as [G1|(G1 & U & E)].
  - destruct (H2 _ _ _ G1) as [G2|(G2 & U & E)]; [auto|]. right. splits; auto. eapply upd_uf; eauto.
  - destruct (H2 _ _ _ G1) as [G2|(G2 & U' & E')]; [auto|]. right. splits; auto.
Qed.

Lemma put_step im x y : wf im -> uf im x y -> exists im', put_pixel im x y fill = Ok im' /\ upd y im im' /\
  nuf im' x y /\ (forall x' y', (x', y') <> (x, y) -> inside eqb im' x' y' T = inside eqb im x' y' T).
Proof.
  intros W U. pose proof (uf_inb _ _ _ U) as B.
  exists (put im x y fill). rewrite put_pixel_ok by lia.
  assert (GP : forall x' y', get (put im x y fill) x' y' = if (x' =? x) && (y' =? y) then Some fill else get im x' y').
  { intros x' y'. rewrite get_put by (auto; lia). reflexivity. }
  splits; [reflexivity| | |].
  - unfold upd. splits; [apply wf_put; auto|apply iw_put|apply ih_put|].
    intros x' y' p G. rewrite GP. destruct ((x' =? x) && (y' =? y)) eqn:E; [|auto].
    right. assert (x' = x) by lia. assert (y' = y) by lia. subst. auto.
  - unfold inside. replace ((x <? 0) || (y <? 0)) with false by lia. rewrite GP, !Z.eqb_refl. cbn [andb]. exact NE.
  - intros x' y' N. unfold inside. rewrite GP.
    replace ((x' =? x) && (y' =? y)) with false; [reflexivity|].
    symmetry. apply andb_false_iff. destruct (Z.eq_dec x' x); [|left; lia].
    destruct (Z.eq_dec y' y); [|right; lia]. congruence.
Qed.

Definition coords (im : image A) : list (Z * Z) := list_prod (zrange 0 (iw im)) (zrange 0 (ih im)).
Definition cnt (im : image A) : nat := length (filter (fun p => inside eqb im (fst p) (snd p) T) (coords im)).
Lemma upd_cnt y0 im im' : wf im -> upd y0 im im' -> (cnt im' <= cnt im)%nat.
Proof.
  intros W U. pose proof U as (_ & Ew & Eh & _). unfold cnt, coords. rewrite Ew, Eh.
  apply filter_len_le. intros p _. apply upd_uf with (y0 := y0); auto.
Qed.
Lemma upd_cnt_lt y0 im im' x y : wf im -> upd y0 im im' -> uf im x y -> nuf im' x y -> (cnt im' < cnt im)%nat.
Proof.
  intros W U U1 N. pose proof U as (_ & Ew & Eh & _). unfold cnt, coords. rewrite Ew, Eh.
  apply filter_len_lt with (x0 := (x, y)); auto.
  - intros p _. apply upd_uf with (y0 := y0); auto.
  - apply uf_inb in U1. apply in_prod; apply in_zrange; lia.
Qed.

Lemma upd_wf y0 im im' : upd y0 im im' -> wf im'. Proof. intros (W & _). exact W. Qed.

Definition dimok (im : image A) : Prop := wf im /\ iw im < 2 ^ 31 - 1 /\ ih im < 2 ^ 31 - 1.
Lemma upd_dimok y0 im im' : dimok im -> upd y0 im im' -> dimok im'.
Proof. intros (W & H1 & H2) (W' & Ew & Eh & _). unfold dimok. rewrite Ew, Eh. auto. Qed.

Lemma scan_left_ok n : forall im x y, dimok im -> x < Z.of_nat n -> 0 <= x < iw im ->
  exists im' x', scan_left eqb n T fill im x y = Ok (im', x') /\ upd y im im' /\ 0 <= x' <= x /\
    nuf im (x' - 1) y /\
    (forall c, x' <= c < x -> uf im c y /\ nuf im' c y) /\
    (forall c, ~ (x' <= c < x) -> inside eqb im' c y T = inside eqb im c y T).
Proof.
  induction n as [|n IH]; intros im x y D Hn Hx; [lia|].
  pose proof D as (W & Hw & Hh). cbn [scan_left]. rewrite chk_i_ok by lia. cbn [bind].
  destruct (inside eqb im (x - 1) y T) eqn:E.
  - destruct (put_step im (x - 1) y W E) as (m & Em & Um & Nm & Om). rewrite Em. cbn [bind].
    pose proof (uf_inb _ _ _ E) as B. pose proof Um as (Wm & Ewm & Ehm & _).
    destruct (IH m (x - 1) y) as (im' & x' & E' & U' & Hx' & L & I & O);
      [eapply upd_dimok; eauto|lia|lia|].
    exists im', x'. splits; auto; try lia.
    + eapply upd_trans; eauto.
    + rewrite <- Om; [exact L|]. intros [=]. lia.
    + intros c Hc. destruct (Z.eq_dec c (x - 1)) as [->|Nc].
      * split; [exact E|]. rewrite O by lia. exact Nm.
      * destruct (I c ltac:(lia)) as (I1 & I2). split; [|exact I2]. rewrite <- Om; [exact I1|congruence].
    + intros c Hc. rewrite O by lia. apply Om. intros [=]. lia.
  - exists im, x. splits; auto; try lia; try (apply upd_refl; auto); intros c Hc; lia.
Qed.

Lemma fill_right_ok n : forall im x y, dimok im -> iw im < x + Z.of_nat n -> 0 < Z.of_nat n -> x < 2 ^ 31 ->
  exists im' x', fill_right eqb n T fill im x y = Ok (im', x') /\ upd y im im' /\ x <= x' /\
    (x < x' -> 0 <= x /\ x' <= iw im) /\ nuf im' x' y /\
    (forall c, x <= c < x' -> uf im c y /\ nuf im' c y) /\
    (forall c, ~ (x <= c < x') -> inside eqb im' c y T = inside eqb im c y T).
Proof.
  induction n as [|n IH]; intros im x y D Hn Hn0 Hx; [lia|].
  pose proof D as (W & Hw & Hh). cbn [fill_right].
  destruct (inside eqb im x y T) eqn:E.
  - destruct (put_step im x y W E) as (m & Em & Um & Nm & Om). rewrite Em. cbn [bind].
    pose proof (uf_inb _ _ _ E) as B. rewrite chk_i_ok by lia. cbn [bind].
    pose proof Um as (Wm & Ewm & Ehm & _).
    destruct (IH m (x + 1) y) as (im' & x' & E' & U' & Hx' & BB & L & I & O);
      [eapply upd_dimok; eauto|lia|lia|lia|].
    exists im', x'. splits; auto; try lia.
    + eapply upd_trans; eauto.
    + intros c Hc. destruct (Z.eq_dec c x) as [->|Nc].
      * split; [exact E|]. rewrite O by lia. exact Nm.
      * destruct (I c ltac:(lia)) as (I1 & I2). split; [|exact I2]. rewrite <- Om; [exact I1|congruence].
    + intros c Hc. rewrite O by lia. apply Om. intros [=]. lia.
  - exists im, x. splits; auto; try lia; try (apply upd_refl; auto); intros c Hc; lia.
Qed.

Lemma skip_ok n : forall im x1 x2 y, x2 - x1 < Z.of_nat n -> 0 < Z.of_nat n -> -2 ^ 31 <= x1 < 2 ^ 31 -> x2 < 2 ^ 31 - 1 ->
  exists x', skip eqb n T im x1 x2 y = Ok x' /\ x1 <= x' /\ x' <= Z.max x1 x2 /\
    (forall c, x1 <= c < x' -> nuf im c y).
Proof.
  induction n as [|n IH]; intros im x1 x2 y Hn Hn0 H1 H2; [lia|]. cbn [skip].
  destruct (x1 <? x2) eqn:E1; cbn [andb].
  - destruct (inside eqb im x1 y T) eqn:E2; cbn [negb].
    + exists x1. splits; auto; try lia; intros; lia.
    + rewrite chk_i_ok by lia. cbn [bind].
      destruct (IH im (x1 + 1) x2 y) as (x' & E & L1 & L2 & L3); try lia.
      exists x'. splits; auto; try lia.
      intros c Hc. destruct (Z.eq_dec c x1) as [->|]; [exact E2|]. apply L3. lia.
  - exists x1. splits; auto; try lia; intros; lia.
Qed.

(** (x, y) is in the range of some entry of the stack *)
Definition covered (stk : list entry) (x y : Z) : Prop :=
  exists a b d, In (a, b, y, d) stk /\ a <= x <= b.

Lemma covered_cons e stk x y : covered stk x y -> covered (e :: stk) x y.
Proof. intros (a & b & d & I & H). exists a, b, d. cbn; auto. Qed.
Lemma covered_app_l n stk x y : covered n x y -> covered (n ++ stk) x y.
Proof. intros (a & b & d & I & H). exists a, b, d. split; [apply in_or_app|]; auto. Qed.
Lemma covered_app_r n stk x y : covered stk x y -> covered (n ++ stk) x y.
Proof. intros (a & b & d & I & H). exists a, b, d. split; [apply in_or_app|]; auto. Qed.

(** the row cells filled between two states *)
Local Notation filled ia im c y := (uf ia c y /\ nuf im c y).

(** every cell between c and c0 was unfilled target in [ia] *)
Definition run (ia : image A) (c c0 y : Z) : Prop :=
  forall k, Z.min c c0 <= k <= Z.max c c0 -> uf ia k y.

(** what processing one entry (X1, x2, y, dy) achieves *)
Definition entry_post (ia im : image A) (X1 x2 y dy : Z) (nw : list entry) : Prop :=
  upd y ia im /\
  (forall c, X1 <= c <= x2 -> nuf im c y) /\
  (forall c, filled ia im c y ->
     nuf im (c - 1) y /\ nuf im (c + 1) y /\ covered nw c (y + dy) /\
     (X1 <= c <= x2 \/ covered nw c (y - dy))) /\
  (forall c, filled ia im c y -> exists c0, X1 <= c0 <= x2 /\ run ia c c0 y) /\
  (forall a b y' d, In (a, b, y', d) nw -> a <= b /\ y' - d = y /\ (d = dy \/ d = - dy) /\
     forall c, a <= c <= b -> filled ia im c y) /\
  Z.of_nat (length nw) <= 3 * (Z.of_nat (cnt ia) - Z.of_nat (cnt im)).

(** state at the head of the row loop *)
Record row_inv (ia im : image A) (X1 x x1 x2 y dy : Z) (nw : list entry) : Prop := {
  ri_upd : upd y ia im;
  ri_x1 : X1 <= x1;
  ri_done : forall c, X1 <= c < x1 -> nuf im c y;
  ri_x : x <= x1;
  ri_left : uf im x1 y -> nuf im (x - 1) y;
  ri_lrun : x < x1 -> x1 = X1 /\ uf im x1 y /\ 0 <= x;
  ri_lfill : forall c, x <= c < x1 -> filled ia im c y /\ covered nw c (y - dy);
  ri_nb : forall c, filled ia im c y -> ~ (x <= c < x1) ->
     nuf im (c - 1) y /\ nuf im (c + 1) y /\ covered nw c (y + dy) /\
     (X1 <= c <= x2 \/ covered nw c (y - dy));
  ri_run : forall c, filled ia im c y -> exists c0, X1 <= c0 <= x2 /\ run ia c c0 y;
  ri_new : forall a b y' d, In (a, b, y', d) nw -> a <= b /\ y' - d = y /\ (d = dy \/ d = - dy) /\
     forall c, a <= c <= b -> filled ia im c y;
  ri_len : Z.of_nat (length nw) <= 3 * (Z.of_nat (cnt ia) - Z.of_nat (cnt im))
}.

Lemma scan_row_ok n rf ia X1 x2 y dy stk : dimok ia -> iw ia + 1 < Z.of_nat rf ->
  -1 <= X1 <= x2 -> x2 <= iw ia -> (dy = 1 \/ dy = -1) ->
  forall im x x1 nw, row_inv ia im X1 x x1 x2 y dy nw -> x2 - x1 + 1 < Z.of_nat n -> 0 < Z.of_nat n ->
  x1 <= iw ia + 2 ->
  exists im' nw', scan_row eqb n rf T fill im x x1 x2 y dy (nw ++ stk) = Ok (im', nw' ++ stk) /\
    entry_post ia im' X1 x2 y dy nw'.
Proof.
  intros D Hrf HX1 Hx2 Hdy. pose proof D as (W & Hw & Hh).
  induction n as [|n IH]; intros im x x1 nw RI Hn Hn0 Hb; [lia|].
  cbn [scan_row]. destruct RI. pose proof ri_upd0 as (Wm & Ewm & Ehm & _).
  destruct (x1 <=? x2) eqn:E.
  - assert (Dm : dimok im) by (eapply upd_dimok; eauto).
    destruct (fill_right_ok rf im x1 y Dm) as (im' & e & Ef & Uf & Le & Be & Ne & If & Of); try lia.
    rewrite Ef. cbn [bind].
    assert (U' : upd y ia im') by (eapply upd_trans; eauto).
    assert (Mono : forall c y', nuf im c y' -> nuf im' c y') by (intros; eapply upd_nuf; eauto).
    assert (UFX : x < x1 -> x1 < e).
    { intros H. destruct (Z.eq_dec e x1); [|lia]. subst e. destruct (ri_lrun0 H) as (_ & U & _). 
      rewrite Of in Ne by lia. congruence. }
    assert (UFX2 : x < e -> uf im x1 y).
    { intros H. apply If. lia. }
    assert (RF : forall c, x <= c < e -> filled ia im' c y).
    { intros c Hc. destruct (Z_lt_ge_dec c x1).
      - destruct (ri_lfill0 c ltac:(lia)) as ((F1 & F2) & _). auto.
      - destruct (If c ltac:(lia)) as (F1 & F2). split; [|exact F2]. apply (upd_uf y ia im); auto. }
    assert (FC : forall c, filled ia im' c y -> filled ia im c y \/ x1 <= c < e).
    { intros c (F1 & F2). destruct (Z_le_dec x1 c), (Z_lt_dec c e); auto;
        left; split; auto; rewrite <- Of; auto; lia. }
    assert (YB : x < e -> 0 <= y < ih ia).
    { intros H. specialize (UFX2 H). apply uf_inb in UFX2. lia. }
    (* the two pushes *)
    set (s1 := if x <? e then (x, e - 1, y + dy, dy) :: nw else nw).
    set (s2 := if x2 <? e - 1 then (x2 + 1, e - 1, y - dy, - dy) :: s1 else s1).
    assert (E1 : (if x <? e then e0 <- chk_i 32 (e - 1);; yy <- chk_i 32 (y + dy);; Ok ((x, e0, yy, dy) :: nw ++ stk)
                  else Ok (nw ++ stk)) = Ok (s1 ++ stk)).
    { unfold s1. destruct (x <? e) eqn:Ex; [|reflexivity].
      specialize (YB ltac:(lia)). rewrite chk_i_ok by lia. cbn [bind]. rewrite chk_i_ok by lia. reflexivity. }
    rewrite E1. cbn [bind]. rewrite chk_i_ok by lia. cbn [bind].
    assert (E2 : (if x2 <? e - 1 then s <- chk_i 32 (x2 + 1);; yy <- chk_i 32 (y - dy);; Ok ((s, e - 1, yy, - dy) :: s1 ++ stk)
                  else Ok (s1 ++ stk)) = Ok (s2 ++ stk)).
    { unfold s2. destruct (x2 <? e - 1) eqn:Ex; [|reflexivity].
      specialize (YB ltac:(lia)). rewrite chk_i_ok by lia. cbn [bind]. rewrite chk_i_ok by lia. reflexivity. }
    rewrite E2. cbn [bind]. rewrite chk_i_ok by lia. cbn [bind].
    destruct (skip_ok (S n) im' (e + 1) x2 y) as (x' & Es & L1 & L2 & L3); try lia.
    rewrite Es. cbn [bind].
    assert (C1 : forall c z, covered nw c z -> covered s2 c z).
    { intros c z H. unfold s2, s1. destruct (x2 <? e - 1), (x <? e); auto using covered_cons. }
    assert (C2 : forall c, x <= c < e -> covered s2 c (y + dy)).
    { intros c Hc. assert (H : covered s1 c (y + dy)).
      { unfold s1. replace (x <? e) with true by lia. exists x, (e - 1), dy. cbn; split; [auto|lia]. }
      unfold s2. destruct (x2 <? e - 1); auto using covered_cons. }
    assert (C3 : forall c, x <= c < e -> X1 <= c <= x2 \/ covered s2 c (y - dy)).
    { intros c Hc. destruct (Z_lt_dec c X1).
      - right. apply C1. apply ri_lfill0. lia.
      - destruct (Z_le_dec c x2); [left; lia|]. right. unfold s2. replace (x2 <? e - 1) with true by lia.
        exists (x2 + 1), (e - 1), (- dy). cbn; split; [auto|lia]. }
    apply IH; try lia.
    constructor; auto; try lia.
    + (* done *) intros c Hc. destruct (Z_lt_dec c x1); [apply Mono, ri_done0; lia|].
      destruct (Z_lt_dec c e); [apply If; lia|]. destruct (Z.eq_dec c e) as [->|]; [exact Ne|].
      apply L3. lia.
    + (* left *) intros _. destruct (Z.eq_dec x' (e + 1)) as [->|].
      * replace (e + 1 - 1) with e by lia. exact Ne.
      * apply L3. lia.
    + (* neighbours *) intros c F _.
      destruct (Z_le_dec x c) as [Hx|Hx]; [destruct (Z_lt_dec c e) as [He|He]|].
      * splits.
        -- destruct (Z.eq_dec c x) as [->|]; [apply Mono, ri_left0, UFX2; lia|apply RF; lia].
        -- destruct (Z.eq_dec (c + 1) e) as [->|]; [exact Ne|apply RF; lia].
        -- apply C2; lia.
        -- apply C3; lia.
      * destruct (FC c F) as [F'|]; [|lia].
        destruct (ri_nb0 c F' ltac:(lia)) as (N1 & N2 & N3 & N4). splits; auto. destruct N4; auto.
      * destruct (FC c F) as [F'|]; [|lia].
        destruct (ri_nb0 c F' ltac:(lia)) as (N1 & N2 & N3 & N4). splits; auto. destruct N4; auto.
    + (* runs *) intros c F. destruct (FC c F) as [F'|]; [apply ri_run0; exact F'|].
      exists x1. split; [lia|]. intros k Hk. apply (RF k). lia.
    + (* new entries *) intros a b y' d I.
      assert (OLD : In (a, b, y', d) nw -> a <= b /\ y' - d = y /\ (d = dy \/ d = - dy) /\
         forall c, a <= c <= b -> filled ia im' c y).
      { intros I'. destruct (ri_new0 _ _ _ _ I') as (N1 & N2 & N3 & N4). splits; auto.
        intros c Hc. destruct (N4 c Hc). auto. }
      assert (I1 : In (a, b, y', d) s1 -> a <= b /\ y' - d = y /\ (d = dy \/ d = - dy) /\
         forall c, a <= c <= b -> filled ia im' c y).
      { unfold s1. destruct (x <? e) eqn:Ex; [|exact OLD]. intros [[= <- <- <- <-]|I']; [|auto].
        splits; auto; try lia. intros c Hc. apply RF. lia. }
      unfold s2 in I. destruct (x2 <? e - 1) eqn:Ex; [|auto].
      destruct I as [[= <- <- <- <-]|I']; [|auto].
      splits; auto; try lia. intros c Hc. apply RF. lia.
    + (* length *) destruct (x <? e) eqn:Ex.
      * assert (LT : (cnt im' < cnt im)%nat).
        { apply (upd_cnt_lt y im im' x1 y); auto. apply UFX2; lia. apply If. lia. }
        unfold s2, s1. destruct (x2 <? e - 1); cbn [length]; lia.
      * assert (LE : (cnt im' <= cnt im)%nat) by (apply (upd_cnt y); auto).
        unfold s2, s1. replace (x2 <? e - 1) with false by lia. lia.
  - exists im, nw. split; [reflexivity|]. unfold entry_post.
    assert (x = x1).
    { destruct (Z.eq_dec x x1); [auto|]. destruct (ri_lrun0 ltac:(lia)) as (-> & _). lia. }
    subst x. splits; auto.
    + intros c Hc. apply ri_done0. lia.
    + intros c F. apply ri_nb0; [exact F|lia].
Qed.

Lemma flood_entry_ok im X1 x2 y dy stk : dimok im -> -1 <= X1 <= x2 -> x2 <= iw im -> (dy = 1 \/ dy = -1) ->
  exists im' nw, flood_entry eqb T fill im (X1, x2, y, dy) stk = Ok (im', nw ++ stk) /\
    entry_post im im' X1 x2 y dy nw.
Proof.
  intros D HX Hx2 Hdy. pose proof D as (W & Hw & Hh). unfold flood_entry.
  destruct (inside eqb im X1 y T) eqn:E.
  - pose proof (uf_inb _ _ _ E) as B.
    destruct (scan_left_ok (Z.to_nat (iw im + 2)) im X1 y D) as (m & x & Em & Um & Hx & L & I & O); try lia.
    rewrite Em. cbn [bind].
    set (nw := if x <? X1 then [(x, X1 - 1, y - dy, - dy)] else []).
    assert (E1 : (if x <? X1 then b <- chk_i 32 (X1 - 1);; yy <- chk_i 32 (y - dy);; Ok ((x, b, yy, - dy) :: stk)
                  else Ok stk) = Ok (nw ++ stk)).
    { unfold nw. destruct (x <? X1); [|reflexivity]. rewrite chk_i_ok by lia. cbn [bind]. rewrite chk_i_ok by lia. reflexivity. }
    rewrite E1. cbn [bind].
    assert (FC : forall c, filled im m c y -> x <= c < X1).
    { intros c (F1 & F2). destruct (Z_le_dec x c), (Z_lt_dec c X1); try lia; rewrite O in F2 by lia; congruence. }
    apply scan_row_ok; auto; try lia.
    constructor; auto; try (intros; lia).
    + intros _. eapply upd_nuf; eauto.
    + intros H. splits; auto; try lia. rewrite O by lia. exact E.
    + intros c Hc. split; [apply I; lia|]. unfold nw. replace (x <? X1) with true by lia.
      exists x, (X1 - 1), (- dy). cbn; split; [auto|lia].
    + intros c F. exists X1. split; [lia|]. intros k Hk. apply FC in F.
      destruct (Z.eq_dec k X1) as [->|]; [exact E|apply I; lia].
    + unfold nw. intros a b y' d. destruct (x <? X1) eqn:Ex; [|intros []].
      intros [[= <- <- <- <-]|[]]. splits; auto; try lia. intros c Hc. apply I. lia.
    + unfold nw. destruct (x <? X1) eqn:Ex; cbn [length].
      * assert ((cnt m < cnt im)%nat); [|lia].
        destruct (I x ltac:(lia)) as (I1 & I2). apply (upd_cnt_lt y im m x y); auto.
      * pose proof (upd_cnt y im m W Um). lia.
  - cbn [bind]. change stk with ([] ++ stk) at 1. apply scan_row_ok; auto; try lia.
    constructor; auto; try (intros; lia).
    + apply upd_refl; auto.
    + congruence.
    + intros c (F1 & F2). congruence.
    + intros c (F1 & F2). congruence.
    + intros a b y' d [].
    + cbn [length]. lia.
Qed.

(** the whole loop *)
Section Loop.
Context (im0 : image A) (sx sy : Z).
Hypothesis D0 : dimok im0.
Local Notation comp := (reach (has_colour eqb im0 T) sx sy).
Definition okc (im : image A) (stk : list entry) (x y : Z) : Prop := nuf im x y \/ covered stk x y.

Record inv (im : image A) (stk : list entry) : Prop := {
  iv_wf : wf im; iv_w : iw im = iw im0; iv_h : ih im = ih im0;
  iv_px : forall x y p, get im0 x y = Some p ->
     get im x y = Some p \/ (get im x y = Some fill /\ uf im0 x y /\ comp x y);
  iv_seed : okc im stk sx sy;
  iv_par : forall a b y d c, In (a, b, y, d) stk -> a <= c <= b -> okc im stk c (y - d);
  iv_nb : forall x y x' y', uf im0 x y -> nuf im x y -> Z.abs (x' - x) + Z.abs (y' - y) = 1 -> okc im stk x' y';
  iv_conn : forall a b y d c, In (a, b, y, d) stk -> a <= c <= b -> uf im0 c y -> comp c y;
  iv_ent : forall a b y d, In (a, b, y, d) stk -> -1 <= a <= b /\ b <= iw im0 /\ (d = 1 \/ d = -1)
}.

Lemma inv_uf im stk x y : inv im stk -> uf im x y -> uf im0 x y.
Proof.
  intros I U. pose proof (uf_inb _ _ _ U) as B. rewrite (iv_w _ _ I), (iv_h _ _ I) in B.
  apply inside_spec in U. destruct U as (p & G & E).
  destruct (get im0 x y) as [q|] eqn:Gq.
  - destruct (iv_px _ _ I _ _ _ Gq) as [H'|(H' & U & _)]; [|exact U].
    apply inside_spec. exists q. split; [exact Gq|]. congruence.
  - exfalso. destruct (get_some im0 x y (proj1 D0)) as (q & E'); try lia. congruence.
Qed.

Lemma run_comp im stk c c0 y : inv im stk -> run im c c0 y -> comp c0 y -> comp c y.
Proof.
  intros I R C.
  assert (H : forall n c, Z.abs (c - c0) = Z.of_nat n -> (forall k, Z.min c c0 <= k <= Z.max c c0 -> uf im k y) -> comp c y).
  { induction n as [|n IH]; intros c1 Hc RR.
    - replace c1 with c0 by lia. exact C.
    - destruct (Z_lt_dec c1 c0).
      + apply reach_step with (x := c1 + 1) (y := y); [apply IH; [lia|intros; apply RR; lia]|lia|].
        apply inside_spec, (inv_uf im stk); auto. apply RR. lia.
      + apply reach_step with (x := c1 - 1) (y := y); [apply IH; [lia|intros; apply RR; lia]|lia|].
        apply inside_spec, (inv_uf im stk); auto. apply RR. lia. }
  apply (H (Z.to_nat (Z.abs (c - c0)))); [lia|exact R].
Qed.

Lemma inv_step im X1 x2 y dy stk im' nw : inv im ((X1, x2, y, dy) :: stk) ->
  entry_post im im' X1 x2 y dy nw -> inv im' (nw ++ stk).
Proof.
  intros I (U & Dn & Nb & Rn & Nw & _). pose proof U as (W' & Ew & Eh & H).
  pose proof (iv_wf _ _ I) as W.
  assert (OK : forall u v, okc im ((X1, x2, y, dy) :: stk) u v -> okc im' (nw ++ stk) u v).
  { intros u v [N|(a & b & d & Hi & Hc)].
    - left. eapply upd_nuf; eauto.
    - destruct Hi as [[= <- <- <- <-]|Hi].
      + left. apply Dn. lia.
      + right. apply covered_app_r. exists a, b, d. auto. }
  assert (FC : forall c, filled im im' c y -> comp c y).
  { intros c F. destruct (Rn c F) as (c0 & Hc0 & R).
    apply (run_comp im ((X1, x2, y, dy) :: stk) c c0 y I R).
    eapply (iv_conn _ _ I); [left; reflexivity|exact Hc0|].
    eapply inv_uf; eauto. apply R. lia. }
  assert (OF : forall u v, uf im u v -> nuf im' u v -> v = y /\ filled im im' u y).
  { intros u v A1 A2. assert (v = y) by (eapply (upd_row y im im'); eauto). subst. auto. }
  constructor; auto.
  - rewrite Ew. apply I.
  - rewrite Eh. apply I.
  - intros u v p G. destruct (iv_px _ _ I _ _ _ G) as [G1|(G1 & U0 & C0)].
    + destruct (H _ _ _ G1) as [G2|(G2 & U2 & ->)]; [auto|]. right. splits; auto.
      * eapply inv_uf; eauto.
      * apply FC. split; [exact U2|]. unfold inside. destruct ((u <? 0) || (y <? 0)); [reflexivity|]. rewrite G2. exact NE.
    + destruct (H _ _ _ G1) as [G2|(G2 & U2 & E)]; auto.
  - apply OK, I.
  - intros a b v d c Hi Hc. apply in_app_or in Hi. destruct Hi as [Hi|Hi].
    + destruct (Nw _ _ _ _ Hi) as (_ & E & _ & F). rewrite E. left. apply F. exact Hc.
    + apply OK. eapply (iv_par _ _ I); [right; exact Hi|exact Hc].
  - intros u v u' v' U0 N Adj. destruct (inside eqb im u v T) eqn:Eu.
    + destruct (OF u v Eu N) as (-> & F). destruct (Nb u F) as (N1 & N2 & N3 & N4).
      assert (v' = y \/ v' = y + dy \/ v' = y - dy) as HV.
      { destruct (iv_ent _ _ I _ _ _ _ (or_introl eq_refl)) as (_ & _ & Hd). lia. }
      destruct HV as [-> | HV].
      * assert (u' = u - 1 \/ u' = u + 1) as [-> | ->] by lia; left; auto.
      * assert (u' = u).
        { destruct (iv_ent _ _ I _ _ _ _ (or_introl eq_refl)) as (_ & _ & Hd). lia. }
        subst u'. destruct HV as [-> | ->].
        -- right. apply covered_app_l, N3.
        -- destruct N4 as [Hc|Hc]; [|right; apply covered_app_l, Hc].
           apply OK. eapply (iv_par _ _ I); [left; reflexivity|exact Hc].
    + apply OK. eapply (iv_nb _ _ I); eauto.
  - intros a b v d c Hi Hc U0. apply in_app_or in Hi. destruct Hi as [Hi|Hi].
    + destruct (Nw _ _ _ _ Hi) as (_ & E & Hd & F). specialize (F c Hc).
      apply reach_step with (x := c) (y := y); [apply FC; exact F| |apply inside_spec; exact U0].
      destruct (iv_ent _ _ I _ _ _ _ (or_introl eq_refl)) as (_ & _ & Hdy). lia.
    + eapply (iv_conn _ _ I); [right; exact Hi|exact Hc|exact U0].
  - intros a b v d Hi. apply in_app_or in Hi. destruct Hi as [Hi|Hi].
    + destruct (Nw _ _ _ _ Hi) as (Hab & E & Hd & F).
      destruct (iv_ent _ _ I _ _ _ _ (or_introl eq_refl)) as (_ & _ & Hdy).
      pose proof (uf_inb _ _ _ (proj1 (F a ltac:(lia)))). pose proof (uf_inb _ _ _ (proj1 (F b ltac:(lia)))).
      pose proof (iv_w _ _ I). lia.
    + eapply (iv_ent _ _ I). right; exact Hi.
Qed.

Lemma flood_loop_ok n : forall im stk, inv im stk ->
  3 * Z.of_nat (cnt im) + Z.of_nat (length stk) < Z.of_nat n ->
  exists out, flood_loop eqb n T fill im stk = Ok out /\ inv out [].
Proof.
  induction n as [|n IH]; intros im stk I Hn; [lia|]. cbn [flood_loop].
  destruct stk as [|[[[X1 x2] y] dy] stk].
  - exists im. auto.
  - destruct (iv_ent _ _ I _ _ _ _ (or_introl eq_refl)) as (H1 & H2 & H3).
    pose proof (iv_w _ _ I) as Ew. pose proof (iv_h _ _ I) as Eh. destruct D0 as (W0 & Hw0 & Hh0).
    destruct (flood_entry_ok im X1 x2 y dy stk) as (im' & nw & E & P); auto; try lia.
    { unfold dimok. splits; [apply I|lia|lia]. }
    rewrite E. cbn [bind]. apply IH.
    + eapply inv_step; eauto.
    + destruct P as (_ & _ & _ & _ & _ & L). rewrite app_length. cbn [length] in Hn. lia.
Qed.

Hypothesis TT : forall p, eqb p T = true -> eqb T T = true.
Lemma inv_init : get im0 sx sy = Some T -> inv im0 [(sx, sx, sy - 1, -1); (sx, sx, sy, 1)].
Proof.
  intros G. pose proof (get_inb _ _ _ _ G) as B.
  constructor; auto; try apply D0.
  - right. exists sx, sx, 1. cbn; split; [auto|lia].
  - intros a b y d c [[= <- <- <- <-]|[[= <- <- <- <-]|[]]] Hc.
    + right. exists sx, sx, 1. cbn [In]. split; [|lia]. replace (sy - 1 - -1) with sy by lia. auto.
    + right. exists sx, sx, (-1). cbn [In]. split; [auto|lia].
  - intros x y x' y' U N. congruence.
  - intros a b y d c [[= <- <- <- <-]|[[= <- <- <- <-]|[]]] Hc U.
    + replace c with sx in * by lia. apply inside_spec in U.
      apply reach_step with (x := sx) (y := sy); [|lia|exact U].
      apply reach_start. exists T. split; [exact G|]. destruct U as (p & _ & E). eapply TT; eauto.
    + replace c with sx in * by lia. apply reach_start. apply inside_spec. exact U.
  - intros a b y d [[= <- <- <- <-]|[[= <- <- <- <-]|[]]]; lia.
Qed.

Lemma inv_final out : inv out [] -> recoloured comp (fun _ => fill) im0 out.
Proof.
  intros I. unfold recoloured. splits; try apply I.
  assert (N : forall x y, comp x y -> nuf out x y).
  { intros x y C. induction C as [|x y x' y' C IH Adj HC].
    - destruct (iv_seed _ _ I) as [Hn|(a & b & d & [] & _)]. exact Hn.
    - assert (U : uf im0 x y).
      { apply inside_spec. destruct C; auto. }
      destruct (iv_nb _ _ I x y x' y' U IH Adj) as [Hn|(a & b & d & [] & _)]. exact Hn. }
  intros x y p G. split.
  - intros C. destruct (iv_px _ _ I _ _ _ G) as [G1|(G1 & _)]; [|exact G1].
    exfalso. specialize (N x y C).
    assert (U : uf im0 x y) by (apply inside_spec; destruct C; auto).
    apply inside_spec in U. destruct U as (q & Gq & E). assert (q = p) by congruence. subst q.
    assert (uf out x y) by (apply inside_spec; exists p; auto). congruence.
  - intros NC. destruct (iv_px _ _ I _ _ _ G) as [G1|(_ & _ & C)]; [exact G1|contradiction].
Qed.
End Loop.

Lemma flood_fill_ok im x y fuel : dimok im -> get im x y = Some T ->
  (forall p, eqb p T = true -> eqb T T = true) ->
  3 * (iw im * ih im) + 2 < Z.of_nat fuel ->
  exists out, flood_fill eqb fuel im x y fill = Ok out /\
    recoloured (reach (has_colour eqb im T) x y) (fun _ => fill) im out.
Proof.
  intros D G TT Hf. pose proof (get_inb _ _ _ _ G) as B. pose proof D as (W & Hw & Hh).
  unfold flood_fill. rewrite (proj2 (get_pixel_ok im x y T)) by exact G. cbn [bind].
  rewrite !wrap_id by lia. rewrite chk_i_ok by lia. cbn [bind].
  assert (C : (cnt im <= length (coords im))%nat).
  { unfold cnt. generalize (coords im). intros l. induction l as [|a l IH]; [cbn; lia|].
    cbn [filter]. destruct (inside _ _ _ _ _); cbn [length]; lia. }
  unfold coords in C. rewrite prod_length, !zrange_length in C.
  destruct (flood_loop_ok im x y D fuel im [(x, x, y - 1, -1); (x, x, y, 1)]) as (out & E & I).
  - apply inv_init; auto.
  - cbn [length]. nia.
  - exists out. split; [exact E|]. apply inv_final; auto.
Qed.
End Flood.
