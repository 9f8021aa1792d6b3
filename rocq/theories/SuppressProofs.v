From Verif Require Import Base BaseProofs RasterProofs SuppressModel SuppressSpec.
Local Ltac Zify.zify_post_hook ::= idtac.

Lemma lex_lt_spec ax ay bx by_ : lex_lt ax ay bx by_ = true <-> ax < bx \/ (ax = bx /\ ay < by_).
Proof.
  unfold lex_lt. rewrite orb_true_iff, andb_true_iff, Z.eqb_eq, !Z.ltb_lt. tauto.
Qed.
Lemma replaces_spec ci cx cy mi bx by_ :
  replaces ci cx cy mi bx by_ = true <-> preferred ci cx cy mi bx by_.
Proof.
  unfold replaces, preferred. destruct (Z.ltb_spec ci mi).
  - split; [discriminate|]. lia.
  - rewrite orb_true_iff, lex_lt_spec, Z.ltb_lt. split; intros; [|lia].
    destruct H0 as [|]; [lia|]. destruct (Z.eq_dec mi ci); [right|]; lia.
Qed.

Lemma preferred_trans a ax ay b bx by_ c cx cy :
  preferred a ax ay b bx by_ -> preferred b bx by_ c cx cy -> preferred a ax ay c cx cy.
Proof. unfold preferred. lia. Qed.
Lemma preferred_total a ax ay b bx by_ :
  preferred a ax ay b bx by_ \/ preferred b bx by_ a ax ay \/ (ax = bx /\ ay = by_ /\ a = b).
Proof. unfold preferred. lia. Qed.
Lemma preferred_irr a ax ay : ~ preferred a ax ay a ax ay.
Proof. unfold preferred. lia. Qed.

Lemma cgv_ok im x y v yl yu xl xu : wf im ->
  0 <= yl -> yu <= ih im -> 0 <= xl -> xu <= iw im ->
  exists b, contains_greater_value im x y v yl yu xl xu = Ok b /\
    (b = true <-> exists cx cy ci, xl <= cx < xu /\ yl <= cy < yu /\ get im cx cy = Some ci /\
                                   preferred ci cx cy v x y).
Proof.
  intros W H1 H2 H3 H4. unfold contains_greater_value.
  destruct (Z_le_dec yu yl) as [HY|HY].
  { rewrite for_range_empty by lia. exists false. split; auto. split; [discriminate|].
    intros (cx & cy & ci & ? & ? & _). lia. }
  destruct (for_range_ind (fun j b => b = true <->
      exists cx cy ci, xl <= cx < xu /\ yl <= cy < j /\ get im cx cy = Some ci /\ preferred ci cx cy v x y)
    yl yu (fun cy (found : bool) => for_range xl xu (fun cx (found : bool) =>
      if found then Ok true
      else ci <- get_pixel im cx cy ;; Ok (replaces ci cx cy v x y)) found) false) as (b & E & Hb);
    [lia| | |exists b; split; auto].
  { split; [discriminate|]. intros (cx & cy & ci & ? & ? & _). lia. }
  intros cy f Hcy Hf.
  destruct (Z_le_dec xu xl) as [HX|HX].
  { rewrite for_range_empty by lia. exists f. split; auto. rewrite Hf.
    split; intros (cx & cy' & ci & ? & _); lia. }
  destruct (for_range_ind (fun i b => b = true <-> (f = true \/
      exists cx ci, xl <= cx < i /\ get im cx cy = Some ci /\ preferred ci cx cy v x y))
    xl xu (fun cx (found : bool) =>
      if found then Ok true
      else ci <- get_pixel im cx cy ;; Ok (replaces ci cx cy v x y)) f) as (b & E & Hb); [lia| | |].
  { split; [auto|]. intros [|(cx & ci & ? & _)]; [auto|lia]. }
  { intros cx g Hcx Hg. destruct g.
    - exists true. split; auto. split; auto. intros _.
      destruct (proj1 Hg eq_refl) as [|(c & ci & ? & ? & ?)]; [auto|]. right. exists c, ci. repeat split; auto; lia.
    - destruct (get_some im cx cy) as (ci & Eg); [auto|lia|lia|].
      rewrite (proj2 (get_pixel_ok im cx cy ci) Eg). cbn [bind]. eexists. split; [reflexivity|].
      rewrite replaces_spec. split.
      + intros Hp. right. exists cx, ci. repeat split; auto; lia.
      + intros [->|(c & ci' & Hc & Ec & Hp)].
        * assert (false = true) by (apply Hg; auto). discriminate.
        * destruct (Z.eq_dec c cx) as [->|]; [congruence|].
          assert (false = true) by (apply Hg; right; exists c, ci'; repeat split; auto; lia). discriminate. }
  exists b. split; [exact E|]. rewrite Hb, Hf. split.
  - intros [(cx & cy' & ci & ? & ? & ? & ?)|(cx & ci & ? & ? & ?)].
    + exists cx, cy', ci. repeat split; auto; lia.
    + exists cx, cy, ci. repeat split; auto; lia.
  - intros (cx & cy' & ci & ? & ? & ? & ?). destruct (Z.eq_dec cy' cy) as [->|].
    + right. exists cx, ci. auto.
    + left. exists cx, cy', ci. repeat split; auto; lia.
Qed.

Lemma chk_u_ok n z : 0 <= z < 2 ^ n -> chk_u n z = Ok z.
Proof. intros H. unfold chk_u, u_fits. rewrite (proj2 (andb_true_iff _ _)); [auto|]. split; lia. Qed.

(** the winner of a block *)
Lemma block_scan im x y X Y m : wf im -> 0 <= x < X -> 0 <= y < Y -> X <= iw im -> Y <= ih im ->
  get im x y = Some m ->
  exists bx by_ mi,
    for_range y Y (fun cy b => for_range x X (fun cx b =>
      let '(bx, by_, mi) := b in
      ci <- get_pixel im cx cy ;;
      if replaces ci cx cy mi bx by_ then Ok (cx, cy, ci) else Ok b) b) (x, y, m) = Ok (bx, by_, mi) /\
    x <= bx < X /\ y <= by_ < Y /\ get im bx by_ = Some mi /\
    forall cx cy ci, x <= cx < X -> y <= cy < Y -> get im cx cy = Some ci -> ~ preferred ci cx cy mi bx by_.
Proof.
  intros W Hx Hy HX HY G.
  destruct (raster_ind (fun i j '(bx, by_, mi) =>
      x <= bx < X /\ y <= by_ < Y /\ get im bx by_ = Some mi /\
      forall cx cy ci, x <= cx < X -> y <= cy -> (cy < j \/ (cy = j /\ cx < i)) ->
         get im cx cy = Some ci -> ~ preferred ci cx cy mi bx by_)
    y Y x (fun _ => X) X (fun cy cx b => let '(bx, by_, mi) := b in
      ci <- get_pixel im cx cy ;;
      if replaces ci cx cy mi bx by_ then Ok (cx, cy, ci) else Ok b) (x, y, m)) as ([[bx by_] mi] & E & H);
    try lia.
  - repeat split; auto; try lia.
  - intros i j [[bx by_] mi] Hi Hj (A & B & C & D).
    destruct (get_some im i j) as (ci & Eg); [auto|lia|lia|].
    rewrite (proj2 (get_pixel_ok im i j ci) Eg). cbn [bind].
    destruct (replaces ci i j mi bx by_) eqn:Er.
    + apply replaces_spec in Er. eexists. split; [reflexivity|]. cbv beta iota. repeat split; auto; try lia.
      intros cx cy c Hcx Hcy Ho Gc Hp.
      assert (cy < j \/ (cy = j /\ cx < i) \/ (cx = i /\ cy = j)) as [O|[O|(-> & ->)]] by lia.
      * apply (D cx cy c); auto. eapply preferred_trans; eauto.
      * apply (D cx cy c); auto. eapply preferred_trans; eauto.
      * replace c with ci in Hp by congruence. eapply preferred_irr; eauto.
    + eexists. split; [reflexivity|]. cbv beta iota. repeat split; auto; try lia.
      intros cx cy c Hcx Hcy Ho Gc Hp.
      assert (cy < j \/ (cy = j /\ cx < i) \/ (cx = i /\ cy = j)) as [O|[O|(-> & ->)]] by lia.
      * apply (D cx cy c); auto.
      * apply (D cx cy c); auto.
      * replace c with ci in Hp by congruence. apply replaces_spec in Hp. congruence.
  - intros j [[bx by_] mi] Hj (A & B & C & D). repeat split; auto; try lia.
    intros cx cy c Hcx Hcy Ho Gc. apply (D cx cy c); auto. lia.
  - exists bx, by_, mi. split; [exact E|]. destruct H as (A & B & C & D). repeat split; auto; try lia.
    intros cx cy ci Hcx Hcy Gc. apply (D cx cy ci); auto; lia.
Qed.

Definition blk (s : Z) (x : Z) : Z := x / s.

Lemma suppress_block_ok im r i j out : wf im -> wf out -> iw out = iw im -> ih out = ih im -> 0 <= r ->
  iw im + r < 2 ^ 32 -> ih im + r < 2 ^ 32 -> 0 <= i -> 0 <= j -> i * (r + 1) < iw im -> j * (r + 1) < ih im ->
  exists out', suppress_block im r (i * (r + 1)) (j * (r + 1)) out = Ok out' /\
    wf out' /\ iw out' = iw im /\ ih out' = ih im /\
    (forall x y, blk (r + 1) x <> i \/ blk (r + 1) y <> j -> get out' x y = get out x y) /\
    (forall x y v, blk (r + 1) x = i -> blk (r + 1) y = j -> get im x y = Some v -> get out x y = Some 0 ->
       (is_local_max im r x y v -> get out' x y = Some v) /\
       (~ is_local_max im r x y v -> get out' x y = Some 0)).
Proof.
  intros W Wo Ew Eh Hr Hw Hh Hi Hj Hx Hy.
  assert (BLK : forall z k, blk (r + 1) z = k <-> k * (r + 1) <= z < k * (r + 1) + (r + 1)).
  { intros z k. unfold blk. split.
    - intros <-. pose proof (Z.div_mod z (r + 1) ltac:(lia)).
      pose proof (Z.mod_pos_bound z (r + 1) ltac:(lia)). nia.
    - intros B. symmetry. apply (Z.div_unique z (r + 1) k (z - k * (r + 1))); lia. }
  set (x := i * (r + 1)) in *. set (y := j * (r + 1)) in *.
  assert (0 <= x) by (unfold x; nia). assert (0 <= y) by (unfold y; nia).
  unfold suppress_block.
  destruct (get_some im x y) as (m & Gm); [auto|lia|lia|].
  rewrite (proj2 (get_pixel_ok im x y m) Gm). cbn [bind].
  rewrite (chk_u_ok 32 (y + r)) by lia. cbn [bind]. rewrite (chk_u_ok 32 (y + r + 1)) by lia. cbn [bind].
  rewrite (chk_u_ok 32 (x + r)) by lia. cbn [bind]. rewrite (chk_u_ok 32 (x + r + 1)) by lia. cbn [bind].
  destruct (block_scan im x y (Z.min (iw im) (x + r + 1)) (Z.min (ih im) (y + r + 1)) m)
    as (bx & by_ & mi & E & Bx & By & Gb & Best); try lia; auto.
  rewrite E. cbn [bind]. clear E.
  rewrite (chk_u_ok 32 (bx + r)) by lia. cbn [bind]. rewrite (chk_u_ok 32 (bx + r + 1)) by lia. cbn [bind].
  rewrite (chk_u_ok 32 (by_ + r)) by lia. cbn [bind]. rewrite (chk_u_ok 32 (by_ + r + 1)) by lia. cbn [bind].
  unfold sat_sub.
  destruct (cgv_ok im bx by_ mi (Z.max 0 (by_ - r)) y (Z.max 0 (bx - r)) (Z.min (iw im) (bx + r + 1)))
    as (f1 & E1 & F1); auto; try lia.
  destruct (cgv_ok im bx by_ mi y (Z.min (ih im) (y + r + 1)) (Z.max 0 (bx - r)) x)
    as (f2 & E2 & F2); auto; try lia.
  destruct (cgv_ok im bx by_ mi y (Z.min (ih im) (y + r + 1)) (Z.min (iw im) (x + r + 1)) (Z.min (iw im) (bx + r + 1)))
    as (f3 & E3 & F3); auto; try lia.
  destruct (cgv_ok im bx by_ mi (Z.min (ih im) (y + r + 1)) (Z.min (ih im) (by_ + r + 1)) (Z.max 0 (bx - r)) (Z.min (iw im) (bx + r + 1)))
    as (f4 & E4 & F4); auto; try lia.
  rewrite E1; cbn [bind]. rewrite E2; cbn [bind]. rewrite E3; cbn [bind]. rewrite E4; cbn [bind].
  assert (FF : f1 || f2 || f3 || f4 = false <-> is_local_max im r bx by_ mi).
  { split.
    - intros Hf x' y' v' (Ix & Iy) G' P'. pose proof (get_inb _ _ _ _ G') as (Rx & Ry).
      apply orb_false_iff in Hf as (Hf & H4). apply orb_false_iff in Hf as (Hf & H3).
      apply orb_false_iff in Hf as (H1 & H2).
      assert (x <= x' < Z.min (iw im) (x + r + 1) /\ y <= y' < Z.min (ih im) (y + r + 1) \/
              y' < y \/ Z.min (ih im) (y + r + 1) <= y' \/
              (y <= y' < Z.min (ih im) (y + r + 1) /\ (x' < x \/ Z.min (iw im) (x + r + 1) <= x')))
        as [(? & ?)|[?|[?|(? & [?|?])]]] by lia.
      + apply (Best x' y' v'); auto.
      + assert (f1 = true) by (apply F1; exists x', y', v'; repeat split; auto; lia). congruence.
      + assert (f4 = true) by (apply F4; exists x', y', v'; repeat split; auto; lia). congruence.
      + assert (f2 = true) by (apply F2; exists x', y', v'; repeat split; auto; lia). congruence.
      + assert (f3 = true) by (apply F3; exists x', y', v'; repeat split; auto; lia). congruence.
    - intros L. apply not_true_iff_false. intros Hf.
      assert (K : forall cx cy ci, Z.max 0 (bx - r) <= cx < Z.min (iw im) (bx + r + 1) ->
        Z.max 0 (by_ - r) <= cy < Z.min (ih im) (by_ + r + 1) -> get im cx cy = Some ci ->
        ~ preferred ci cx cy mi bx by_) by (intros; apply L; auto; split; lia).
      apply orb_true_iff in Hf as [Hf|Hf]; [apply orb_true_iff in Hf as [Hf|Hf]; [apply orb_true_iff in Hf as [Hf|Hf]|]|].
      + apply F1 in Hf as (cx & cy & ci & ? & ? & ? & ?). apply (K cx cy ci); auto; lia.
      + apply F2 in Hf as (cx & cy & ci & ? & ? & ? & ?). apply (K cx cy ci); auto; lia.
      + apply F3 in Hf as (cx & cy & ci & ? & ? & ? & ?). apply (K cx cy ci); auto; lia.
      + apply F4 in Hf as (cx & cy & ci & ? & ? & ? & ?). apply (K cx cy ci); auto; lia. }
  assert (OTHER : forall a b v, x <= a < x + (r + 1) -> y <= b < y + (r + 1) -> get im a b = Some v ->
     (a <> bx \/ b <> by_) -> ~ is_local_max im r a b v).
  { intros a b v Ha Hb G N L. pose proof (get_inb _ _ _ _ G) as (Ra & Rb).
    apply (L bx by_ mi); auto; [split; lia|].
    destruct (preferred_total mi bx by_ v a b) as [|[P|(? & ? & ?)]]; [auto| |lia].
    exfalso. revert P. apply Best; auto; lia. }
  destruct (f1 || f2 || f3 || f4) eqn:EF.
  - exists out. split; [reflexivity|]. split; [auto|]. split; [auto|]. split; [auto|]. split; [auto|].
    intros a b v Ba Bb G G0. split; [|auto]. intros L. exfalso.
    destruct (Z.eq_dec a bx) as [->|]; [destruct (Z.eq_dec b by_) as [->|]|].
    + replace v with mi in L by congruence. apply FF in L. discriminate.
    + apply BLK in Ba, Bb. revert L. apply OTHER; auto.
    + apply BLK in Ba, Bb. revert L. apply OTHER; auto.
  - assert (LM : is_local_max im r bx by_ mi) by (apply FF; auto).
    rewrite put_pixel_ok by (rewrite ?Ew, ?Eh; lia).
    exists (put out bx by_ mi). split; [reflexivity|].
    split; [apply wf_put; auto|]. split; [rewrite iw_put; auto|]. split; [rewrite ih_put; auto|].
    split.
    + intros a b Hab. rewrite get_put by (auto; rewrite ?Ew, ?Eh; lia).
      destruct (Z.eqb_spec a bx) as [->|]; [destruct (Z.eqb_spec b by_) as [->|]|]; auto.
      exfalso. destruct Hab as [N|N]; apply N; apply BLK; lia.
    + intros a b v Ba Bb G G0. rewrite get_put by (auto; rewrite ?Ew, ?Eh; lia).
      destruct (Z.eqb_spec a bx) as [->|Na]; [destruct (Z.eqb_spec b by_) as [->|Nb]|]; cbn [andb].
      * replace v with mi by congruence. split; [auto|]. intros N. contradiction.
      * apply BLK in Ba, Bb. split; auto. intros L. exfalso. revert L. apply OTHER; auto.
      * apply BLK in Ba, Bb. split; auto. intros L. exfalso. revert L. apply OTHER; auto.
Qed.

Lemma steps_spec n s j : 0 < s -> 0 <= n -> (j < steps n s <-> j * s < n).
Proof.
  intros Hs Hn. unfold steps.
  pose proof (Z.div_mod (n + s - 1) s ltac:(lia)). pose proof (Z.mod_pos_bound (n + s - 1) s ltac:(lia)).
  split; intros; nia.
Qed.

Theorem suppress_ok im r : wf im -> 0 <= r -> iw im + r < 2 ^ 32 -> ih im + r < 2 ^ 32 ->
  exists out, suppress_non_maximum im r = Ok out /\ wf out /\ iw out = iw im /\ ih out = ih im /\
    forall x y v, get im x y = Some v ->
      (is_local_max im r x y v -> get out x y = Some v) /\
      (~ is_local_max im r x y v -> get out x y = Some 0).
Proof.
  intros W Hr Hw Hh. pose proof W as (W1 & W2 & _). unfold suppress_non_maximum.
  destruct ((iw im =? 0) || (ih im =? 0)) eqn:Z0.
  { exists (new_image (iw im) (ih im) 0). split; auto. split; [apply wf_gen; auto|].
    split; [reflexivity|]. split; [reflexivity|]. intros x y v G. apply get_inb in G.
    apply orb_true_iff in Z0. rewrite !Z.eqb_eq in Z0. lia. }
  assert (B0 : forall z k, 0 <= z -> blk (r + 1) z < k <-> z < k * (r + 1)).
  { intros z k Hz. unfold blk. pose proof (Z.div_mod z (r + 1) ltac:(lia)).
    pose proof (Z.mod_pos_bound z (r + 1) ltac:(lia)). split; intros; nia. }
  assert (Hs : forall n, 0 <= n -> 0 <= steps n (r + 1)).
  { intros n Hn. unfold steps. apply Z.div_pos; lia. }
  destruct (raster_ind (fun i j out => wf out /\ iw out = iw im /\ ih out = ih im /\
     forall x y v, get im x y = Some v ->
       ((blk (r + 1) y < j \/ (blk (r + 1) y = j /\ blk (r + 1) x < i)) ->
          (is_local_max im r x y v -> get out x y = Some v) /\
          (~ is_local_max im r x y v -> get out x y = Some 0)) /\
       (~ (blk (r + 1) y < j \/ (blk (r + 1) y = j /\ blk (r + 1) x < i)) -> get out x y = Some 0))
    0 (steps (ih im) (r + 1)) 0 (fun _ => steps (iw im) (r + 1)) (steps (iw im) (r + 1))
    (fun j i out => suppress_block im r (i * (r + 1)) (j * (r + 1)) out)
    (new_image (iw im) (ih im) 0)) as (out & E & H); auto.
  - split; [apply wf_gen; auto|]. split; [reflexivity|]. split; [reflexivity|].
    intros x y v G. apply get_inb in G as (? & ?). split.
    + intros B. exfalso. assert (0 <= blk (r + 1) x /\ 0 <= blk (r + 1) y); [|lia].
      unfold blk. split; apply Z.div_pos; lia.
    + intros _. unfold new_image. rewrite get_gen_in by lia. reflexivity.
  - intros i j out Hi Hj (Wo & Ew & Eh & H).
    destruct (suppress_block_ok im r i j out) as (o & E & W' & Ew' & Eh' & K1 & K2); auto; try lia.
    { apply steps_spec; lia. } { apply steps_spec; lia. }
    exists o. split; [exact E|]. split; [auto|]. split; [auto|]. split; [auto|].
    intros x y v G. destruct (H x y v G) as (H1 & H2).
    destruct (Z.eq_dec (blk (r + 1) x) i) as [Bx|Bx]; [destruct (Z.eq_dec (blk (r + 1) y) j) as [By|By]|].
    + split; [|lia]. intros _. apply K2; auto. apply H2. lia.
    + rewrite K1 by auto. split; intros; [apply H1; lia|apply H2; lia].
    + rewrite K1 by auto. split; intros; [apply H1; lia|apply H2; lia].
  - intros j out Hj (Wo & Ew & Eh & H). split; [auto|]. split; [auto|]. split; [auto|].
    intros x y v G. destruct (H x y v G) as (H1 & H2). pose proof (get_inb _ _ _ _ G) as (Rx & Ry).
    assert (blk (r + 1) x < steps (iw im) (r + 1)).
    { apply B0; [lia|]. pose proof (proj1 (steps_spec (iw im) (r + 1) (steps (iw im) (r + 1)) ltac:(lia) ltac:(lia))).
      destruct (Z_lt_dec x (steps (iw im) (r + 1) * (r + 1))); auto.
      assert (steps (iw im) (r + 1) < steps (iw im) (r + 1)); [|lia]. apply steps_spec; lia. }
    assert (0 <= blk (r + 1) x) by (unfold blk; apply Z.div_pos; lia).
    split; intros; [apply H1; lia|apply H2; lia].
  - exists out. split; [exact E|]. destruct H as (Wo & Ew & Eh & H). split; [auto|]. split; [auto|]. split; [auto|].
    intros x y v G. destruct (H x y v G) as (H1 & H2). apply H1. left.
    pose proof (get_inb _ _ _ _ G) as (Rx & Ry).
    apply B0; [lia|]. destruct (Z_lt_dec y (steps (ih im) (r + 1) * (r + 1))); auto.
    assert (steps (ih im) (r + 1) < steps (ih im) (r + 1)); [|lia]. apply steps_spec; lia.
Qed.
