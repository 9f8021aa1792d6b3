(** Proofs about binary descriptors. *)
From Verif Require Import Base BaseProofs IntegralModel IntegralSpec IntegralProofs SuppressProofs BriefModel BriefSpec.
Local Ltac Zify.zify_post_hook ::= idtac.

Lemma zlen_nil' {X} : zlen (@nil X) = 0.
Proof. reflexivity. Qed.
(** * Hamming distance *)
Lemma count_xor n x y : 0 <= n -> count_ones n (Z.lxor x y) = differing n (Z.testbit x) (Z.testbit y).
Proof.
  intros Hn. apply zsum_ext. intros j Hj. rewrite Z.lxor_spec.
  destruct (Z.testbit x j), (Z.testbit y j); reflexivity.
Qed.
Lemma differing_nonneg n f g : 0 <= differing n f g.
Proof. apply zsum_nonneg. intros i Hi. destruct (Bool.eqb _ _); lia. Qed.
Lemma differing_le n f g : 0 <= n -> differing n f g <= n.
Proof.
  intros Hn. unfold differing. replace n with ((n - 0) * 1) at 2 by lia. rewrite <- zsum_const by lia.
  apply zsum_le. intros i Hi. destruct (Bool.eqb _ _); lia.
Qed.
Lemma differing_sym n f g : differing n f g = differing n g f.
Proof. apply zsum_ext. intros i Hi. destruct (f i), (g i); reflexivity. Qed.
Lemma differing_tri n f g h : differing n f h <= differing n f g + differing n g h.
Proof.
  unfold differing. rewrite <- zsum_plus. apply zsum_le. intros i Hi.
  destruct (f i), (g i), (h i); cbn; lia.
Qed.
Lemma zsum_zero lo hi f : (forall i, lo <= i < hi -> 0 <= f i) -> zsum lo hi f = 0 ->
  forall i, lo <= i < hi -> f i = 0.
Proof.
  intros H E i Hi. rewrite (zsum_split lo i hi), (zsum_cons i hi) in E by lia.
  assert (0 <= zsum lo i f) by (apply zsum_nonneg; intros; apply H; lia).
  assert (0 <= zsum (i + 1) hi f) by (apply zsum_nonneg; intros; apply H; lia).
  specialize (H i Hi). lia.
Qed.
Lemma differing_0 n f g : differing n f g = 0 <-> forall i, 0 <= i < n -> f i = g i.
Proof.
  split.
  - intros E i Hi. assert (A : (if Bool.eqb (f i) (g i) then 0 else 1) = 0).
    { apply (zsum_zero 0 n (fun i => if Bool.eqb (f i) (g i) then 0 else 1)); auto.
      intros j Hj. destruct (Bool.eqb _ _); lia. }
    destruct (f i), (g i); cbn in A; congruence || discriminate.
  - intros E. unfold differing. rewrite (zsum_ext 0 n _ (fun _ => 0)).
    + destruct (Z.le_gt_cases 0 n); [rewrite zsum_const by lia; lia|apply zsum_empty; lia].
    + intros i Hi. rewrite (E i Hi), Bool.eqb_reflx. reflexivity.
Qed.
Lemma differing_ext n f g f' g' : (forall i, 0 <= i < n -> f i = f' i /\ g i = g' i) ->
  differing n f g = differing n f' g'.
Proof. intros H. apply zsum_ext. intros i Hi. destruct (H i Hi) as [-> ->]. reflexivity. Qed.

Definition lbit (l : list Z) (i : Z) : bool :=
  match znth l (i / 128) with Some w => Z.testbit w (i mod 128) | None => false end.
Lemma lbit_first w l i : 0 <= i < 128 -> lbit (w :: l) i = Z.testbit w i.
Proof.
  intros H. unfold lbit. rewrite Z.div_small, Z.mod_small by auto. reflexivity.
Qed.
Lemma lbit_next w l i : 0 <= i -> lbit (w :: l) (i + 128) = lbit l i.
Proof.
  intros H. unfold lbit. replace (i + 128) with (i + 1 * 128) by lia.
  rewrite Z.div_add, Z.mod_add by lia. assert (0 <= i / 128) by (apply Z.div_pos; lia).
  rewrite znth_cons_S by lia. replace (i / 128 + 1 - 1) with (i / 128) by lia. reflexivity.
Qed.

Definition lham (l1 l2 : list Z) : Z := differing (128 * zlen l1) (lbit l1) (lbit l2).
Lemma lham_cons x y l1 l2 : lham (x :: l1) (y :: l2) = count_ones 128 (Z.lxor x y) + lham l1 l2.
Proof.
  unfold lham. rewrite zlen_cons, count_xor by lia. pose proof (zlen_nonneg l1).
  unfold differing. rewrite (zsum_split 0 128 (128 * (1 + zlen l1))) by lia. apply f_equal2.
  - apply zsum_ext. intros i Hi. rewrite !lbit_first by auto. reflexivity.
  - set (F := fun i => if Bool.eqb (lbit (x :: l1) i) (lbit (y :: l2) i) then 0 else 1).
    transitivity (zsum 0 (128 * zlen l1) (fun i => F (i + 128))).
    + rewrite zsum_shift. f_equal; lia.
    + apply zsum_ext. intros i Hi. unfold F. rewrite !lbit_next by lia. reflexivity.
Qed.
Lemma hamming_fold l1 : forall l2 acc, zlen l1 = zlen l2 -> 0 <= acc -> acc + 128 * zlen l1 < 2 ^ 32 ->
  for_each (combine l1 l2) (fun '(x, y) acc => chk_u 32 (acc + count_ones 128 (Z.lxor x y))) acc = Ok (acc + lham l1 l2).
Proof.
  induction l1 as [|x l1 IH]; intros l2 acc E Ha Hb.
  - destruct l2; [|rewrite zlen_cons in E; pose proof (zlen_nonneg l2); rewrite ?zlen_nil' in E; lia].
    cbn [combine for_each]. f_equal. unfold lham, differing. rewrite zsum_empty; [lia|reflexivity].
  - destruct l2 as [|y l2]; [rewrite zlen_cons in E; pose proof (zlen_nonneg l1); rewrite ?zlen_nil' in E; lia|].
    rewrite !zlen_cons in *. cbn [combine for_each]. rewrite lham_cons.
    assert (0 <= count_ones 128 (Z.lxor x y) <= 128).
    { rewrite count_xor by lia. split; [apply differing_nonneg|apply differing_le; lia]. }
    pose proof (zlen_nonneg l1).
    rewrite chk_u_ok by lia. cbn [bind]. rewrite IH by lia. f_equal. lia.
Qed.
Lemma hamming_ok a b : zlen (dbits a) = zlen (dbits b) -> nbits a < 2 ^ 32 ->
  hamming_distance a b = Ok (differing (nbits a) (bit_of a) (bit_of b)).
Proof.
  intros E H. unfold hamming_distance, get_size. rewrite E, Z.eqb_refl. cbn [assert bind].
  rewrite hamming_fold by (unfold nbits in H; lia). reflexivity.
Qed.

(** words are determined by their bits *)
Lemma word_ext n x y : 0 <= n -> 0 <= x < 2 ^ n -> 0 <= y < 2 ^ n ->
  (forall i, 0 <= i < n -> Z.testbit x i = Z.testbit y i) -> x = y.
Proof.
  intros Hn Hx Hy H. apply Z.bits_inj'. intros i Hi.
  destruct (Z.lt_ge_cases i n); [apply H; lia|].
  assert (G : forall z, 0 <= z < 2 ^ n -> Z.testbit z i = false).
  { intros z Hz. destruct (Z.eq_dec z 0) as [->|]; [apply Z.bits_0|].
    apply Z.bits_above_log2; [lia|]. apply Z.log2_lt_pow2; [lia|].
    apply Z.lt_le_trans with (2 ^ n); [lia|]. apply Z.pow_le_mono_r; lia. }
  rewrite !G by auto. reflexivity.
Qed.
Lemma lbit_ext l1 : forall l2, zlen l1 = zlen l2 ->
  (forall w, In w l1 -> 0 <= w < 2 ^ 128) -> (forall w, In w l2 -> 0 <= w < 2 ^ 128) ->
  (forall i, 0 <= i < 128 * zlen l1 -> lbit l1 i = lbit l2 i) -> l1 = l2.
Proof.
  induction l1 as [|x l1 IH]; intros [|y l2] E H1 H2 H; auto;
    try (rewrite zlen_cons in E; first [pose proof (zlen_nonneg l1)|pose proof (zlen_nonneg l2)]; rewrite ?zlen_nil' in E; lia).
  rewrite !zlen_cons in *. pose proof (zlen_nonneg l1). f_equal.
  - apply (word_ext 128); [lia|apply H1; left; auto|apply H2; left; auto|].
    intros i Hi. specialize (H i ltac:(lia)). rewrite !lbit_first in H by auto. exact H.
  - apply IH; [lia|intros; apply H1; right; auto|intros; apply H2; right; auto|].
    intros i Hi. specialize (H (i + 128) ltac:(lia)). rewrite !lbit_next in H by lia. exact H.
Qed.

(** * Bits64 *)
Lemma bits64_fold bs : forall v n, 0 <= n -> n + zlen bs <= 64 -> 0 <= v < 2 ^ n ->
  exists v', for_each bs (fun bit '(bits, n) =>
      bits <- (if (bit : bool) then set_bit_at bits n else unset_bit_at bits n) ;; Ok (bits, n + 1)) (v, n)
    = Ok (v', n + zlen bs) /\ 0 <= v' < 2 ^ (n + zlen bs) /\
    (forall i, 0 <= i < n -> Z.testbit v' i = Z.testbit v i) /\
    (forall i b, znth bs i = Some b -> Z.testbit v' (n + i) = b).
Proof.
  induction bs as [|b bs IH]; intros v n Hn Hl Hv.
  - exists v. cbn. rewrite Z.add_0_r. splits; auto; [lia|lia|].
    intros i b E. destruct (znth_range _ _ _ E) as [A B]. rewrite zlen_nil' in B. lia.
  - rewrite zlen_cons in *. pose proof (zlen_nonneg bs).
    assert (Hs : forall i, 0 <= i -> Z.testbit (Z.shiftl 1 n) i = (i =? n)).
    { intros i Hi. rewrite Z.shiftl_1_l, Z.pow2_bits_eqb by lia. apply Z.eqb_sym. }
    assert (Hhi : forall i, n <= i -> Z.testbit v i = false).
    { intros i Hi. destruct (Z.eq_dec v 0) as [->|]; [apply Z.bits_0|].
      apply Z.bits_above_log2; [lia|]. apply Z.log2_lt_pow2; [lia|].
      apply Z.lt_le_trans with (2 ^ n); [lia|]. apply Z.pow_le_mono_r; lia. }
    set (v1 := if b then Z.lor v (Z.shiftl 1 n) else Z.land v (Z.lxor (2 ^ 64 - 1) (Z.shiftl 1 n))).
    assert (E1 : (if b then set_bit_at v n else unset_bit_at v n) = Ok v1).
    { unfold v1, set_bit_at, unset_bit_at. rewrite (proj2 (Z.ltb_lt n 64)) by lia. destruct b; reflexivity. }
    assert (B1 : forall i, 0 <= i -> Z.testbit v1 i = if i =? n then b else Z.testbit v i).
    { intros i Hi. unfold v1. destruct b.
      - rewrite Z.lor_spec, Hs by auto. destruct (i =? n) eqn:Ei; [apply Bool.orb_true_r|apply Bool.orb_false_r].
      - rewrite Z.land_spec, Z.lxor_spec, Hs by auto. change (2 ^ 64 - 1) with (Z.ones 64).
        destruct (Z.lt_ge_cases i n) as [L|L].
        + rewrite Z.ones_spec_low by lia. destruct (Z.eqb_spec i n); [lia|]. cbn. apply Bool.andb_true_r.
        + rewrite Hhi by lia. destruct (i =? n); reflexivity. }
    assert (R1 : 0 <= v1 < 2 ^ (n + 1)).
    { assert (N1 : 0 <= v1).
      { unfold v1. destruct b; [apply Z.lor_nonneg; split; [lia|apply Z.shiftl_nonneg; lia]|].
        apply Z.land_nonneg. left; lia. }
      split; auto. destruct (Z.eq_dec v1 0) as [->|]; [apply Z.pow_pos_nonneg; lia|].
      apply Z.log2_lt_pow2; [lia|]. destruct (Z.lt_ge_cases (Z.log2 v1) (n + 1)) as [L|L]; auto.
      assert (T : Z.testbit v1 (Z.log2 v1) = true) by (apply Z.bit_log2; lia).
      rewrite B1 in T by lia. destruct (Z.eqb_spec (Z.log2 v1) n); [lia|]. rewrite Hhi in T by lia. discriminate. }
    destruct (IH v1 (n + 1)) as (v' & E & R & L & N); [lia|lia|auto|].
    exists v'. cbn [for_each]. rewrite E1. cbn [bind]. rewrite E. splits.
    + f_equal. f_equal. lia.
    + lia.
    + replace (n + (1 + zlen bs)) with (n + 1 + zlen bs) by lia. lia.
    + intros i Hi. rewrite L by lia. rewrite B1 by lia. destruct (Z.eqb_spec i n); [lia|reflexivity].
    + intros i c Hc. destruct (Z.eq_dec i 0) as [->|Hi].
      * rewrite znth_cons_0 in Hc. injection Hc as <-. rewrite Z.add_0_r, L, B1, Z.eqb_refl by lia. reflexivity.
      * pose proof (znth_range _ _ _ Hc) as [? ?]. rewrite znth_cons_S in Hc by lia. apply N in Hc.
        replace (n + i) with (n + 1 + (i - 1)) by lia. exact Hc.
Qed.
Lemma bits64_new_ok bs : zlen bs = 64 ->
  exists v, bits64_new bs = Ok v /\ 0 <= v < 2 ^ 64 /\ (forall i b, znth bs i = Some b -> Z.testbit v i = b).
Proof.
  intros H. destruct (bits64_fold bs 0 0) as (v & E & R & _ & N); [lia|lia|lia|].
  exists v. unfold bits64_new. rewrite E. cbn [bind]. rewrite H in *. cbn [Z.add Z.eqb Pos.eqb assert bind].
  split; [reflexivity|split; [exact R|]]. intros i b Hb. apply N in Hb. exact Hb.
Qed.
Lemma bit_at_ok v n : 0 <= n < 64 -> bit_at v n = Ok (Z.testbit v n).
Proof.
  intros H. unfold bit_at. rewrite (proj2 (Z.ltb_lt n 64)) by lia. cbn [assert bind]. f_equal.
  rewrite Z.shiftl_1_l. destruct (Z.testbit v n) eqn:T.
  - destruct (Z.eqb_spec (Z.land v (2 ^ n)) 0) as [E|]; [|reflexivity].
    assert (A : Z.testbit (Z.land v (2 ^ n)) n = true) by (rewrite Z.land_spec, T, Z.pow2_bits_true by lia; reflexivity).
    rewrite E, Z.bits_0 in A. discriminate.
  - rewrite (proj2 (Z.eqb_eq (Z.land v (2 ^ n)) 0)); [reflexivity|].
    apply Z.bits_inj'. intros i Hi. rewrite Z.land_spec, Z.bits_0, Z.pow2_bits_eqb by lia.
    destruct (Z.eqb_spec n i) as [<-|]; [rewrite T; reflexivity|apply Bool.andb_false_r].
Qed.
