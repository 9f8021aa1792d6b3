(** Proofs about otsu_level. *)
From Flocq Require Import Core BinarySingleNaN.
From Coq Require Import Reals Lra Psatz.
From Verif Require Import Base BaseProofs RasterProofs Float FloatProofs FloatErr StatsSpec StatsModel StatsProofs Props_Stats
  ContrastProofs ApproxProofs SuppressProofs FContrastModel FContrastSpec FContrastProofs.
Local Ltac Zify.zify_post_hook ::= idtac.

(** ** counts and sums *)
Local Open Scope Z_scope.
Lemma count_split (im : image Z) t : wf im -> count_le im t + count_gt im t = iw im * ih im.
Proof.
  intros (_ & _ & L). rewrite <- L. clear L. unfold count_le, count_gt. induction (idata im) as [|p l IH]; [reflexivity|].
  cbn [filter]. destruct (Z.leb_spec p t); destruct (Z.ltb_spec t p); rewrite ?zlen_cons; lia.
Qed.
Lemma sum_split (im : image Z) t : sum_le im t + sum_gt im t = lsum (idata im).
Proof.
  unfold sum_le, sum_gt. induction (idata im) as [|p l IH]; [reflexivity|].
  cbn [filter lsum fold_right]. fold (lsum l).
  destruct (Z.leb_spec p t); destruct (Z.ltb_spec t p); try lia; cbn [lsum fold_right]; fold (lsum (filter (fun p => p <=? t) l)); fold (lsum (filter (fun p => t <? p) l)); lia.
Qed.
Lemma count_step (im : image Z) t : count_le im t = count_le im (t - 1) + count_at im t.
Proof.
  unfold count_le, count_at. induction (idata im) as [|p l IH]; [reflexivity|].
  cbn [filter]. destruct (Z.leb_spec p t); destruct (Z.leb_spec p (t - 1)); destruct (Z.eqb_spec p t); rewrite ?zlen_cons; lia.
Qed.
Lemma sum_step (im : image Z) t : sum_le im t = sum_le im (t - 1) + t * count_at im t.
Proof.
  unfold sum_le, count_at. induction (idata im) as [|p l IH]; [cbn; lia|].
  cbn [filter]. destruct (Z.leb_spec p t); destruct (Z.leb_spec p (t - 1)); destruct (Z.eqb_spec p t); try lia;
    rewrite ?zlen_cons; cbn [lsum fold_right]; fold (lsum (filter (fun p => p <=? t) l)); fold (lsum (filter (fun p => p <=? t - 1) l)); lia.
Qed.
Lemma sum_le_bounds (im : image Z) t : gray8 im -> 0 <= sum_le im t <= t * count_le im t.
Proof.
  intros (W & P). unfold sum_le, count_le.
  assert (K : forall p, In p (idata im) -> 0 <= p).
  { intros p Hp. apply (In_get im) in Hp; [|assumption]. destruct Hp as (x & y & G). apply P in G. unfold is_u8 in G. lia. }
  revert K. induction (idata im) as [|p l IH]; intros K; [cbn; lia|].
  pose proof (K p (or_introl eq_refl)). assert (IH' := IH (fun q Hq => K q (or_intror Hq))).
  cbn [filter]. destruct (Z.leb_spec p t); [|exact IH'].
  rewrite zlen_cons. cbn [lsum fold_right]. fold (lsum (filter (fun p => p <=? t) l)). lia.
Qed.
Lemma sum_gt_bounds (im : image Z) t : gray8 im -> (t + 1) * count_gt im t <= sum_gt im t <= 255 * count_gt im t.
Proof.
  intros (W & P). unfold sum_gt, count_gt.
  assert (K : forall p, In p (idata im) -> p <= 255).
  { intros p Hp. apply (In_get im) in Hp; [|assumption]. destruct Hp as (x & y & G). apply P in G. unfold is_u8 in G. lia. }
  revert K. induction (idata im) as [|p l IH]; intros K; [cbn; lia|].
  pose proof (K p (or_introl eq_refl)). assert (IH' := IH (fun q Hq => K q (or_intror Hq))).
  cbn [filter]. destruct (Z.ltb_spec t p); [|exact IH'].
  rewrite zlen_cons. cbn [lsum fold_right]. fold (lsum (filter (fun p => t <? p) l)). lia.
Qed.
Lemma count_at_nonneg (im : image Z) t : 0 <= count_at im t.
Proof. apply zlen_nonneg. Qed.
Lemma count_le_neg (im : image Z) t : gray8 im -> t < 0 -> count_le im t = 0.
Proof.
  intros (W & P) Ht. pose proof (count_le_nonneg im t). destruct (Z.eqb_spec (count_le im t) 0); [assumption|].
  unfold count_le in *. destruct (filter (fun p => p <=? t) (idata im)) as [|p l] eqn:E; [reflexivity|].
  assert (In p (filter (fun p => p <=? t) (idata im))) as I by (rewrite E; left; reflexivity).
  apply filter_In in I. destruct I as (I & Lp). apply (In_get im) in I; [|assumption]. destruct I as (x & y & G). apply P in G.
  unfold is_u8 in G. lia.
Qed.
Lemma sum_le_neg (im : image Z) t : gray8 im -> t < 0 -> sum_le im t = 0.
Proof. intros G Ht. pose proof (sum_le_bounds im t G). rewrite (count_le_neg im t G Ht) in H. lia. Qed.
Lemma hist_gray (im : image Z) : gray8 im -> iw im * ih im < 2 ^ 32 -> histogram 1 (luma im) = Ok [map (count_at im) (zrange 0 256)].
Proof.
  intros G H. rewrite histogram_ok by (apply channels_img_ok; [lia|apply luma_channels; assumption|exact H]).
  unfold mapz. change (zrange 0 1) with [0%Z]. cbn [map]. apply f_equal. apply (f_equal (fun l => [l])). apply map_ext. intros v.
  unfold count_px, count_at. cbn [idata luma]. induction (idata im) as [|p l IH]; [reflexivity|].
  cbn [map filter]. unfold has_level at 1. rewrite znth_cons_0. destruct (p =? v)%Z; [rewrite !zlen_cons|]; rewrite IH; reflexivity.
Qed.
Lemma combine_map_self {B} (f : Z -> B) l : combine l (map f l) = map (fun t => (t, f t)) l.
Proof. induction l as [|t l IH]; [reflexivity|]. cbn [map combine]. rewrite IH. reflexivity. Qed.

(** ** rounding *)
Local Open Scope R_scope.
Local Notation rn := (rnd 53 1024).
Definition u53 : R := / 9007199254740992.
Lemma u53_pos : 0 < u53.
Proof. unfold u53. lra. Qed.
Lemma f64_err r : Rabs (rn r - r) <= u53 * Rabs r + u53 * u53.
Proof.
  eapply Rle_trans; [apply rnd_err; reflexivity|].
  unfold uu, eta, u53. apply Rplus_le_compat.
  - change (bpow radix2 (- (53))) with (/ 9007199254740992). lra.
  - apply Rle_trans with (bpow radix2 (-106)).
    + apply bpow_le. lia.
    + change (bpow radix2 (-106)) with (/ IZR (2 ^ 106)). change (2 ^ 106)%Z with (9007199254740992 * 9007199254740992)%Z.
      rewrite mult_IZR, Rinv_mult. lra.
Qed.
Lemma f64_rel r : u53 <= Rabs r -> Rabs (rn r - r) <= 2 * u53 * Rabs r.
Proof. intros H. pose proof (f64_err r). pose proof u53_pos. assert (u53 * u53 <= u53 * Rabs r) by (apply Rmult_le_compat_l; lra). lra. Qed.

(** variance as computed, from exact class sizes and sums *)
Definition vr (nb nf sb sf : R) : R :=
  let d := rn (rn (sb / nb) - rn (sf / nf)) in rn (rn (nb * nf) * rn (d * d)).
Definition vx (nb nf sb sf : R) : R := nb * nf * (sb / nb - sf / nf) ^ 2.

Section Err.
  Context (mb mf : R) (Hmb : 0 <= mb <= 255) (Hmf : 0 <= mf <= 255) (Hd : 1 <= mf - mb).
  Lemma diff_err : Rabs (rn (rn mb - rn mf) + (mf - mb)) <= 800 * u53 * (mf - mb).
  Proof.
    pose proof (f64_err mb) as E1. pose proof (f64_err mf) as E2. pose proof (f64_err (rn mb - rn mf)) as E3.
    rewrite (Rabs_pos_eq mb) in E1 by lra. rewrite (Rabs_pos_eq mf) in E2 by lra.
    set (a := rn mb) in *. set (b := rn mf) in *. set (d := rn (a - b)) in *. clearbody a b d.
    assert (U : 0 < u53 <= / 1000000) by (unfold u53; lra).
    assert (UU : u53 * u53 <= u53) by nra. assert (M1 : u53 * mb <= 255 * u53) by nra. assert (M2 : u53 * mf <= 255 * u53) by nra.
    assert (A1 : Rabs (a - mb) <= 256 * u53) by lra. assert (A2 : Rabs (b - mf) <= 256 * u53) by lra.
    assert (A3 : Rabs (a - b) <= 256).
    { apply Rabs_le. apply Rabs_le_inv in A1. apply Rabs_le_inv in A2. lra. }
    assert (M3 : u53 * Rabs (a - b) <= 256 * u53) by nra.
    assert (A4 : Rabs (d - (a - b)) <= 257 * u53) by lra.
    apply Rle_trans with (800 * u53); [|nra].
    apply Rabs_le. apply Rabs_le_inv in A1, A2, A4. lra.
  Qed.
End Err.

Lemma sq_err D d e : 0 < D -> 0 <= e <= / 1000 -> Rabs (d + D) <= e * D -> Rabs (d * d - D * D) <= (2 + / 1000) * e * (D * D).
Proof.
  intros HD He H. replace (d * d - D * D) with ((d + D) * (d - D)) by ring. rewrite Rabs_mult.
  assert (Rabs (d - D) <= (2 + / 1000) * D).
  { apply Rabs_le_inv in H. apply Rabs_le. assert (e * D <= / 1000 * D) by (apply Rmult_le_compat_r; lra). lra. }
  replace ((2 + / 1000) * e * (D * D)) with ((e * D) * ((2 + / 1000) * D)) by ring.
  apply Rmult_le_compat; try apply Rabs_pos; assumption.
Qed.

Lemma rel_round x X e : 1 <= X -> 0 <= e <= / 1000 -> Rabs (x - X) <= e * X -> Rabs (rn x - X) <= (e + 3 * u53) * X.
Proof.
  intros HX He H. assert (U : 0 < u53 <= / 1000000) by (unfold u53; lra).
  assert (K : e * X <= / 1000 * X) by (apply Rmult_le_compat_r; lra).
  assert (B : (1 - / 1000) * X <= x <= (1 + / 1000) * X) by (apply Rabs_le_inv in H; lra).
  assert (Ex : Rabs (rn x - x) <= 2 * u53 * Rabs x).
  { apply f64_rel. rewrite Rabs_pos_eq; lra. }
  rewrite (Rabs_pos_eq x) in Ex by lra.
  assert (2 * u53 * x <= 3 * u53 * X) by nra.
  replace (rn x - X) with ((rn x - x) + (x - X)) by ring. eapply Rle_trans; [apply Rabs_triang|]. lra.
Qed.

Lemma prod_err w W q Q e f : 0 < W -> 0 < Q -> 0 <= e <= / 1000 -> 0 <= f -> Rabs (w - W) <= e * W -> Rabs (q - Q) <= f * Q ->
  Rabs (w * q - W * Q) <= (e + (1 + / 1000) * f) * (W * Q).
Proof.
  intros HW HQ He Hf H1 H2. replace (w * q - W * Q) with (w * (q - Q) + (w - W) * Q) by ring.
  eapply Rle_trans; [apply Rabs_triang|]. rewrite !Rabs_mult. rewrite (Rabs_pos_eq Q) by lra.
  assert (A : Rabs w <= (1 + / 1000) * W).
  { assert (e * W <= / 1000 * W) by (apply Rmult_le_compat_r; lra). apply Rabs_le_inv in H1. apply Rabs_le. lra. }
  assert (B : Rabs w * Rabs (q - Q) <= (1 + / 1000) * W * (f * Q)).
  { apply Rmult_le_compat; try apply Rabs_pos; assumption. }
  assert (C : Rabs (w - W) * Q <= e * W * Q) by (apply Rmult_le_compat_r; lra). lra.
Qed.

Lemma vr_err nb nf sb sf : 1 <= nb -> 1 <= nf -> 0 <= sb / nb <= 255 -> 0 <= sf / nf <= 255 -> 1 <= sf / nf - sb / nb ->
  Rabs (vr nb nf sb sf - vx nb nf sb sf) <= 1700 * u53 * vx nb nf sb sf /\ 1 <= vx nb nf sb sf.
Proof.
  intros Hb Hf Mb Mf Hd. unfold vr, vx. cbv zeta. set (mb := sb / nb) in *. set (mf := sf / nf) in *. clearbody mb mf.
  pose proof (diff_err mb mf Mb Mf Hd) as E1. set (d := rn (rn mb - rn mf)) in *. clearbody d.
  assert (U : 0 < u53 <= / 9007199254740992) by (unfold u53; lra).
  assert (W1 : 1 <= nb * nf) by nra. set (W := nb * nf) in *.
  replace ((mb - mf) ^ 2) with ((mf - mb) * (mf - mb)) by ring. set (D := mf - mb) in *. clearbody D W.
  apply sq_err in E1; [|lra|unfold u53; lra].
  assert (D1 : 1 <= D * D) by nra. set (Q := D * D) in *. clearbody Q.
  apply rel_round in E1; [|assumption|lra].
  assert (E2 : Rabs (rn W - W) <= (0 + 3 * u53) * W).
  { apply rel_round; [assumption|lra|]. rewrite Rminus_diag_eq by reflexivity. rewrite Rabs_R0. lra. }
  assert (P : 1 <= W * Q) by nra. split; [|exact P].
  assert (E3 : Rabs (rn W * rn (d * d) - W * Q) <= (0 + 3 * u53 + (1 + / 1000) * ((2 + / 1000) * (800 * u53) + 3 * u53)) * (W * Q)).
  { apply prod_err; lra || assumption. }
  apply rel_round in E3; [|assumption|split; lra].
  eapply Rle_trans; [exact E3|]. apply Rmult_le_compat_r; [lra|]. lra.
Qed.

Lemma f64_big : 1000000000000000000000000000000000000000000000000000000000000 <= bpow radix2 (1024 - 1).
Proof.
  apply Rle_trans with (bpow radix2 256); [|apply bpow_le; lia].
  change (bpow radix2 256) with (IZR (2 ^ 256)). apply IZR_le. lia.
Qed.
Definition holds (k : Z) (x : f64) : Prop := is_finite x = true /\ B2R x = IZR k.
Lemma holds_int k : (0 <= k <= 2 ^ 53)%Z -> holds k (of_int k).
Proof.
  intros H. destruct (of_int_R 53 1024 k) as (F & R).
  - rewrite Rabs_pos_eq by (apply IZR_le; lia). pose proof f64_big. assert (IZR k <= IZR (2 ^ 53)) by (apply IZR_le; lia).
    change (IZR (2 ^ 53)) with 9007199254740992 in *. lra.
  - split; [exact F|]. rewrite R. apply (rnd_int 53 1024). lia.
Qed.
Lemma holds_add a b x y : holds a x -> holds b y -> (0 <= a)%Z -> (0 <= b)%Z -> (a + b <= 2 ^ 53)%Z -> holds (a + b) (fadd x y).
Proof.
  intros (Fx & Rx) (Fy & Ry) Ha Hb H.
  destruct (fadd_R 53 1024 x y Fx Fy) as (F & R).
  - rewrite Rx, Ry, <- plus_IZR. rewrite Rabs_pos_eq by (apply IZR_le; lia). pose proof f64_big. assert (IZR (a + b) <= IZR (2 ^ 53)) by (apply IZR_le; lia).
    change (IZR (2 ^ 53)) with 9007199254740992 in *. lra.
  - split; [exact F|]. rewrite R, Rx, Ry, <- plus_IZR. apply (rnd_int 53 1024). lia.
Qed.
Lemma holds_sub a b x y : holds a x -> holds b y -> (0 <= b <= a)%Z -> (a <= 2 ^ 53)%Z -> holds (a - b) (fsub x y).
Proof.
  intros (Fx & Rx) (Fy & Ry) Ha H.
  destruct (fsub_R 53 1024 x y Fx Fy) as (F & R).
  - rewrite Rx, Ry, <- minus_IZR. rewrite Rabs_pos_eq by (apply IZR_le; lia). pose proof f64_big. assert (IZR (a - b) <= IZR (2 ^ 53)) by (apply IZR_le; lia).
    change (IZR (2 ^ 53)) with 9007199254740992 in *. lra.
  - split; [exact F|]. rewrite R, Rx, Ry, <- minus_IZR. apply (rnd_int 53 1024). lia.
Qed.

Lemma Rdiv_le_aux a b c : 0 < b -> a <= c * b -> a / b <= c.
Proof. intros Hb H. apply (Rmult_le_reg_r b); [assumption|]. unfold Rdiv. rewrite Rmult_assoc, Rinv_l by lra. lra. Qed.

(** the variance expression of the program *)
Lemma rn_bound x B : Rabs x <= B -> 1 <= B -> Rabs (rn x) <= 2 * B.
Proof.
  intros H HB. pose proof (f64_err x) as E. assert (U : 0 < u53 <= / 1000000) by (unfold u53; lra).
  assert (u53 * Rabs x <= / 1000000 * B) by (apply Rmult_le_compat; lra || apply Rabs_pos).
  assert (u53 * u53 <= / 1000000) by nra.
  replace (rn x) with ((rn x - x) + x) by ring. eapply Rle_trans; [apply Rabs_triang|]. lra.
Qed.
Lemma var_ok nb nf sb sf (bs fs : f64) : (1 <= nb < 2 ^ 32)%Z -> (1 <= nf < 2 ^ 32)%Z -> (0 <= sb <= 255 * nb)%Z -> (0 <= sf <= 255 * nf)%Z ->
  holds sb bs -> holds sf fs ->
  let diff := fsub (fdiv bs (of_int nb)) (fdiv fs (of_int nf)) in
  let v := fmul (fmul (of_int nb) (of_int nf)) (fmul diff diff) in
  is_finite v = true /\ B2R v = vr (IZR nb) (IZR nf) (IZR sb) (IZR sf).
Proof.
  intros Hb Hf Sb Sf (Fb & Rb) (Ff & Rf). cbv zeta.
  destruct (holds_int nb) as (Fnb & Rnb); [lia|]. destruct (holds_int nf) as (Fnf & Rnf); [lia|].
  assert (B1 : 1 <= IZR nb <= 4294967296) by (split; apply IZR_le; lia).
  assert (B2 : 1 <= IZR nf <= 4294967296) by (split; apply IZR_le; lia).
  assert (Q1 : Rabs (IZR sb / IZR nb) <= 255).
  { rewrite Rabs_pos_eq. - apply Rdiv_le_aux; [lra|]. rewrite <- mult_IZR. apply IZR_le; lia.
    - apply Rmult_le_pos; [apply IZR_le; lia|]. apply Rlt_le, Rinv_0_lt_compat; lra. }
  assert (Q2 : Rabs (IZR sf / IZR nf) <= 255).
  { rewrite Rabs_pos_eq. - apply Rdiv_le_aux; [lra|]. rewrite <- mult_IZR. apply IZR_le; lia.
    - apply Rmult_le_pos; [apply IZR_le; lia|]. apply Rlt_le, Rinv_0_lt_compat; lra. }
  pose proof f64_big as BIG.
  destruct (fdiv_R 53 1024 bs (of_int nb) Fb) as (F1 & R1); [rewrite Rnb; lra|rewrite Rb, Rnb; lra|]. rewrite Rb, Rnb in R1.
  destruct (fdiv_R 53 1024 fs (of_int nf) Ff) as (F2 & R2); [rewrite Rnf; lra|rewrite Rf, Rnf; lra|]. rewrite Rf, Rnf in R2.
  assert (M1 := rn_bound _ _ Q1 ltac:(lra)). assert (M2 := rn_bound _ _ Q2 ltac:(lra)). rewrite <- R1 in M1. rewrite <- R2 in M2.
  set (a := fdiv bs (of_int nb)) in *. set (b := fdiv fs (of_int nf)) in *. clearbody a b.
  assert (M3 : Rabs (B2R a - B2R b) <= 1020).
  { apply Rabs_le. apply Rabs_le_inv in M1, M2. lra. }
  destruct (fsub_R 53 1024 a b F1 F2) as (F3 & R3); [lra|].
  assert (M4 := rn_bound _ _ M3 ltac:(lra)). rewrite <- R3 in M4. set (d := fsub a b) in *. clearbody d.
  assert (M5 : Rabs (B2R d * B2R d) <= 5000000).
  { rewrite Rabs_mult. apply Rle_trans with (2040 * 2040); [|lra]. apply Rmult_le_compat; try apply Rabs_pos; lra. }
  destruct (fmul_R 53 1024 d d F3 F3) as (F4 & R4); [lra|].
  assert (M6 := rn_bound _ _ M5 ltac:(lra)). rewrite <- R4 in M6. set (q := fmul d d) in *. clearbody q.
  assert (M7 : Rabs (IZR nb * IZR nf) <= 4294967296 * 4294967296).
  { rewrite Rabs_mult. rewrite !Rabs_pos_eq by lra. apply Rmult_le_compat; lra. }
  destruct (fmul_R 53 1024 (of_int nb) (of_int nf) Fnb Fnf) as (F5 & R5); [rewrite Rnb, Rnf; lra|]. rewrite Rnb, Rnf in R5.
  assert (M8 := rn_bound _ _ M7 ltac:(lra)). rewrite <- R5 in M8. set (w := fmul (of_int nb) (of_int nf)) in *. clearbody w.
  destruct (fmul_R 53 1024 w q F5 F4) as (F6 & R6).
  { rewrite Rabs_mult. apply Rle_trans with ((2 * (4294967296 * 4294967296)) * (2 * 5000000)); [|lra].
    apply Rmult_le_compat; try apply Rabs_pos; assumption. }
  split; [exact F6|]. rewrite R6, R5, R4, R3, R2, R1. reflexivity.
Qed.

(** ** the loop *)
Section Otsu.
  Context (im : image Z) (G : gray8 im) (Hn : (iw im * ih im < 2 ^ 32)%Z)
          (Hc : forall t, (0 <= t < 256)%Z -> (t * count_at im t < 2 ^ 32)%Z).
  Let nb := count_le im. Let nf := count_gt im. Let sb := sum_le im. Let sf := sum_gt im.
  Definition split_at (t : Z) : Prop := nb t <> 0%Z /\ nf t <> 0%Z.
  Definition V (t : Z) : R := vr (IZR (nb t)) (IZR (nf t)) (IZR (sb t)) (IZR (sf t)).

  Lemma nonneg_counts t : (0 <= nb t /\ 0 <= nf t /\ nb t + nf t = iw im * ih im)%Z.
  Proof. split; [apply count_le_nonneg|]. split; [apply zlen_nonneg|]. apply count_split. apply G. Qed.
  Lemma mean_le s n B : (0 < n)%Z -> (s <= B * n)%Z -> IZR s / IZR n <= IZR B.
  Proof.
    intros Hp H. apply (Rmult_le_reg_r (IZR n)); [apply IZR_lt; lia|]. unfold Rdiv. rewrite Rmult_assoc, Rinv_l by (apply not_0_IZR; lia).
    rewrite Rmult_1_r, <- mult_IZR. apply IZR_le. assumption.
  Qed.
  Lemma mean_ge s n B : (0 < n)%Z -> (B * n <= s)%Z -> IZR B <= IZR s / IZR n.
  Proof.
    intros Hp H. apply (Rmult_le_reg_r (IZR n)); [apply IZR_lt; lia|]. unfold Rdiv. rewrite Rmult_assoc, Rinv_l by (apply not_0_IZR; lia).
    rewrite Rmult_1_r, <- mult_IZR. apply IZR_le. assumption.
  Qed.
  Lemma split_range t : split_at t -> (0 <= t < 255)%Z.
  Proof.
    intros (A & B). destruct (Z.ltb_spec t 0); [destruct A; apply count_le_neg; assumption|].
    destruct (Z.ltb_spec t 255); [lia|]. destruct B. pose proof (sum_gt_bounds im t G) as K. fold (nf t) in K.
    pose proof (nonneg_counts t). nia.
  Qed.
  Lemma V_close t : split_at t -> Rabs (V t - between_class im t) <= 1700 * u53 * between_class im t /\ 1 <= between_class im t.
  Proof.
    intros S. pose proof (split_range t S) as Rt. destruct S as (A & B). destruct (nonneg_counts t) as (N1 & N2 & _).
    unfold between_class. fold (nb t) (nf t) (sb t) (sf t).
    destruct (Z.eqb_spec (nb t) 0); [contradiction|]. destruct (Z.eqb_spec (nf t) 0); [contradiction|]. cbn [orb].
    pose proof (sum_le_bounds im t G) as K1. fold (sb t) (nb t) in K1. pose proof (sum_gt_bounds im t G) as K2. fold (sf t) (nf t) in K2.
    apply vr_err.
    - apply IZR_le; lia.
    - apply IZR_le; lia.
    - split; [apply (mean_ge _ _ 0); lia|apply (mean_le _ _ 255); nia].
    - split; [apply (mean_ge _ _ 0); nia|apply (mean_le _ _ 255); lia].
    - pose proof (mean_le (sb t) (nb t) t ltac:(lia) ltac:(lia)). pose proof (mean_ge (sf t) (nf t) (t + 1) ltac:(lia) ltac:(lia)) as M.
      rewrite plus_IZR in M. lra.
  Qed.
  Lemma between_0 t : ~ split_at t -> between_class im t = 0.
  Proof.
    intros H. unfold between_class. fold (nb t) (nf t). destruct (Z.eqb_spec (nb t) 0); [reflexivity|].
    destruct (Z.eqb_spec (nf t) 0); [reflexivity|]. destruct H. split; assumption.
  Qed.

  Definition chosen (best : Z) : Prop := (0 <= best <= 255)%Z /\ (best = 0%Z \/ (0 < count_at im best)%Z) /\
    forall t, between_class im t <= between_class im best * (1 + / 1099511627776).

  Lemma finish L best : (forall t, split_at t -> V t <= L) ->
    ((best = 0%Z /\ L = 0) \/ ((0 <= best <= 255)%Z /\ split_at best /\ (0 < count_at im best)%Z /\ L = V best)) -> chosen best.
  Proof.
    intros Hm Hb. assert (U : 0 < u53 <= / 9007199254740992) by (unfold u53; lra).
    assert (NN : forall t, 0 <= between_class im t).
    { intros t. assert (D : split_at t \/ ~ split_at t) by (unfold split_at; destruct (Z.eq_dec (nb t) 0); destruct (Z.eq_dec (nf t) 0); tauto).
      destruct D as [S|S]; [destruct (V_close t S); lra|rewrite between_0 by assumption; lra]. }
    assert (Cases : forall t, split_at t \/ between_class im t = 0).
    { intros t. assert (D : split_at t \/ ~ split_at t) by (unfold split_at; destruct (Z.eq_dec (nb t) 0); destruct (Z.eq_dec (nf t) 0); tauto).
      destruct D as [S|S]; [left; assumption|right; apply between_0; assumption]. }
    destruct Hb as [(-> & L0)|(Rb & Sb & Cb & LV)].
    - split; [lia|]. split; [left; reflexivity|]. intros t. destruct (Cases t) as [S|E].
      + destruct (V_close t S) as (E & B). specialize (Hm t S). apply Rabs_le_inv in E.
        assert (1700 * u53 * between_class im t <= / 2 * between_class im t) by (apply Rmult_le_compat_r; lra). lra.
      + rewrite E. pose proof (NN 0%Z). apply Rmult_le_pos; lra.
    - split; [assumption|]. split; [right; assumption|]. intros t. destruct (Cases t) as [S|E].
      + destruct (V_close t S) as (E1 & B1). destruct (V_close best Sb) as (E2 & B2). specialize (Hm t S). rewrite LV in Hm.
        set (x := between_class im t) in *. set (y := between_class im best) in *. clearbody x y.
        apply Rabs_le_inv in E1, E2. assert (H : x * (1 - 1700 * u53) <= y * (1 + 1700 * u53)) by lra.
        apply (Rmult_le_reg_r (1 - 1700 * u53)); [lra|]. eapply Rle_trans; [exact H|].
        rewrite Rmult_assoc. apply Rmult_le_compat_l; [lra|]. unfold u53. lra.
      + rewrite E. pose proof (NN best). apply Rmult_le_pos; lra.
  Qed.

  Definition loop_inv (t : Z) (st : Z * f64 * f64 * Z) : Prop :=
    let '(bw, bs, largest, best) := st in
    bw = nb (t - 1) /\ holds (sb (t - 1)) bs /\ is_finite largest = true /\
    (forall t', (t' < t)%Z -> split_at t' -> V t' <= B2R largest) /\
    ((best = 0%Z /\ B2R largest = 0) \/ ((0 <= best < t)%Z /\ split_at best /\ (0 < count_at im best)%Z /\ B2R largest = V best)).

  Lemma V_same t : count_at im t = 0%Z -> V t = V (t - 1) /\ (split_at t <-> split_at (t - 1)).
  Proof.
    intros H. assert (E1 : nb t = nb (t - 1)) by (unfold nb; rewrite (count_step im t), H; lia).
    assert (E2 : sb t = sb (t - 1)) by (unfold sb; rewrite (sum_step im t), H; lia).
    assert (E3 : nf t = nf (t - 1)) by (pose proof (nonneg_counts t); pose proof (nonneg_counts (t - 1)); lia).
    assert (E4 : sf t = sf (t - 1)).
    { pose proof (sum_split im t). pose proof (sum_split im (t - 1)). fold (sb t) (sf t) in *. fold (sb (t - 1)) (sf (t - 1)) in *. lia. }
    unfold V, split_at. rewrite E1, E2, E3, E4. tauto.
  Qed.

  Lemma loop_ok total : holds (lsum (idata im)) total -> forall n t st, t = (256 - Z.of_nat n)%Z -> (0 <= t)%Z -> loop_inv t st ->
    exists best, otsu_loop (iw im * ih im) total (map (fun t => (t, count_at im t)) (zrange t 256)) st = Ok best /\ chosen best.
  Proof.
    intros HT. induction n as [|n IH]; intros t (((bw & bs) & largest) & best) Et H0 (I1 & I2 & I3 & I4 & I5).
    - replace t with 256%Z by lia. rewrite zrange_empty by lia. exists best. split; [reflexivity|].
      apply (finish (B2R largest)).
      + intros t' S. apply I4; [|assumption]. pose proof (split_range _ S). lia.
      + destruct I5 as [?|(A & B)]; [left; assumption|right]. split; [lia|assumption].
    - rewrite zrange_cons by lia. cbn [map otsu_loop]. unfold otsu_step at 1.
      destruct (nonneg_counts t) as (N1 & N2 & N3). destruct (nonneg_counts (t - 1)) as (P1 & P2 & P3).
      pose proof (count_at_nonneg im t) as C0.
      assert (E1 : (bw + count_at im t)%Z = nb t) by (rewrite I1; unfold nb; rewrite (count_step im t); lia).
      rewrite E1. rewrite chk_u_ok by lia. cbn [bind].
      destruct (Z.eqb_spec (nb t) 0) as [Z0|Nz].
      + cbn [bind]. apply IH; [lia|lia|]. split; [rewrite Z.add_simpl_r; reflexivity|]. rewrite Z.add_simpl_r.
        assert (K : count_at im t = 0%Z) by (unfold nb in *; pose proof (count_step im t); lia).
        split; [|split; [assumption|split]].
        * replace (sb t) with (sb (t - 1)); [assumption|]. unfold sb. rewrite (sum_step im t), K. lia.
        * intros t' Ht' S. apply I4; [|assumption]. destruct (Z.eqb_spec t' t) as [->|]; [|lia]. destruct S. contradiction.
        * destruct I5 as [?|(A & B)]; [left; assumption|right]. split; [lia|assumption].
      + replace (iw im * ih im - nb t)%Z with (nf t) by lia. rewrite chk_u_ok by lia. cbn [bind].
        destruct (Z.eqb_spec (nf t) 0) as [Z1|Nf].
        * cbn [bind]. exists best. split; [reflexivity|]. apply (finish (B2R largest)).
          -- intros t' S. apply I4; [|assumption]. destruct S as (_ & S2). destruct (Z.ltb_spec t' t); [assumption|]. destruct S2.
             pose proof (count_le_mono im t t' ltac:(lia)) as M. fold (nb t) (nb t') in M. destruct (nonneg_counts t'). lia.
          -- destruct I5 as [?|(A & B)]; [left; assumption|right]. split; [lia|assumption].
        * pose proof (Hc t ltac:(lia)) as Ct. rewrite chk_u_ok by nia. cbn [bind].
          pose proof (sum_le_bounds im t G) as K1. fold (sb t) (nb t) in K1. pose proof (sum_gt_bounds im t G) as K2. fold (sf t) (nf t) in K2.
          pose proof (sum_le_bounds im (t - 1) G) as K3. fold (sb (t - 1)) in K3.
          pose proof (sum_split im t) as K4. fold (sb t) (sf t) in K4.
          assert (T255 : (t <= 255)%Z) by lia.
          assert (S1 : (sb t <= 255 * nb t)%Z) by nia.
          assert (S2 : (0 <= sf t)%Z) by nia.
          assert (HB : holds (sb t) (fadd bs (of_int (t * count_at im t)))).
          { replace (sb t) with (sb (t - 1) + t * count_at im t)%Z by (unfold sb; rewrite (sum_step im t); reflexivity).
            apply holds_add; [assumption|apply holds_int; nia|lia|nia|].
            replace (sb (t - 1) + t * count_at im t)%Z with (sb t) by (unfold sb; rewrite (sum_step im t); reflexivity). nia. }
          assert (HF : holds (sf t) (fsub total (fadd bs (of_int (t * count_at im t))))).
          { replace (sf t) with (lsum (idata im) - sb t)%Z by lia. apply holds_sub; [assumption|assumption|lia|nia]. }
          destruct (var_ok (nb t) (nf t) (sb t) (sf t) _ _ ltac:(lia) ltac:(lia) ltac:(lia) ltac:(lia) HB HF) as (FV & RV).
          fold (V t) in RV. set (v := fmul _ _) in FV, RV |- *. clearbody v.
          rewrite flt_R by assumption. rewrite RV.
          assert (SP : split_at t) by (split; assumption).
          destruct (Rlt_bool_spec (B2R largest) (V t)) as [L|L]; cbn [bind].
          -- apply IH; [lia|lia|]. split; [rewrite Z.add_simpl_r; reflexivity|]. rewrite Z.add_simpl_r.
             split; [assumption|]. split; [assumption|]. split.
             ++ intros t' Ht' S. rewrite RV. destruct (Z.eqb_spec t' t) as [->|]; [lra|]. pose proof (I4 t' ltac:(lia) S). lra.
             ++ right. split; [lia|]. split; [assumption|]. split; [|assumption].
                destruct (Z.eqb_spec (count_at im t) 0) as [Q|]; [|lia]. exfalso. destruct (V_same t Q) as (VS & SS).
                pose proof (I4 (t - 1)%Z ltac:(lia) (proj1 SS SP)). lra.
          -- apply IH; [lia|lia|]. split; [rewrite Z.add_simpl_r; reflexivity|]. rewrite Z.add_simpl_r.
             split; [assumption|]. split; [assumption|]. split.
             ++ intros t' Ht' S. destruct (Z.eqb_spec t' t) as [->|]; [assumption|]. apply I4; [lia|assumption].
             ++ destruct I5 as [?|(A & B)]; [left; assumption|right]. split; [lia|assumption].
  Qed.

  Lemma total_ok : exists total, for_each (map (fun t => (t, count_at im t)) (zrange 0 256)) (fun '(t, h) (sum : f64) =>
    m <- chk_u 32 (t * h) ;; Ok (fadd sum (of_int m))) (of_int 0) = Ok total /\ holds (lsum (idata im)) total.
  Proof.
    rewrite for_each_map, for_each_zrange.
    match goal with |- context [for_range 0 256 ?b ?i] => destruct (for_range_ind (fun t s => holds (sb (t - 1)) s) 0 256 b i) as (total & E & P) end.
    - lia.
    - unfold sb. rewrite sum_le_neg by (assumption || lia). apply holds_int. lia.
    - intros t s Ht HP. pose proof (count_at_nonneg im t). pose proof (Hc t Ht). rewrite chk_u_ok by nia. cbn [bind].
      eexists; split; [reflexivity|]. rewrite Z.add_simpl_r.
      pose proof (sum_le_bounds im t G) as K1. pose proof (sum_le_bounds im (t - 1) G) as K2. fold (sb t) (nb t) in K1. fold (sb (t - 1)) in K2. destruct (nonneg_counts t).
      assert (ES : sb t = (sb (t - 1) + t * count_at im t)%Z) by (unfold sb; rewrite (sum_step im t); reflexivity). rewrite ES.
      apply holds_add; [assumption|apply holds_int; nia|lia|nia|]. rewrite <- ES. nia.
    - exists total. split; [exact E|]. change (256 - 1)%Z with 255%Z in P.
      pose proof (sum_split im 255) as K. pose proof (sum_gt_bounds im 255 G) as K2. 
      assert (Q : count_gt im 255 = 0%Z).
      { pose proof (count_split im 255 (proj1 G)). rewrite (count_le_max im 255) in H; [lia|apply G|].
        intros x y p Gp. apply (proj2 G) in Gp. unfold is_u8 in Gp. lia. }
      rewrite Q in K2. replace (lsum (idata im)) with (sb 255) by (unfold sb; lia). assumption.
  Qed.

  Lemma otsu_ok : exists best, otsu_level im = Ok best /\ chosen best.
  Proof.
    unfold otsu_level. rewrite hist_gray by assumption. cbn [bind].
    destruct (nonneg_counts 0). rewrite chk_u_ok by lia. cbn [bind].
    rewrite (proj2 (vget_ok _ 0%Z (map (count_at im) (zrange 0 256)))) by reflexivity. cbn [bind]. cbv zeta.
    rewrite combine_map_self. destruct total_ok as (total & -> & HT). cbn [bind].
    apply (loop_ok total HT 256); [reflexivity|lia|].
    assert (h0 : holds 0 (of_int 0)) by (apply holds_int; lia).
    split; [symmetry; apply count_le_neg; [assumption|lia]|].
    split; [unfold sb; rewrite sum_le_neg by (assumption || lia); exact h0|]. split; [apply h0|]. split.
    - intros t' Ht' S. pose proof (split_range _ S). lia.
    - left. split; [reflexivity|]. apply h0.
  Qed.
End Otsu.

(** When t * (number of pixels at t) does not fit in u32 the call panics. *)
Lemma otsu_panics (im : image Z) t : gray8 im -> (iw im * ih im < 2 ^ 32)%Z -> (0 <= t < 256)%Z -> (2 ^ 32 <= t * count_at im t)%Z ->
  otsu_level im = Panic.
Proof.
  intros G Hn Ht H. unfold otsu_level. rewrite hist_gray by assumption. cbn [bind].
  assert (0 <= iw im * ih im)%Z by (destruct (proj1 G) as (? & ? & ?); nia).
  rewrite chk_u_ok by lia. cbn [bind].
  rewrite (proj2 (vget_ok _ 0%Z (map (count_at im) (zrange 0 256)))) by reflexivity. cbn [bind]. cbv zeta.
  rewrite combine_map_self.
  assert (K : forall l (s : f64), In t l -> for_each (map (fun t => (t, count_at im t)) l) (fun '(t, h) (sum : f64) =>
    m <- chk_u 32 (t * h) ;; Ok (fadd sum (of_int m))) s = Panic).
  { induction l as [|t0 l IH]; intros s I; [destruct I|]. cbn [map for_each].
    unfold chk_u at 1. destruct (u_fits 32 (t0 * count_at im t0)) eqn:F; cbn [bind]; [|reflexivity].
    destruct I as [->|I]; [|apply IH; assumption]. exfalso. unfold u_fits in F. lia. }
  rewrite K; [reflexivity|]. apply in_zrange. assumption.
Qed.
