(** Proofs about histogram equalisation and matching. *)
From Flocq Require Import Core BinarySingleNaN.
From Coq Require Import Reals Lra Psatz.
From Verif Require Import Base BaseProofs RasterProofs Float FloatProofs FloatErr StatsSpec StatsModel StatsProofs Props_Stats
  IntegralSpec ContrastProofs TemplateProofs FContrastModel FContrastSpec.
Local Ltac Zify.zify_post_hook ::= idtac.
Local Open Scope R_scope.

Lemma count_luma (im : image Z) v : count_px (luma im) (at_most 0 v) = count_le im v.
Proof.
  unfold count_px, count_le. cbn [idata luma]. induction (idata im) as [|p l IH]; [reflexivity|].
  cbn [map filter]. unfold at_most at 1. rewrite znth_cons_0. destruct (p <=? v)%Z; [rewrite !zlen_cons|]; rewrite IH; reflexivity.
Qed.

Lemma count_le_mono (im : image Z) u v : (u <= v)%Z -> (count_le im u <= count_le im v)%Z.
Proof.
  intros H. unfold count_le. induction (idata im) as [|p l IH]; [reflexivity|]. cbn [filter].
  destruct (Z.leb_spec p u); destruct (Z.leb_spec p v); rewrite ?zlen_cons; lia.
Qed.
Lemma count_le_nonneg (im : image Z) v : (0 <= count_le im v)%Z.
Proof. unfold count_le. apply zlen_nonneg. Qed.
Lemma count_le_max (im : image Z) v : wf im -> (forall x y p, get im x y = Some p -> p <= v)%Z -> count_le im v = (iw im * ih im)%Z.
Proof.
  intros W H. pose proof W as (_ & _ & L). rewrite <- L. unfold count_le.
  assert (K : forall p, In p (idata im) -> (p <= v)%Z).
  { intros p Hp. apply (In_get im) in Hp; [|assumption]. destruct Hp as (x & y & G). eapply H; eauto. }
  clear - K. induction (idata im) as [|p l IH]; [reflexivity|]. cbn [filter].
  pose proof (K p (or_introl eq_refl)). destruct (Z.leb_spec p v); [|lia]. rewrite !zlen_cons, IH; auto.
  intros q Hq. apply K. right; assumption.
Qed.
Lemma count_le_total (im : image Z) v : wf im -> (count_le im v <= iw im * ih im)%Z.
Proof. intros (_ & _ & L). rewrite <- L. unfold count_le. apply filter_le. Qed.

Lemma cum_gray (im : image Z) : gray8 im -> (iw im * ih im < 2 ^ 32)%Z ->
  cumulative_histogram 1 (luma im) = Ok [map (count_le im) (zrange 0 256)].
Proof.
  intros G H. rewrite cumulative_ok by (apply channels_img_ok; [lia|apply luma_channels; assumption|exact H]).
  unfold mapz. change (zrange 0 1) with [0%Z]. cbn [map]. apply f_equal. apply (f_equal (fun l => [l])). apply map_ext. intros v. apply count_luma.
Qed.

(** ** the share h/t in f32 *)
Definition frac (h t : Z) : f32 := fdiv (of_int h) (of_int t).

Lemma rnd32_1 : rnd 24 128 1 = 1.
Proof. apply (rnd_int 24 128 1). lia. Qed.

Lemma rnd_ge1 x : 1 <= x -> 1 <= rnd 24 128 x.
Proof. intros H. pose proof (rnd_le 24 128 1 x H) as K. rewrite rnd32_1 in K. exact K. Qed.
Lemma rnd_le1 x : x <= 1 -> rnd 24 128 x <= 1.
Proof. intros H. pose proof (rnd_le 24 128 x 1 H) as K. rewrite rnd32_1 in K. exact K. Qed.
Lemma rnd_ge0 x : 0 <= x -> 0 <= rnd 24 128 x.
Proof. intros H. pose proof (rnd_le 24 128 0 x H) as K. rewrite rnd_0 in K. exact K. Qed.

Lemma trunc_ge0 x : 0 <= x -> (0 <= Ztrunc x)%Z.
Proof. intros H. apply Ztrunc_le in H. rewrite Ztrunc_IZR in H. exact H. Qed.
Lemma trunc_le255 x : x <= 255 -> (Ztrunc x <= 255)%Z.
Proof. intros H. apply Ztrunc_le in H. rewrite Ztrunc_IZR in H. exact H. Qed.

Section Frac.
  Context (h t : Z).
  Hypothesis (H0 : (0 <= h <= t)%Z) (H1 : (0 < t < 2 ^ 32)%Z).
  Lemma frac_R : is_finite (frac h t) = true /\ B2R (frac h t) = rnd 24 128 (rnd 24 128 (IZR h) / rnd 24 128 (IZR t)) /\
    0 <= B2R (frac h t) <= 1.
  Proof.
    assert (Bt : 1 <= IZR t < 4294967296) by (split; [apply IZR_le|apply IZR_lt]; lia).
    assert (Bh : 0 <= IZR h <= IZR t) by (split; apply IZR_le; lia).
    pose proof f32_big as BIG.
    destruct (of_int_R 24 128 h) as (Fh & Rh); [rewrite Rabs_pos_eq by lra; lra|].
    destruct (of_int_R 24 128 t) as (Ft & Rt); [rewrite Rabs_pos_eq by lra; lra|].
    assert (T1 : 1 <= rnd 24 128 (IZR t)) by (apply rnd_ge1; lra).
    assert (Hh : 0 <= rnd 24 128 (IZR h) <= rnd 24 128 (IZR t)).
    { split; [apply rnd_ge0|apply (rnd_le 24 128)]; lra. }
    assert (Q : 0 <= rnd 24 128 (IZR h) / rnd 24 128 (IZR t) <= 1).
    { split.
      - apply Rmult_le_pos; [lra|]. apply Rlt_le, Rinv_0_lt_compat. lra.
      - apply Rmult_le_reg_r with (rnd 24 128 (IZR t)); [lra|]. unfold Rdiv. rewrite Rmult_assoc, Rinv_l by lra. lra. }
    destruct (fdiv_R 24 128 (of_int h : f32) (of_int t : f32)) as (Fq & Rq).
    - assumption.
    - rewrite Rt. lra.
    - rewrite Rh, Rt, Rabs_pos_eq by lra. lra.
    - unfold frac. rewrite Rh, Rt in Rq. split; [exact Fq|]. split; [exact Rq|]. rewrite Rq. split.
      + apply rnd_ge0. lra.
      + apply rnd_le1. lra.
  Qed.
  Lemma frac_err : Rabs (B2R (frac h t) - IZR h / IZR t) <= / 1000000.
  Proof.
    destruct frac_R as (_ & -> & _).
    assert (Bt : 1 <= IZR t < 4294967296) by (split; [apply IZR_le|apply IZR_lt]; lia).
    assert (Bh : 0 <= IZR h <= IZR t) by (split; apply IZR_le; lia).
    pose proof (f32_err (IZR h)) as Eh. pose proof (f32_err (IZR t)) as Et.
    rewrite (Rabs_pos_eq (IZR h)) in Eh by lra. rewrite (Rabs_pos_eq (IZR t)) in Et by lra.
    set (x := IZR h) in *. set (y := IZR t) in *. set (H := rnd 24 128 x) in *. set (T := rnd 24 128 y) in *. clearbody H T x y.
    assert (A : Rabs (H - x) <= y * / 8000000) by lra.
    assert (B : Rabs (T - y) <= y * / 8000000) by lra.
    assert (T0 : y * (1 - / 8000000) <= T) by (apply Rabs_le_inv in B; lra).
    assert (U : Rabs (H / T - x / y) <= / 3500000).
    { assert (U0 : 0 <= x / y <= 1).
      { split; [apply Rmult_le_pos; [lra|apply Rlt_le, Rinv_0_lt_compat; lra]|].
        apply Rmult_le_reg_r with y; [lra|]. unfold Rdiv. rewrite Rmult_assoc, Rinv_l by lra. lra. }
      assert (E : H / T - x / y = ((H - x) - x / y * (T - y)) / T) by (field; lra).
      rewrite E. unfold Rdiv at 1. rewrite Rabs_mult, (Rabs_pos_eq (/ T)) by (apply Rlt_le, Rinv_0_lt_compat; lra).
      apply Rmult_le_reg_r with T; [lra|]. rewrite Rmult_assoc, Rinv_l by lra. rewrite Rmult_1_r.
      eapply Rle_trans; [apply Rabs_triang|]. rewrite Rabs_Ropp, Rabs_mult, (Rabs_pos_eq (x / y)) by lra.
      assert (x / y * Rabs (T - y) <= 1 * Rabs (T - y)) by (apply Rmult_le_compat_r; [apply Rabs_pos|lra]). lra. }
    pose proof (f32_err (H / T)) as Ef.
    assert (Q : Rabs (H / T) <= 2).
    { assert (x / y <= 1).
      { apply Rmult_le_reg_r with y; [lra|]. unfold Rdiv. rewrite Rmult_assoc, Rinv_l by lra. lra. }
      assert (0 <= x / y) by (apply Rmult_le_pos; [lra|apply Rlt_le, Rinv_0_lt_compat; lra]).
      apply Rabs_le_inv in U. apply Rabs_le. lra. }
    replace (rnd 24 128 (H / T) - x / y) with ((rnd 24 128 (H / T) - H / T) + (H / T - x / y)) by ring.
    eapply Rle_trans; [apply Rabs_triang|]. lra.
  Qed.
End Frac.

Lemma frac_mono h h' t : (0 <= h <= h')%Z -> (h' <= t)%Z -> (0 < t < 2 ^ 32)%Z -> B2R (frac h t) <= B2R (frac h' t).
Proof.
  intros A B C. destruct (frac_R h t) as (_ & -> & _); [lia|lia|]. destruct (frac_R h' t) as (_ & -> & _); [lia|lia|].
  assert (T1 : 1 <= rnd 24 128 (IZR t)) by (apply rnd_ge1, IZR_le; lia).
  apply (rnd_le 24 128). apply Rmult_le_compat_r; [apply Rlt_le, Rinv_0_lt_compat; lra|]. apply (rnd_le 24 128), IZR_le. lia.
Qed.
Lemma frac_full t : (0 < t < 2 ^ 32)%Z -> B2R (frac t t) = 1.
Proof.
  intros C. destruct (frac_R t t) as (_ & -> & _); [lia|lia|].
  assert (T1 : 1 <= rnd 24 128 (IZR t)) by (apply rnd_ge1, IZR_le; lia).
  unfold Rdiv. rewrite Rinv_r by lra. apply rnd32_1.
Qed.

(** ** equalisation of one level *)
Definition eq_of (h t : Z) : Z := u8_of_f32 (fmin (of_int 255) (fmul (of_int 255) (frac h t))).

Lemma int255 : is_finite (of_int 255 : f32) = true /\ B2R (of_int 255 : f32) = 255.
Proof.
  destruct (of_int_R 24 128 255) as (A & B).
  - rewrite Rabs_pos_eq by lra. pose proof f32_big. lra.
  - split; [exact A|]. rewrite B. apply (rnd_int 24 128 255). lia.
Qed.

Lemma eq_of_R h t : (0 <= h <= t)%Z -> (0 < t < 2 ^ 32)%Z ->
  eq_of h t = Ztrunc (rnd 24 128 (255 * B2R (frac h t))) /\ 0 <= rnd 24 128 (255 * B2R (frac h t)) <= 255.
Proof.
  intros A C. destruct (frac_R h t A C) as (F & _ & B). destruct int255 as (F5 & R5).
  destruct (fmul_R 24 128 (of_int 255 : f32) (frac h t)) as (Fm & Rm); [assumption|assumption| |].
  { rewrite R5, Rabs_pos_eq by lra. pose proof f32_big. lra. }
  rewrite R5 in Rm.
  assert (BM : 0 <= rnd 24 128 (255 * B2R (frac h t)) <= 255).
  { split; [apply rnd_ge0; lra|].
    pose proof (rnd_le 24 128 (255 * B2R (frac h t)) 255 ltac:(lra)) as K. rewrite (rnd_int 24 128 255) in K by lia. exact K. }
  split; [|exact BM]. unfold eq_of, u8_of_f32, fmin. set (m := fmul (of_int 255) (frac h t)) in *.
  assert (N5 : fis_nan (of_int 255 : f32) = false) by reflexivity.
  assert (Nm : fis_nan m = false) by (destruct m; try discriminate; reflexivity).
  rewrite N5, Nm. rewrite flt32_R by assumption. rewrite R5, Rm.
  destruct (Rlt_bool_spec (rnd 24 128 (255 * B2R (frac h t))) 255) as [L|L].
  - rewrite (to_int_R 24 128) by (first [assumption|reflexivity]). rewrite Rm.
    unfold zclamp.
    assert (Z0 : (0 <= Ztrunc (rnd 24 128 (255 * B2R (frac h t))))%Z) by (apply trunc_ge0; lra).
    assert (Z5 : (Ztrunc (rnd 24 128 (255 * B2R (frac h t))) <= 255)%Z) by (apply trunc_le255; lra).
    lia.
  - rewrite (to_int_R 24 128) by (first [assumption|reflexivity]). rewrite R5.
    replace (rnd 24 128 (255 * B2R (frac h t))) with 255 by lra. rewrite (Ztrunc_IZR 255). reflexivity.
Qed.

Lemma eq_of_mono h h' t : (0 <= h <= h')%Z -> (h' <= t)%Z -> (0 < t < 2 ^ 32)%Z -> (eq_of h t <= eq_of h' t)%Z.
Proof.
  intros A B C. destruct (eq_of_R h t) as (-> & _); [lia|lia|]. destruct (eq_of_R h' t) as (-> & _); [lia|lia|].
  apply Ztrunc_le. apply (rnd_le 24 128). pose proof (frac_mono h h' t A B C). lra.
Qed.
Lemma eq_of_range h t : (0 <= h <= t)%Z -> (0 < t < 2 ^ 32)%Z -> (0 <= eq_of h t <= 255)%Z.
Proof.
  intros A C. destruct (eq_of_R h t A C) as (-> & B).
  split; [apply trunc_ge0|apply trunc_le255]; lra.
Qed.
Lemma eq_of_full t : (0 < t < 2 ^ 32)%Z -> eq_of t t = 255%Z.
Proof.
  intros C. destruct (eq_of_R t t) as (-> & _); [lia|lia|]. rewrite frac_full by assumption. rewrite Rmult_1_r.
  rewrite (rnd_int 24 128 255) by lia. apply Ztrunc_IZR.
Qed.
Lemma eq_of_close h t : (0 <= h <= t)%Z -> (0 < t < 2 ^ 32)%Z ->
  (- t <= 1000 * (255 * h - t * eq_of h t) <= 1001 * t)%Z.
Proof.
  intros A C. destruct (eq_of_R h t A C) as (E & B). destruct (frac_R h t A C) as (_ & _ & F1).
  pose proof (frac_err h t A C) as F. set (f := B2R (frac h t)) in *. clearbody f.
  pose proof (f32_err (255 * f)) as K. rewrite (Rabs_pos_eq (255 * f)) in K by lra.
  set (r := rnd 24 128 (255 * f)) in *. clearbody r.
  assert (T : IZR (eq_of h t) <= r < IZR (eq_of h t) + 1).
  { rewrite E, Ztrunc_floor by lra. split; [apply Zfloor_lb|apply Zfloor_ub]. }
  set (e := eq_of h t) in *. clearbody e.
  assert (Bt : 1 <= IZR t < 4294967296) by (split; [apply IZR_le|apply IZR_lt]; lia).
  assert (D : Rabs (255 * (IZR h / IZR t) - r) <= / 1000).
  { apply Rabs_le_inv in F. apply Rabs_le_inv in K. apply Rabs_le. lra. }
  apply Rabs_le_inv in D.
  assert (Q : IZR h = IZR h / IZR t * IZR t) by (field; lra).
  set (q := IZR h / IZR t) in *. clearbody q.
  assert (L1 : 255 * q - IZR e <= 1 + / 1000) by lra. assert (L2 : - / 1000 <= 255 * q - IZR e) by lra.
  assert (M1 : (255 * q - IZR e) * IZR t <= (1 + / 1000) * IZR t) by (apply Rmult_le_compat_r; lra).
  assert (M2 : - / 1000 * IZR t <= (255 * q - IZR e) * IZR t) by (apply Rmult_le_compat_r; lra).
  split; apply le_IZR; rewrite ?opp_IZR, ?mult_IZR, ?minus_IZR, ?mult_IZR; rewrite Q; lra.
Qed.

Lemma equalize_level_ok (im : image Z) p : wf im -> (0 <= p <= 255)%Z -> gray8 im ->
  equalize_level (map (count_le im) (zrange 0 256)) p = Ok (eq_of (count_le im p) (iw im * ih im)).
Proof.
  intros W Hp G. unfold equalize_level.
  rewrite (proj2 (vget_ok _ 255 (iw im * ih im)%Z)).
  2: { rewrite znth_map, znth_zrange by lia. cbn [option_map]. f_equal. apply count_le_max; [assumption|].
       intros x y q Gq. apply (proj2 G x y q) in Gq. unfold is_u8 in Gq. lia. }
  cbn [bind]. cbv zeta.
  rewrite (proj2 (vget_ok _ p (count_le im p))) by (rewrite znth_map, znth_zrange by lia; reflexivity).
  reflexivity.
Qed.

Lemma equalize_ok (im : image Z) : gray8 im -> (iw im * ih im < 2 ^ 32)%Z ->
  equalize_histogram im = Ok (mkImage (iw im) (ih im) (map (fun p => eq_of (count_le im p) (iw im * ih im)) (idata im))).
Proof.
  intros G H. pose proof G as (W & GP). unfold equalize_histogram. rewrite cum_gray by assumption. cbn [bind].
  rewrite (proj2 (vget_ok _ 0%Z (map (count_le im) (zrange 0 256)))) by reflexivity. cbn [bind].
  rewrite (mapM_ok _ (fun p => eq_of (count_le im p) (iw im * ih im))); [reflexivity|].
  intros p Hp. apply (In_get im) in Hp; [|assumption]. destruct Hp as (x & y & Gp). apply GP in Gp.
  unfold is_u8 in Gp. apply equalize_level_ok; auto; lia.
Qed.
