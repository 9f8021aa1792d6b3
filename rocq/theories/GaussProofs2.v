(** The Gaussian kernel as a list and the accuracy of one pass. *)
From Flocq Require Import Core BinarySingleNaN Mult_error.
From Coq Require Import Reals Lra Psatz.
From Verif Require Import Base BaseProofs Float FloatProofs FloatErr SuppressProofs OtsuProofs FilterModel FilterSpec ClampModel
  KapurSpec GaussModel GaussSpec GaussProofs.
Local Ltac Zify.zify_post_hook ::= idtac.
Local Open Scope R_scope.
Local Notation rn := (rnd 24 128).
Local Notation u := (/ 16777216).
Local Notation h60 := (/ 1152921504606846976).

Lemma fold_left_map {A B C} (f : A -> B -> A) (g : C -> B) l a : fold_left f (map g l) a = fold_left (fun a c => f a (g c)) l a.
Proof. revert a. induction l as [|c l IH]; intros a; [reflexivity|]. cbn [map fold_left]. apply IH. Qed.
Lemma fold_left_ext {A B} (f g : A -> B -> A) l a : (forall a b, In b l -> f a b = g a b) -> fold_left f l a = fold_left g l a.
Proof.
  revert a. induction l as [|b l IH]; intros a H; [reflexivity|]. cbn [fold_left]. rewrite H by (left; reflexivity).
  apply IH. intros a' b' Hb. apply H. right. exact Hb.
Qed.
Lemma zrange_shift k a b : zrange (a + k) (b + k) = map (fun i => (i + k)%Z) (zrange a b).
Proof.
  apply znth_ext; [rewrite map_length, !zrange_length; f_equal; lia|]. intros i Hi. rewrite zlen_zrange in Hi.
  rewrite znth_map, !znth_zrange by lia. cbn [option_map]. f_equal. lia.
Qed.

Section Pass.
  Context (fexp : f32 -> f32) (Hexp : exp_ok fexp) (sigma : f32) (Fs : is_finite sigma = true).
  Let s := B2R sigma.
  Context (Hs : bpow radix2 (-40) <= s <= 500).
  Let r := gauss_radius s.
  Let win := gauss_window s.
  Let e := gauss_weight s.
  Let C := B2R (scale sigma).

  (** value and normalised value at distance i *)
  Definition pdf_at (i : Z) : f32 := gaussian_pdf fexp (of_int (Z.abs i)) sigma.
  Definition pdf_sum : f32 := fold_left (fun a i => fadd a (pdf_at i)) win (of_int 0).
  Definition ker_at (i : Z) : f32 := fdiv (pdf_at i) pdf_sum.

  Lemma in_win i : In i win <-> (- r <= i <= r)%Z.
  Proof. unfold win, gauss_window. fold r. rewrite in_zrange. lia. Qed.

  Lemma radius_f : to_int 0 (2 ^ 64 - 1) (fceil (fmul (of_int 2) sigma)) = r.
  Proof.
    pose proof (radius_range sigma Hs) as (Rr & _). fold s r in Rr. pose proof (s_pos sigma Hs) as s0. fold s in s0.
    destruct (int32 2) as (F2 & R2); [lia|].
    destruct (fmul_R 24 128 (of_int 2) sigma F2 Fs) as (F & E).
    { rewrite R2. fold s. rewrite Rabs_pos_eq by lra. apply Rle_trans with (IZR (2 ^ 120)); [|apply f32_huge]. apply Rle_trans with 1000; [lra|apply IZR_le; lia]. }
    rewrite R2 in E. fold s in E. rewrite (rnd_id 24 128) in E.
    2: { replace (2 * s) with (s * bpow radix2 1) by (change (bpow radix2 1) with 2; ring).
         apply (mult_bpow_pos_exact_FLT radix2 (3 - 128 - 24) 24 s 1); [apply (generic_format_B2R 24 128)|lia]. }
    unfold fceil. destruct (nearby_R 24 128 mode_UP _ F) as (F' & E'). rewrite E in E'. cbn [round_mode] in E'.
    rewrite (to_int_IZR 24 128 _ _ _ _ F' E'). fold (gauss_radius s). fold r. unfold zclamp. lia.
  Qed.

  Lemma kernel_ok : gaussian_kernel fexp sigma = Ok (map (fun j => ker_at (j - r)) (zrange 0 (2 * r + 1))).
  Proof.
    pose proof (radius_range sigma Hs) as (Rr & _). fold s r in Rr.
    unfold gaussian_kernel. rewrite radius_f. cbv zeta. rewrite !chk_u_ok by lia. cbn [bind]. try (rewrite chk_u_ok by lia; cbn [bind]).
    unfold assert. replace (4 * (2 * r + 1) <=? 2 ^ 63 - 1)%Z with true by (symmetry; apply Z.leb_le; lia). cbn [bind].
    set (P := fun (i : Z) (d : list f32) => zlen d = (2 * r + 1)%Z /\ forall j, (0 <= j <= 2 * r)%Z -> (Z.abs (j - r) < i)%Z -> znth d j = Some (pdf_at (j - r))).
    match goal with |- context [for_range 0 (r + 1) ?b ?s0] => destruct (for_range_ind P 0 (r + 1) b s0) as (d & Ed & (D1 & D2)) end.
    - lia.
    - split; [rewrite zlen_map, zlen_zrange; lia|]. intros j Hj Hi. lia.
    - intros i d Hi (L & V). cbv zeta. rewrite vset_ok by lia. cbn [bind]. rewrite vset_ok by (rewrite zupd_zlen; lia).
      eexists; split; [reflexivity|]. split; [rewrite !zupd_zlen; exact L|]. intros j Hj Hji.
      rewrite znth_zupd by (rewrite zupd_zlen; lia). destruct (Z.eqb_spec j (r - i)) as [->|N1].
      { unfold pdf_at. repeat f_equal. lia. }
      rewrite znth_zupd by lia. destruct (Z.eqb_spec j (r + i)) as [->|N2].
      { unfold pdf_at. repeat f_equal. lia. }
      apply V; lia.
    - rewrite Ed. cbn [bind]. f_equal.
      assert (Dl : d = map (fun j => pdf_at (j - r)) (zrange 0 (2 * r + 1))).
      { apply znth_ext; [rewrite map_length, zrange_length; unfold zlen in D1; lia|]. intros j Hj. rewrite D1 in Hj. rewrite D2 by lia.
        rewrite znth_map, znth_zrange by lia. cbn [option_map]. repeat f_equal; lia. }
      assert (Sm : fold_left fadd d (of_int 0) = pdf_sum).
      { rewrite Dl. unfold pdf_sum, win, gauss_window. fold r. replace (zrange 0 (2 * r + 1)) with (zrange (- r + r) (r + 1 + r)) by (f_equal; lia).
        rewrite zrange_shift, map_map, fold_left_map. apply fold_left_ext. intros a b _. do 2 f_equal. lia. }
      rewrite Sm, Dl, map_map. reflexivity.
  Qed.

  Lemma pdf_at_ok i : In i win ->
    is_finite (pdf_at i) = true /\ 0 <= B2R (pdf_at i) /\ Rabs (B2R (pdf_at i) - C * e i) <= C * / 262144 /\ B2R (pdf_at i) <= 2 * C.
  Proof.
    intros Hi. apply in_win in Hi. pose proof (radius_range sigma Hs) as (Rr & _). fold s r in Rr.
    destruct (pdf_ok fexp Hexp sigma Fs Hs (Z.abs i)) as (A & B & D & E); [lia|]. unfold pdf_at. fold C s in D, E.
    split; [exact A|]. split; [exact B|]. split; [|exact E]. replace (e i) with (gauss_weight s (Z.abs i)); [exact D|].
    unfold e, gauss_weight. do 3 f_equal. rewrite <- !mult_IZR. f_equal. nia.
  Qed.

  Let A := rsum (map (fun i => B2R (pdf_at i)) win).
  Let W := rsum (map e win).
  Let n := IZR (zlen win).

  Lemma C_range : / 2048 <= C <= IZR (2 ^ 62).
  Proof. exact (proj2 (scale_ok sigma Fs Hs)). Qed.
  Lemma n_range : 3 <= n <= 2001.
  Proof. unfold n. replace (zlen win) with (2 * r + 1)%Z by (symmetry; exact (win_len sigma Hs)). pose proof (radius_range sigma Hs) as (Rr & _). fold s r in Rr. split; apply IZR_le; lia. Qed.
  Lemma W_range : n / 10 <= W <= n.
  Proof.
    split; [pose proof (weight_sum sigma Hs) as Q; fold s win e W n in Q; lra|].
    unfold W, n. rewrite <- (Rmult_1_l (IZR (zlen win))), <- gsum_const. apply gsum_le. intros i _. apply (weight_range sigma Hs).
  Qed.
  Lemma A_W : Rabs (A - C * W) <= C * (n * / 262144).
  Proof.
    unfold A, W. rewrite <- gsum_scal. replace (C * (n * / 262144)) with (rsum (map (fun _ : Z => C * / 262144) win)) by (rewrite gsum_const; unfold n; ring).
    apply gsum_diff. intros i Hi. apply pdf_at_ok. exact Hi.
  Qed.
  Lemma A_range : / 8192 <= A <= IZR (2 ^ 80).
  Proof.
    pose proof C_range as (C1 & C2). pose proof n_range as (n1 & n2). pose proof W_range as (W1 & W2). pose proof A_W as Q. split.
    - assert (C * (W - n * / 262144) <= A) by (clear - Q; revert Q; unfold Rabs; destruct Rcase_abs; lra).
      assert (/ 4 <= W - n * / 262144) by lra. assert (/ 2048 * / 4 <= C * (W - n * / 262144)) by (apply Rmult_le_compat; lra). lra.
    - assert (A <= C * (W + n * / 262144)) by (clear - Q; revert Q; unfold Rabs; destruct Rcase_abs; lra).
      assert (W + n * / 262144 <= 4096) by lra. assert (C * (W + n * / 262144) <= IZR (2 ^ 62) * 4096) by (apply Rmult_le_compat; lra).
      assert (IZR (2 ^ 62) * 4096 <= IZR (2 ^ 80)); [|lra]. rewrite <- mult_IZR. apply IZR_le. lia.
  Qed.

  (** the computed sum of the kernel values *)
  Lemma sum_ok : is_finite pdf_sum = true /\ Rabs (B2R pdf_sum - A) <= / 2048 * A.
  Proof.
    pose proof n_range as (n1 & n2). pose proof A_range as (A1 & A2).
    destruct (fsum_ok win pdf_at (fun i => B2R (pdf_at i)) A) as (F & E).
    - intros i Hi. destruct (pdf_at_ok i Hi) as (P1 & P2 & _). split; [exact P1|]. rewrite Rabs_pos_eq by exact P2. lra.
    - fold A. lra.
    - fold n. assert (2 * u * A + h60 <= / 2048 / 2001 * A) by lra. assert (0 <= 2 * u * A + h60) by lra.
      apply Rle_trans with (2001 * (2 * u * A + h60)); [apply Rmult_le_compat_r; lra|lra].
    - assert (2 * IZR (2 ^ 80) <= IZR (2 ^ 120)) by (rewrite <- mult_IZR; apply IZR_le; lia). lra.
    - split; [exact F|]. fold pdf_sum A n in E. eapply Rle_trans; [exact E|]. assert (0 <= 2 * u * A + h60) by lra.
      apply Rle_trans with (2001 * (2 * u * A + h60)); [apply Rmult_le_compat_r; lra|lra].
  Qed.

  Let S' := B2R pdf_sum.
  Lemma S_range : A * (1 - / 2048) <= S' <= A * (1 + / 2048).
  Proof. pose proof sum_ok as (_ & Q). fold S' in Q. pose proof A_range. revert Q; unfold Rabs; destruct Rcase_abs; lra. Qed.

  (** the kernel *)
  Lemma pdf_le_A i : In i win -> B2R (pdf_at i) <= A.
  Proof.
    intros Hi. unfold A. assert (forall l, (forall j, In j l -> 0 <= B2R (pdf_at j)) -> In i l -> B2R (pdf_at i) <= rsum (map (fun i => B2R (pdf_at i)) l)) as G.
    { clear Hi. unfold rsum. induction l as [|j l IH]; intros P []; cbn [map fold_right].
      - subst j. pose proof (gsum_nonneg (fun i => B2R (pdf_at i)) l (fun j Hj => P j (or_intror Hj))) as Q. unfold rsum in Q. lra.
      - pose proof (IH (fun j Hj => P j (or_intror Hj)) H). pose proof (P j (or_introl eq_refl)). lra. }
    apply G; [|exact Hi]. intros j Hj. apply pdf_at_ok. exact Hj.
  Qed.
  Lemma ker_ok i : In i win ->
    is_finite (ker_at i) = true /\ 0 <= B2R (ker_at i) <= 2 /\ Rabs (B2R (ker_at i) - B2R (pdf_at i) / S') <= u * (B2R (pdf_at i) / S') + h60.
  Proof.
    intros Hi. destruct (pdf_at_ok i Hi) as (P1 & P2 & P3 & P4). pose proof A_range as (A1 & A2). pose proof S_range as (S1 & S2). pose proof (pdf_le_A i Hi) as P5.
    assert (S0 : 0 < S') by lra.
    assert (Q0 : 0 <= B2R (pdf_at i) / S') by (apply Rmult_le_pos; [exact P2|apply Rlt_le, Rinv_0_lt_compat; exact S0]).
    assert (Q1 : B2R (pdf_at i) / S' <= 2) by (apply Rdiv_le_aux; [exact S0|lra]).
    destruct (fdiv_R 24 128 (pdf_at i) pdf_sum P1) as (F & E).
    { fold S'. lra. }
    { fold S'. rewrite Rabs_pos_eq by exact Q0. eapply Rle_trans; [exact Q1|]. eapply Rle_trans; [|apply f32_huge]. apply IZR_le. lia. }
    fold S' in E. fold (ker_at i) in F, E. split; [exact F|]. rewrite E. split; [split|].
    - rewrite <- (rnd_0 24 128). apply (rnd_le 24 128). exact Q0.
    - apply Rle_trans with (rn (IZR 2)); [apply (rnd_le 24 128); exact Q1|rewrite (rnd_int 24 128) by lia; lra].
    - pose proof (f32_err (B2R (pdf_at i) / S')) as Q. rewrite (Rabs_pos_eq (B2R (pdf_at i) / S')) in Q by exact Q0. lra.
  Qed.

  Let K := rsum (map (fun i => B2R (ker_at i)) win).
  Lemma K_range : Rabs (K - 1) <= / 2000.
  Proof.
    pose proof A_range as (A1 & A2). pose proof S_range as (S1 & S2). pose proof n_range as (n1 & n2). assert (S0 : 0 < S') by lra.
    assert (Q : Rabs (K - A / S') <= u * (A / S') + n * h60).
    { unfold K, A. replace (rsum (map (fun i => B2R (pdf_at i)) win) / S') with (rsum (map (fun i => B2R (pdf_at i) / S') win)).
      - eapply Rle_trans; [apply gsum_diff; intros i Hi; apply ker_ok; exact Hi|]. rewrite gsum_plus, gsum_scal, gsum_const. unfold n. lra.
      - unfold Rdiv. rewrite <- (gsum_ext (fun i => / S' * B2R (pdf_at i))) by (intros; ring). rewrite gsum_scal. ring. }
    assert (X : 1 - / 2047 <= A / S' <= 1 + / 2047).
    { split.
      - apply Rmult_le_reg_r with S'; [exact S0|]. unfold Rdiv. rewrite Rmult_assoc, Rinv_l by lra. lra.
      - apply Rdiv_le_aux; [exact S0|]. lra. }
    clear - Q X n1 n2. revert Q. unfold Rabs; repeat destruct Rcase_abs; lra.
  Qed.

  (** one pass: the computed weighted sum of values of magnitude at most 256 *)
  Lemma pass_ok (src : Z -> f32) :
    (forall i, In i win -> is_finite (src i) = true /\ Rabs (B2R (src i)) <= 256) ->
    let acc := fold_left (fun a i => fadd a (fmul (src i) (ker_at i))) win (of_int 0) in
    is_finite acc = true /\ Rabs (B2R acc - gauss_avg s (fun i => B2R (src i))) <= / 4.
  Proof.
    intros H acc. pose proof A_range as (A1 & A2). pose proof S_range as (S1 & S2). pose proof n_range as (n1 & n2). assert (S0 : 0 < S') by lra.
    pose proof K_range as KR. pose proof W_range as (W1 & W2). pose proof C_range as (C1 & C2). pose proof A_W as AW.
    set (p := fun i => B2R (src i)). set (k := fun i => B2R (ker_at i)). set (a := fun i => B2R (pdf_at i)).
    (* products *)
    assert (T : forall i, In i win -> is_finite (fmul (src i) (ker_at i)) = true /\ Rabs (B2R (fmul (src i) (ker_at i)) - k i * p i) <= u * 256 * k i + h60).
    { intros i Hi. destruct (H i Hi) as (Fp & Bp). destruct (ker_ok i Hi) as (Fk & Kk & _).
      assert (PB : Rabs (B2R (src i) * B2R (ker_at i)) <= 256 * B2R (ker_at i)) by (rewrite Rabs_mult, (Rabs_pos_eq (B2R (ker_at i))) by lra; apply Rmult_le_compat_r; lra).
      destruct (fmul_R 24 128 (src i) (ker_at i) Fp Fk) as (F & E).
      { eapply Rle_trans; [exact PB|]. apply Rle_trans with (IZR (2 ^ 120)); [|apply f32_huge]. apply Rle_trans with 512; [lra|apply IZR_le; lia]. }
      split; [exact F|]. rewrite E. unfold k, p. rewrite (Rmult_comm (B2R (ker_at i))).
      pose proof (f32_err (B2R (src i) * B2R (ker_at i))). lra. }
    (* the sum of the products *)
    set (M := fun i => 257 * k i + 1 * / 1000000).
    assert (MB : rsum (map M win) <= 260).
    { unfold M. rewrite gsum_plus, gsum_scal, gsum_const. fold n. change (rsum (map k win)) with K.
      assert (K <= 1 + / 2000) by (clear - KR; revert KR; unfold Rabs; destruct Rcase_abs; lra). lra. }
    destruct (fsum_ok win (fun i => fmul (src i) (ker_at i)) M 260) as (Fa & Ea).
    { intros i Hi. destruct (T i Hi) as (F & E). split; [exact F|]. destruct (H i Hi) as (_ & Bp). destruct (ker_ok i Hi) as (_ & Kk & _).
      fold (k i) in Kk. fold (p i) in Bp. assert (PB : Rabs (k i * p i) <= 256 * k i) by (rewrite Rabs_mult, (Rabs_pos_eq (k i)), Rmult_comm by lra; apply Rmult_le_compat_r; lra).
      unfold M. revert E PB. unfold Rabs. repeat destruct Rcase_abs; lra. }
    { exact MB. }
    { fold n. lra. }
    { apply Rle_trans with 520; [lra|apply IZR_le; lia]. }
    fold acc in Fa, Ea. fold n in Ea. split; [exact Fa|].
    (* the chain of approximations *)
    set (acc' := rsum (map (fun i => B2R (fmul (src i) (ker_at i))) win)) in *.
    assert (X1 : Rabs (B2R acc - acc') <= / 15) by (eapply Rle_trans; [exact Ea|]; lra).
    set (kp := rsum (map (fun i => k i * p i) win)).
    assert (X2 : Rabs (acc' - kp) <= / 1000).
    { unfold acc', kp. eapply Rle_trans; [apply gsum_diff; intros i Hi; apply (T i Hi)|]. rewrite gsum_plus, gsum_scal, gsum_const. fold n.
      change (rsum (map k win)) with K. assert (K <= 1 + / 2000) by (clear - KR; revert KR; unfold Rabs; destruct Rcase_abs; lra). lra. }
    set (ap := rsum (map (fun i => a i * p i) win)).
    assert (AP : Rabs ap <= 256 * A).
    { unfold ap, A. rewrite <- gsum_scal. apply gsum_abs. intros i Hi. destruct (H i Hi) as (_ & Bp). destruct (pdf_at_ok i Hi) as (_ & P2 & _).
      unfold a, p. rewrite Rabs_mult, (Rabs_pos_eq (B2R (pdf_at i))), Rmult_comm by exact P2. apply Rmult_le_compat_r; [exact P2|exact Bp]. }
    assert (X3 : Rabs (kp - ap / S') <= / 1000).
    { replace (ap / S') with (rsum (map (fun i => a i / S' * p i) win)).
      - unfold kp. eapply Rle_trans; [apply (gsum_diff _ _ (fun i => 256 * (u * (/ S' * a i)) + 256 * h60)); intros i Hi|].
        + destruct (H i Hi) as (_ & Bp). destruct (ker_ok i Hi) as (_ & _ & Q). rewrite <- Rmult_minus_distr_r, Rabs_mult. fold (k i) (a i) in Q.
          fold (p i) in Bp. replace (a i / S') with (/ S' * a i) in * by (unfold Rdiv; ring).
          replace (256 * (u * (/ S' * a i)) + 256 * h60) with ((u * (/ S' * a i) + h60) * 256) by ring.
          apply Rmult_le_compat; [apply Rabs_pos|apply Rabs_pos|exact Q|exact Bp].
        + rewrite gsum_plus, gsum_const. fold n. rewrite !gsum_scal. change (rsum (map a win)) with A.
          assert (/ S' * A <= 2) by (rewrite Rmult_comm; apply Rdiv_le_aux; [exact S0|lra]). lra.
      - unfold ap. rewrite (gsum_ext (fun i => a i / S' * p i) (fun i => / S' * (a i * p i))) by (intros; unfold Rdiv; ring). rewrite gsum_scal. unfold Rdiv. ring. }
    assert (A0 : 0 < A) by lra.
    assert (X4 : Rabs (ap / S' - ap / A) <= / 7).
    { replace (ap / S' - ap / A) with ((ap * / A) * ((A - S') * / S')) by (field; lra).
      rewrite Rabs_mult. assert (Rabs (ap * / A) <= 256).
      { rewrite Rabs_mult, (Rabs_pos_eq (/ A)) by (apply Rlt_le, Rinv_0_lt_compat; exact A0).
        apply Rdiv_le_aux; [exact A0|exact AP]. }
      assert (Rabs ((A - S') * / S') <= / 2000).
      { rewrite Rabs_mult, (Rabs_pos_eq (/ S')) by (apply Rlt_le, Rinv_0_lt_compat; exact S0). apply Rdiv_le_aux; [exact S0|].
        clear - S1 S2 A0. unfold Rabs; destruct Rcase_abs; lra. }
      pose proof (Rabs_pos (ap * / A)). pose proof (Rabs_pos ((A - S') * / S')).
      apply Rle_trans with (256 * / 2000); [apply Rmult_le_compat; assumption|lra]. }
    set (ep := rsum (map (fun i => e i * p i) win)).
    assert (EP : Rabs ep <= 256 * W).
    { unfold ep, W. rewrite <- gsum_scal. apply gsum_abs. intros i Hi. destruct (H i Hi) as (_ & Bp). pose proof (weight_range sigma Hs i) as Q. fold s in Q. fold (e i) in Q.
      fold (p i) in Bp. rewrite Rabs_mult, (Rabs_pos_eq (e i)), Rmult_comm by lra. apply Rmult_le_compat_r; [lra|exact Bp]. }
    assert (AQ : Rabs (ap - C * ep) <= C * (256 * (n * / 262144))).
    { unfold ap, ep. rewrite <- gsum_scal.
      replace (C * (256 * (n * / 262144))) with (rsum (map (fun _ : Z => C * / 262144 * 256) win)) by (rewrite gsum_const; unfold n; ring).
      apply gsum_diff. intros i Hi. destruct (H i Hi) as (_ & Bp). destruct (pdf_at_ok i Hi) as (_ & _ & P3 & _). fold (a i) in P3. fold (p i) in Bp.
      replace (a i * p i - C * (e i * p i)) with ((a i - C * e i) * p i) by ring. rewrite Rabs_mult.
      apply Rmult_le_compat; [apply Rabs_pos|apply Rabs_pos|exact P3|exact Bp]. }
    assert (W0 : 0 < W) by lra.
    assert (X5 : Rabs (ap / A - ep / W) <= / 40).
    { set (D := n * / 262144) in *. assert (D0 : 0 <= D <= W * (10 / 262144)) by (unfold D; lra).
      assert (AL : C * (W - D) <= A) by (clear - AW; revert AW; unfold Rabs; destruct Rcase_abs; lra).
      replace (ap / A - ep / W) with (((ap - C * ep) * W - ep * (A - C * W)) * / (A * W)) by (field; lra).
      rewrite Rabs_mult, (Rabs_pos_eq (/ (A * W))) by (apply Rlt_le, Rinv_0_lt_compat, Rmult_lt_0_compat; lra).
      apply Rdiv_le_aux; [apply Rmult_lt_0_compat; lra|].
      apply Rle_trans with (C * (256 * D) * W + 256 * W * (C * D)).
      - unfold Rminus. eapply Rle_trans; [apply Rabs_triang|]. rewrite Rabs_Ropp, !Rabs_mult, (Rabs_pos_eq W) by lra.
        apply Rplus_le_compat; [apply Rmult_le_compat_r; [lra|exact AQ]|apply Rmult_le_compat; [apply Rabs_pos|apply Rabs_pos|exact EP|exact AW]].
      - assert (C * D <= C * W * (10 / 262144)) by nra. assert (C * (W - D) >= C * W * (1 - 10 / 262144)) by nra.
        apply Rle_trans with (/ 40 * (C * (W - D) * W)); [|apply Rmult_le_compat_l; [lra|apply Rmult_le_compat_r; lra]].
        assert (512 * (C * D) <= / 40 * (C * (W - D))) by (assert (0 <= C * W) by nra; lra).
        replace (C * (256 * D) * W + 256 * W * (C * D)) with (512 * (C * D) * W) by ring. nra. }
    change (Rabs (B2R acc - ep / W) <= / 4).
    clear - X1 X2 X3 X4 X5. revert X1 X2 X3 X4 X5. generalize (B2R acc) acc' kp (ap / S') (ap / A) (ep / W). intros v1 v2 v3 v4 v5 v6.
    intros. replace (v1 - v6) with ((v1 - v2) + (v2 - v3) + (v3 - v4) + (v4 - v5) + (v5 - v6)) by ring.
    pose proof (Rabs_triang (v1 - v2 + (v2 - v3) + (v3 - v4) + (v4 - v5)) (v5 - v6)).
    pose proof (Rabs_triang (v1 - v2 + (v2 - v3) + (v3 - v4)) (v4 - v5)).
    pose proof (Rabs_triang (v1 - v2 + (v2 - v3)) (v3 - v4)).
    pose proof (Rabs_triang (v1 - v2) (v2 - v3)). lra.
  Qed.
End Pass.
