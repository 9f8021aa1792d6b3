(** Proofs about norms and normalised vectors. *)
From Flocq Require Import Core BinarySingleNaN.
From Coq Require Import Reals Lra.
From Verif Require Import Base BaseProofs Float FloatProofs FloatErr LineProofs HogModel HogSpec RenderModel UnitSpec.
Local Ltac Zify.zify_post_hook ::= idtac.
Open Scope R_scope.
Local Notation rn := (rnd 24 128).
Local Notation u := (/ 16777216).
Definition et : R := / IZR (2 ^ 150).

Lemma et_pos : 0 < et <= / IZR (2 ^ 146).
Proof.
  unfold et. split; [apply Rinv_0_lt_compat, IZR_lt; reflexivity|]. apply Rinv_le_contravar; [apply IZR_lt; reflexivity|apply IZR_le; lia].
Qed.
Lemma rn_err r : Rabs (rn r - r) <= u * Rabs r + et.
Proof.
  pose proof (rnd_err 24 128 r) as E. change (uu 24) with u in E. replace (eta 24 128) with et in E; [exact E|].
  unfold et, eta. change (SpecFloat.emin 24 128 - 1)%Z with (-150)%Z. reflexivity.
Qed.
Lemma rn_pos r : 0 <= r -> 0 <= rn r.
Proof. intros H. rewrite <- (rnd_0 24 128). apply (rnd_le 24 128). exact H. Qed.
Lemma big120 r : Rabs r <= IZR (2 ^ 123) -> Rabs r <= bpow radix2 (128 - 1).
Proof. intros H. eapply Rle_trans; [exact H|]. change (IZR (2 ^ 123)) with (bpow radix2 123). apply bpow_le. lia. Qed.

(** ** running sums of terms that are not negative *)
Section Run.
  Context (g : f32 -> f32) (t : f32 -> R).
  Definition total (l : list f32) : R := fold_right (fun x s => t x + s) 0 l.
  Definition term_ok (x : f32) : Prop := is_finite (g x) = true /\ 0 <= B2R (g x) /\ 0 <= t x <= IZR (2 ^ 100) /\ Rabs (B2R (g x) - t x) <= u * t x + et.

  Lemma total_pos l : Forall term_ok l -> 0 <= total l.
  Proof. induction 1 as [|x l (_ & _ & K & _) _ IH]; cbn; [lra|]. fold (total l). lra. Qed.

  Lemma run_sum l : Forall term_ok l -> forall acc A k, (0 <= k)%Z -> (k + zlen l <= 2 ^ 20)%Z -> is_finite acc = true -> 0 <= B2R acc ->
    0 <= A <= IZR k * IZR (2 ^ 100) -> Rabs (B2R acc - A) <= (2 * IZR k + 1) * u * A + 4 * IZR k * et ->
    let r := fold_left (fun a x => fadd a (g x)) l acc in let n := IZR (k + zlen l) in
    is_finite r = true /\ 0 <= B2R r /\ Rabs (B2R r - (A + total l)) <= (2 * n + 1) * u * (A + total l) + 4 * n * et.
  Proof.
    induction 1 as [|x l TX _ IH]; intros acc A k Hk Hn Fa Pa HA HE.
    - cbn [fold_left]. change (zlen []) with 0%Z. rewrite Z.add_0_r. cbv zeta. unfold total. cbn [fold_right]. rewrite Rplus_0_r. auto.
    - rewrite zlen_cons in Hn. cbn [fold_left]. cbv zeta. destruct TX as (Fg & Pg & Bt & Et).
      pose proof et_pos as (E0 & _). pose proof (zlen_nonneg l) as LN.
      assert (KR : 0 <= IZR k <= 1048576) by (split; apply IZR_le; lia).
      set (W := (2 * IZR k + 1) * u * A) in *.
      assert (HW : 0 <= W <= A / 2).
      { unfold W. split; [apply Rmult_le_pos; lra|]. apply Rle_trans with (1 / 2 * A); [apply Rmult_le_compat_r; lra|lra]. }
      set (e := 4 * IZR k * et) in *. assert (He : 0 <= e <= 4194304 * et).
      { unfold e. split; [apply Rmult_le_pos; lra|apply Rmult_le_compat_r; lra]. }
      assert (BA : A <= IZR (2 ^ 120)).
      { apply Rle_trans with (IZR k * IZR (2 ^ 100)); [tauto|]. rewrite <- mult_IZR. apply IZR_le. nia. }
      apply Rabs_le_inv in HE, Et.
      assert (ES : et <= 1). { unfold et. rewrite <- Rinv_1. apply Rinv_le_contravar; [lra|apply IZR_le; lia]. }
      assert (BF : 0 <= B2R acc + B2R (g x) <= IZR (2 ^ 123)).
      { split; [lra|]. assert (1 <= IZR (2 ^ 60)) by (apply IZR_le; lia). assert (HH : 4 * IZR (2 ^ 120) + IZR (2 ^ 60) <= IZR (2 ^ 123)) by (rewrite <- mult_IZR, <- plus_IZR; apply IZR_le; lia).
        assert (IZR (2 ^ 100) <= IZR (2 ^ 120)) by (apply IZR_le; lia). assert (4194304 <= IZR (2 ^ 60)) by (apply IZR_le; lia). assert (e <= 4194304) by lra. lra. }
      destruct (fadd_R 24 128 acc (g x) Fa Fg) as (F1 & R1). { apply big120. rewrite Rabs_pos_eq by lra. lra. }
      assert (P1 : 0 <= B2R (fadd acc (g x))) by (rewrite R1; apply rn_pos; lra).
      pose proof (rn_err (B2R acc + B2R (g x))) as E1. rewrite <- R1 in E1. rewrite (Rabs_pos_eq (B2R acc + B2R (g x))) in E1 by lra. apply Rabs_le_inv in E1.
      specialize (IH (fadd acc (g x)) (A + t x) (k + 1)%Z ltac:(lia) ltac:(lia) F1 P1).
      rewrite plus_IZR in IH. rewrite zlen_cons. replace (k + (1 + zlen l))%Z with (k + 1 + zlen l)%Z by lia.
      assert (TT : A + total (x :: l) = A + t x + total l) by (unfold total; cbn [fold_right]; ring). rewrite TT. apply IH.
      + rewrite Rmult_plus_distr_r, Rmult_1_l. lra.
      + assert (XK : 0 <= (2 * IZR k) * u * t x) by (apply Rmult_le_pos; [lra|lra]).
        replace ((2 * (IZR k + 1) + 1) * u * (A + t x) + 4 * (IZR k + 1) * et) with (W + 2 * u * A + (2 * IZR k * u * t x) + 3 * u * t x + e + 4 * et) by (unfold W, e; ring).
        apply Rabs_le. lra.
  Qed.

  Lemma run_sum0 l : Forall term_ok l -> (zlen l <= 2 ^ 20)%Z ->
    let r := fold_left (fun a x => fadd a (g x)) l (of_int 0) in
    is_finite r = true /\ 0 <= B2R r /\ Rabs (B2R r - total l) <= (2 * IZR (zlen l) + 1) * u * total l + 4 * IZR (zlen l) * et.
  Proof.
    intros H Hn. destruct f32_zero as (F0 & R0). rewrite Rmult_0_l in R0.
    pose proof (run_sum l H (of_int 0) 0 0 ltac:(lia) Hn F0) as K. cbv zeta in *. rewrite Rplus_0_l in K. change (0 + zlen l)%Z with (zlen l) in K.
    apply K; rewrite ?R0; try lra. rewrite Rminus_0_r, Rabs_R0. lra.
  Qed.
End Run.

(** ** the two norms *)
Lemma square_ok x : is_finite x = true /\ Rabs (B2R x) <= IZR (2 ^ 50) -> term_ok (fun x => fmul x x) (fun x => B2R x * B2R x) x.
Proof.
  intros (F & B). assert (S0 : 0 <= B2R x * B2R x) by (apply Rle_0_sqr).
  assert (S1 : B2R x * B2R x <= IZR (2 ^ 100)).
  { replace (IZR (2 ^ 100)) with (IZR (2 ^ 50) * IZR (2 ^ 50)) by (rewrite <- mult_IZR; reflexivity).
    rewrite <- (Rabs_pos_eq (B2R x * B2R x)) by exact S0. rewrite Rabs_mult. apply Rmult_le_compat; auto using Rabs_pos. }
  destruct (fmul_R 24 128 x x F F) as (F1 & R1).
  { apply big120. rewrite Rabs_pos_eq by exact S0. eapply Rle_trans; [exact S1|]. apply IZR_le. lia. }
  split; [exact F1|]. split; [rewrite R1; apply rn_pos; exact S0|]. split; [split; assumption|]. rewrite R1.
  pose proof (rn_err (B2R x * B2R x)) as E. rewrite (Rabs_pos_eq (B2R x * B2R x)) in E by exact S0. exact E.
Qed.
Lemma abs_ok x : is_finite x = true /\ Rabs (B2R x) <= IZR (2 ^ 50) -> term_ok fabs (fun x => Rabs (B2R x)) x.
Proof.
  intros (F & B). assert (R1 : B2R (fabs x) = Rabs (B2R x)) by apply B2R_Babs. pose proof (Rabs_pos (B2R x)) as P. pose proof et_pos.
  split; [unfold fabs; rewrite is_finite_Babs; exact F|]. rewrite R1. split; [exact P|]. split; [split; [exact P|]|].
  - eapply Rle_trans; [exact B|]. apply IZR_le. lia.
  - rewrite Rminus_eq_0, Rabs_R0. lra.
Qed.

Theorem l1_ok l : vector_ok l ->
  is_finite (l1_norm l) = true /\ Rabs (B2R (l1_norm l) - sum_abs l) <= rho (zlen l) * sum_abs l + IZR (zlen l) * / IZR (2 ^ 148).
Proof.
  intros (Hn & HF). assert (K : Forall (term_ok fabs (fun x => Rabs (B2R x))) l) by (refine (Forall_impl _ _ HF); apply abs_ok).
  destruct (run_sum0 _ _ l K Hn) as (F & P & E). split; [exact F|]. change (total (fun x => Rabs (B2R x)) l) with (sum_abs l) in E.
  eapply Rle_trans; [exact E|]. assert (S0 : 0 <= sum_abs l) by (apply (total_pos _ _ l K)).
  assert (N0 : 0 <= IZR (zlen l)) by (apply IZR_le; apply zlen_nonneg).
  apply Rplus_le_compat.
  - apply Rmult_le_compat_r; [exact S0|]. unfold rho. change (IZR (2 ^ 22)) with 4194304. lra.
  - replace (/ IZR (2 ^ 148)) with (4 * et); [lra|]. unfold et. change (IZR (2 ^ 150)) with (IZR (4 * 2 ^ 148)). rewrite mult_IZR. field. apply not_0_IZR. discriminate.
Qed.

Lemma sqrt_near f S d : 0 <= S -> 0 <= d <= 1 -> Rabs (f - S) <= d * S -> Rabs (sqrt f - sqrt S) <= d * sqrt S.
Proof.
  intros HS Hd H. apply Rabs_le_inv in H. pose proof (sqrt_pos S) as P.
  assert (dS : 0 <= d * S) by (apply Rmult_le_pos; lra). assert (ddS : 0 <= d * (d * S)) by (apply Rmult_le_pos; lra).
  assert (dd : d * (d * S) <= 1 * (d * S)) by (apply Rmult_le_compat_r; lra).
  assert (U : sqrt f <= (1 + d) * sqrt S).
  { rewrite <- (sqrt_square (1 + d)) at 1 by lra. rewrite <- sqrt_mult by (try apply Rle_0_sqr; lra). apply sqrt_le_1_alt. 
    replace ((1 + d) * (1 + d) * S) with (S + 2 * (d * S) + d * (d * S)) by ring. lra. }
  assert (L : (1 - d) * sqrt S <= sqrt f).
  { rewrite <- (sqrt_square (1 - d)) at 1 by lra. rewrite <- sqrt_mult by (try apply Rle_0_sqr; lra). apply sqrt_le_1_alt.
    replace ((1 - d) * (1 - d) * S) with (S - 2 * (d * S) + d * (d * S)) by ring. lra. }
  apply Rabs_le. lra.
Qed.

Lemma squares_pos l : 0 <= sum_squares l.
Proof. induction l as [|x l IH]; cbn; [lra|]. fold (sum_squares l). pose proof (Rle_0_sqr (B2R x)) as K. unfold Rsqr in K. lra. Qed.

Theorem l2_ok l : vector_ok l -> large_enough l ->
  is_finite (l2_norm l) = true /\ Rabs (B2R (l2_norm l) - norm l) <= (2 * IZR (zlen l) + 5) * u * norm l.
Proof.
  intros (Hn & HF) HL. unfold large_enough in HL.
  assert (K : Forall (term_ok (fun x => fmul x x) (fun x => B2R x * B2R x)) l) by (refine (Forall_impl _ _ HF); apply square_ok).
  destruct (run_sum0 _ _ l K Hn) as (F & P & E). change (total (fun x => B2R x * B2R x) l) with (sum_squares l) in E.
  unfold l2_norm. set (f := fold_left (fun a x => fadd a (fmul x x)) l (of_int 0)) in *. clearbody f.
  destruct (fsqrt_R 24 128 f F P) as (F1 & R1). split; [exact F1|]. rewrite R1.
  pose proof (squares_pos l) as S0. set (S := sum_squares l) in *. unfold norm in *. fold S in HL |- *.
  assert (NN : sqrt S * sqrt S = S) by (apply sqrt_sqrt; exact S0). set (N := sqrt S) in *.
  assert (N1 : 0 <= IZR (zlen l) <= 1048576) by (split; apply IZR_le; [apply zlen_nonneg|exact Hn]). set (n := IZR (zlen l)) in *.
  assert (T40 : 0 < / IZR (2 ^ 40)) by (apply Rinv_0_lt_compat, IZR_lt; reflexivity).
  assert (T80 : / IZR (2 ^ 80) <= S).
  { rewrite <- NN. replace (/ IZR (2 ^ 80)) with (/ IZR (2 ^ 40) * / IZR (2 ^ 40)). { apply Rmult_le_compat; lra. }
    change (2 ^ 80)%Z with (2 ^ 40 * 2 ^ 40)%Z. rewrite mult_IZR. field. apply not_0_IZR. discriminate. }
  assert (TE : 4194304 * et <= u * / IZR (2 ^ 80)).
  { unfold et. change (2 ^ 150)%Z with (2 ^ 70 * 2 ^ 80)%Z. rewrite mult_IZR. rewrite Rinv_mult. assert (0 < / IZR (2 ^ 80)) by (apply Rinv_0_lt_compat, IZR_lt; reflexivity).
    rewrite <- Rmult_assoc. apply Rmult_le_compat_r; [lra|]. change (IZR (2 ^ 70)) with 1180591620717411303424. lra. }
  assert (TE2 : et <= u * / IZR (2 ^ 40)).
  { unfold et. change (2 ^ 150)%Z with (2 ^ 110 * 2 ^ 40)%Z. rewrite mult_IZR. rewrite Rinv_mult. apply Rmult_le_compat_r; [lra|].
    apply Rle_trans with (/ IZR (2 ^ 24)); [apply Rinv_le_contravar; [apply IZR_lt; reflexivity|apply IZR_le; lia]|]. change (IZR (2 ^ 24)) with 16777216. lra. }
  pose proof et_pos as (E0 & _).
  assert (E' : Rabs (B2R f - S) <= (2 * n + 2) * u * S).
  { eapply Rle_trans; [exact E|]. assert (4 * n * et <= 4194304 * et) by (apply Rmult_le_compat_r; lra). replace ((2 * n + 2) * u * S) with ((2 * n + 1) * u * S + u * S) by ring. lra. }
  pose proof (sqrt_near (B2R f) S ((2 * n + 2) * u) S0 ltac:(lra) E') as SN. fold N in SN. apply Rabs_le_inv in SN.
  pose proof (rn_err (sqrt (B2R f))) as RE. rewrite (Rabs_pos_eq (sqrt (B2R f))) in RE by apply sqrt_pos. apply Rabs_le_inv in RE.
  assert (PN : 0 < N) by lra.
  assert (QN : (2 * n + 2) * u * N <= 1 * N) by (apply Rmult_le_compat_r; lra).
  replace ((2 * n + 5) * u * N) with ((2 * n + 2) * u * N + 3 * u * N) by ring. apply Rabs_le. lra.
Qed.

(** ** division by the norm *)
Lemma norm_bound l x : In x l -> Rabs (B2R x) <= norm l.
Proof.
  intros H. unfold norm. rewrite <- (sqrt_square (Rabs (B2R x))) by apply Rabs_pos. apply sqrt_le_1_alt.
  rewrite <- Rabs_mult. rewrite Rabs_pos_eq by apply Rle_0_sqr.
  induction l as [|a l IH]; [contradiction|]. cbn. fold (sum_squares l). pose proof (Rle_0_sqr (B2R a)) as K. unfold Rsqr in K. destruct H as [->|H].
  - pose proof (squares_pos l). lra.
  - specialize (IH H). lra.
Qed.

Theorem scaled_ok l : vector_ok l -> large_enough l -> flt (of_int 0) (l2_norm l) = true /\ is_scaled l (map (fun v => fdiv v (l2_norm l)) l).
Proof.
  intros HV HL. destruct (l2_ok l HV HL) as (F & E). destruct HV as (Hn & HF). unfold large_enough in HL.
  set (v := l2_norm l) in *. clearbody v. set (N := norm l) in *.
  assert (N1 : 0 <= IZR (zlen l) <= 1048576) by (split; apply IZR_le; [apply zlen_nonneg|exact Hn]).
  assert (T40 : 0 < / IZR (2 ^ 40)) by (apply Rinv_0_lt_compat, IZR_lt; reflexivity).
  set (d := (2 * IZR (zlen l) + 5) * u) in *. assert (D : 0 <= d <= 63 / 500) by (unfold d; lra).
  assert (DN : d * N <= 63 / 500 * N) by (apply Rmult_le_compat_r; lra). pose proof E as E'. apply Rabs_le_inv in E'.
  assert (PV : 0 < B2R v) by lra. destruct f32_zero as (F0 & R0). rewrite Rmult_0_l in R0.
  split; [rewrite flt_R by assumption; rewrite R0; apply Rlt_bool_true; exact PV|].
  unfold is_scaled. fold N.
  assert (G : forall x, In x l -> is_finite (fdiv x v) = true /\ Rabs (B2R (fdiv x v) - B2R x / N) <= rho (zlen l) * (Rabs (B2R x) / N) + / IZR (2 ^ 150)).
  { intros x I. pose proof (norm_bound l x I) as B. fold N in B. rewrite Forall_forall in HF. destruct (HF x I) as (Fx & Bx).
    set (z := Rabs (B2R x) / N). assert (Z0 : 0 <= z) by (unfold z; apply Rmult_le_pos; [apply Rabs_pos|left; apply Rinv_0_lt_compat; lra]).
    assert (Z1 : z <= 1). { unfold z. apply (Rmult_le_reg_r N); [lra|]. unfold Rdiv. rewrite Rmult_assoc, Rinv_l by lra. lra. }
    assert (IV : Rabs (/ B2R v - / N) <= 7 / 6 * d * / N).
    { replace (/ B2R v - / N) with ((N - B2R v) * (/ B2R v * / N)) by (field; lra). rewrite Rabs_mult.
      assert (0 < / N) by (apply Rinv_0_lt_compat; lra). assert (0 < / B2R v) by (apply Rinv_0_lt_compat; lra).
      rewrite (Rabs_pos_eq (/ B2R v * / N)) by (apply Rmult_le_pos; lra). rewrite <- Rmult_assoc. apply Rmult_le_compat_r; [lra|].
      apply (Rmult_le_reg_r (B2R v)); [exact PV|]. rewrite Rmult_assoc, Rinv_l by lra. rewrite Rmult_1_r. rewrite Rabs_minus_sym. eapply Rle_trans; [exact E|].
      rewrite Rmult_assoc. rewrite (Rmult_comm d N), (Rmult_comm d (B2R v)). rewrite <- Rmult_assoc. apply Rmult_le_compat_r; lra. }
    assert (XV : Rabs (B2R x / B2R v - B2R x / N) <= 7 / 6 * d * z).
    { unfold Rdiv at 1 2. rewrite <- Rmult_minus_distr_l, Rabs_mult. unfold z, Rdiv. apply Rle_trans with (Rabs (B2R x) * (7 / 6 * d * / N)); [apply Rmult_le_compat_l; [apply Rabs_pos|exact IV]|right; unfold Rdiv; ring]. }
    assert (XN : Rabs (B2R x / N) = z). { unfold Rdiv at 1. rewrite Rabs_mult, (Rabs_pos_eq (/ N)) by (left; apply Rinv_0_lt_compat; lra). reflexivity. }
    assert (DZ : d * z <= 63 / 500 * z) by (apply Rmult_le_compat_r; lra). assert (DZ0 : 0 <= d * z) by (apply Rmult_le_pos; lra).
    assert (XB : Rabs (B2R x / B2R v) <= 6 / 5 * z).
    { replace (B2R x / B2R v) with ((B2R x / B2R v - B2R x / N) + B2R x / N) by ring. eapply Rle_trans; [apply Rabs_triang|]. rewrite XN. lra. }
    destruct (fdiv_R 24 128 x v Fx) as (Fd & Rd). { lra. } { apply big120. apply Rle_trans with 2; [lra|apply IZR_le; lia]. }
    split; [exact Fd|]. rewrite Rd. pose proof (rn_err (B2R x / B2R v)) as RE. fold et.
    replace (rn (B2R x / B2R v) - B2R x / N) with ((rn (B2R x / B2R v) - B2R x / B2R v) + (B2R x / B2R v - B2R x / N)) by ring.
    eapply Rle_trans; [apply Rabs_triang|]. fold z. assert (RH : rho (zlen l) * z = 2 * (d * z) + 2 * u * z). { unfold rho, d. change (IZR (2 ^ 22)) with 4194304. field. }
    rewrite RH. lra. }
  clear E. induction l as [|x l IH]; [constructor|]. clear IH. clear -G.
  assert (A : forall m, (forall y, In y m -> In y (x :: l)) -> Forall2 (fun x0 y => is_finite y = true /\ Rabs (B2R y - B2R x0 / N) <= rho (zlen (x :: l)) * (Rabs (B2R x0) / N) + / IZR (2 ^ 150)) m (map (fun v0 => fdiv v0 v) m)).
  { induction m as [|y m IH]; intros H; [constructor|]. cbn [map]. constructor; [apply G, H; left; reflexivity|]. apply IH. intros w I. apply H. right. exact I. }
  apply A. auto.
Qed.

(** ** the scaled vector is a unit vector *)
Lemma squares_near N l out r : 0 < N -> 0 <= r <= 1 -> Forall (fun x => Rabs (B2R x) <= N) l ->
  Forall2 (fun x y : f32 => is_finite y = true /\ Rabs (B2R y - B2R x / N) <= r * (Rabs (B2R x) / N) + et) l out ->
  Rabs (sum_squares out - sum_squares l / (N * N)) <= r * (2 + r) * (sum_squares l / (N * N)) + 5 * IZR (zlen l) * et.
Proof.
  intros PN Hr HB H. revert HB. induction H as [|x y l out (Fy & E) _ IH]; intros HB.
  - unfold zlen, sum_squares. cbn. unfold Rdiv. rewrite !Rmult_0_l. rewrite Rminus_0_r, Rabs_R0. lra.
  - inversion HB as [|? ? B HB']; subst. specialize (IH HB'). rewrite zlen_cons, plus_IZR. unfold sum_squares in *. cbn [fold_right].
    fold (sum_squares out) in *. fold (sum_squares l) in *.
    pose proof et_pos as (E0 & E1). assert (E2 : et <= / 1000). { eapply Rle_trans; [exact E1|]. apply Rinv_le_contravar; [lra|]. apply IZR_le. lia. }
    set (z := B2R x / N) in *. set (Y := B2R y) in *.
    assert (ZA : Rabs (B2R x) / N = Rabs z). { unfold z, Rdiv. rewrite Rabs_mult, (Rabs_pos_eq (/ N)) by (left; apply Rinv_0_lt_compat; lra). reflexivity. }
    rewrite ZA in E. assert (Z1 : Rabs z <= 1). { rewrite <- ZA. apply (Rmult_le_reg_r N); [lra|]. unfold Rdiv. rewrite Rmult_assoc, Rinv_l by lra. lra. }
    assert (QZ : (B2R x * B2R x + sum_squares l) / (N * N) = z * z + sum_squares l / (N * N)) by (unfold z; field; lra). rewrite QZ.
    set (a := Rabs z) in *. assert (A0 : 0 <= a) by apply Rabs_pos. assert (AA : a * a = z * z). { unfold a. rewrite <- Rabs_mult. apply Rabs_pos_eq. apply Rle_0_sqr. }
    assert (RA : r * a <= 1 * a) by (apply Rmult_le_compat_r; lra). assert (RA0 : 0 <= r * a) by (apply Rmult_le_pos; lra).
    assert (YZ : Rabs (Y * Y - z * z) <= r * (2 + r) * (z * z) + 5 * et).
    { replace (Y * Y - z * z) with ((Y - z) * (Y - z) + 2 * (z * (Y - z))) by ring. eapply Rle_trans; [apply Rabs_triang|].
      rewrite (Rabs_mult 2), (Rabs_pos_eq 2) by lra. rewrite (Rabs_mult z), (Rabs_mult (Y - z)). fold a. set (b := Rabs (Y - z)) in *. assert (B0 : 0 <= b) by apply Rabs_pos.
      assert (bb : b * b <= (r * a + et) * (r * a + et)) by (apply Rmult_le_compat; lra).
      assert (ab : a * b <= a * (r * a + et)) by (apply Rmult_le_compat_l; lra).
      assert (P1 : (r * a) * et <= 1 * et) by (apply Rmult_le_compat_r; lra). assert (P2 : a * et <= 1 * et) by (apply Rmult_le_compat_r; lra).
      assert (P3 : et * et <= / 1000 * et) by (apply Rmult_le_compat_r; lra).
      replace ((r * a + et) * (r * a + et)) with (r * r * (a * a) + 2 * (r * a * et) + et * et) in bb by ring.
      replace (a * (r * a + et)) with (r * (a * a) + a * et) in ab by ring. rewrite AA in *.
      replace (r * (2 + r) * (z * z)) with (2 * (r * (z * z)) + r * r * (z * z)) by ring. lra. }
    apply Rabs_le_inv in YZ, IH. 
    replace (r * (2 + r) * (z * z + sum_squares l / (N * N))) with (r * (2 + r) * (z * z) + r * (2 + r) * (sum_squares l / (N * N))) by ring.
    apply Rabs_le. lra.
Qed.

Theorem unit_ok l out : vector_ok l -> large_enough l -> is_scaled l out -> Rabs (sum_squares out - 1) <= 3 * rho (zlen l).
Proof.
  intros (Hn & HF) HL HS. unfold large_enough in HL. assert (T40 : 0 < / IZR (2 ^ 40)) by (apply Rinv_0_lt_compat, IZR_lt; reflexivity).
  assert (N1 : 0 <= IZR (zlen l) <= 1048576) by (split; apply IZR_le; [apply zlen_nonneg|exact Hn]).
  assert (R1 : 0 <= rho (zlen l) <= 1 / 2) by (unfold rho; change (IZR (2 ^ 22)) with 4194304; lra).
  pose proof (squares_near (norm l) l out (rho (zlen l)) ltac:(lra) ltac:(lra)) as K.
  assert (HB : Forall (fun x => Rabs (B2R x) <= norm l) l) by (apply Forall_forall; intros x I; apply norm_bound; exact I).
  specialize (K HB HS). assert (NN : norm l * norm l = sum_squares l) by (unfold norm; apply sqrt_sqrt; apply squares_pos).
  assert (Q : sum_squares l / (norm l * norm l) = 1). { rewrite <- NN. field. lra. } rewrite Q in K.
  eapply Rle_trans; [exact K|]. pose proof et_pos as (E0 & E1).
  assert (E2 : et <= / 1000000000000000). { eapply Rle_trans; [exact E1|]. apply Rinv_le_contravar; [lra|]. apply IZR_le. lia. }
  assert (P : IZR (zlen l) * et <= 1048576 * / 1000000000000000) by (apply Rmult_le_compat; lra).
  assert (RR : rho (zlen l) * rho (zlen l) <= 1 / 2 * rho (zlen l)) by (apply Rmult_le_compat_r; lra).
  assert (RL : 3 / 4194304 <= rho (zlen l)) by (unfold rho; change (IZR (2 ^ 22)) with 4194304; lra). lra.
Qed.
