(** Bresenham lines between arbitrary f32 points. *)
From Flocq Require Import Core BinarySingleNaN.
From Coq Require Import Reals Lra.
From Verif Require Import Base BaseProofs RasterProofs Float FloatProofs FloatErr LineModel LineSpec LineProofs RenderProofs LineFloatSpec.
Local Ltac Zify.zify_post_hook ::= idtac.
Open Scope R_scope.
Local Notation rn := (rnd 24 128).
Local Notation u := (/ 16777216).
Local Notation et := (/ 1152921504606846976).

(** ** f32 numbers of at least one half are multiples of 2^-24 *)
Lemma multiple24 (x : f32) : / 2 <= B2R x -> exists M, B2R x = IZR M * u.
Proof.
  intros H. pose proof (generic_format_B2R 24 128 x) as G. unfold generic_format in G.
  set (e := cexp radix2 (SpecFloat.fexp 24 128) (B2R x)) in *.
  assert (He : (-24 <= e)%Z).
  { unfold e, cexp. assert (0 <= mag radix2 (B2R x))%Z.
    { apply mag_ge_bpow. change (bpow radix2 (0 - 1)) with (/ 2). rewrite Rabs_pos_eq by lra. exact H. }
    unfold SpecFloat.fexp, SpecFloat.emin. lia. }
  exists (Ztrunc (scaled_mantissa radix2 (SpecFloat.fexp 24 128) (B2R x)) * 2 ^ (e + 24))%Z.
  rewrite G at 1. unfold F2R. cbn [Fnum Fexp]. fold e. rewrite mult_IZR, Rmult_assoc. f_equal.
  change u with (bpow radix2 (-24)). rewrite (IZR_Zpower radix2) by lia. rewrite <- bpow_plus. f_equal. lia.
Qed.
Lemma gap_below (x : f32) m : (1 <= m)%Z -> B2R x < IZR m -> u <= IZR m - B2R x.
Proof.
  intros Hm H. apply IZR_le in Hm. destruct (Rle_dec (/ 2) (B2R x)) as [L|L]; [|lra].
  destruct (multiple24 x L) as (M & E). rewrite E in *.
  assert (K : (M < m * 16777216)%Z). { apply lt_IZR. rewrite mult_IZR. lra. }
  assert (K' : (M + 1 <= m * 16777216)%Z) by lia. apply IZR_le in K'. rewrite plus_IZR, mult_IZR in K'. lra.
Qed.
Lemma fneg_B2R (x : f32) : B2R (fneg x) = - B2R x.
Proof. apply B2R_Bopp. Qed.
Lemma gap_above (x : f32) m : (m <= -1)%Z -> IZR m < B2R x -> u <= B2R x - IZR m.
Proof.
  intros Hm H. pose proof (gap_below (fneg x) (- m)) as K. rewrite fneg_B2R, opp_IZR in K.
  specialize (K ltac:(lia) ltac:(lra)). lra.
Qed.

Lemma trunc_near r : Rabs (IZR (Ztrunc r) - r) < 1 /\ (0 <= r -> IZR (Ztrunc r) <= r) /\ (r <= 0 -> r <= IZR (Ztrunc r)).
Proof.
  destruct (Rle_dec 0 r) as [P|P].
  - rewrite Ztrunc_floor by exact P. pose proof (Zfloor_lb r). pose proof (Zfloor_ub r). split; [apply Rabs_def1; lra|]. split; [lra|].
    intros K. assert (r = 0) as -> by lra. rewrite Zfloor_IZR. lra.
  - rewrite Ztrunc_ceil by lra. pose proof (Zceil_ub r). assert (IZR (Zceil r) < r + 1).
    { unfold Zceil. rewrite opp_IZR. pose proof (Zfloor_ub (- r)). lra. }
    split; [apply Rabs_def1; lra|]. split; lra.
Qed.

(** ** numbers *)
Lemma line_numbers D E dx dy k m t c : 0 <= D <= 65536 -> Rabs E <= 65536 ->
  Rabs (dx - D) <= D * u + et -> Rabs (dy - Rabs E) <= Rabs E * u + et -> 0 <= dy <= dx ->
  (0 <= k <= 65536)%Z -> (k = 0%Z -> m = 0%Z) -> ((1 <= k)%Z -> u <= D) ->
  Rabs (IZR m * dx - IZR k * dy) <= dx / 2 + (2 * IZR k + 1) * (u * dx + et) ->
  0 <= t <= 1 -> 0 <= c -> Rabs (IZR k - t * D) <= c -> Rabs (IZR m - t * Rabs E) <= 1 / 2 + c + 1 / 20.
Proof.
  intros HD HE Hdx Hdy HL Hk Hm0 Hk1 HG Ht Hc HK.
  set (A := Rabs E) in *. assert (0 <= A) by apply Rabs_pos. clearbody A.
  apply Rabs_le_inv in Hdx, Hdy, HG, HK. assert (KR : 0 <= IZR k <= 65536) by (split; apply IZR_le; lia).
  destruct (Rle_dec dx 0) as [Z|P].
  - (* no extent *)
    assert (k = 0%Z). { destruct (Z.eq_dec k 0); [assumption|]. specialize (Hk1 ltac:(lia)). lra. }
    rewrite (Hm0 H0). assert (0 <= t * A) by (apply Rmult_le_pos; lra).
    assert (t * A <= 1 * A) by (apply Rmult_le_compat_r; lra). apply Rabs_le. lra.
  - apply Rnot_le_lt in P. set (q := dy / dx).
    assert (Q : 0 <= q <= 1). { unfold q. split; [apply Rmult_le_pos; [lra|left; apply Rinv_0_lt_compat; exact P]|].
      apply (Rmult_le_reg_r dx); [exact P|]. unfold Rdiv. rewrite Rmult_assoc, Rinv_l by lra. lra. }
    assert (QD : dy = q * dx) by (unfold q; field; lra). clearbody q.
    assert (W : Rabs (IZR m - IZR k * q) <= 1 / 2 + 1 / 50).
    { destruct (Z.eq_dec k 0) as [Z|N]; [rewrite (Hm0 Z), Z; apply Rabs_le; lra|].
      specialize (Hk1 ltac:(lia)). assert (DX : / 33554432 <= dx) by lra.
      assert (X1 : (2 * IZR k + 1) * (u * dx + et) <= dx / 50).
      { assert (B : u * dx + et <= (/ 16777216 + / 34359738368) * dx) by lra.
        apply Rle_trans with ((2 * IZR k + 1) * ((/ 16777216 + / 34359738368) * dx)); [apply Rmult_le_compat_l; lra|].
        rewrite <- Rmult_assoc, (Rmult_comm _ dx). unfold Rdiv. apply Rmult_le_compat_l; lra. }
      rewrite QD in HG. replace (IZR m * dx - IZR k * (q * dx)) with ((IZR m - IZR k * q) * dx) in HG by ring.
      apply Rabs_le. split; apply (Rmult_le_reg_r dx); lra. }
    apply Rabs_le_inv in W.
    assert (V : Rabs (A - q * D) <= 1 / 100).
    { replace (A - q * D) with ((A - dy) + q * (dx - D)) by (rewrite QD; ring).
      assert (Y : Rabs (q * (dx - D)) <= D * u + et).
      { rewrite Rabs_mult, (Rabs_pos_eq q) by lra. replace (D * u + et) with (1 * (D * u + et)) by ring.
        apply Rmult_le_compat; [lra|apply Rabs_pos|lra|apply Rabs_le; lra]. }
      apply Rabs_le_inv in Y. apply Rabs_le. lra. }
    assert (V' : Rabs (t * (A - q * D)) <= 1 / 100).
    { rewrite Rabs_mult, (Rabs_pos_eq t) by lra. replace (1 / 100) with (1 * (1 / 100)) by ring. apply Rmult_le_compat; [lra|apply Rabs_pos|lra|exact V]. }
    assert (U : Rabs (q * (IZR k - t * D)) <= c).
    { rewrite Rabs_mult, (Rabs_pos_eq q) by lra. replace c with (1 * c) by ring. apply Rmult_le_compat; [lra|apply Rabs_pos|lra|apply Rabs_le; lra]. }
    replace (IZR m - t * A) with ((IZR m - IZR k * q) + q * (IZR k - t * D) - t * (A - q * D)) by ring.
    apply Rabs_le_inv in V', U. apply Rabs_le. lra.
Qed.

(** ** the iteration *)
Definition steps_ok (dx dy : R) (k m : Z) : Prop :=
  (0 <= k)%Z /\ (k = 0%Z -> m = 0%Z) /\ Rabs (IZR m * dx - IZR k * dy) <= dx / 2 + (2 * IZR k + 1) * (u * dx + et).

Lemma run_steps (fdx fdy : f32) X0 Y0 X1 st step : is_finite fdx = true -> is_finite fdy = true ->
  0 <= B2R fdy <= B2R fdx -> B2R fdx <= 65536 ->
  forall n k m (e : f32) pts, (0 <= k)%Z -> (k = 0%Z -> m = 0%Z) -> is_finite e = true -> 0 <= B2R e <= B2R fdx ->
  Rabs (B2R e - (B2R fdx / 2 - IZR k * B2R fdy + IZR m * B2R fdx)) <= (2 * IZR k + 1) * (u * B2R fdx + et) ->
  bres_run n (mkBres fdx fdy (X0 + k) (Y0 + step * m) e X1 st step) = Ok pts ->
  Forall (fun p => exists k m, p = (if st then (Y0 + step * m, X0 + k)%Z else (X0 + k, Y0 + step * m)%Z) /\ (X0 + k <= X1)%Z /\ steps_ok (B2R fdx) (B2R fdy) k m) pts.
Proof.
  intros Fx Fy HL HB. set (dx := B2R fdx) in *. set (dy := B2R fdy) in *.
  assert (BG : forall r, Rabs r <= 65536 -> Rabs r <= bpow radix2 (128 - 1)).
  { intros r Hr. eapply Rle_trans; [exact Hr|]. exact (big32 65536 ltac:(lia)). }
  induction n as [|n IH]; intros k m e pts Hk Hm0 Fe HE HI; [discriminate|].
  rewrite bres_run_S. unfold bres_next. cbn [b_end_x b_x b_y b_is_steep b_error b_dx b_dy b_y_step].
  destruct (Z.ltb_spec X1 (X0 + k)) as [L|L]; [cbn [bind]; intros [= <-]; constructor|].
  unfold chk_i at 1. destruct (i_fits 32 (X0 + k + 1)); cbn [bind]; [|discriminate].
  destruct (fsub_R 24 128 e fdy Fe Fy) as (F1 & R1). { apply BG. fold dy. apply Rabs_le. lra. }
  fold dy in R1.
  assert (KR : 0 <= IZR k) by (apply IZR_le; exact Hk).
  assert (S1 : Rabs (B2R (fsub e fdy) - (B2R e - dy)) <= u * dx + et).
  { rewrite R1. eapply Rle_trans; [apply f32_err|]. assert (Rabs (B2R e - dy) <= dx) by (apply Rabs_le; lra). lra. }
  assert (LO : - dx <= B2R (fsub e fdy)).
  { rewrite R1. unfold dx. rewrite <- fneg_B2R. rewrite <- (rnd_idF 24 128 (fneg fdx)). apply (rnd_le 24 128). rewrite fneg_B2R. fold dx. lra. }
  assert (HI' : B2R (fsub e fdy) <= dx).
  { rewrite R1. unfold dx. rewrite <- (rnd_idF 24 128 fdx). apply (rnd_le 24 128). fold dx. lra. }
  assert (GOOD : exists k0 m0, (if st then (Y0 + step * m, X0 + k)%Z else (X0 + k, Y0 + step * m)%Z) = (if st then (Y0 + step * m0, X0 + k0)%Z else (X0 + k0, Y0 + step * m0)%Z) /\ (X0 + k0 <= X1)%Z /\ steps_ok dx dy k0 m0).
  { exists k, m. split; [reflexivity|]. split; [exact L|]. split; [exact Hk|]. split; [exact Hm0|].
    apply Rabs_le_inv in HI. apply Rabs_le. lra. }
  assert (NX : forall d, IZR (k + 1) * d = IZR k * d + d) by (intros d; rewrite plus_IZR; ring).
  assert (NB : (2 * IZR (k + 1) + 1) * (u * dx + et) = (2 * IZR k + 1) * (u * dx + et) + 2 * (u * dx + et)) by (rewrite plus_IZR; ring).
  assert (UP : 0 <= u * dx + et) by lra.
  destruct (int32_R 0 ltac:(lia)) as (F0 & R0).
  rewrite flt_R by assumption. rewrite R0.
  destruct (Rlt_bool_spec (B2R (fsub e fdy)) 0) as [N|P].
  - unfold chk_i. destruct (i_fits 32 (Y0 + step * m + step)); cbn [bind]; [|discriminate].
    destruct (fadd_R 24 128 (fsub e fdy) fdx F1 Fx) as (F2 & R2). { apply BG. fold dx. apply Rabs_le. lra. }
    fold dx in R2.
    assert (S2 : Rabs (B2R (fadd (fsub e fdy) fdx) - (B2R (fsub e fdy) + dx)) <= u * dx + et).
    { rewrite R2. eapply Rle_trans; [apply f32_err|]. assert (Rabs (B2R (fsub e fdy) + dx) <= dx) by (apply Rabs_le; lra). lra. }
    destruct (bres_run n _) as [ps| |] eqn:ER; cbn [bind]; try discriminate. intros [= <-]. constructor; [exact GOOD|].
    replace (X0 + k + 1)%Z with (X0 + (k + 1))%Z in ER by lia. replace (Y0 + step * m + step)%Z with (Y0 + step * (m + 1))%Z in ER by ring.
    refine (IH _ _ _ _ _ _ F2 _ _ ER); [lia|lia| |].
    + split.
      * rewrite R2. rewrite <- (rnd_0 24 128). apply (rnd_le 24 128). lra.
      * rewrite R2. unfold dx at 2. rewrite <- (rnd_idF 24 128 fdx). apply (rnd_le 24 128). fold dx. lra.
    + rewrite NX, NB. rewrite (plus_IZR m 1), Rmult_plus_distr_r, Rmult_1_l. apply Rabs_le_inv in S1, S2, HI. apply Rabs_le. lra.
  - cbn [bind]. destruct (bres_run n _) as [ps| |] eqn:ER; cbn [bind]; try discriminate. intros [= <-]. constructor; [exact GOOD|].
    replace (X0 + k + 1)%Z with (X0 + (k + 1))%Z in ER by lia.
    assert (M0 : (k + 1 = 0)%Z -> m = 0%Z) by lia.
    refine (IH _ _ _ _ _ M0 F1 _ _ ER); [lia|lra|].
    rewrite NX, NB. apply Rabs_le_inv in S1, HI. apply Rabs_le. lra.
Qed.

(** ** a whole line in normal position *)
Lemma mod16 (x : f32) : is_finite x = true -> Rabs (B2R x) <= 32768 -> i32_of_f32 x = Ztrunc (B2R x).
Proof.
  intros F B. unfold i32_of_f32. rewrite to_int_R by first [assumption | exact emax32].
  apply Rabs_le_inv in B. rewrite <- opp_IZR in B. destruct B as (B1 & B2). apply Ztrunc_le in B1, B2. rewrite Ztrunc_IZR in B1, B2. unfold zclamp. lia.
Qed.
Lemma abs_R (x : f32) : is_finite (fabs x) = is_finite x /\ B2R (fabs x) = Rabs (B2R x).
Proof. split; [apply is_finite_Babs|apply B2R_Babs]. Qed.

Lemma normal_line (x0 y0 x1 y1 : f32) st pts :
  is_finite x0 = true -> is_finite y0 = true -> is_finite x1 = true -> is_finite y1 = true ->
  Rabs (B2R x0) <= 32768 -> Rabs (B2R y0) <= 32768 -> Rabs (B2R x1) <= 32768 -> Rabs (B2R y1) <= 32768 ->
  B2R x0 <= B2R x1 -> flt (fabs (fsub x1 x0)) (fabs (fsub y1 y0)) = false ->
  let s := bres_raw x0 y0 x1 y1 st in
  bres_run (Z.to_nat (b_end_x s - b_x s + 1) + 1) s = Ok pts ->
  let a := if st then (y0, x0) else (x0, y0) in
  let b := if st then (y1, x1) else (x1, y1) in
  follows a b pts.
Proof.
  intros Fx0 Fy0 Fx1 Fy1 Bx0 By0 Bx1 By1 HX HS s ER a b.
  apply Rabs_le_inv in Bx0, By0, Bx1, By1.
  assert (BG : forall r, Rabs r <= 65536 -> Rabs r <= bpow radix2 (128 - 1)).
  { intros r Hr. eapply Rle_trans; [exact Hr|]. exact (big32 65536 ltac:(lia)). }
  set (D := B2R x1 - B2R x0). set (E := B2R y1 - B2R y0).
  assert (AD : Rabs D <= 65536) by (unfold D; apply Rabs_le; lra).
  assert (AE : Rabs E <= 65536) by (unfold E; apply Rabs_le; lra).
  destruct (fsub_R 24 128 x1 x0 Fx1 Fx0 (BG _ AD)) as (Fdx & Rdx). destruct (fsub_R 24 128 y1 y0 Fy1 Fy0 (BG _ AE)) as (Fdy & Rdy).
  fold D in Rdx. fold E in Rdy.
  assert (D0 : 0 <= D) by (unfold D; lra).
  assert (dx0 : 0 <= B2R (fsub x1 x0)). { rewrite Rdx, <- (rnd_0 24 128). apply (rnd_le 24 128). exact D0. }
  assert (dxB : B2R (fsub x1 x0) <= 65536).
  { rewrite Rdx. rewrite <- (rnd_int 24 128 65536) by lia. apply (rnd_le 24 128). apply Rabs_le_inv in AD. lra. }
  assert (EX : Rabs (B2R (fsub x1 x0) - D) <= D * u + et).
  { rewrite Rdx. eapply Rle_trans; [apply f32_err|]. rewrite (Rabs_pos_eq D) by exact D0. lra. }
  destruct (abs_R (fsub y1 y0)) as (FA & RA). destruct (abs_R (fsub x1 x0)) as (FB & RB).
  assert (EY : Rabs (B2R (fabs (fsub y1 y0)) - Rabs E) <= Rabs E * u + et).
  { rewrite RA, Rdy. eapply Rle_trans; [apply Rabs_triang_inv2|]. eapply Rle_trans; [apply f32_err|]. lra. }
  assert (LE : B2R (fabs (fsub y1 y0)) <= B2R (fsub x1 x0)).
  { rewrite flt_R in HS by congruence. destruct (Rlt_bool_spec (B2R (fabs (fsub x1 x0))) (B2R (fabs (fsub y1 y0)))) as [|K]; [discriminate|].
    rewrite RB in K. rewrite (Rabs_pos_eq (B2R (fsub x1 x0))) in K by exact dx0. exact K. }
  assert (dy0 : 0 <= B2R (fabs (fsub y1 y0))) by (rewrite RA; apply Rabs_pos).
  set (fdx := fsub x1 x0) in *. set (fdy := fabs (fsub y1 y0)) in *. set (step := if flt y0 y1 then 1%Z else (-1)%Z).
  set (X0 := Ztrunc (B2R x0)). set (Y0 := Ztrunc (B2R y0)). set (X1 := Ztrunc (B2R x1)).
  assert (I0 : i32_of_f32 x0 = X0) by (apply mod16; [assumption|apply Rabs_le; lra]).
  assert (I1 : i32_of_f32 x1 = X1) by (apply mod16; [assumption|apply Rabs_le; lra]).
  assert (J0 : i32_of_f32 y0 = Y0) by (apply mod16; [assumption|apply Rabs_le; lra]).
  assert (Es : s = mkBres fdx fdy (X0 + 0) (Y0 + step * 0) (fdiv fdx (of_int 2)) X1 st step).
  { unfold s, bres_raw. rewrite I0, I1, J0. fold fdx fdy step. rewrite Z.add_0_r, Z.mul_0_r, Z.add_0_r. reflexivity. }
  assert (XX : (X0 <= X1)%Z) by (apply Ztrunc_le; exact HX).
  assert (XB : (X1 - X0 <= 65536)%Z).
  { assert (X1 <= 32768)%Z. { unfold X1. rewrite <- (Ztrunc_IZR 32768). apply Ztrunc_le. lra. }
    assert (-32768 <= X0)%Z. { unfold X0. rewrite <- (Ztrunc_IZR (-32768)). apply Ztrunc_le. lra. } lia. }
  pose proof (trunc_near (B2R x0)) as (N0 & P0 & M0). pose proof (trunc_near (B2R x1)) as (N1 & P1 & M1). pose proof (trunc_near (B2R y0)) as (NY & _ & _).
  fold X0 in N0, P0, M0. fold X1 in N1, P1, M1. fold Y0 in NY. apply Rabs_def2 in N0, N1, NY.
  assert (GAP : (X0 < X1)%Z -> u <= D).
  { intros L. unfold D. destruct (Z_le_gt_dec 1 X1) as [K|K].
    - assert (B2R x0 < IZR X1).
      { destruct (Rlt_dec (B2R x0) (IZR X1)) as [|C]; [assumption|]. apply Rnot_lt_le in C. apply Ztrunc_le in C. rewrite Ztrunc_IZR in C. fold X0 in C. lia. }
      pose proof (gap_below x0 X1 K H). assert (1 <= IZR X1) by (apply IZR_le; exact K).
      assert (0 <= B2R x1). { destruct (Rle_dec 0 (B2R x1)); [assumption|]. lra. } specialize (P1 H2). lra.
    - assert (K' : (X0 <= -1)%Z) by lia.
      assert (IZR X0 < B2R x1).
      { destruct (Rlt_dec (IZR X0) (B2R x1)) as [|C]; [assumption|]. apply Rnot_lt_le in C. apply Ztrunc_le in C. rewrite Ztrunc_IZR in C. fold X1 in C. lia. }
      pose proof (gap_above x1 X0 K' H). assert (IZR X0 <= -1) by (apply IZR_le; exact K').
      assert (B2R x0 <= 0) by lra. specialize (M0 H2). lra. }
  destruct (int32_R 2 ltac:(lia)) as (F2 & R2).
  destruct (fdiv_R 24 128 fdx (of_int 2) Fdx) as (Fe & Re). { rewrite R2. lra. } { apply BG. rewrite R2. apply Rabs_le. lra. }
  rewrite R2 in Re.
  pose proof (run_steps fdx fdy X0 Y0 X1 st step Fdx) as RUN.
  assert (Ffdy : is_finite fdy = true) by (rewrite FA; exact Fdy).
  pose proof ER as ER'. rewrite Es in ER'. apply (RUN Ffdy (conj dy0 LE) dxB) in ER'; clear RUN; [|lia|intros _; reflexivity|exact Fe| |].
  2: { rewrite Re. split; [rewrite <- (rnd_0 24 128); apply (rnd_le 24 128); lra|].
       rewrite <- (rnd_idF 24 128 fdx) at 2. apply (rnd_le 24 128). lra. }
  2: { rewrite Re. cbn [Z.mul]. rewrite !Rmult_0_l, Rminus_0_r, Rplus_0_r. eapply Rle_trans; [apply f32_err|]. rewrite Rabs_pos_eq by lra. lra. }
  (* the minor coordinate of a step *)
  assert (SGN : forall m t, Rabs (IZR (step * m) - t * E) = Rabs (IZR m - t * Rabs E)).
  { intros m t. rewrite mult_IZR. unfold step. rewrite flt_R by assumption. destruct (Rlt_bool_spec (B2R y0) (B2R y1)) as [K|K].
    - rewrite (Rabs_pos_eq E) by (unfold E; lra). f_equal. ring.
    - rewrite (Rabs_left1 E) by (unfold E; lra). rewrite <- Rabs_Ropp. f_equal. ring. }
  assert (MINOR : forall k m t c, (X0 + k <= X1)%Z -> steps_ok (B2R fdx) (B2R fdy) k m -> 0 <= t <= 1 -> 0 <= c -> Rabs (IZR k - t * D) <= c ->
    Rabs (IZR (Y0 + step * m) - (B2R y0 + t * E)) <= 31 / 20 + c).
  { intros k m t c L (K0 & K1 & K2) Ht Hc HK.
    assert (Q : Rabs (IZR m - t * Rabs E) <= 1 / 2 + c + 1 / 20).
    { apply (line_numbers D E (B2R fdx) (B2R fdy) k m t c); try assumption; try lra; try lia; [rewrite Rabs_pos_eq in AD; lra|]. intros; apply GAP; lia. }
    rewrite <- SGN in Q. apply Rabs_le_inv in Q. rewrite plus_IZR. apply Rabs_le. lra. }
  assert (CL : forall d k m t, Rabs (IZR (X0 + k) - (B2R x0 + t * D)) <= d -> Rabs (IZR (Y0 + step * m) - (B2R y0 + t * E)) <= d ->
    close d (if st then (Y0 + step * m, X0 + k)%Z else (X0 + k, Y0 + step * m)%Z) (along a b t)).
  { intros d k m t H1 H2. unfold close, along, a, b. destruct st; cbn [fst snd]; split; assumption. }
  split.
  - refine (Forall_impl _ _ ER'). intros p (k & m & -> & L & SO). pose proof SO as (K0 & _ & _).
    (* the point of the segment with the nearest major coordinate *)
    assert (T : exists t, 0 <= t <= 1 /\ Rabs (IZR (X0 + k) - (B2R x0 + t * D)) <= 1 /\ Rabs (IZR k - t * D) <= 1).
    { rewrite plus_IZR. assert (KL : IZR X0 + IZR k <= IZR X1) by (rewrite <- plus_IZR; apply IZR_le; exact L). assert (KR : 0 <= IZR k) by (apply IZR_le; exact K0).
      destruct (Rle_dec (IZR X0 + IZR k) (B2R x0)) as [C|C].
      - exists 0. split; [lra|]. rewrite !Rmult_0_l, Rplus_0_r, Rminus_0_r.
        assert (KZ : k = 0%Z). { destruct (Z.eq_dec k 0); [assumption|]. assert (1 <= IZR k) by (apply IZR_le; lia). lra. }
        rewrite KZ. split; apply Rabs_le; lra.
      - destruct (Rle_dec (B2R x1) (IZR X0 + IZR k)) as [C2|C2].
        + exists 1. split; [lra|]. rewrite !Rmult_1_l. unfold D. replace (B2R x0 + (B2R x1 - B2R x0)) with (B2R x1) by ring. split; [apply Rabs_le; lra|].
          destruct (Rle_dec (B2R x1) 0) as [NG|NG].
          * specialize (M1 NG). specialize (M0 ltac:(lra)). apply Rabs_le. lra.
          * specialize (P1 ltac:(lra)). apply Rabs_le. lra.
        + exists ((IZR X0 + IZR k - B2R x0) / D). assert (DP : 0 < D) by (unfold D; lra).
          assert (TD : (IZR X0 + IZR k - B2R x0) / D * D = IZR X0 + IZR k - B2R x0) by (field; lra).
          split; [|rewrite TD; split; apply Rabs_le; lra].
          split; apply (Rmult_le_reg_r D); try exact DP; rewrite TD; [lra|unfold D; lra]. }
    destruct T as (t & Ht & T1 & T2). exists t. split; [exact Ht|]. apply CL; [apply Rle_trans with 1; [exact T1|lra]|].
    eapply Rle_trans; [apply (MINOR k m t 1); try assumption; lra|lra].
  - intros t Ht. set (X := B2R x0 + t * D).
    assert (TD : 0 <= t * D <= D). { split; [apply Rmult_le_pos; lra|]. replace D with (1 * D) at 2 by ring. apply Rmult_le_compat_r; lra. }
    set (k := (Ztrunc X - X0)%Z).
    assert (K0 : (X0 <= Ztrunc X)%Z) by (apply Ztrunc_le; unfold X; lra).
    assert (K1 : (Ztrunc X <= X1)%Z) by (apply Ztrunc_le; unfold X, D in *; lra).
    destruct (bres_run_major _ _ _ ER) as (LEN & MAJ & _). rewrite Es in LEN. cbn [b_end_x b_x] in LEN.
    destruct (znth_some pts k) as (p & Ep); [unfold k; lia|].
    exists p. assert (IN : In p pts) by (eapply znth_In; exact Ep). split; [exact IN|].
    pose proof (MAJ _ _ Ep) as MJ. rewrite Forall_forall in ER'. destruct (ER' p IN) as (k' & m & -> & L & SO).
    assert (KK : k' = k). { rewrite Es in MJ. unfold major in MJ. cbn [b_is_steep b_x] in MJ. destruct st; cbn [fst snd] in MJ; lia. }
    subst k'. pose proof (trunc_near X) as (NX & _ & _). apply Rabs_def2 in NX.
    assert (KX : IZR (X0 + k) = IZR (Ztrunc X)) by (f_equal; unfold k; lia).
    apply CL; [rewrite KX; fold X; apply Rabs_le; lra|].
    eapply Rle_trans; [apply (MINOR k m t 2); try assumption; try lra|lra].
    unfold k. rewrite minus_IZR. unfold X in *. apply Rabs_le. lra.
Qed.

Theorem float_line a b :
  is_finite (fst a) = true -> is_finite (snd a) = true -> is_finite (fst b) = true -> is_finite (snd b) = true ->
  Rabs (B2R (fst a)) <= 32768 -> Rabs (B2R (snd a)) <= 32768 -> Rabs (B2R (fst b)) <= 32768 -> Rabs (B2R (snd b)) <= 32768 ->
  exists pts, bres_points a b = Ok pts /\ follows a b pts.
Proof.
  intros F1 F2 F3 F4 B1 B2 B3 B4.
  assert (MD : forall x : f32, is_finite x = true -> Rabs (B2R x) <= 32768 -> moderate x).
  { intros x Fx Bx. split; [exact Fx|]. eapply Rle_trans; [exact Bx|]. apply IZR_le. lia. }
  destruct (moderate_points a b) as (pts & E); [apply MD; assumption..|]. exists pts. split; [exact E|].
  rewrite bres_points_raw in E. destruct a as (ax, ay), b as (bx, by_). cbn [fst snd] in *. cbv zeta in E.
  assert (SW : forall p q : f32 * f32, follows p q pts -> follows q p pts).
  { intros p q (G1 & G2).
    assert (AL : forall t, along q p t = along p q (1 - t)) by (intros t; unfold along; f_equal; ring).
    split.
    - refine (Forall_impl _ _ G1). intros r (t & Ht & C). exists (1 - t). split; [lra|]. rewrite AL. replace (1 - (1 - t)) with t by ring. exact C.
    - intros t Ht. destruct (G2 (1 - t) ltac:(lra)) as (r & I & C). exists r. split; [exact I|]. rewrite AL. exact C. }
  destruct (flt (fabs (fsub bx ax)) (fabs (fsub by_ ay))) eqn:ST.
  - assert (ST' : flt (fabs (fsub by_ ay)) (fabs (fsub bx ax)) = false).
    { assert (BG : forall x y : f32, is_finite x = true -> is_finite y = true -> Rabs (B2R x) <= 32768 -> Rabs (B2R y) <= 32768 -> is_finite (fabs (fsub x y)) = true).
      { intros x y Fx Fy Bx By. rewrite (proj1 (abs_R _)). apply (fsub_R 24 128 x y Fx Fy). apply Rle_trans with 65536; [|exact (big32 65536 ltac:(lia))].
        apply Rabs_le_inv in Bx, By. apply Rabs_le. lra. }
      rewrite flt_R in ST by (apply BG; assumption). rewrite flt_R by (apply BG; assumption).
      destruct (Rlt_bool_spec (B2R (fabs (fsub bx ax))) (B2R (fabs (fsub by_ ay)))); [|discriminate]. apply Rlt_bool_false. lra. }
    destruct (flt by_ ay) eqn:FL; rewrite flt_R in FL by assumption.
    + destruct (Rlt_bool_spec (B2R by_) (B2R ay)); [|discriminate]. apply SW.
      apply (normal_line by_ bx ay ax true pts); try assumption; [lra|].
      rewrite (abs_sub_sym ay by_), (abs_sub_sym ax bx) by assumption. exact ST'.
    + destruct (Rlt_bool_spec (B2R by_) (B2R ay)); [discriminate|].
      apply (normal_line ay ax by_ bx true pts); try assumption.
  - destruct (flt bx ax) eqn:FL; rewrite flt_R in FL by assumption.
    + destruct (Rlt_bool_spec (B2R bx) (B2R ax)); [|discriminate]. apply SW.
      apply (normal_line bx by_ ax ay false pts); try assumption; [lra|].
      rewrite (abs_sub_sym ay by_), (abs_sub_sym ax bx) by assumption. exact ST.
    + destruct (Rlt_bool_spec (B2R bx) (B2R ax)); [discriminate|].
      apply (normal_line ax ay bx by_ false pts); try assumption.
Qed.

(** ** any line that does not overflow is connected *)
Lemma run_chain n : forall s pts, Z.abs (b_y_step s) = 1%Z -> bres_run n s = Ok pts ->
  chain king_move pts /\ forall p rest, pts = p :: rest -> p = (if b_is_steep s then (b_y s, b_x s) else (b_x s, b_y s)).
Proof.
  induction n as [|n IH]; intros s pts HS; [discriminate|]. rewrite bres_run_S.
  destruct (bres_next s) as [[[p s']|]| |] eqn:EN; cbn [bind]; try discriminate.
  - destruct (bres_run n s') as [ps| |] eqn:ER; cbn [bind]; try discriminate. intros [= <-].
    apply bres_next_inv in EN. destruct EN as (N1 & N2 & N3 & N4 & N5 & N6 & N7).
    destruct (IH s' ps) as (C & H); [rewrite N5; exact HS|exact ER|]. split; [|intros q rest [= <- _]; exact N6].
    destruct ps as [|q rest]; [exact I|]. split; [|exact C]. rewrite (H q rest eq_refl), N6, N4. unfold king_move. destruct (b_is_steep s); cbn [fst snd]; lia.
  - intros [= <-]. split; [exact I|]. intros p rest K. discriminate.
Qed.
Lemma points_chain a b pts : bres_points a b = Ok pts -> chain king_move pts.
Proof.
  rewrite bres_points_raw. cbv zeta. intros E. refine (proj1 (run_chain _ _ _ _ E)).
  assert (K : forall u0 v0 u1 v1 st, Z.abs (b_y_step (bres_raw u0 v0 u1 v1 st)) = 1%Z) by (intros; unfold bres_raw; cbn [b_y_step]; destruct (flt v0 v1); reflexivity).
  destruct (flt (if flt _ _ then _ else _) _); apply K.
Qed.
