(** Rays of a rendered histogram are close to the ideal ones. *)
From Flocq Require Import Core BinarySingleNaN.
From Coq Require Import Reals Lra.
From Verif Require Import Base BaseProofs RasterProofs Float FloatProofs FloatErr LineModel LineSpec LineProofs ClampModel HogCellsModel HogCellsProofs MinRectNum RenderModel RenderSpec RenderProofs LineFloatSpec LineFloat RaySpec.
Local Ltac Zify.zify_post_hook ::= idtac.
Open Scope R_scope.
Local Notation rn := (rnd 24 128).
Local Notation u := (/ 16777216).
Local Notation et := (/ 1152921504606846976).

Lemma big80 r : Rabs r <= 1000000000 -> Rabs r <= bpow radix2 (128 - 1).
Proof. intros H. pose proof f32_big. lra. Qed.

(** a float within d of r, given a bound on r *)
Definition ap (x : f32) (r d : R) : Prop := is_finite x = true /\ Rabs (B2R x - r) <= d.

Lemma dir_err signed n b : (1 <= n <= 2 ^ 20)%Z -> (0 <= b < n)%Z ->
  ap (bucket_direction signed n b) (ideal_direction signed n b) (/ 500000) /\
  ap (fadd (bucket_direction signed n b) pi32) (ideal_direction signed n b + PI) (/ 300000) /\
  0 <= ideal_direction signed n b <= 7.
Proof.
  intros Hn Hb. unfold bucket_direction, ideal_direction.
  destruct HogCellsProofs.pi32_R as (FP & RP). pose proof pi_bounds as PB. unfold P32 in RP, PB.
  destruct (int32_R 2 ltac:(lia)) as (F2 & R2). destruct (int32_R b ltac:(lia)) as (Fb & Rb). destruct (int32_R n ltac:(lia)) as (Fn & Rn).
  destruct (fmul_R 24 128 (of_int 2) pi32 F2 FP) as (Fm & Rm). { apply big80. rewrite R2, RP. apply Rabs_le. lra. }
  set (A := if signed then 2 * PI else PI).
  assert (HA : exists a : f32, (if signed then fmul (of_int 2) pi32 else pi32) = a /\ is_finite a = true /\ Rabs (B2R a - A) <= / 1000000 /\ 0 <= B2R a <= 7).
  { unfold A. destruct signed; eexists; split; try reflexivity; split; try assumption.
    - rewrite Rm, R2, RP. pose proof (f32_err (2 * (13176795 / 4194304))) as E. rewrite (Rabs_pos_eq (2 * (13176795 / 4194304))) in E by lra. apply Rabs_le_inv in E. split; [apply Rabs_le; lra|lra].
    - rewrite RP. split; [apply Rabs_le|]; lra. }
  destruct HA as (a & -> & Fa & Ea & Ba).
  assert (PA : 0 <= A <= 7) by (unfold A; destruct signed; lra). clearbody A.
  assert (Pb : 0 <= IZR b <= 1048576) by (split; apply IZR_le; lia). assert (Pn : 1 <= IZR n) by (apply IZR_le; lia).
  assert (Pbn : IZR b <= IZR n) by (apply IZR_le; lia).
  set (v := / IZR n). assert (V : 0 < v <= 1). { unfold v. split; [apply Rinv_0_lt_compat; lra|]. rewrite <- Rinv_1. apply Rinv_le_contravar; lra. }
  set (q := IZR b * v). assert (Q : 0 <= q <= 1).
  { unfold q. split; [apply Rmult_le_pos; lra|]. apply Rle_trans with (IZR n * v); [apply Rmult_le_compat_r; lra|]. unfold v. rewrite Rinv_r by lra. lra. }
  assert (AB : 0 <= B2R a * IZR b <= 7 * IZR b). { split; [apply Rmult_le_pos; lra|apply Rmult_le_compat_r; lra]. }
  destruct (fmul_R 24 128 a (of_int b) Fa Fb) as (Fp & Rp). { apply big80. rewrite Rb. rewrite Rabs_pos_eq by lra. lra. }
  rewrite Rb in Rp. pose proof (f32_err (B2R a * IZR b)) as Ep. rewrite <- Rp in Ep. rewrite (Rabs_pos_eq (B2R a * IZR b)) in Ep by lra.
  set (p := fmul a (of_int b)) in *. clearbody p.
  assert (Epv : Rabs (B2R p * v - B2R a * q) <= / 2000000).
  { replace (B2R p * v - B2R a * q) with ((B2R p - B2R a * IZR b) * v) by (unfold q; ring). rewrite Rabs_mult, (Rabs_pos_eq v) by lra.
    apply Rle_trans with ((7 * IZR b * u + et) * v); [apply Rmult_le_compat_r; lra|].
    replace ((7 * IZR b * u + et) * v) with (7 * u * q + et * v) by (unfold q; ring). lra. }
  assert (Aq : 0 <= B2R a * q <= 7). { split; [apply Rmult_le_pos; lra|]. replace 7 with (7 * 1) by ring. apply Rmult_le_compat; lra. }
  apply Rabs_le_inv in Epv. assert (Ediv : B2R p / B2R (of_int n : f32) = B2R p * v) by (rewrite Rn; reflexivity).
  destruct (fdiv_R 24 128 p (of_int n) Fp) as (Fd & Rd). { rewrite Rn. lra. } { apply big80. rewrite Ediv. apply Rabs_le. lra. }
  rewrite Ediv in Rd. pose proof (f32_err (B2R p * v)) as Ed. rewrite <- Rd in Ed.
  assert (AP : Rabs (B2R p * v) <= 8) by (apply Rabs_le; lra).
  set (d := fdiv p (of_int n)) in *. clearbody d.
  assert (E1 : Rabs ((B2R a - A) * q) <= / 1000000).
  { rewrite Rabs_mult, (Rabs_pos_eq q) by lra. apply Rle_trans with (/ 1000000 * 1); [apply Rmult_le_compat; try lra; apply Rabs_pos|lra]. }
  assert (Eid : A * IZR b / IZR n = A * q) by (unfold q, v; field; lra). rewrite Eid.
  apply Rabs_le_inv in Ed, E1. assert (Qv : (B2R a - A) * q = B2R a * q - A * q) by ring. rewrite Qv in E1.
  assert (D1 : Rabs (B2R d - A * q) <= / 500000) by (apply Rabs_le; lra).
  assert (AQ : 0 <= A * q <= 7). { split; [apply Rmult_le_pos; lra|]. replace 7 with (7 * 1) by ring. apply Rmult_le_compat; lra. }
  split; [split; [exact Fd|exact D1]|]. split; [|exact AQ]. apply Rabs_le_inv in D1.
  destruct (fadd_R 24 128 d pi32 Fd FP) as (Fs & Rs). { apply big80. rewrite RP. apply Rabs_le. lra. }
  split; [exact Fs|]. rewrite Rs. pose proof (f32_err (B2R d + B2R pi32)) as Es. rewrite RP in *.
  assert (Rabs (B2R d + 13176795 / 4194304) <= 11) by (apply Rabs_le; lra). apply Rabs_le_inv in Es. apply Rabs_le. lra.
Qed.

Section Rays.
  Context (fsin fcos : f32 -> f32) (HA : accurate_trig fsin fcos).

  Lemma end_err w h theta t : (1 <= w <= 16384)%Z -> (1 <= h <= 16384)%Z -> ap theta t (/ 300000) -> 0 <= t <= 12 ->
    let e := ray_end fsin fcos w h theta in
    is_finite (fst e) = true /\ is_finite (snd e) = true /\ Rabs (B2R (fst e)) <= 32768 /\ Rabs (B2R (snd e)) <= 32768 /\
    Rabs (B2R (fst e) - fst (ideal_ray w h t 1)) <= 1 / 10 /\ Rabs (B2R (snd e) - snd (ideal_ray w h t 1)) <= 1 / 10.
  Proof.
    intros Hw Hh (Ft & Et) Ht. unfold ray_end, ideal_ray. cbv zeta. cbn [fst snd].
    apply Rabs_le_inv in Et. destruct (HA theta Ft) as (FS & ES & FC & EC); [apply Rabs_le; lra|].
    assert (TS : Rabs (B2R (fsin theta) - sin t) <= / 250000).
    { pose proof (sin_lip (B2R theta) t) as L. assert (Rabs (B2R theta - t) <= / 300000) by (apply Rabs_le; lra).
      apply Rabs_le_inv in ES. assert (L' : Rabs (sin (B2R theta) - sin t) <= / 300000) by lra. apply Rabs_le_inv in L'. apply Rabs_le. lra. }
    assert (TC : Rabs (B2R (fcos theta) - cos t) <= / 250000).
    { pose proof (cos_lip (B2R theta) t) as L. assert (Rabs (B2R theta - t) <= / 300000) by (apply Rabs_le; lra).
      apply Rabs_le_inv in EC. assert (L' : Rabs (cos (B2R theta) - cos t) <= / 300000) by lra. apply Rabs_le_inv in L'. apply Rabs_le. lra. }
    pose proof (SIN_bound t) as SB. pose proof (COS_bound t) as CB.
    set (M := Z.max w h). assert (HM : (1 <= M <= 16384)%Z) by (unfold M; lia). assert (RM : 1 <= IZR M <= 16384) by (split; apply IZR_le; lia).
    destruct (int32_R M ltac:(lia)) as (FM & RMM). destruct (int32_R 2 ltac:(lia)) as (F2 & R2).
    destruct (fdiv_R 24 128 (of_int M) (of_int 2) FM) as (Fr & Rr). { rewrite R2. lra. } { apply big80. rewrite RMM, R2. apply Rabs_le. lra. }
    rewrite RMM, R2 in Rr. pose proof (f32_err (IZR M / 2)) as Er. rewrite <- Rr in Er. rewrite (Rabs_pos_eq (IZR M / 2)) in Er by lra. apply Rabs_le_inv in Er.
    set (r := fdiv (of_int M) (of_int 2)) in *. clearbody r.
    assert (G : forall (c : Z) (s k : f32) (z : R), (0 <= c <= 8192)%Z -> is_finite s = true -> -1 <= z <= 1 -> Rabs (B2R s - z) <= / 250000 ->
      is_finite k = true -> Rabs (B2R k) = B2R r ->
      is_finite (fadd (of_int c) (fmul k s)) = true /\ Rabs (B2R (fadd (of_int c) (fmul k s))) <= 32768 /\ Rabs (B2R (fadd (of_int c) (fmul k s)) - (IZR c + B2R k * z)) <= 1 / 20).
    { intros c s k z Hc Fs Hz Es Fk Ek. destruct (int32_R c ltac:(lia)) as (Fc & Rc). assert (BC : 0 <= IZR c <= 8192) by (split; apply IZR_le; lia).
      assert (BS : Rabs (B2R s) <= 2) by (apply Rabs_le_inv in Es; apply Rabs_le; lra).
      assert (BP : Rabs (B2R k * B2R s) <= 16400). { rewrite Rabs_mult, Ek. apply Rle_trans with (8200 * 2); [apply Rmult_le_compat; try lra; apply Rabs_pos|lra]. }
      destruct (fmul_R 24 128 k s Fk Fs) as (Fp & Rp); [apply big80; lra|]. pose proof (f32_err (B2R k * B2R s)) as Ep. rewrite <- Rp in Ep.
      assert (BP2 : Rabs (B2R k * z) <= 8200). { rewrite Rabs_mult, Ek. assert (Rabs z <= 1) by (apply Rabs_le; lra). apply Rle_trans with (8200 * 1); [apply Rmult_le_compat; try lra; apply Rabs_pos|lra]. }
      assert (DP : Rabs (B2R k * (B2R s - z)) <= 1 / 30). { rewrite Rabs_mult, Ek. apply Rle_trans with (8200 * / 250000); [apply Rmult_le_compat; try lra; apply Rabs_pos|lra]. }
      replace (B2R k * (B2R s - z)) with (B2R k * B2R s - B2R k * z) in DP by ring.
      set (P := fmul k s) in *. clearbody P. pose proof BP as BP0. apply Rabs_le_inv in Ep, DP, BP2, BP.
      destruct (fadd_R 24 128 (of_int c) P Fc Fp) as (Fa & Ra). { apply big80. rewrite Rc. apply Rabs_le. lra. }
      rewrite Rc in Ra. pose proof (f32_err (IZR c + B2R P)) as Ea. rewrite <- Ra in Ea. assert (Rabs (IZR c + B2R P) <= 32000) by (apply Rabs_le; lra).
      split; [exact Fa|]. apply Rabs_le_inv in Ea. split; apply Rabs_le; lra. }
    assert (HWH : forall z, (1 <= z <= 16384)%Z -> (0 <= z / 2 <= 8192)%Z).
    { intros z Hz. split; [apply Z.div_pos; lia|]. apply Z.div_le_upper_bound; lia. }
    assert (AR : Rabs (B2R r) = B2R r) by (apply Rabs_pos_eq; lra).
    destruct (G (w / 2)%Z (fsin theta) (fneg r) (sin t) (HWH w Hw) FS SB TS) as (A1 & A2 & A3).
    { unfold fneg. rewrite is_finite_Bopp. exact Fr. } { rewrite fneg_B2R, Rabs_Ropp. exact AR. }
    destruct (G (h / 2)%Z (fcos theta) r (cos t) (HWH h Hh) FC CB TC Fr AR) as (B1 & B2 & B3).
    split; [exact A1|]. split; [exact B1|]. split; [exact A2|]. split; [exact B2|]. rewrite fneg_B2R in A3.
    assert (DS : Rabs ((B2R r - IZR M / 2) * sin t) <= 1 / 1000).
    { rewrite Rabs_mult. assert (Rabs (sin t) <= 1) by (apply Rabs_le; lra). apply Rle_trans with (1 / 1000 * 1); [apply Rmult_le_compat; try apply Rabs_pos; [apply Rabs_le; lra|lra]|lra]. }
    assert (DC : Rabs ((B2R r - IZR M / 2) * cos t) <= 1 / 1000).
    { rewrite Rabs_mult. assert (Rabs (cos t) <= 1) by (apply Rabs_le; lra). apply Rle_trans with (1 / 1000 * 1); [apply Rmult_le_compat; try apply Rabs_pos; [apply Rabs_le; lra|lra]|lra]. }
    rewrite Rmult_minus_distr_r in DS, DC. apply Rabs_le_inv in DS, DC, A3, B3. fold M. rewrite Rmult_1_l.
    split; apply Rabs_le; lra.
  Qed.

  Lemma ray_close w h theta t : (1 <= w <= 16384)%Z -> (1 <= h <= 16384)%Z -> ap theta t (/ 300000) -> 0 <= t <= 12 -> ray_near fsin fcos w h theta t.
  Proof.
    intros Hw Hh Ha Ht. destruct (end_err w h theta t Hw Hh Ha Ht) as (F1 & F2 & B1 & B2 & E1 & E2).
    set (e := ray_end fsin fcos w h theta) in *.
    assert (C : forall z, (1 <= z <= 16384)%Z -> is_finite (of_int (z / 2) : f32) = true /\ B2R (of_int (z / 2) : f32) = IZR (z / 2) /\ Rabs (IZR (z / 2)) <= 32768).
    { intros z Hz. assert (0 <= z / 2 <= 8192)%Z by (split; [apply Z.div_pos; lia|apply Z.div_le_upper_bound; lia]).
      destruct (int32_R (z / 2) ltac:(lia)) as (F & R). split; [exact F|]. split; [exact R|]. rewrite <- abs_IZR. apply IZR_le. lia. }
    destruct (C w Hw) as (Fw & Rw & Bw). destruct (C h Hh) as (Fh & Rh & Bh).
    destruct (float_line (middle w h) e) as (pts & EP & P1 & P2); try assumption; try (cbn [middle fst snd]; first [rewrite Rw|rewrite Rh]; assumption).
    assert (IN : forall x y, on_ray fsin fcos w h theta x y = true <-> In (x, y) pts).
    { intros x y. unfold on_ray, on_line. fold e. rewrite EP. rewrite existsb_exists. split.
      - intros ((px, py) & I & K). cbn [fst snd] in K. apply andb_prop in K. destruct K as (K1 & K2). apply Z.eqb_eq in K1, K2. subst. exact I.
      - intros I. exists (x, y). split; [exact I|]. cbn [fst snd]. rewrite !Z.eqb_refl. reflexivity. }
    assert (AL : forall d p s, 0 <= s <= 1 -> close d p (along (middle w h) e s) -> close (d + 1 / 10) p (ideal_ray w h t s)).
    { intros d p s Hs (C1 & C2). unfold along, middle in C1, C2. cbn [fst snd] in C1, C2. rewrite Rw in C1. rewrite Rh in C2.
      unfold ideal_ray in *. cbn [fst snd] in *. rewrite !Rmult_1_l in E1, E2.
      set (rs := IZR (Z.max w h) / 2 * sin t) in *. set (rc := IZR (Z.max w h) / 2 * cos t) in *.
      assert (X1 : Rabs (s * (B2R (fst e) - (IZR (w / 2) - rs))) <= 1 / 10).
      { rewrite Rabs_mult, (Rabs_pos_eq s) by lra. apply Rle_trans with (1 * (1 / 10)); [apply Rmult_le_compat; try lra; apply Rabs_pos|lra]. }
      assert (X2 : Rabs (s * (B2R (snd e) - (IZR (h / 2) + rc))) <= 1 / 10).
      { rewrite Rabs_mult, (Rabs_pos_eq s) by lra. apply Rle_trans with (1 * (1 / 10)); [apply Rmult_le_compat; try lra; apply Rabs_pos|lra]. }
      split; cbn [fst snd].
      - replace (s * (B2R (fst e) - (IZR (w / 2) - rs))) with (s * (B2R (fst e) - IZR (w / 2)) + s * rs) in X1 by ring.
        apply Rabs_le_inv in X1, C1. apply Rabs_le. lra.
      - replace (s * (B2R (snd e) - (IZR (h / 2) + rc))) with (s * (B2R (snd e) - IZR (h / 2)) - s * rc) in X2 by ring.
        apply Rabs_le_inv in X2, C2. apply Rabs_le. lra. }
    split.
    - intros x y O. apply IN in O. rewrite Forall_forall in P1. destruct (P1 _ O) as (s & Hs & K). exists s. split; [exact Hs|].
      apply AL in K; [|exact Hs]. replace (53 / 20) with (51 / 20 + 1 / 10) by lra. exact K.
    - intros s Hs. destruct (P2 s Hs) as ((x, y) & I & K). exists x, y. split; [apply IN; exact I|].
      apply AL in K; [|exact Hs]. replace (73 / 20) with (71 / 20 + 1 / 10) by lra. exact K.
  Qed.
End Rays.
