From Coq Require Import Reals Lra Psatz.
From Flocq Require Import Core BinarySingleNaN.
From Verif Require Import Base BaseProofs Float FloatProofs FloatErr GeometryModel GeometrySpec GeometryProofs HullProofs AreaProofs ApproxSpec.
Local Ltac Zify.zify_post_hook ::= idtac.

Section Near.
  Context (near : Z * Z -> Z * Z -> Z * Z -> Prop).
  Lemma simp_app l1 r1 m l2 r2 : simplifies near (l1 ++ [m]) (r1 ++ [m]) -> simplifies near (m :: l2) (m :: r2) ->
    simplifies near (l1 ++ m :: l2) (r1 ++ m :: r2).
  Proof.
    intros H1 H2. remember (l1 ++ [m]) as c eqn:Ec. remember (r1 ++ [m]) as k eqn:Ek.
    revert l1 r1 Ec Ek. induction H1 as [p|p dr q rest kept Hn Hs IH]; intros l1 r1 Ec Ek.
    - destruct l1 as [|x l1]; [|destruct l1; discriminate]. destruct r1 as [|y r1]; [|destruct r1; discriminate].
      cbn [app]. exact H2.
    - destruct r1 as [|x r1]; [discriminate|]. cbn [app] in Ek. injection Ek as <- Ek.
      assert (Eq : exists rest', q :: rest = rest' ++ [m] /\ l1 = p :: dr ++ rest').
      { destruct (exists_last (l := q :: rest)) as (r' & z & E); [discriminate|].
        rewrite E in Ec. rewrite app_comm_cons, app_assoc in Ec. apply app_inj_tail in Ec. destruct Ec as [E1 ->].
        exists r'. split; auto. }
      destruct Eq as (rest' & E1 & ->).
      specialize (IH rest' r1 E1 Ek).
      assert (X : exists X, rest' ++ m :: l2 = q :: X).
      { destruct rest' as [|x rest']; cbn [app] in *; injection E1 as -> _; eauto. }
      assert (Y : exists Y, r1 ++ m :: r2 = q :: Y).
      { destruct r1 as [|x r1]; cbn [app] in *; injection Ek as -> _; eauto. }
      destruct X as (X & EX). destruct Y as (Y & EY). rewrite EX, EY in IH.
      cbn [app]. rewrite <- app_assoc, EX, EY. now apply simp_step.
  Qed.
  Lemma simp_last c k : simplifies near c k -> c <> [] /\ k <> [] /\ forall d, List.last k d = List.last c d.
  Proof.
    induction 1 as [p|p dr q rest kept Hn Hs (IH1 & IH2 & IH3)].
    - repeat split; discriminate.
    - split; [discriminate|]. split; [discriminate|]. intros d.
      change (List.last (p :: q :: kept) d) with (List.last (q :: kept) d). rewrite IH3.
      destruct (exists_last IH1) as (l' & x & ->). rewrite app_comm_cons, app_assoc. now rewrite !last_snoc.
  Qed.
  Lemma simp_two c p q : simplifies near c [p; q] -> exists dr, c = p :: dr ++ [q] /\ forall r, In r dr -> near r p q.
  Proof.
    intros H. remember [p; q] as k eqn:Ek. destruct H as [|p' dr q' rest kept Hn Hs]; [discriminate|].
    injection Ek as -> -> ->. exists dr. split; auto. f_equal. f_equal.
    remember (q :: rest) as c' eqn:Ec. remember [q] as k eqn:Ek. destruct Hs; [now injection Ec as -> <-|discriminate].
  Qed.
  Lemma simp_head c k : simplifies near c k -> forall d, List.hd d k = List.hd d c.
  Proof. destruct 1; reflexivity. Qed.
End Near.

(** ** The measured distance *)
Definition small (l : list (Z * Z)) : Prop := forall p, In p l -> Z.abs (fst p) <= 2 ^ 24 /\ Z.abs (snd p) <= 2 ^ 24.

Lemma div_err (N : Z) (s s' : R) (d : R) : (1 <= N)%Z -> (IZR N <= 4503599627370496)%R ->
  (1 <= s <= 67108864)%R -> (Rabs (s' - s) <= s / 9007199254740992 + / 1267650600228229401496703205376)%R ->
  d = rnd 53 1024 (IZR N / s') -> (IZR N / s <= d * (1 + / 1125899906842624))%R.
Proof.
  intros HN HN2 Hs He ->. apply Rabs_le_inv in He.
  assert (N1 : (1 <= IZR N)%R) by (apply IZR_le; lia).
  assert (S1 : (/ 2 < s')%R) by lra.
  assert (S2 : (s' <= s * (1 + / 4503599627370496))%R) by lra.
  assert (S3 : (s' <= 134217728)%R) by lra.
  pose proof (f64_err (IZR N / s')) as E. set (q := (IZR N / s')%R) in *.
  assert (Q0 : (/ 134217728 <= q)%R).
  { unfold q. apply Rmult_le_reg_r with s'; [lra|]. unfold Rdiv. rewrite Rmult_assoc, Rinv_l by lra. nra. }
  assert (QS : (IZR N / s <= q * (1 + / 4503599627370496))%R).
  { unfold q. apply Rmult_le_reg_r with s; [lra|]. unfold Rdiv at 1. rewrite Rmult_assoc, Rinv_l by lra.
    replace (IZR N / s' * (1 + / 4503599627370496) * s)%R with (IZR N * (s * (1 + / 4503599627370496)) / s')%R by (field; lra).
    apply Rmult_le_reg_r with s'; [lra|]. unfold Rdiv. rewrite Rmult_assoc, (Rmult_assoc _ (/ s')), Rinv_l by lra.
    assert (0 <= IZR N)%R by lra. nra. }
  rewrite (Rabs_right q) in E by lra. apply Rabs_le_inv in E.
  set (d := rnd 53 1024 q) in *.
  clearbody d. clear He S2 S3 S1. assert (D : (q * (1 - / 4503599627370496) <= d)%R) by lra.
  lra.
Qed.

Lemma ab_add a b A B C : Z.abs a <= A -> Z.abs b <= B -> A + B <= C -> Z.abs (a + b) <= C.
Proof. lia. Qed.
Lemma ab_sub a b A B C : Z.abs a <= A -> Z.abs b <= B -> A + B <= C -> Z.abs (a - b) <= C.
Proof. lia. Qed.
Ltac ab1 := lazymatch goal with
  | H : Z.abs ?a <= _ |- Z.abs ?a <= _ => exact H
  | |- Z.abs (_ + _) <= _ => eapply ab_add; [ab1|ab1|apply Z.le_refl]
  | |- Z.abs (_ - _) <= _ => eapply ab_sub; [ab1|ab1|apply Z.le_refl]
  end.
Ltac ab := lazymatch goal with |- ?a <= ?b =>
  refine (Z.le_trans a _ b _ _); [ab1|vm_compute; congruence] end.

Section Dist.
  Context (p q r : Z * Z) (Hs : small [p; q; r]).
  Notation N := (turn p q r).
  Notation S := ((fst p - fst q) * (fst p - fst q) + (snd p - snd q) * (snd p - snd q)).
  Notation dd := (distance_from_point (line_from_points (to_f64 p) (to_f64 q)) (to_f64 r)).

  Lemma measured : p <> q -> is_finite dd = true /\ (0 <= B2R dd)%R /\ (N = 0 -> B2R dd = 0%R) /\
    (dist_chord r p q <= B2R dd * (1 + / 1125899906842624))%R.
  Proof.
    intros Npq.
    destruct (Hs p) as [P1 P2]; [auto with datatypes|]. destruct (Hs q) as [Q1 Q2]; [auto with datatypes|].
    destruct (Hs r) as [R1 R2]; [auto with datatypes|].
    unfold distance_from_point, line_from_points, to_f64, sq. cbn [la lb lc fst snd].
    assert (D0 : dyk 53 1024 0) by (split; lia).
    assert (I : forall z, Z.abs z <= 2 ^ 24 -> dy 0 z (of_int z : f64)) by (intros; apply dy_int; [exact D0|lia]).
    assert (M : forall a b (x y : f64) A B, dy 0 a x -> dy 0 b y -> Z.abs a <= A -> Z.abs b <= B -> A * B <= 2 ^ 53 -> dy 0 (a * b) (fmul x y)).
    { intros a b x y A B Ha Hb HA HB HAB. change 0 with (0 + 0). apply dy_mul; [exact D0| |exact Ha|exact Hb].
      rewrite Z.abs_mul. etransitivity; [|exact HAB]. apply Z.mul_le_mono_nonneg; lia. }
    set (fa := fsub (of_int (snd p)) (of_int (snd q)) : f64). set (fb := fsub (of_int (fst q)) (of_int (fst p)) : f64).
    assert (A : dy 0 (snd p - snd q) fa) by (apply dy_sub; auto; ab).
    assert (B : dy 0 (fst q - fst p) fb) by (apply dy_sub; auto; ab).
    assert (W : forall a b A B, Z.abs a <= A -> Z.abs b <= B -> Z.abs (a * b) <= A * B).
    { intros. rewrite Z.abs_mul. apply Z.mul_le_mono_nonneg; lia. }
    pose proof (W _ _ _ _ P1 Q2) as W1. pose proof (W _ _ _ _ Q1 P2) as W2.
    assert (A' : Z.abs (snd p - snd q) <= 2 ^ 25) by ab. assert (B' : Z.abs (fst q - fst p) <= 2 ^ 25) by ab.
    pose proof (W _ _ _ _ A' R1) as W3. pose proof (W _ _ _ _ B' R2) as W4.
    pose proof (W _ _ _ _ A' A') as W5. pose proof (W _ _ _ _ B' B') as W6.
    change (2 ^ 24 * 2 ^ 24) with (2 ^ 48) in *. change (2 ^ 25 * 2 ^ 24) with (2 ^ 49) in *. change (2 ^ 25 * 2 ^ 25) with (2 ^ 50) in *.
    set (fc := fsub (fmul (of_int (fst p)) (of_int (snd q))) (fmul (of_int (fst q)) (of_int (snd p))) : f64).
    assert (C : dy 0 (fst p * snd q - fst q * snd p) fc).
    { apply dy_sub; [exact D0|ab| |]; apply (M _ _ _ _ (2 ^ 24) (2 ^ 24)); auto; vm_compute; congruence. }
    assert (T : fst p * snd q - fst q * snd p + (snd p - snd q) * fst r + (fst q - fst p) * snd r = N) by (unfold turn; ring).
    assert (TB : Z.abs N <= 2 ^ 51) by (rewrite <- T; ab).
    set (fn := fadd (fadd (fmul fa (of_int (fst r))) (fmul fb (of_int (snd r)))) fc : f64).
    assert (HN : dy 0 N fn).
    { rewrite <- T. replace (fst p * snd q - fst q * snd p + (snd p - snd q) * fst r + (fst q - fst p) * snd r)
        with ((snd p - snd q) * fst r + (fst q - fst p) * snd r + (fst p * snd q - fst q * snd p)) by ring.
      apply dy_add; [exact D0|ab| |exact C]. apply dy_add; [exact D0|ab| |]; apply (M _ _ _ _ (2 ^ 25) (2 ^ 24)); auto; vm_compute; congruence. }
    set (fs := fadd (fmul fa fa) (fmul fb fb) : f64).
    assert (HS : dy 0 S fs).
    { replace S with ((snd p - snd q) * (snd p - snd q) + (fst q - fst p) * (fst q - fst p)) by ring.
      apply dy_add; [exact D0|ab| |]; apply (M _ _ _ _ (2 ^ 25) (2 ^ 25)); auto; vm_compute; congruence. }
    apply dy_abs in HN. clearbody fn fs. destruct HN as [Fn Rn]. destruct HS as [Fs Rs].
    change (bpow radix2 0) with 1%R in Rn, Rs. rewrite Rmult_1_r in Rn, Rs.
    assert (SP : 1 <= S <= 2 ^ 51).
    { replace S with ((snd p - snd q) * (snd p - snd q) + (fst q - fst p) * (fst q - fst p)) by ring.
      assert (~ (fst p = fst q /\ snd p = snd q)). { intros [E1 E2]. apply Npq. destruct p, q; cbn [fst snd] in *; congruence. }
      split; [|apply Z.abs_le; ab]. clear - H. assert (snd p - snd q <> 0 \/ fst q - fst p <> 0) by lia.
      pose proof (Z.square_nonneg (snd p - snd q)). pose proof (Z.square_nonneg (fst q - fst p)). destruct H0; nia. }
    destruct (fsqrt_R 53 1024 fs Fs) as (Fq & Rq). { rewrite Rs. apply IZR_le. lia. }
    rewrite Rs in Rq. set (sR := sqrt (IZR S)) in *.
    assert (S1 : (1 <= sR)%R). { unfold sR. rewrite <- sqrt_1. apply sqrt_le_1_alt. apply IZR_le. lia. }
    assert (S2 : (sR <= 67108864)%R).
    { unfold sR. rewrite <- (sqrt_square 67108864) by lra. apply sqrt_le_1_alt. rewrite <- mult_IZR. apply IZR_le. clear - SP. lia. }
    pose proof (f64_err sR) as Eq. rewrite <- Rq in Eq. rewrite (Rabs_right sR) in Eq by lra.
    assert (Eq' := Eq). apply Rabs_le_inv in Eq'.
    assert (NB : (IZR (Z.abs N) <= 2251799813685248)%R) by (apply IZR_le; lia).
    assert (N0 : (0 <= IZR (Z.abs N))%R) by (apply IZR_le, Z.abs_nonneg).
    clear - Npq Fn Rn Fs Rs SP Fq Rq S1 S2 Eq Eq' NB N0 TB.
    destruct (fdiv_R 53 1024 (fabs fn) (fsqrt fs) Fn) as (Fd & Rd).
    { lra. }
    { rewrite Rn. apply Rle_trans with (bpow radix2 60); [|apply bpow_le; lia].
      change (bpow radix2 60) with 1152921504606846976%R.
      rewrite Rabs_right.
      - apply Rmult_le_reg_r with (B2R (fsqrt fs)); [lra|]. unfold Rdiv. rewrite Rmult_assoc, Rinv_l by lra. nra.
      - apply Rle_ge. unfold Rdiv. apply Rmult_le_pos; [lra|]. left. apply Rinv_0_lt_compat. lra. }
    rewrite Rn in Rd.
    assert (Dn : (0 <= B2R (fdiv (fabs fn) (fsqrt fs)))%R).
    { rewrite Rd. rewrite <- (rnd_0 53 1024). apply rnd_le; try reflexivity.
      unfold Rdiv. apply Rmult_le_pos; [lra|]. left. apply Rinv_0_lt_compat. lra. }
    split; [exact Fd|]. split; [exact Dn|]. split.
    - intros E. rewrite Rd, E. change (Z.abs 0) with 0. unfold Rdiv. rewrite Rmult_0_l. apply rnd_0; reflexivity.
    - unfold dist_chord. destruct ((fst p =? fst q) && (snd p =? snd q)) eqn:E.
      { exfalso. apply Npq. destruct p, q; cbn [fst snd] in *. f_equal; lia. }
      unfold dist_pt. fold sR. destruct (Z.eq_dec N 0) as [E0|E0].
      + rewrite E0. change (Z.abs 0) with 0. unfold Rdiv at 1. rewrite Rmult_0_l. lra.
      + apply (div_err (Z.abs N) sR (B2R (fsqrt fs))); auto; try lia; lra.
  Qed.

  Lemma dy_zero (x : f64) : dy 0 0 x -> exists b, x = B754_zero b.
  Proof.
    intros [F R]. rewrite Rmult_0_l in R. destruct x as [b|b| |b m e He]; try discriminate; [eauto|].
    exfalso. cbn [B2R] in R. apply eq_0_F2R in R. now destruct b.
  Qed.
  Lemma degenerate : p = q -> dd = B754_nan.
  Proof.
    intros <-. destruct (Hs p) as [P1 P2]; [auto with datatypes|]. destruct (Hs r) as [R1 R2]; [auto with datatypes|].
    unfold distance_from_point, line_from_points, to_f64, sq. cbn [la lb lc fst snd].
    assert (D0 : dyk 53 1024 0) by (split; lia).
    assert (I : forall z, Z.abs z <= 2 ^ 24 -> dy 0 z (of_int z : f64)) by (intros; apply dy_int; [exact D0|lia]).
    assert (Z0 : forall z (x : f64), dy 0 z x -> exists b, fsub x x = B754_zero b).
    { intros z x Hx. apply dy_zero. replace 0 with (z - z) at 2 by lia. apply dy_sub; auto. rewrite Z.sub_diag. cbn. lia. }
    destruct (Z0 _ _ (I _ P1)) as (b1 & ->). destruct (Z0 _ _ (I _ P2)) as (b2 & ->).
    assert (PQ : dy 0 (fst p * snd p) (fmul (of_int (fst p)) (of_int (snd p)) : f64)).
    { change 0 with (0 + 0). apply dy_mul; auto. rewrite Z.abs_mul. nia. }
    destruct (Z0 _ _ PQ) as (b3 & ->).
    assert (F1 := proj1 (I _ R1)). assert (F2 := proj1 (I _ R2)).
    destruct (of_int (fst r) : f64) as [c|c| |c m e He]; try discriminate F1;
    destruct (of_int (snd r) : f64) as [c'|c'| |c' m' e' He']; try discriminate F2;
    destruct b1, b2, b3; try destruct c; try destruct c'; reflexivity.
  Qed.
End Dist.

(** ** The recursion *)
Lemma flt_R (x y : f64) : is_finite x = true -> is_finite y = true -> flt x y = Rlt_bool (B2R x) (B2R y).
Proof. intros. unfold flt. now apply Bltb_correct. Qed.

Section Far.
  Context (curve : list (Z * Z)) (p q : Z * Z) (Hs : small (p :: q :: curve)).
  Notation l := (line_from_points (to_f64 p) (to_f64 q)).
  Notation d i := (distance_from_point l (to_f64 (at_ curve i))).
  Lemma small3 i : 0 <= i < zlen curve -> small [p; q; at_ curve i].
  Proof.
    intros Hi x [<-|[<-|[<-|[]]]]; apply Hs; auto with datatypes. right. right. now apply at_In.
  Qed.

  Lemma farthest_ok : p <> q -> 1 <= zlen curve -> exists dmax index, farthest curve l = (dmax, index) /\
    is_finite dmax = true /\ (0 <= B2R dmax)%R /\
    (index = 0 /\ B2R dmax = 0%R \/ 1 <= index < zlen curve /\ dmax = d index) /\
    (forall i, 1 <= i < zlen curve -> (B2R (d i) <= B2R dmax)%R).
  Proof.
    intros N L. unfold farthest.
    set (f := fun '(dmax, index) i => match znth curve i with
       | Some p0 => let d0 := distance_from_point l (to_f64 p0) in if flt dmax d0 then (d0, i) else (dmax, index)
       | None => (dmax, index) end).
    assert (G : forall k, 1 + Z.of_nat k <= zlen curve -> exists dmax index, fold_left f (zrange 1 (1 + Z.of_nat k)) (of_int 0, 0) = (dmax, index) /\
      is_finite dmax = true /\ (0 <= B2R dmax)%R /\
      (index = 0 /\ B2R dmax = 0%R \/ 1 <= index < zlen curve /\ dmax = d index) /\
      (forall i, 1 <= i < 1 + Z.of_nat k -> (B2R (d i) <= B2R dmax)%R)).
    { induction k as [|k IH]; intros Hk.
      - exists (of_int 0), 0. assert (D : dy 0 0 (of_int 0 : f64)) by (apply dy_int; [split; lia|lia]).
        destruct D as [F R]. rewrite Rmult_0_l in R. split; [reflexivity|]. split; [exact F|]. split; [lra|]. split; [left; auto|intros; lia].
      - destruct IH as (dm & ix & E & F & P & C & B); [lia|].
        set (n := 1 + Z.of_nat (Datatypes.S k)) in *. replace (1 + Z.of_nat k) with (n - 1) in * by lia.
        assert (Er : zrange 1 n = zrange 1 (n - 1) ++ [n - 1]).
        { replace n with (n - 1 + 1) at 1 by lia. apply zrange_snoc. lia. }
        rewrite Er, fold_left_app, E. cbn [fold_left]. unfold f at 1.
        destruct (znth_some curve (n - 1)) as (x & Ex); [lia|]. rewrite Ex. cbv zeta.
        assert (Ax : at_ curve (n - 1) = x) by (unfold at_; now rewrite Ex). rewrite <- Ax.
        destruct (measured p q (at_ curve (n - 1)) (small3 (n - 1) ltac:(lia)) N) as (F' & P' & _ & _).
        rewrite flt_R by auto. destruct (Rlt_bool_spec (B2R dm) (B2R (d (n - 1)))) as [Lt|Ge].
        + eexists _, _. split; [reflexivity|]. splits; auto.
          * right. split; [lia|reflexivity].
          * intros i Hi. destruct (Z.eq_dec i (n - 1)) as [->|]; [lra|]. specialize (B i ltac:(lia)). lra.
        + exists dm, ix. splits; auto. intros i Hi. destruct (Z.eq_dec i (n - 1)) as [->|]; [lra|]. apply B. lia. }
    destruct (G (Z.to_nat (zlen curve - 1))) as (dm & ix & H); [lia|].
    replace (1 + Z.of_nat (Z.to_nat (zlen curve - 1))) with (zlen curve) in H by lia. eauto.
  Qed.

  Lemma farthest_nan : p = q -> farthest curve l = (of_int 0, 0).
  Proof.
    intros E. unfold farthest.
    assert (G : forall js, (forall i, In i js -> 0 <= i < zlen curve) -> fold_left (fun '(dmax, index) i =>
     match znth curve i with
     | Some p => let d := distance_from_point l (to_f64 p) in if flt dmax d then (d, i) else (dmax, index)
     | None => (dmax, index)
     end) js (of_int 0, 0) = (of_int 0, 0)).
    { induction js as [|i js IH]; intros H; [reflexivity|]. cbn [fold_left].
      destruct (znth_some curve i) as (x & Ex); [apply H; now left|]. rewrite Ex. cbv zeta.
      assert (Ax : at_ curve i = x) by (unfold at_; now rewrite Ex). rewrite <- Ax.
      rewrite (degenerate p q (at_ curve i)); auto; [|apply small3, H; now left].
      change (flt (of_int 0 : f64) B754_nan) with false. cbv iota. apply IH. intros j Hj. apply H. now right. }
    apply G. intros i Hi. apply in_zrange in Hi. lia.
  Qed.
End Far.

Definition near_eps (eps : R) (r p q : Z * Z) : Prop := p <> q -> (dist_chord r p q <= eps * (1 + / 1125899906842624))%R.

Lemma curve_split (c : list (Z * Z)) : 2 <= zlen c -> exists mid, c = at_ c 0 :: mid ++ [at_ c (zlen c - 1)].
Proof.
  intros H. destruct c as [|a c]; [unfold zlen in H; cbn in H; lia|].
  destruct c as [|b c]; [unfold zlen in H; cbn in H; lia|].
  destruct (exists_last (l := b :: c)) as (m & x & E); [discriminate|].
  exists m. rewrite E. f_equal. f_equal.
  unfold at_. rewrite zlen_cons, znth_cons_S by (pose proof (zlen_nonneg (m ++ [x])); rewrite <- E in *; rewrite zlen_cons in *; pose proof (zlen_nonneg c); lia).
  rewrite znth_app_r by (rewrite zlen_app; change (zlen [x]) with 1; lia).
  rewrite zlen_app. change (zlen [x]) with 1. replace (1 + (zlen m + 1) - 1 - 1 - zlen m) with 0 by lia. reflexivity.
Qed.

Lemma cut_at (c : list (Z * Z)) ix : 0 <= ix < zlen c ->
  exists l1 l2, c = l1 ++ at_ c ix :: l2 /\ firstn (Z.to_nat (ix + 1)) c = l1 ++ [at_ c ix] /\
    skipn (Z.to_nat ix) c = at_ c ix :: l2 /\ zlen l1 = ix.
Proof.
  intros H. destruct (znth_some c ix H) as (x & Ex). unfold at_. rewrite Ex.
  unfold znth in Ex. destruct (Z.leb_spec 0 ix); [|lia].
  destruct (nth_error_split c (Z.to_nat ix) Ex) as (l1 & l2 & E & L).
  exists l1, l2. splits.
  - exact E.
  - rewrite E. replace (Z.to_nat (ix + 1)) with (length (l1 ++ [x]) + 0)%nat by (rewrite app_length; cbn [length]; lia).
    replace (l1 ++ x :: l2) with ((l1 ++ [x]) ++ l2) by (rewrite <- app_assoc; reflexivity).
    rewrite firstn_app_2. cbn [firstn]. now rewrite app_nil_r.
  - rewrite E. rewrite <- L. replace (length l1) with (length l1 + 0)%nat by lia. rewrite skipn_app.
    rewrite skipn_all2 by lia. replace (length l1 + 0 - length l1)%nat with 0%nat by lia. reflexivity.
  - unfold zlen. lia.
Qed.

Lemma approx_ok eps : is_finite eps = true -> (0 < B2R eps)%R -> forall fuel c, 2 <= zlen c <= 2 ^ 64 -> (length c <= fuel)%nat -> small c ->
  exists r, approx_dp fuel c eps false = Ok r /\ approx_dp fuel c eps true = Ok (removelast r) /\
    simplifies (near_eps (B2R eps)) c r.
Proof.
  intros Fe Pe. induction fuel as [|fuel IH]; intros c L Lf Hs; [unfold zlen in L; lia|].
  assert (Z0 : dy 0 0 (of_int 0 : f64)) by (apply dy_int; [split; lia|lia]). destruct Z0 as [F0 R0]. rewrite Rmult_0_l in R0.
  set (p := at_ c 0). set (q := at_ c (zlen c - 1)).
  assert (Ip : In p c) by (apply at_In; lia). assert (Iq : In q c) by (apply at_In; lia).
  assert (Hs' : small (p :: q :: c)). { intros x [<-|[<-|Hx]]; auto. }
  assert (G : exists r, (let l := line_from_points (to_f64 p) (to_f64 q) in
    let '(dmax, index) := farthest c l in
    (if flt eps dmax then
        p1 <- approx_dp fuel (firstn (Z.to_nat (index + 1)) c) eps false ;;
        p2 <- approx_dp fuel (skipn (Z.to_nat index) c) eps false ;;
        Ok (removelast p1 ++ p2)
      else Ok [p; q])) = Ok r /\ simplifies (near_eps (B2R eps)) c r).
  { cbv zeta. destruct (curve_split c (proj1 L)) as (mid & Ec). fold p q in Ec.
    assert (Two : (forall r, In r mid -> near_eps (B2R eps) r p q) -> simplifies (near_eps (B2R eps)) c [p; q]).
    { intros H. rewrite Ec. apply (simp_step _ p mid q [] []); auto. apply simp_end. }
    assert (D : p = q \/ p <> q).
    { destruct p as [p1 p2], q as [q1 q2]. destruct (Z.eq_dec p1 q1), (Z.eq_dec p2 q2); subst; auto; right; congruence. }
    destruct D as [D|D].
    - rewrite (farthest_nan c p q Hs' D). rewrite flt_R by auto. rewrite R0.
      rewrite Rlt_bool_false by lra. exists [p; q]. split; auto. apply Two. intros r _ H. contradiction.
    - destruct (farthest_ok c p q Hs' D ltac:(lia)) as (dm & ix & -> & Fd & Pd & C & B).
      rewrite flt_R by auto. destruct (Rlt_bool_spec (B2R eps) (B2R dm)) as [Lt|Ge].
      + destruct C as [[_ C]|[C Ed]]; [lra|].
        assert (NE : ix <> zlen c - 1).
        { intros ->. destruct (measured p q q) as (_ & _ & Z & _); auto.
          { intros x Hx. apply Hs'. destruct Hx as [<-|[<-|[<-|[]]]]; auto with datatypes. }
          fold q in Ed. rewrite <- Ed in Z. rewrite Z in Lt; [lra|]. unfold turn. ring. }
        destruct (cut_at c ix ltac:(lia)) as (l1 & l2 & E & E1 & E2 & L1). rewrite E1, E2.
        set (m := at_ c ix) in *.
        assert (LL : zlen c = zlen l1 + 1 + zlen l2).
        { rewrite E at 1. rewrite zlen_app, zlen_cons. lia. }
        destruct (IH (l1 ++ [m])) as (r1 & -> & _ & S1).
        { rewrite zlen_app. change (zlen [m]) with 1. lia. }
        { rewrite app_length. cbn [length]. unfold zlen in *. lia. }
        { intros x Hx. apply Hs. rewrite E. apply in_app_or in Hx. apply in_or_app. destruct Hx as [Hx|[<-|[]]]; auto. right. now left. }
        destruct (IH (m :: l2)) as (r2 & -> & _ & S2).
        { rewrite zlen_cons. lia. }
        { cbn [length]. unfold zlen in *. lia. }
        { intros x Hx. apply Hs. rewrite E. apply in_or_app. auto. }
        cbn [bind]. eexists. split; [reflexivity|].
        destruct (simp_last _ _ _ S1) as (_ & N1 & La). specialize (La (0, 0)). rewrite last_snoc in La.
        rewrite (app_removelast_last (0, 0) N1), La in S1.
        assert (Hh := simp_head _ _ _ S2). destruct r2 as [|y r2]; [destruct (simp_last _ _ _ S2) as (_ & X & _); congruence|].
        specialize (Hh (0, 0)). cbn [List.hd] in Hh. subst y.
        rewrite E. now apply simp_app.
      + exists [p; q]. split; auto. apply Two. intros r Hr _.
        assert (Hi : exists i, 1 <= i < zlen c /\ at_ c i = r).
        { apply In_znth in Hr. destruct Hr as (j & Hj & Ej). exists (j + 1).
          assert (zlen c = 2 + zlen mid) by (rewrite Ec at 1; rewrite zlen_cons, zlen_app; change (zlen [q]) with 1; lia).
          split; [lia|]. rewrite Ec, at_S by lia. unfold at_. rewrite znth_app_l by lia. now rewrite Ej. }
        destruct Hi as (i & Hi & <-). specialize (B i Hi).
        destruct (measured p q (at_ c i)) as (_ & P' & _ & M); [apply (small3 c p q Hs'); lia|auto|]. nra. }
  destruct G as (r & G & S). exists r.
  cbn [approx_dp]. assert (Ae : fle eps (of_int 0) = false).
  { unfold fle. rewrite Bleb_correct by auto. rewrite R0. apply Rle_bool_false. lra. }
  rewrite Ae. cbn [negb assert bind].
  assert (CL : chk_u 64 (zlen c - 1) = Ok (zlen c - 1)). { unfold chk_u, u_fits. destruct (andb _ _) eqn:X; [reflexivity|lia]. }
  rewrite CL. cbn [bind].
  assert (V0 : vget c 0 = Ok p). { apply vget_ok. unfold p, at_. destruct (znth_some c 0) as (x & ->); [lia|auto]. }
  assert (V1 : vget c (zlen c - 1) = Ok q). { apply vget_ok. unfold q, at_. destruct (znth_some c (zlen c - 1)) as (x & ->); [lia|auto]. }
  rewrite V0, V1. cbn [bind]. cbv zeta in G |- *.
  destruct (farthest c _) as [dm ix]. rewrite G. cbn [bind]. auto.
Qed.
