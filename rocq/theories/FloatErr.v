(** Rounding errors of the IEEE operations of [Float], over the reals. *)
From Flocq Require Import Core BinarySingleNaN Relative.
From Coq Require Import Reals Lra Psatz.
From Verif Require Import Base BaseProofs Float FloatProofs.
Local Ltac Zify.zify_post_hook ::= idtac.
Local Open Scope R_scope.

Section FE.
  Context (prec emax : Z) {Hp : Prec_gt_0 prec} {Hm : Prec_lt_emax prec emax}.
  Notation F := (binary_float prec emax).
  Notation emin := (3 - emax - prec)%Z.
  Notation fexp := (SpecFloat.fexp prec emax).

  Definition rnd (r : R) : R := round radix2 fexp ZnearestE r.
  Definition uu : R := bpow radix2 (- prec).
  Definition eta : R := bpow radix2 (emin - 1).

  #[local] Instance vexp : Valid_exp fexp := fexp_correct prec emax Hp.

  Lemma rnd_err r : Rabs (rnd r - r) <= uu * Rabs r + eta.
  Proof.
    destruct (error_N_FLT radix2 emin prec Hp (fun x => negb (Z.even x)) r) as (eps & et & H1 & H2 & _ & H3).
    change (round radix2 (FLT_exp emin prec) (Znearest (fun x => negb (Z.even x))) r) with (rnd r) in H3.
    rewrite H3. replace (r * (1 + eps) + et - r) with (eps * r + et) by ring.
    eapply Rle_trans; [apply Rabs_triang|]. rewrite Rabs_mult.
    apply Rplus_le_compat.
    - apply Rmult_le_compat_r; [apply Rabs_pos|].
      eapply Rle_trans; [exact H1|]. unfold uu. rewrite (bpow_plus radix2 (- prec) 1).
      change (bpow radix2 1) with 2. lra.
    - eapply Rle_trans; [exact H2|]. unfold eta.
      replace (emin)%Z with ((emin - 1) + 1)%Z at 1 by lia. rewrite (bpow_plus radix2 (emin - 1) 1).
      change (bpow radix2 1) with 2. pose proof (bpow_gt_0 radix2 (emin - 1)). lra.
  Qed.

  Lemma rnd_le a b : a <= b -> rnd a <= rnd b.
  Proof. apply round_le; auto with typeclass_instances. Qed.
  Lemma rnd_0 : rnd 0 = 0.
  Proof. apply round_0; auto with typeclass_instances. Qed.
  Lemma rnd_id r : generic_format radix2 fexp r -> rnd r = r.
  Proof. apply round_generic; auto with typeclass_instances. Qed.
  Lemma rnd_idF (x : F) : rnd (B2R x) = B2R x.
  Proof. apply rnd_id, generic_format_B2R. Qed.
  Lemma rnd_int m : (Z.abs m <= 2 ^ prec)%Z -> rnd (IZR m) = IZR m.
  Proof.
    intros H. assert (K : (emin <= 0)%Z).
    { assert (prec < emax)%Z by exact Hm. assert (0 < prec)%Z by exact Hp. lia. }
    apply rnd_id. replace (IZR m) with (IZR m * bpow radix2 0) by (change (bpow radix2 0) with 1; ring).
    now apply (dy_format prec emax).
  Qed.

  Lemma rnd_lt_max r : Rabs r <= bpow radix2 (emax - 1) -> Rlt_bool (Rabs (rnd r)) (bpow radix2 emax) = true.
  Proof.
    intros H. apply Rlt_bool_true. apply Rle_lt_trans with (bpow radix2 (emax - 1)).
    - apply abs_round_le_generic; auto with typeclass_instances.
      apply generic_format_bpow. unfold fexp, SpecFloat.emin.
      assert (prec < emax)%Z by exact Hm. assert (0 < prec)%Z by exact Hp. lia.
    - apply bpow_lt. lia.
  Qed.

  Lemma fadd_R (x y : F) : is_finite x = true -> is_finite y = true ->
    Rabs (B2R x + B2R y) <= bpow radix2 (emax - 1) ->
    is_finite (fadd x y) = true /\ B2R (fadd x y) = rnd (B2R x + B2R y).
  Proof.
    intros Fx Fy H. pose proof (Bplus_correct prec emax _ _ mode_NE x y Fx Fy) as C.
    cbn [round_mode] in C. fold (rnd (B2R x + B2R y)) in C. rewrite rnd_lt_max in C by exact H.
    destruct C as (C1 & C2 & _). auto.
  Qed.
  Lemma fsub_R (x y : F) : is_finite x = true -> is_finite y = true ->
    Rabs (B2R x - B2R y) <= bpow radix2 (emax - 1) ->
    is_finite (fsub x y) = true /\ B2R (fsub x y) = rnd (B2R x - B2R y).
  Proof.
    intros Fx Fy H. pose proof (Bminus_correct prec emax _ _ mode_NE x y Fx Fy) as C.
    cbn [round_mode] in C. fold (rnd (B2R x - B2R y)) in C. rewrite rnd_lt_max in C by exact H.
    destruct C as (C1 & C2 & _). auto.
  Qed.
  Lemma fmul_R (x y : F) : is_finite x = true -> is_finite y = true ->
    Rabs (B2R x * B2R y) <= bpow radix2 (emax - 1) ->
    is_finite (fmul x y) = true /\ B2R (fmul x y) = rnd (B2R x * B2R y).
  Proof.
    intros Fx Fy H. pose proof (Bmult_correct prec emax _ _ mode_NE x y) as C.
    cbn [round_mode] in C. fold (rnd (B2R x * B2R y)) in C. rewrite rnd_lt_max in C by exact H.
    destruct C as (C1 & C2 & _). split; [unfold fmul; rewrite C2, Fx, Fy; reflexivity|exact C1].
  Qed.
  Lemma fdiv_R (x y : F) : is_finite x = true -> B2R y <> 0 ->
    Rabs (B2R x / B2R y) <= bpow radix2 (emax - 1) ->
    is_finite (fdiv x y) = true /\ B2R (fdiv x y) = rnd (B2R x / B2R y).
  Proof.
    intros Fx Ny H. pose proof (Bdiv_correct prec emax _ _ mode_NE x y Ny) as C.
    cbn [round_mode] in C. fold (rnd (B2R x / B2R y)) in C. rewrite rnd_lt_max in C by exact H.
    destruct C as (C1 & C2 & _). split; [unfold fdiv; rewrite C2; exact Fx|exact C1].
  Qed.
  Lemma fsqrt_R (x : F) : is_finite x = true -> 0 <= B2R x ->
    is_finite (fsqrt x) = true /\ B2R (fsqrt x) = rnd (sqrt (B2R x)).
  Proof.
    intros Fx Nx. pose proof (Bsqrt_correct prec emax _ _ mode_NE x) as (C1 & C2 & _).
    unfold fsqrt. split; [|exact C1]. rewrite C2.
    destruct x as [s|s| |s m e He]; try discriminate; try reflexivity.
    destruct s; [|reflexivity]. exfalso. cbn [B2R] in Nx.
    assert (F2R (Defs.Float radix2 (cond_Zopp true (Z.pos m)) e) < 0) by (apply F2R_lt_0; cbn; lia). lra.
  Qed.
  Lemma of_int_R z : Rabs (IZR z) <= bpow radix2 (emax - 1) ->
    is_finite (of_int z : F) = true /\ B2R (of_int z : F) = rnd (IZR z).
  Proof.
    intros H. pose proof (binary_normalize_correct prec emax _ _ mode_NE z 0 false) as C.
    cbv zeta in C. unfold F2R in C; cbn [Fnum Fexp] in C. change (bpow radix2 0) with 1 in C. rewrite Rmult_1_r in C.
    cbn [round_mode] in C. fold (rnd (IZR z)) in C. rewrite rnd_lt_max in C by exact H.
    destruct C as (C1 & C2 & _). auto.
  Qed.

  (** f32::round, floor, ceil, trunc *)
  Lemma nearby_R md (x : F) : is_finite x = true ->
    is_finite (Bnearbyint md x) = true /\ B2R (Bnearbyint md x) = IZR (round_mode md (B2R x)).
  Proof.
    intros Fx. pose proof (Bnearbyint_correct prec emax Hm md x) as (C1 & C2 & _).
    rewrite C2. split; [exact Fx|]. rewrite C1. unfold round, F2R, scaled_mantissa, cexp, FIX_exp. cbn [Fnum Fexp].
    change (- 0)%Z with 0%Z. change (bpow radix2 0) with 1. rewrite !Rmult_1_r. reflexivity.
  Qed.

  Lemma to_int_IZR lo hi (x : F) z : is_finite x = true -> B2R x = IZR z -> to_int lo hi x = zclamp lo hi z.
  Proof.
    intros Fx E. rewrite (to_int_R prec emax) by first [assumption | exact Hm]. rewrite E, Ztrunc_IZR. reflexivity.
  Qed.
End FE.

Lemma f32_err r : Rabs (rnd 24 128 r - r) <= Rabs r / 16777216 + / 1152921504606846976.
Proof.
  eapply Rle_trans; [apply rnd_err; reflexivity|].
  unfold uu, eta. apply Rplus_le_compat.
  - change (bpow radix2 (- (24))) with (/ 16777216). lra.
  - apply Rle_trans with (bpow radix2 (-60)).
    + apply bpow_le. lia.
    + change (bpow radix2 (-60)) with (/ 1152921504606846976). lra.
Qed.
Lemma f32_big : 1000000000000 <= bpow radix2 (128 - 1).
Proof.
  apply Rle_trans with (bpow radix2 40); [|apply bpow_le; lia].
  change (bpow radix2 40) with (IZR (2 ^ 40)). apply IZR_le. lia.
Qed.
Lemma znearest_half c r : Rabs (IZR (Znearest c r) - r) <= / 2.
Proof. rewrite Rabs_minus_sym. apply Znearest_half. Qed.
