(** C61: clamping returns the nearest value of the target range. *)
From Coq Require Import Reals Psatz.
From Flocq Require Import Core BinarySingleNaN.
From Verif Require Import Base BaseProofs Float FloatProofs FloatErr FilterModel GradientModel ClampModel.
Local Ltac Zify.zify_post_hook ::= idtac.
Open Scope Z_scope.

(** the element of lo..hi nearest to an integer *)
Definition nearest_int (lo hi v r : Z) : Prop :=
  lo <= r <= hi /\ forall r', lo <= r' <= hi -> Z.abs (v - r) <= Z.abs (v - r').
(** a real number: the nearest point of the interval [lo, hi], fraction dropped *)
Definition nearest_real (lo hi : Z) (v : R) (r : Z) : Prop :=
  r = Ztrunc (Rmax (IZR lo) (Rmin (IZR hi) v)).
(** ... and for floats, infinities included *)
Definition nearest_float {prec emax} (lo hi : Z) (v : binary_float prec emax) (r : Z) : Prop :=
  match v with
  | B754_nan => True
  | B754_infinity true => r = lo
  | B754_infinity false => r = hi
  | _ => nearest_real lo hi (B2R v) r
  end.

Lemma clamp_with_ok cast lo hi v : lo <= hi -> (forall x, lo <= x <= hi -> cast x = x) ->
  nearest_int lo hi v (clamp_with cast lo hi v).
Proof.
  intros H C. unfold clamp_with, nearest_int.
  destruct (Z.ltb_spec v hi); [destruct (Z.ltb_spec lo v)|]; rewrite ?C by lia; split; intros; lia.
Qed.
Lemma as_u_id n x : 0 <= x < 2 ^ n -> as_u n x = x.
Proof. intros H. apply Z.mod_small. auto. Qed.

Theorem c61_integers : forall v,
  (- 2 ^ 15 <= v < 2 ^ 15 -> nearest_int 0 255 v (clamp_i16_u8 v)) /\
  (0 <= v < 2 ^ 16 -> nearest_int 0 255 v (clamp_u16_u8 v)) /\
  (- 2 ^ 31 <= v < 2 ^ 31 -> nearest_int 0 255 v (clamp_i32_u8 v)) /\
  (0 <= v < 2 ^ 32 -> nearest_int 0 255 v (clamp_u32_u8 v)) /\
  (- 2 ^ 31 <= v < 2 ^ 31 -> nearest_int 0 65535 v (clamp_i32_u16 v)) /\
  (- 2 ^ 31 <= v < 2 ^ 31 -> nearest_int (-32768) 32767 v (clamp_i32_i16 v)).
Proof.
  intros v. splits; intros _; apply clamp_with_ok; try lia; intros x Hx; try (apply as_u_id; lia).
  unfold as_i. change (2 ^ (16 - 1)) with 32768. change (2 ^ 16) with 65536. rewrite Z.mod_small by lia. lia.
Qed.
Theorem c61_identity : forall (T : Type) (v : T), clamp_same v = v.
Proof. reflexivity. Qed.

Section F.
Context (prec emax : Z) {Hp : Prec_gt_0 prec} {Hm : Prec_lt_emax prec emax}.
Hypothesis Hprec : 16 <= prec.
Lemma clamp_float_ok hi (v : binary_float prec emax) : 0 < hi < 2 ^ 16 ->
  is_finite (of_int (prec:=prec) (emax:=emax) hi) = true -> B2R (of_int (prec:=prec) (emax:=emax) hi) = IZR hi ->
  is_finite (of_int (prec:=prec) (emax:=emax) 0) = true -> B2R (of_int (prec:=prec) (emax:=emax) 0) = 0%R ->
  nearest_float 0 hi v (clamp_float 0 hi v).
Proof.
  intros Hhi Fh Eh F0 E0.
  assert (G : is_finite v = true -> nearest_real 0 hi (B2R v) (clamp_float 0 hi v)).
  { intros Fv. unfold clamp_float, flt, nearest_real. rewrite !Bltb_correct by auto. rewrite Eh, E0.
    assert (Hr : (0 < IZR hi)%R) by (apply IZR_lt; lia).
    destruct (Rlt_bool_spec (B2R v) (IZR hi)) as [L|L].
    - rewrite Rmin_right by lra. destruct (Rlt_bool_spec 0 (B2R v)) as [P|P].
      + rewrite Rmax_right by lra. 
        assert (T : to_int 0 hi v = zclamp 0 hi (Ztrunc (B2R v))).
        { apply (to_int_R prec emax); first [assumption | exact Hm]. }
        rewrite T. unfold zclamp.
        assert (0 <= Ztrunc (B2R v)) by (rewrite Ztrunc_floor by lra; apply Zfloor_lub; lra).
        assert (Ztrunc (B2R v) <= hi).
        { rewrite Ztrunc_floor by lra. apply le_IZR. pose proof (Zfloor_lb (B2R v)). lra. }
        lia.
      + rewrite Rmax_left by lra. rewrite Ztrunc_IZR. reflexivity.
    - rewrite Rmin_left by lra. rewrite Rmax_right by lra. rewrite Ztrunc_IZR. reflexivity. }
  destruct v as [s|s| |s m e Hb]; cbn [nearest_float]; auto.
  - unfold clamp_float, flt. destruct s.
    + replace (Bltb (B754_infinity true) (of_int (Hm:=Hm) hi)) with true.
      * replace (Bltb (of_int (Hm:=Hm) 0) (B754_infinity (prec:=prec) (emax:=emax) true)) with false; [reflexivity|].
        destruct (of_int (Hm:=Hm) 0) as [[]|[]| |[]]; try discriminate F0; reflexivity.
      * destruct (of_int (Hm:=Hm) hi) as [[]|[]| |[]]; try discriminate Fh; reflexivity.
    + replace (Bltb (B754_infinity false) (of_int (Hm:=Hm) hi)) with false; [reflexivity|].
      destruct (of_int (Hm:=Hm) hi) as [[]|[]| |[]]; try discriminate Fh; reflexivity.
Qed.
End F.

Theorem c61_floats : forall (v : f32) (u : f64),
  nearest_float 0 255 v (clamp_f32_u8 v) /\ nearest_float 0 65535 v (clamp_f32_u16 v) /\
  nearest_float 0 255 u (clamp_f64_u8 u) /\ nearest_float 0 65535 u (clamp_f64_u16 u).
Proof.
  intros v u. splits; apply clamp_float_ok; try lia; try reflexivity.
  all: match goal with
       | |- @B2R 24 128 (of_int ?z) = _ => pose proof (dy_int 24 128 z) as D
       | |- @B2R 53 1024 (of_int ?z) = _ => pose proof (dy_int 53 1024 z) as D
       end.
  all: destruct D as [_ ->]; [split; lia|lia|]; change (bpow radix2 0) with 1%R; ring.
Qed.

(** the integer clamps used by the other models are these *)
Theorem c61_models_agree : forall v,
  FilterModel.clamp_u8 v = clamp_i32_u8 v /\ GradientModel.clamp_i16 v = clamp_i32_i16 v.
Proof.
  intros v. unfold FilterModel.clamp_u8, GradientModel.clamp_i16, clamp_i32_u8, clamp_i32_i16, clamp_with, zclamp.
  change (- 2 ^ 15) with (-32768). change (2 ^ 15 - 1) with 32767. split.
  - destruct (Z.ltb_spec v 255); [destruct (Z.ltb_spec 0 v)|]; rewrite ?as_u_id by lia; lia.
  - destruct (Z.ltb_spec v 32767); [destruct (Z.ltb_spec (-32768) v)|]; try lia.
    unfold as_i. change (2 ^ (16 - 1)) with 32768. change (2 ^ 16) with 65536. rewrite Z.mod_small by lia. lia.
Qed.

Example c61_nontrivial : clamp_i32_u8 300 = 255 /\ clamp_i32_u8 (-7) = 0 /\ clamp_i32_i16 (-40000) = -32768 /\
  clamp_f32_u8 (of_dyadic 509 (-1)) = 254 /\ clamp_f64_u16 (B754_infinity false) = 65535 /\ clamp_f32_u8 (of_dyadic (-3) (-1)) = 0.
Proof. splits; vm_compute; reflexivity. Qed.
(** outside the property: NaN becomes the maximum *)
Example c61_nan : clamp_f32_u8 B754_nan = 255.
Proof. vm_compute. reflexivity. Qed.

Print Assumptions c61_integers.
Print Assumptions c61_identity.
Print Assumptions c61_floats.
Print Assumptions c61_models_agree.
