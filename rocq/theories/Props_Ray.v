(** C104: where the rays of a star go. *)
From Flocq Require Import BinarySingleNaN.
From Coq Require Import Reals Lra.
From Verif Require Import Base Float HogCellsModel RotateSpec Props_Rotate RenderModel RenderSpec LineFloatSpec RaySpec RayProofs.
Open Scope Z_scope.

(** The drawn ray of each bucket stays within 2.65 of the ideal ray in the
    direction of the bucket, and no point of the ideal ray is more than 3.65 from
    a drawn pixel; the same for the opposite ray drawn without sign. *)
Theorem c104_rays : forall (fsin fcos : f32 -> f32) w h signed n b, accurate_trig fsin fcos ->
  1 <= w <= 16384 -> 1 <= h <= 16384 -> 1 <= n <= 2 ^ 20 -> 0 <= b < n ->
  ray_near fsin fcos w h (bucket_direction signed n b) (ideal_direction signed n b) /\
  ray_near fsin fcos w h (fadd (bucket_direction signed n b) pi32) (ideal_direction signed n b + PI)%R.
Proof.
  intros fsin fcos w h signed n b HA Hw Hh Hn Hb. destruct (dir_err signed n b Hn Hb) as ((F1 & E1) & E2 & B).
  pose proof PI_4. pose proof PI_RGT_0. split; apply ray_close; try assumption; try lra. split; [exact F1|]. lra.
Qed.
Print Assumptions c104_rays.

(** Such functions exist, and they are bounded as c104_picture_partial asks. *)
Theorem c104_trig_exists : exists fsin fcos, accurate_trig fsin fcos /\ bounded_trig fsin /\ bounded_trig fcos.
Proof.
  exists (fun x => nearby (sin (B2R x))), (fun x => nearby (cos (B2R x))).
  assert (S : forall x : f32, sincos_ok (B2R x) (nearby (sin (B2R x))) (nearby (cos (B2R x)))) by (intros x; apply c101_sincos_exists).
  split; [|split].
  - intros x _ _. destruct (S x) as ((A1 & A2 & A3) & (B1 & B2 & B3)). auto.
  - intros x _. destruct (S x) as ((A1 & A2 & A3) & _). split; [exact A1|lra].
  - intros x _. destruct (S x) as (_ & (A1 & A2 & A3)). split; [exact A1|lra].
Qed.
Print Assumptions c104_trig_exists.

(** The second of eight signed buckets in a 9 x 9 picture points down and to the
    left; its ideal ray is the diagonal from the middle. *)
Example c104_rays_nontrivial : ideal_direction true 8 1 = (PI / 4)%R /\
  ideal_ray 9 9 (PI / 4) 1 = (4 - 9 / 2 * (1 / sqrt 2), 4 + 9 / 2 * (1 / sqrt 2))%R.
Proof.
  split.
  - unfold ideal_direction. lra.
  - unfold ideal_ray. rewrite sin_PI4, cos_PI4. change (9 / 2) with 4. change (Z.max 9 9) with 9. f_equal; lra.
Qed.
