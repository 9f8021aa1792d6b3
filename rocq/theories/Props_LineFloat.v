(** C31 for end points with fractional coordinates. *)
From Flocq Require Import BinarySingleNaN.
From Coq Require Import Reals Lra.
From Verif Require Import Base BaseProofs Float FloatProofs LineModel LineSpec LineProofs RenderProofs LineFloatSpec LineFloat.
Open Scope Z_scope.

(** The line between any two f32 points up to 32768 from the origin is a
    connected sequence of distinct pixels that follows the segment. *)
Theorem c31_float_ends : forall a b : f32 * f32,
  is_finite (fst a) = true -> is_finite (snd a) = true -> is_finite (fst b) = true -> is_finite (snd b) = true ->
  (Rabs (B2R (fst a)) <= 32768)%R -> (Rabs (B2R (snd a)) <= 32768)%R -> (Rabs (B2R (fst b)) <= 32768)%R -> (Rabs (B2R (snd b)) <= 32768)%R ->
  exists pts, bres_points a b = Ok pts /\ chain king_move pts /\ NoDup pts /\ follows a b pts.
Proof.
  intros a b F1 F2 F3 F4 B1 B2 B3 B4. destruct (float_line a b F1 F2 F3 F4 B1 B2 B3 B4) as (pts & E & G).
  exists pts. split; [exact E|]. split; [eapply points_chain; exact E|]. split; [eapply bres_points_NoDup; exact E|exact G].
Qed.
Print Assumptions c31_float_ends.

(** Whatever the end points, even infinite or not numbers: if the line does not
    panic it is a connected sequence of distinct pixels. *)
Theorem c31_any_float_connected : forall (a b : f32 * f32) pts, bres_points a b = Ok pts -> chain king_move pts /\ NoDup pts.
Proof. intros a b pts E. split; [eapply points_chain; exact E|eapply bres_points_NoDup; exact E]. Qed.
Print Assumptions c31_any_float_connected.

(** from (0.75, 0.5) to (5.25, -2.75), drawn from (0, 0) to (5, -4): the last
    pixel is two rows from the truncated end point, within the bound of the theorem *)
Example c31_float_nontrivial :
  bres_points (of_dyadic 3 (-2), of_dyadic 1 (-1)) (of_dyadic 21 (-2), of_dyadic (-11) (-2)) = Ok [(0, 0); (1, -1); (2, -1); (3, -2); (4, -3); (5, -4)].
Proof. vm_compute. reflexivity. Qed.
