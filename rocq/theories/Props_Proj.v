(** C66 (projections) and C82 (control points). *)
From Coq Require Import Reals Lra.
From Flocq Require Import Core BinarySingleNaN.
From Verif Require Import Base Float ProjModel ProjSpec ProjProofs.
Local Open Scope R_scope.

(** ** Over the reals *)
(** [P * Q] maps a point to where [P] maps the image under [Q]; [Q.and_then(P)] is the same. *)
Theorem c66_compose : forall p q x y, built p -> built q ->
  den (transform q) x y <> 0 -> den (transform p) (fst (apply num_R q x y)) (snd (apply num_R q x y)) <> 0 ->
  apply num_R (compose num_R p q) x y = apply num_R p (fst (apply num_R q x y)) (snd (apply num_R q x y)) /\
  apply num_R (and_then num_R q p) x y = apply num_R p (fst (apply num_R q x y)) (snd (apply num_R q x y)).
Proof.
  intros p q x y Bp Bq H1 H2. apply built_good in Bp, Bq. split.
  all: unfold and_then; rewrite (apply_R (compose num_R p q)) by (apply good_compose; assumption);
    rewrite !apply_R in * by assumption; apply image_mul; assumption.
Qed.

(** [invert] undoes the map wherever it is defined, and inverting twice gives the map back. *)
Theorem c66_invert : forall p x y, built p -> den (transform p) x y <> 0 ->
  apply num_R (invert p) (fst (apply num_R p x y)) (snd (apply num_R p x y)) = (x, y) /\ invert (invert p) = p.
Proof.
  intros p x y B H. apply built_good in B. split; [|destruct p; reflexivity].
  pose proof (good_invert p B) as G. rewrite !apply_R in * by assumption. cbn [invert transform].
  destruct B as ((c & Hc & E1 & E2) & _).
  assert (D : den (scal c) x y <> 0) by (unfold den; cbn; lra).
  rewrite <- image_mul; rewrite ?E2; [|assumption|].
  - unfold image_of, den. cbn. f_equal; field; exact Hc.
  - rewrite <- E2, den_mul in D by assumption. intros Z. apply D. rewrite Z. ring.
Qed.

(** [from_matrix] succeeds on regular matrices and gives the map of the matrix. *)
Theorem c66_from_matrix : forall m, regular m -> exists p, from_matrix num_R m = Some p /\ built p /\
  forall x y, den m x y <> 0 -> den (transform p) x y <> 0 /\ apply num_R p x y = image_of m x y.
Proof.
  intros m R. destruct (regular_clear m R) as (A & C & NM & D).
  destruct (inverse_R (nm m) eq_refl) as (I & _).
  destruct (from_matrix num_R m) as [p|] eqn:E.
  - exists p. split; [reflexivity|]. split; [eapply built_matrix; eassumption|]. intros x y H.
    rewrite apply_R by (eapply good_from_matrix; eassumption).
    assert (Et : transform p = nm m).
    { unfold from_matrix in E. fold (nm m) in E. destruct (try_inverse num_R (nm m)); [|discriminate]. inversion E. reflexivity. }
    rewrite Et.
    assert (De : den m x y = den (nm m) x y * t22 m) by (unfold den, nm; cbn; field; exact A).
    assert (Dn : den (nm m) x y <> 0) by (intros Z; rewrite Z in De; lra).
    split; [exact Dn|]. symmetry. unfold image_of.
    f_equal; apply (frac_W (t22 m)); try assumption; unfold nm; cbn; field; exact A.
  - exfalso. unfold from_matrix in E. fold (nm m) in E. destruct (try_inverse num_R (nm m)) eqn:Ei; [discriminate|].
    pose proof (proj1 I eq_refl). lra.
Qed.

(** The constructors map points as documented. *)
Theorem c66_constructors : forall x y,
  (forall tx ty, apply num_R (translate num_R tx ty) x y = (x + tx, y + ty)) /\
  (forall theta, apply num_R (rotate num_R (sin theta) (cos theta)) x y =
     (cos theta * x - sin theta * y, sin theta * x + cos theta * y)) /\
  (forall sx sy, apply num_R (scale num_R sx sy) x y = (sx * x, sy * y)).
Proof. intros x y. 
  split; [|split].
  - reflexivity.
  - intros theta. generalize (sin theta) (cos theta). intros s c. cbn. apply (f_equal2 pair); cbn; ring.
  - intros sx sy. cbn. apply (f_equal2 pair); cbn; ring.
Qed.

(** The hypotheses are met: rotation about (320, 240) composed with a genuine projection. *)
Definition tilt : mat R := mkMat 2 0 5 0 1 7 (/ 100) 0 1.
Example c66_nontrivial : regular tilt /\ exists p, from_matrix num_R tilt = Some p /\
  built (compose num_R p (compose num_R (translate num_R 320 240) (compose num_R (rotate num_R 1 0) (translate num_R (-320) (-240))))) /\
  den tilt 10 20 <> 0.
Proof.
  assert (R : regular tilt).
  { unfold regular, no_near_miss, det, tilt. cbn [t00 t01 t02 t10 t11 t12 t20 t21 t22]. repeat split; try lra.
    - rewrite Rabs_pos_eq; lra.
    - right. rewrite Rabs_pos_eq; lra.
    - right. rewrite Rabs_pos_eq; lra. }
  split; [exact R|]. destruct (c66_from_matrix tilt R) as (p & E & B & _). exists p. split; [exact E|]. split.
  - repeat apply built_compose; try constructor; try assumption. lra.
  - unfold den, tilt. cbn. lra.
Qed.

(** ** [from_matrix] and invertibility *)
Definition c66_none_statement : Prop := forall m : mat R, from_matrix num_R m = None <-> det m = 0.
(** Refuted even in exact arithmetic: the shrinking of both axes by 10^-6 is rejected. *)
Theorem c66_none_refuted : ~ c66_none_statement.
Proof.
  intros H. specialize (H (mkMat (/ 1000000) 0 0 0 (/ 1000000) 0 0 0 1)).
  destruct H as (H & _). assert (E : from_matrix num_R (mkMat (/ 1000000) 0 0 0 (/ 1000000) 0 0 0 1) = None).
  { unfold from_matrix. match goal with |- context [try_inverse num_R ?n] => destruct (inverse_R n eq_refl) as (I & _) end.
    match goal with |- match ?t with _ => _ end = _ => replace t with (@None (mat R)); [reflexivity|] end.
    symmetry. apply I. unfold det. cbn. match goal with |- Rabs ?e < _ => replace e with (/ 1000000 * / 1000000) by field end. rewrite Rabs_pos_eq; lra. }
  specialize (H E). unfold det in H. cbn in H. lra.
Qed.
(** What it decides, for matrices whose corner entry is not 0. *)
Theorem c66_none_partial : forall m : mat R, t22 m <> 0 ->
  (from_matrix num_R m = None <-> Rabs (det m / (t22 m * t22 m * t22 m)) < / 10000000000).
Proof.
  intros m A. destruct (inverse_R (nm m) eq_refl) as (I & _).
  replace (det m / (t22 m * t22 m * t22 m)) with (det (nm m)) by (unfold det, nm; cbn; field; exact A).
  rewrite <- I. unfold from_matrix. fold (nm m). destruct (try_inverse num_R (nm m)); split; intros; congruence.
Qed.

(** ** In f32 *)
Definition z32 : f32 := of_int 0.
Definition o32 : f32 := of_int 1.
(** The zero matrix is not invertible, but is accepted; the projection maps every point to NaN. *)
Theorem c66_zero_matrix_accepted :
  match from_matrix num_f32 (mkMat z32 z32 z32 z32 z32 z32 z32 z32 z32) with
  | Some p => forall x y, let '(u, v) := apply num_f32 p x y in fis_nan u = true /\ fis_nan v = true
  | None => False
  end.
Proof.
  set (m := mkMat _ _ _ _ _ _ _ _ _).
  assert (C : match from_matrix num_f32 m with
    | Some p => fis_nan (t00 (transform p)) && fis_nan (t02 (transform p)) && fis_nan (t10 (transform p)) && fis_nan (t12 (transform p))
    | None => false end = true) by (vm_compute; reflexivity).
  destruct (from_matrix num_f32 m) as [p|]; [|discriminate]. clear m. intros x y.
  apply andb_prop in C. destruct C as (C & C4). apply andb_prop in C. destruct C as (C & C3). apply andb_prop in C. destruct C as (C1 & C2).
  assert (N : forall a : f32, fis_nan a = true -> a = B754_nan) by (intros []; cbn; congruence).
  assert (A : forall a : f32, fadd B754_nan a = B754_nan /\ fmul B754_nan a = B754_nan /\ fdiv B754_nan a = B754_nan /\ fadd a B754_nan = B754_nan).
  { intros a. unfold fadd, fmul, fdiv. destruct a; repeat split; reflexivity. }
  unfold apply, map_translation, map_affine, map_projective. cbn [num_f32 nadd nmul ndiv]. rewrite (N _ C1), (N _ C2), (N _ C3), (N _ C4).
  destruct (pclass p); repeat first
    [ rewrite (proj1 (proj2 (A _))) | rewrite (proj1 (A _)) | rewrite (proj1 (proj2 (proj2 (A _)))) | rewrite (proj2 (proj2 (proj2 (A _)))) ]; split; reflexivity.
Qed.
(** (x, y) -> (1, y) / (x + 1) is invertible and accepted, but its inverse has a
    corner entry 0: after division by it, inverting maps the image of (0, 0) to NaN. *)
Theorem c66_invert_f32_refuted :
  match from_matrix num_f32 (mkMat z32 z32 o32 z32 o32 z32 o32 z32 o32) with
  | Some p => let '(u, v) := apply num_f32 p z32 z32 in
    feq u o32 = true /\ feq v z32 = true /\ let '(x, y) := apply num_f32 (invert p) u v in fis_nan x = true
  | None => False
  end.
Proof. vm_compute. repeat split. Qed.

(** ** C82: control points *)
Definition dot (a b : list R) : R := fold_right Rplus 0 (map (fun '(u, v) => u * v) (combine a b)).
(** If the solver returns an exact solution of the system it is given, the
    projection maps each control point to its partner (over the reals). *)
Theorem c82_control_points_partial : forall solve from to p,
  length from = 4%nat -> length to = 4%nat ->
  (forall A b h, solve A b = Some h -> map (fun row => dot row h) A = b) ->
  from_control_points num_R solve from to = Some p -> clear (transform p) ->
  forall f t, In (f, t) (combine from to) -> den (transform p) (fst f) (snd f) <> 0 ->
    apply num_R p (fst f) (snd f) = t.
Proof.
  intros solve from to p Lf Lt S E C f t I D. unfold from_control_points in E.
  set (rows := flat_map (fun '(f, t) => control_rows num_R f t) (combine from to)) in E.
  destruct (solve (map fst rows) (map snd rows)) as [h|] eqn:Es; [|discriminate]. specialize (S _ _ _ Es).
  do 8 (destruct h as [|? h]; [discriminate|]). destruct h; [|discriminate]. rename r into h0, r0 into h1, r1 into h2, r2 into h3, r3 into h4, r4 into h5, r5 into h6, r6 into h7.
  set (n := normalize num_R (mkMat h0 h1 h2 h3 h4 h5 h6 h7 (n1 num_R))) in E.
  destruct (try_inverse num_R n) as [i|] eqn:Ei; [|discriminate]. inversion E; subst p. clear E. cbn [transform] in *.
  assert (Row : forall row r, In (row, r) rows -> dot row [h0; h1; h2; h3; h4; h5; h6; h7] = r).
  { clear - S. intros row r. induction rows as [|[u v] l IH]; intros []; cbn [map fst snd] in S; pose proof (f_equal (hd 0) S) as S0; pose proof (f_equal (@tl R) S) as S1; cbn [hd tl] in S0, S1.
    - injection H as <- <-. exact S0.
    - apply IH; assumption. }
  destruct f as [xf yf], t as [x y]. cbn [fst snd] in *.
  pose proof (Row _ _ ltac:(unfold rows; apply in_flat_map; exists ((xf, yf), (x, y)); split; [exact I|left; reflexivity])) as R1.
  pose proof (Row _ _ ltac:(unfold rows; apply in_flat_map; exists ((xf, yf), (x, y)); split; [exact I|right; left; reflexivity])) as R2.
  unfold dot in R1, R2. cbn in R1, R2.
  assert (A : apply num_R (mkProj n i (class_from_matrix num_R n)) xf yf = image_of n xf yf).
  { pose proof (class_ok n eq_refl C) as F. unfold apply, image_of, den. cbn [pclass transform]. destruct (class_from_matrix num_R n); cbn [class_form] in F.
    - destruct F as ((A1 & A2 & A3) & A4 & A5 & A6 & A7). unfold map_translation. cbn -[n]. rewrite A1, A2, A3, A4, A5, A6, A7. f_equal; field.
    - destruct F as (A1 & A2 & A3). unfold map_affine. cbn -[n]. rewrite A1, A2, A3. f_equal; field.
    - reflexivity. }
  rewrite A. unfold image_of. f_equal.
  - apply (Rmult_eq_reg_r (den n xf yf)); [|exact D]. unfold Rdiv. rewrite Rmult_assoc, Rinv_l by exact D.
    unfold den, n. cbn. unfold Rdiv. rewrite ?Rinv_1. lra.
  - apply (Rmult_eq_reg_r (den n xf yf)); [|exact D]. unfold Rdiv. rewrite Rmult_assoc, Rinv_l by exact D.
    unfold den, n. cbn. unfold Rdiv. rewrite ?Rinv_1. lra.
Qed.
(** The hypotheses are met: a solver that answers the one system of the shear and
    shift (x, y) -> (x + y + 3, y - 2) and checks its answer. *)
Definition shear_solver (A : list (list R)) (b : list R) : option (list R) :=
  let h := [1; 1; 3; 0; 1; -2; 0; 0] in
  if list_eq_dec Req_EM_T (map (fun row => dot row h) A) b then Some h else None.
Example c82_nontrivial :
  (forall A b h, shear_solver A b = Some h -> map (fun row => dot row h) A = b) /\
  exists p, from_control_points num_R shear_solver [(0, 0); (10, 0); (10, 5); (0, 5)] [(3, -2); (13, -2); (18, 3); (8, 3)] = Some p /\
    clear (transform p) /\ den (transform p) 10 5 <> 0.
Proof.
  split.
  { intros A b h. unfold shear_solver. destruct (list_eq_dec _ _ _) as [E|]; [|discriminate]. intros H. injection H as <-. exact E. }
  unfold from_control_points. cbn [combine flat_map control_rows map app fst snd]. unfold shear_solver.
  match goal with |- context [if ?d then _ else _] => destruct d as [_|N] end.
  2:{ exfalso. apply N. unfold dot. cbn. repeat (apply f_equal2; [lra|]). reflexivity. }
  match goal with |- context [try_inverse num_R ?m] => set (n := m) end.
  destruct (inverse_R n eq_refl) as (I & _).
  assert (Dt : det n = 1) by (unfold det, n; cbn; field).
  destruct (try_inverse num_R n) as [i|] eqn:E.
  - eexists. split; [reflexivity|]. cbn [transform]. split.
    + unfold clear, no_near_miss, n. cbn. repeat split; try (left; field). right. replace (1 / 1 - 0) with 1 by field. rewrite Rabs_R1. lra.
    + unfold den, n. cbn. lra.
  - pose proof (proj1 I eq_refl) as L. rewrite Dt, Rabs_R1 in L. lra.
Qed.
Print Assumptions c66_compose.
Print Assumptions c66_invert.
Print Assumptions c66_from_matrix.
Print Assumptions c66_constructors.
Print Assumptions c66_none_refuted.
Print Assumptions c66_none_partial.
Print Assumptions c66_zero_matrix_accepted.
Print Assumptions c66_invert_f32_refuted.
Print Assumptions c82_control_points_partial.
