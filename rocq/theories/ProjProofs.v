(** Algebra of projections over the reals. *)
From Coq Require Import Reals Lra Psatz.
From Flocq Require Import Core.
From Verif Require Import Base ProjModel ProjSpec.
Local Open Scope R_scope.

Notation mul := (mul3x3 num_R).
Definition scal (c : R) : mat R := mkMat c 0 0 0 c 0 0 0 c.

Lemma mat_ext (a b : mat R) :
  t00 a = t00 b -> t01 a = t01 b -> t02 a = t02 b -> t10 a = t10 b -> t11 a = t11 b -> t12 a = t12 b ->
  t20 a = t20 b -> t21 a = t21 b -> t22 a = t22 b -> a = b.
Proof. destruct a, b; cbn. intros; subst; reflexivity. Qed.

Lemma mul_assoc a b c : mul (mul a b) c = mul a (mul b c).
Proof. apply mat_ext; cbn; ring. Qed.
Lemma mul_scal_l c m : mul (scal c) m = mul m (scal c).
Proof. apply mat_ext; cbn; ring. Qed.
Lemma mul_scal2 a b : mul (scal a) (scal b) = scal (a * b).
Proof. apply mat_ext; cbn; ring. Qed.

Definition affine_form (m : mat R) : Prop := t20 m = 0 /\ t21 m = 0 /\ t22 m = 1.
Definition translation_form (m : mat R) : Prop := affine_form m /\ t00 m = 1 /\ t01 m = 0 /\ t10 m = 0 /\ t11 m = 1.
Definition class_form (c : class) (m : mat R) : Prop :=
  match c with Translation => translation_form m | Affine => affine_form m | Projective => True end.
Definition good (p : projection R) : Prop :=
  (exists c, c <> 0 /\ mul (transform p) (inverse p) = scal c /\ mul (inverse p) (transform p) = scal c) /\
  class_form (pclass p) (transform p) /\ class_form (pclass p) (inverse p).

Lemma affine_mul a b : affine_form a -> affine_form b -> affine_form (mul a b).
Proof. unfold affine_form. cbn. intros (A & B & C) (D & E & F). rewrite A, B, C, D, E, F. repeat split; ring. Qed.
Lemma translation_mul a b : translation_form a -> translation_form b -> translation_form (mul a b).
Proof.
  intros (A & A1 & A2 & A3 & A4) (B & B1 & B2 & B3 & B4). split; [apply affine_mul; assumption|].
  destruct A as (C1 & C2 & C3). destruct B as (D1 & D2 & D3). cbn. rewrite A1, A2, A3, A4, B1, B2, B3, B4, D1, D2.
  repeat split; ring.
Qed.
Lemma translation_affine m : translation_form m -> affine_form m.
Proof. intros (A & _). exact A. Qed.

Lemma good_compose p q : good p -> good q -> good (compose num_R p q).
Proof.
  intros ((c & Hc & E1 & E2) & F1 & F2) ((d & Hd & G1 & G2) & H1 & H2). split.
  - exists (c * d). split; [apply Rmult_integral_contrapositive_currified; assumption|].
    cbn [compose transform inverse]. split.
    + rewrite mul_assoc, <- (mul_assoc (transform q)), G1, mul_scal_l, <- mul_assoc, E1. apply mul_scal2.
    + rewrite mul_assoc, <- (mul_assoc (inverse p)), E2, mul_scal_l, <- mul_assoc, G2. rewrite mul_scal2. f_equal. ring.
  - cbn [compose transform inverse pclass].
    destruct (pclass p), (pclass q); cbn [class_form] in *; try (split; exact I);
      split; first [apply translation_mul; assumption | apply affine_mul; auto using translation_affine].
Qed.
Lemma good_invert p : good p -> good (invert p).
Proof. intros ((c & Hc & E1 & E2) & F1 & F2). split; [exists c; auto|]. split; assumption. Qed.

Lemma near_R e v : no_near_miss e v -> Rlt_bool (Rabs (e - v)) (/ 10000000000) = true <-> e = v.
Proof.
  intros H. split; intros E.
  - destruct H as [H|H]; [exact H|]. destruct (Rlt_bool_spec (Rabs (e - v)) (/ 10000000000)); [lra|discriminate].
  - subst. rewrite Rminus_diag_eq by reflexivity. rewrite Rabs_R0. apply Rlt_bool_true. lra.
Qed.

(** normalised matrices: [t22 = 1] *)
Definition nm (m : mat R) : mat R := normalize num_R m.
Definition clear (n : mat R) : Prop :=
  no_near_miss (t20 n) 0 /\ no_near_miss (t21 n) 0 /\ no_near_miss (t00 n) 1 /\ no_near_miss (t01 n) 0 /\
  no_near_miss (t10 n) 0 /\ no_near_miss (t11 n) 1.

Lemma class_ok n : t22 n = 1 -> clear n -> class_form (class_from_matrix num_R n) n.
Proof.
  intros H (C1 & C2 & C3 & C4 & C5 & C6). unfold class_from_matrix. cbn [num_R nlt nabs nsub ntiny n0 n1].
  destruct (Rlt_bool (Rabs (t20 n - 0)) (/ 10000000000)) eqn:E1; [|exact I]. apply (near_R _ _ C1) in E1.
  destruct (Rlt_bool (Rabs (t21 n - 0)) (/ 10000000000)) eqn:E2; [|exact I]. apply (near_R _ _ C2) in E2.
  destruct (Rlt_bool (Rabs (t22 n - 1)) (/ 10000000000)) eqn:E3; [|exact I]. cbn [andb].
  assert (A : affine_form n) by (repeat split; assumption).
  destruct (Rlt_bool (Rabs (t00 n - 1)) (/ 10000000000)) eqn:E4; [|exact A]. apply (near_R _ _ C3) in E4.
  destruct (Rlt_bool (Rabs (t01 n - 0)) (/ 10000000000)) eqn:E5; [|exact A]. apply (near_R _ _ C4) in E5.
  destruct (Rlt_bool (Rabs (t10 n - 0)) (/ 10000000000)) eqn:E6; [|exact A]. apply (near_R _ _ C5) in E6.
  destruct (Rlt_bool (Rabs (t11 n - 1)) (/ 10000000000)) eqn:E7; [|exact A]. apply (near_R _ _ C6) in E7.
  cbn [andb class_form]. split; [exact A|]. repeat split; assumption.
Qed.

Lemma class_inv n i c : t22 n = 1 -> clear n -> mul n i = scal c -> t22 i = 1 -> c <> 0 ->
  class_form (class_from_matrix num_R n) i.
Proof.
  intros H C E Hi Hc. pose proof (class_ok n H C) as F. destruct (class_from_matrix num_R n); cbn [class_form] in *.
  - destruct F as ((A1 & A2 & A3) & A4 & A5 & A6 & A7).
    pose proof (f_equal t00 E) as F1. pose proof (f_equal t01 E) as F2. pose proof (f_equal t10 E) as F3. pose proof (f_equal t11 E) as F4.
    pose proof (f_equal t20 E) as F5. pose proof (f_equal t21 E) as F6. pose proof (f_equal t22 E) as F7. cbn in F1, F2, F3, F4, F5, F6, F7.
    rewrite A1, A2, A3 in F5, F6, F7. rewrite Hi in F7. rewrite A4, A5 in F1, F2. rewrite A6, A7 in F3, F4.
    assert (G1 : t20 i = 0) by lra. assert (G2 : t21 i = 0) by lra. rewrite G1 in F1, F3. rewrite G2 in F2, F4.
    repeat split; lra.
  - destruct F as (A1 & A2 & A3).
    pose proof (f_equal t20 E) as F5. pose proof (f_equal t21 E) as F6. cbn in F5, F6. rewrite A1, A2, A3 in F5, F6. repeat split; lra.
  - exact I.
Qed.

Lemma inverse_R n : t22 n = 1 ->
  (try_inverse num_R n = None <-> Rabs (det n) < / 10000000000) /\
  (forall i, try_inverse num_R n = Some i -> t00 n * t11 n - t01 n * t10 n <> 0 ->
     t22 i = 1 /\ exists c, c <> 0 /\ mul n i = scal c /\ mul i n = scal c).
Proof.
  destruct n as [a b c d e f g h k]. cbn [t00 t01 t02 t10 t11 t12 t20 t21 t22]. intros ->.
  unfold try_inverse. cbn [num_R nlt nabs nsub nadd nmul ndiv nneg ntiny n0 n1].
  set (D := a * (e * 1 - f * h) - b * (d * 1 - f * g) + c * (d * h - e * g)).
  assert (HD : det (mkMat a b c d e f g h 1) = D) by (unfold det, D; cbn; ring). rewrite HD.
  destruct (Rlt_bool_spec (Rabs D) (/ 10000000000)) as [L|L].
  - split; [split; auto|]. intros i E. discriminate.
  - assert (ND : D <> 0). { intros Z. rewrite Z, Rabs_R0 in L. lra. }
    split; [split; [discriminate|lra]|]. intros i E NM. inversion E as [Ei]; clear E Ei.
    split; [reflexivity|]. exists (D / (a * e - b * d)).
    split. { unfold Rdiv. apply Rmult_integral_contrapositive_currified; [assumption|]. apply Rinv_neq_0_compat. assumption. }
    split; apply mat_ext; cbn; unfold D in *; field; repeat split; try assumption; intros Z; first [apply ND; rewrite <- Z; ring | apply NM; rewrite <- Z; ring].
Qed.

Lemma regular_clear m : regular m -> t22 m <> 0 /\ clear (nm m) /\ t00 (nm m) * t11 (nm m) - t01 (nm m) * t10 (nm m) <> 0 /\
  / 10000000000 <= Rabs (det (nm m)).
Proof.
  intros (A & B & C & D1 & D2 & D3 & D4 & D5 & D6). split; [exact A|]. split; [unfold clear, nm; cbn; tauto|]. split.
  - unfold nm. cbn. intros E. apply B.
    replace (t00 m * t11 m - t01 m * t10 m) with ((t00 m / t22 m * (t11 m / t22 m) - t01 m / t22 m * (t10 m / t22 m)) * (t22 m * t22 m)) by (field; exact A).
    rewrite E. ring.
  - replace (det (nm m)) with (det m / (t22 m * t22 m * t22 m)) by (unfold det, nm; cbn; field; exact A). exact C.
Qed.

Lemma good_regular n i : t22 n = 1 -> clear n -> t00 n * t11 n - t01 n * t10 n <> 0 -> try_inverse num_R n = Some i ->
  good (mkProj n i (class_from_matrix num_R n)).
Proof.
  intros H C NM E. destruct (inverse_R n H) as (_ & I). destruct (I i E NM) as (Hi & c & Hc & E1 & E2).
  split; [exists c; auto|]. cbn [transform inverse pclass]. split; [apply class_ok; assumption|].
  eapply class_inv; eassumption.
Qed.
Lemma good_from_matrix m p : regular m -> from_matrix num_R m = Some p -> good p.
Proof.
  intros R E. destruct (regular_clear m R) as (_ & C & NM & _). unfold from_matrix in E. fold (nm m) in E.
  destruct (try_inverse num_R (nm m)) as [i|] eqn:Ei; [|discriminate]. inversion E; subst p.
  apply good_regular; [reflexivity|assumption|assumption|assumption].
Qed.

Lemma built_good p : built p -> good p.
Proof.
  induction 1 as [tx ty|s c E|sx sy Hx Hy|m p R E|p q _ IHp _ IHq|p _ IH].
  - split; [exists 1; split; [lra|]; split; apply mat_ext; cbn; ring|]. cbn. unfold translation_form, affine_form. cbn. repeat split; lra.
  - split; [exists 1; split; [lra|]; split; apply mat_ext; cbn; lra|]. cbn. unfold affine_form. cbn. repeat split; lra.
  - split; [exists 1; split; [lra|]; split; apply mat_ext; cbn; field; try split; assumption|]. cbn. unfold affine_form. cbn. repeat split; lra.
  - eapply good_from_matrix; eassumption.
  - apply good_compose; assumption.
  - apply good_invert; assumption.
Qed.

Lemma apply_R p x y : good p -> apply num_R p x y = image_of (transform p) x y.
Proof.
  intros (_ & F & _). unfold apply, image_of, den. destruct (pclass p); cbn [class_form] in F.
  - destruct F as ((A1 & A2 & A3) & A4 & A5 & A6 & A7). unfold map_translation. cbn. rewrite A1, A2, A3, A4, A5, A6, A7. f_equal; field.
  - destruct F as (A1 & A2 & A3). unfold map_affine. cbn. rewrite A1, A2, A3. f_equal; field.
  - reflexivity.
Qed.

Lemma den_mul a b x y : den b x y <> 0 ->
  den (mul a b) x y = den a (fst (image_of b x y)) (snd (image_of b x y)) * den b x y.
Proof. intros H. unfold image_of, den in *. cbn in *. field. exact H. Qed.
Lemma frac_W W n d n' d' : W <> 0 -> d <> 0 -> n' = n * W -> d' = d * W -> n' / d' = n / d.
Proof. intros A B -> ->. field. split; assumption. Qed.
Lemma image_mul a b x y : den b x y <> 0 -> den a (fst (image_of b x y)) (snd (image_of b x y)) <> 0 ->
  image_of (mul a b) x y = image_of a (fst (image_of b x y)) (snd (image_of b x y)).
Proof.
  intros H1 H2. unfold image_of at 1 2. f_equal; apply (frac_W (den b x y)); try assumption; try (apply den_mul; assumption);
    unfold image_of; cbn; unfold den in *; field; exact H1.
Qed.
