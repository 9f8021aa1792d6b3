(** The least rectangle around a convex polygon has a side along an edge. *)
From Coq Require Import Reals Lra Psatz Classical.
From Verif Require Import Base BaseProofs GeometrySpec MinRectSpec.
Local Ltac Zify.zify_post_hook ::= idtac.
Local Open Scope R_scope.

(** ** maxima over a list *)
Fixpoint lmax (f : Z * Z -> R) (d : Z * Z) (l : list (Z * Z)) : R :=
  match l with [] => f d | p :: l => Rmax (f p) (lmax f d l) end.
Lemma lmax_ge f d l p : In p (d :: l) -> f p <= lmax f d l.
Proof.
  revert p. induction l as [|q l IH]; intros p Hp; cbn [lmax].
  - destruct Hp as [<-|[]]. lra.
  - destruct Hp as [<-|[<-|Hp]].
    + eapply Rle_trans; [apply IH; left; reflexivity|apply Rmax_r].
    + apply Rmax_l.
    + eapply Rle_trans; [apply IH; right; exact Hp|apply Rmax_r].
Qed.
Lemma lmax_in f d l : exists p, In p (d :: l) /\ lmax f d l = f p.
Proof.
  induction l as [|q l IH]; cbn [lmax].
  - exists d. split; [left|]; reflexivity.
  - destruct IH as (p & Hp & E). unfold Rmax. destruct (Rle_dec (f q) (lmax f d l)).
    + exists p. split; [|exact E]. destruct Hp as [<-|Hp]; [left; reflexivity|right; right; exact Hp].
    + exists q. split; [right; left|]; reflexivity.
Qed.
Lemma lmax_eq f d l v : In v (d :: l) -> (forall p, In p (d :: l) -> f p <= f v) -> lmax f d l = f v.
Proof.
  intros Hv H. destruct (lmax_in f d l) as (p & Hp & E). pose proof (lmax_ge f d l v Hv). pose proof (H p Hp). lra.
Qed.
Lemma cont_Rmax f g : continuity f -> continuity g -> continuity (fun t => Rmax (f t) (g t)).
Proof.
  intros F G t.
  assert (E : forall s, (f s + g s + Rabs (f s - g s)) * / 2 = Rmax (f s) (g s)).
  { intros s. unfold Rmax. destruct (Rle_dec (f s) (g s)); [rewrite Rabs_left1|rewrite Rabs_right]; lra. }
  assert (C : continuity_pt (fun s => (f s + g s + Rabs (f s - g s)) * / 2) t).
  { apply (continuity_pt_mult (fun s => f s + g s + Rabs (f s - g s)) (fun _ => / 2)).
    - apply (continuity_pt_plus (fun s => f s + g s) (fun s => Rabs (f s - g s))).
      + apply (continuity_pt_plus f g); auto.
      + apply (continuity_pt_comp (fun s => f s - g s) Rabs); [apply (continuity_pt_minus f g); auto|apply Rcontinuity_abs].
    - apply continuity_pt_const. intros x y. reflexivity. }
  apply (continuity_pt_locally_ext (fun s => (f s + g s + Rabs (f s - g s)) * / 2) _ 1); [lra| |exact C]. intros y _. apply E.
Qed.
Lemma cont_lmax (f : R -> Z * Z -> R) d l : (forall p, continuity (fun t => f t p)) -> continuity (fun t => lmax (f t) d l).
Proof.
  intros H. induction l as [|q l IH]; cbn [lmax]; [apply H|]. apply (cont_Rmax (fun t => f t q) (fun t => lmax (f t) d l)); auto.
Qed.
Lemma cont_along p : continuity (fun t => along t p).
Proof.
  intros t. unfold along.
  apply (continuity_pt_plus (fun t => IZR (fst p) * cos t) (fun t => IZR (snd p) * sin t)).
  - apply (continuity_pt_mult (fun _ => IZR (fst p)) cos); [apply continuity_pt_const; intros x y; reflexivity|apply continuity_cos].
  - apply (continuity_pt_mult (fun _ => IZR (snd p)) sin); [apply continuity_pt_const; intros x y; reflexivity|apply continuity_sin].
Qed.
Lemma across_along t p : across t p = along (t + PI / 2) p.
Proof. unfold along, across. rewrite cos_plus, sin_plus, cos_PI2, sin_PI2. ring. Qed.
Lemma along_PI t p : along (t + PI) p = - along t p.
Proof. unfold along. rewrite neg_cos, neg_sin. ring. Qed.
Lemma cont_across p : continuity (fun t => across t p).
Proof.
  intros t. unfold across.
  apply (continuity_pt_minus (fun t => IZR (snd p) * cos t) (fun t => IZR (fst p) * sin t)).
  - apply (continuity_pt_mult (fun _ => IZR (snd p)) cos); [apply continuity_pt_const; intros x y; reflexivity|apply continuity_cos].
  - apply (continuity_pt_mult (fun _ => IZR (fst p)) sin); [apply continuity_pt_const; intros x y; reflexivity|apply continuity_sin].
Qed.

(** ** hull vertices and linear functionals *)
Definition lin (a b : R) (p : Z * Z) : R := a * IZR (fst p) + b * IZR (snd p).
Lemma cyc_In l i : l <> [] -> In (cyc l i) l.
Proof.
  intros H. unfold cyc. assert (0 < zlen l)%Z. { destruct l; [congruence|]. rewrite zlen_cons. pose proof (zlen_nonneg l). lia. }
  destruct (znth l (i mod zlen l)) as [p|] eqn:E; [exact (znth_In _ _ _ E)|]. exfalso.
  pose proof (Z.mod_pos_bound i (zlen l) ltac:(lia)). destruct (znth_some l (i mod zlen l)) as (q & Q); [lia|]. congruence.
Qed.
Lemma In_cyc l p : In p l -> exists i, (0 <= i < zlen l)%Z /\ cyc l i = p.
Proof.
  intros H. destruct (In_znth _ _ H) as (i & Hi & E). exists i. split; [exact Hi|]. unfold cyc. rewrite Z.mod_small by lia. rewrite E. reflexivity.
Qed.
Lemma cyc_mod l i : cyc l (i + zlen l) = cyc l i.
Proof. unfold cyc. destruct (Z.eq_dec (zlen l) 0) as [->|N]; [rewrite Z.add_0_r; reflexivity|]. replace (i + zlen l)%Z with (i + 1 * zlen l)%Z by lia. rewrite Z.mod_add by lia. reflexivity. Qed.

(** the decomposition of p - v along the two edges at v *)
Lemma vertex_split pts hull v : hull_of pts hull -> In v hull ->
  exists e1 e2 : Z * Z, In e1 hull /\ In e2 hull /\
    (exists i, (0 <= i < zlen hull)%Z /\ cyc hull i = v /\ cyc hull (i + 1) = e1) /\
    (exists i, (0 <= i < zlen hull)%Z /\ cyc hull i = e2 /\ cyc hull (i + 1) = v) /\
    forall p, In p pts -> exists al be D : Z, (0 <= al /\ 0 <= be /\ 0 < D)%Z /\
      forall a b, IZR D * (lin a b p - lin a b v) = IZR al * (lin a b e1 - lin a b v) + IZR be * (lin a b e2 - lin a b v).
Proof.
  intros (L3 & Inc & T & All) Hv. assert (N : hull <> []) by (intros ->; cbn in Hv; exact Hv).
  destruct (In_cyc _ _ Hv) as (i & Hi & Ei).
  set (n := zlen hull) in *.
  set (j := if (i =? 0)%Z then (n - 1)%Z else (i - 1)%Z).
  assert (Hj : (0 <= j < n)%Z) by (unfold j; destruct (Z.eqb_spec i 0); lia).
  assert (Ej : cyc hull (j + 1) = v).
  { unfold j. destruct (Z.eqb_spec i 0) as [->|Q].
    - replace (n - 1 + 1)%Z with (0 + n)%Z by lia. unfold n. rewrite cyc_mod. exact Ei.
    - replace (i - 1 + 1)%Z with i by lia. exact Ei. }
  assert (Ej2 : cyc hull (j + 2) = cyc hull (i + 1)).
  { unfold j. destruct (Z.eqb_spec i 0) as [->|Q].
    - replace (n - 1 + 2)%Z with (0 + 1 + n)%Z by lia. unfold n. rewrite cyc_mod. reflexivity.
    - f_equal. lia. }
  exists (cyc hull (i + 1)), (cyc hull j). split; [apply cyc_In, N|]. split; [apply cyc_In, N|].
  split; [exists i; auto|]. split; [exists j; auto|].
  intros p Hp. pose proof (All i p Hi Hp) as A1. pose proof (All j p Hj Hp) as A2. pose proof (T j Hj) as A3.
  rewrite Ej in A2, A3. rewrite Ej2 in A3. rewrite Ei in A1.
  set (e1 := cyc hull (i + 1)) in *. set (e2 := cyc hull j) in *. clearbody e1 e2. clear - A1 A2 A3.
  destruct v as [vx vy], e1 as [ax ay], e2 as [bx by_], p as [px py]. unfold turn in *. cbn [fst snd] in *.
  exists ((px - vx) * (by_ - vy) - (py - vy) * (bx - vx))%Z, ((ax - vx) * (py - vy) - (ay - vy) * (px - vx))%Z,
    ((ax - vx) * (by_ - vy) - (ay - vy) * (bx - vx))%Z.
  split; [split; [|split]; lia|]. intros a b. unfold lin. cbn [fst snd].
  rewrite !minus_IZR, !mult_IZR, !minus_IZR. ring.
Qed.
Lemma hull_max pts hull a b v : hull_of pts hull -> In v hull -> (forall q, In q hull -> lin a b q <= lin a b v) ->
  forall p, In p pts -> lin a b p <= lin a b v.
Proof.
  intros H Hv M p Hp. destruct (vertex_split _ _ _ H Hv) as (e1 & e2 & I1 & I2 & _ & _ & S).
  destruct (S p Hp) as (al & be & D & (A & B & C) & E). specialize (E a b).
  pose proof (M e1 I1). pose proof (M e2 I2). apply IZR_le in A, B. apply IZR_lt in C.
  destruct (Rle_or_lt (lin a b p) (lin a b v)) as [Q|Q]; [exact Q|exfalso].
  assert (0 < IZR D * (lin a b p - lin a b v)) by (apply Rmult_lt_0_compat; lra).
  assert (0 <= IZR al * (lin a b v - lin a b e1)) by (apply Rmult_le_pos; lra).
  assert (0 <= IZR be * (lin a b v - lin a b e2)) by (apply Rmult_le_pos; lra). lra.
Qed.
(** two vertices with the largest value: there is an edge with that value *)
Lemma hull_max2 pts hull a b v w : hull_of pts hull -> In v hull -> In w hull ->
  (forall q, In q hull -> lin a b q <= lin a b v) -> lin a b w = lin a b v -> w <> v ->
  exists i, (0 <= i < zlen hull)%Z /\ lin a b (cyc hull i) = lin a b (cyc hull (i + 1)).
Proof.
  intros H Hv Hw M E N. destruct (vertex_split _ _ _ H Hv) as (e1 & e2 & I1 & I2 & (i & Hi & Vi & Ei) & (j & Hj & Ej & Vj) & S).
  assert (Hp : In w pts) by (destruct H as (_ & Inc & _); apply Inc, Hw).
  destruct (S w Hp) as (al & be & D & (A & B & C) & F).
  pose proof (M e1 I1) as M1. pose proof (M e2 I2) as M2. pose proof (F a b) as Fab. rewrite E in Fab.
  destruct (Req_dec (lin a b e1) (lin a b v)) as [Q1|Q1]; [exists i; rewrite Vi, Ei; auto|].
  destruct (Req_dec (lin a b e2) (lin a b v)) as [Q2|Q2]; [exists j; rewrite Vj, Ej; auto|].
  exfalso. apply N.
  assert (al = 0 /\ be = 0)%Z as (-> & ->).
  { apply IZR_le in A, B.
    assert (0 <= IZR al * (lin a b v - lin a b e1)) by (apply Rmult_le_pos; lra).
    assert (0 <= IZR be * (lin a b v - lin a b e2)) by (apply Rmult_le_pos; lra).
    split; apply eq_IZR.
    - assert (Z0 : IZR al * (lin a b v - lin a b e1) = 0) by lra. apply Rmult_integral in Z0. lra.
    - assert (Z0 : IZR be * (lin a b v - lin a b e2) = 0) by lra. apply Rmult_integral in Z0. lra. }
  apply IZR_lt in C. pose proof (F 1 0) as X. pose proof (F 0 1) as Y. unfold lin in X, Y.
  assert (X' : IZR D * (IZR (fst w) - IZR (fst v)) = 0) by lra. assert (Y' : IZR D * (IZR (snd w) - IZR (snd v)) = 0) by lra.
  apply Rmult_integral in X', Y'. destruct w as [wx wy], v as [vx vy]. cbn [fst snd] in X', Y'.
  f_equal; apply eq_IZR; lra.
Qed.
Lemma along_lin t p : along t p = lin (cos t) (sin t) p.
Proof. unfold along, lin. ring. Qed.
Lemma along_lin' t p : - along t p = lin (- cos t) (- sin t) p.
Proof. unfold along, lin. ring. Qed.
Lemma across_lin t p : across t p = lin (- sin t) (cos t) p.
Proof. unfold across, lin. ring. Qed.
Lemma across_lin' t p : - across t p = lin (sin t) (- cos t) p.
Proof. unfold across, lin. ring. Qed.

(** ** the product of two extents has no interior minimum *)
Lemma no_min a b c d del : 0 < a -> 0 < c -> 0 < del ->
  (forall h, Rabs h < del -> a * c <= (a * cos h + b * sin h) * (c * cos h + d * sin h)) -> False.
Proof.
  intros Ha Hc Hd H.
  assert (P : forall h, 0 < h -> h < del -> h < 1 -> Rabs (a * d + b * c) * / 2 <= (b * d - a * c) * h).
  { intros h h0 hd h1.
    assert (S0 : 0 < sin h). { apply sin_gt_0; [lra|]. pose proof PI2_1. lra. }
    assert (S1 : sin h < h) by (apply sin_lt_x; lra).
    assert (C0 : / 2 <= cos h).
    { assert (CC : cos h * cos h + sin h * sin h = 1) by (pose proof (sin2_cos2 h) as Q; unfold Rsqr in Q; lra).
      pose proof (cos_ge_0 h). assert (0 <= cos h). { apply cos_ge_0; pose proof PI2_1; lra. }
      assert (C2 : cos h = 1 - 2 * sin (h / 2) * sin (h / 2)). { rewrite <- cos_2a_sin. f_equal. lra. }
      assert (sin (h / 2) < h / 2) by (apply sin_lt_x; lra).
      assert (0 < sin (h / 2)). { apply sin_gt_0; [lra|]. pose proof PI2_1. lra. }
      nra. }
    assert (CC : cos h * cos h = 1 - sin h * sin h) by (pose proof (sin2_cos2 h) as Q; unfold Rsqr in Q; lra).
    pose proof (H h ltac:(rewrite Rabs_right; lra)) as H1.
    pose proof (H (- h) ltac:(rewrite Rabs_left; lra)) as H2.
    rewrite cos_neg, sin_neg in H2.
    assert (Q1 : 0 <= sin h * ((a * d + b * c) * cos h + (b * d - a * c) * sin h)).
    { replace ((a * cos h + b * sin h) * (c * cos h + d * sin h)) with (a * c * (cos h * cos h) + sin h * (a * d + b * c) * cos h + b * d * sin h * sin h) in H1 by ring.
      rewrite CC in H1. lra. }
    assert (Q2 : 0 <= sin h * (- (a * d + b * c) * cos h + (b * d - a * c) * sin h)).
    { replace ((a * cos h + b * - sin h) * (c * cos h + d * - sin h)) with (a * c * (cos h * cos h) - sin h * (a * d + b * c) * cos h + b * d * sin h * sin h) in H2 by ring.
      rewrite CC in H2. lra. }
    assert (R1 : 0 <= (a * d + b * c) * cos h + (b * d - a * c) * sin h).
    { destruct (Rle_or_lt 0 ((a * d + b * c) * cos h + (b * d - a * c) * sin h)) as [q|q]; [exact q|]. exfalso.
      assert (0 < sin h * - ((a * d + b * c) * cos h + (b * d - a * c) * sin h)) by (apply Rmult_lt_0_compat; lra). lra. }
    assert (R2 : 0 <= - (a * d + b * c) * cos h + (b * d - a * c) * sin h).
    { destruct (Rle_or_lt 0 (- (a * d + b * c) * cos h + (b * d - a * c) * sin h)) as [q|q]; [exact q|]. exfalso.
      assert (0 < sin h * - (- (a * d + b * c) * cos h + (b * d - a * c) * sin h)) by (apply Rmult_lt_0_compat; lra). lra. }
    assert (K : 0 <= b * d - a * c).
    { destruct (Rle_or_lt 0 (b * d - a * c)) as [q|q]; [exact q|]. exfalso.
      assert (0 < - (b * d - a * c) * sin h) by (apply Rmult_lt_0_compat; lra). lra. }
    assert (K2 : (b * d - a * c) * sin h <= (b * d - a * c) * h) by (apply Rmult_le_compat_l; lra).
    assert (K3 : Rabs (a * d + b * c) * / 2 <= Rabs (a * d + b * c) * cos h) by (apply Rmult_le_compat_l; [apply Rabs_pos|lra]).
    unfold Rabs in *. destruct (Rcase_abs (a * d + b * c)); lra. }
  set (K := b * d - a * c) in *. set (M := Rabs (a * d + b * c)) in *.
  assert (Hm : 0 < Rmin del 1) by (apply Rmin_pos; lra). pose proof (Rmin_l del 1). pose proof (Rmin_r del 1).
  assert (K0 : 0 <= K). { pose proof (P (Rmin del 1 / 2) ltac:(lra) ltac:(lra) ltac:(lra)) as Q. pose proof (Rabs_pos (a * d + b * c)). fold M in H2.
    destruct (Rle_or_lt 0 K) as [q|q]; [exact q|]. exfalso. assert (0 < - K * (Rmin del 1 / 2)) by (apply Rmult_lt_0_compat; lra). lra. }
  assert (Mp : 0 < M).
  { assert (b * d >= a * c) by (unfold K in K0; lra). assert (0 < a * c) by (apply Rmult_lt_0_compat; lra).
    unfold M. apply Rabs_pos_lt. intros Z0. assert (E : a * (b * d) = - (b * b) * c) by (transitivity (b * (a * d)); [ring|]; replace (a * d) with (- (b * c)) by lra; ring).
    assert (0 < a * (b * d)) by (apply Rmult_lt_0_compat; lra). assert (0 <= b * b * c) by (apply Rmult_le_pos; [nra|lra]). lra. }
  set (h := Rmin (Rmin del 1 / 2) (M / (4 * (K + 1)))).
  assert (0 < M / (4 * (K + 1))) by (apply Rdiv_lt_0_compat; lra).
  assert (h0 : 0 < h) by (apply Rmin_pos; lra).
  assert (ha : h <= Rmin del 1 / 2) by apply Rmin_l. assert (hb : h <= M / (4 * (K + 1))) by apply Rmin_r.
  pose proof (P h h0 ltac:(lra) ltac:(lra)) as Q.
  assert (K * h <= K * (M / (4 * (K + 1)))) by (apply Rmult_le_compat_l; lra).
  assert (K * (M / (4 * (K + 1))) <= M / 4).
  { replace (K * (M / (4 * (K + 1)))) with (M / 4 * (K / (K + 1))) by (field; lra).
    assert (K / (K + 1) <= 1). { apply Rmult_le_reg_r with (K + 1); [lra|]. unfold Rdiv. rewrite Rmult_assoc, Rinv_l by lra. lra. }
    assert (0 <= K / (K + 1)) by (apply Rmult_le_pos; [lra|left; apply Rinv_0_lt_compat; lra]). nra. }
  lra.
Qed.

(** a strict maximum stays a maximum under a small turn *)
Lemma stays (f : R -> Z * Z -> R) t0 v l : (forall p, continuity (fun t => f t p)) ->
  (forall p, In p l -> p = v \/ f t0 p < f t0 v) ->
  exists del, 0 < del /\ forall h, Rabs h < del -> forall p, In p l -> f (t0 + h) p <= f (t0 + h) v.
Proof.
  intros C. induction l as [|q l IH]; intros H.
  - exists 1. split; [lra|]. intros h _ p [].
  - destruct IH as (del & D & S); [intros p Hp; apply H; right; exact Hp|].
    destruct (H q (or_introl eq_refl)) as [->|L].
    + exists del. split; [exact D|]. intros h Hh p [<-|Hp]; [lra|]. exact (S h Hh p Hp).
    + pose proof (continuity_pt_minus (fun t => f t v) (fun t => f t q) t0 (C v t0) (C q t0)) as CM.
      destruct (CM (f t0 v - f t0 q) ltac:(lra)) as (al & A & B).
      exists (Rmin del al). split; [apply Rmin_pos; lra|]. intros h Hh p [<-|Hp].
      * pose proof (Rmin_r del al). destruct (Req_dec h 0) as [->|N]; [rewrite Rplus_0_r; lra|].
        specialize (B (t0 + h)). unfold dist in B. cbn [R_met Base] in B. cbn in B. unfold R_dist in B.
        assert (X : Rabs (f (t0 + h) v - f (t0 + h) q - (f t0 v - f t0 q)) < f t0 v - f t0 q).
        { apply B. split; [split; [exact I|lra]|]. replace (t0 + h - t0) with h by ring. lra. }
        apply Rabs_def2 in X. lra.
      * apply S; [|exact Hp]. pose proof (Rmin_l del al). lra.
Qed.

(** ** the bounding rectangle at a given angle *)
Definition bound (hull : list (Z * Z)) (t : R) : rect :=
  let d := cyc hull 0 in
  mkRect t (- lmax (fun p => - along t p) d hull) (lmax (along t) d hull)
           (- lmax (fun p => - across t p) d hull) (lmax (across t) d hull).
Lemma hull_ne pts hull : hull_of pts hull -> hull <> [].
Proof. intros (L & _) ->. cbn in L. lia. Qed.
Lemma in_d hull p : hull <> [] -> In p (cyc hull 0 :: hull) <-> In p hull.
Proof. intros N. split; [intros [<-|H]; [apply cyc_In, N|exact H]|intros H; right; exact H]. Qed.
Lemma lmax_lin_all pts hull a b f : hull_of pts hull -> (forall p, f p = lin a b p) ->
  forall p, In p pts -> f p <= lmax f (cyc hull 0) hull.
Proof.
  intros H E p Hp. pose proof (hull_ne _ _ H) as N.
  destruct (lmax_in f (cyc hull 0) hull) as (v & Hv & M). rewrite in_d in Hv by exact N.
  rewrite M, !E. apply (hull_max pts hull a b v H Hv); [|exact Hp].
  intros q Hq. rewrite <- !E, <- M. apply lmax_ge. right. exact Hq.
Qed.
Lemma bound_contains pts hull t p : hull_of pts hull -> In p pts -> contains (bound hull t) p.
Proof.
  intros H Hp. unfold contains, bound. cbn [ang x0 x1 y0 y1].
  pose proof (lmax_lin_all _ _ _ _ (along t) H (along_lin t) p Hp).
  pose proof (lmax_lin_all _ _ _ _ (fun p => - along t p) H (along_lin' t) p Hp).
  pose proof (lmax_lin_all _ _ _ _ (across t) H (across_lin t) p Hp).
  pose proof (lmax_lin_all _ _ _ _ (fun p => - across t p) H (across_lin' t) p Hp).
  cbv beta in *. lra.
Qed.
Lemma bound_least hull t r : hull <> [] -> ang r = t -> (forall p, In p hull -> contains r p) ->
  0 <= x1 (bound hull t) - x0 (bound hull t) <= x1 r - x0 r /\ 0 <= y1 (bound hull t) - y0 (bound hull t) <= y1 r - y0 r.
Proof.
  intros N <- H. unfold bound. cbn [x0 x1 y0 y1]. set (t := ang r).
  assert (D : In (cyc hull 0) (cyc hull 0 :: hull)) by (left; reflexivity).
  pose proof (lmax_ge (along t) _ _ _ D). pose proof (lmax_ge (fun p => - along t p) _ _ _ D).
  pose proof (lmax_ge (across t) _ _ _ D). pose proof (lmax_ge (fun p => - across t p) _ _ _ D). cbv beta in *.
  destruct (lmax_in (along t) (cyc hull 0) hull) as (v1 & V1 & Q1). destruct (lmax_in (fun p => - along t p) (cyc hull 0) hull) as (v2 & V2 & Q2).
  destruct (lmax_in (across t) (cyc hull 0) hull) as (v3 & V3 & Q3). destruct (lmax_in (fun p => - across t p) (cyc hull 0) hull) as (v4 & V4 & Q4).
  rewrite in_d in V1, V2, V3, V4 by exact N.
  pose proof (H v1 V1) as (A1 & _). pose proof (H v2 V2) as (A2 & _). pose proof (H v3 V3) as (_ & A3). pose proof (H v4 V4) as (_ & A4).
  fold t in A1, A2, A3, A4. cbv beta in *. lra.
Qed.
Lemma area_bound_le hull t r : hull <> [] -> ang r = t -> (forall p, In p hull -> contains r p) -> area (bound hull t) <= area r.
Proof.
  intros N E H. pose proof (bound_least hull t r N E H) as (A & B). unfold area.
  apply Rmult_le_compat; lra.
Qed.
Lemma lmax_ext f g d l : (forall p, f p = g p) -> lmax f d l = lmax g d l.
Proof. intros H. induction l as [|q l IH]; cbn [lmax]; [apply H|]. rewrite H, IH. reflexivity. Qed.
(** a quarter turn changes nothing *)
Lemma area_quarter hull t : area (bound hull (t + PI / 2)) = area (bound hull t).
Proof.
  unfold area, bound. cbn [x0 x1 y0 y1].
  rewrite (lmax_ext (along (t + PI / 2)) (across t)) by (intros p; rewrite across_along; reflexivity).
  rewrite (lmax_ext (fun p => - along (t + PI / 2) p) (fun p => - across t p)) by (intros p; rewrite across_along; reflexivity).
  assert (E : forall p, across (t + PI / 2) p = - along t p).
  { intros p. rewrite across_along. replace (t + PI / 2 + PI / 2) with (t + PI) by lra. apply along_PI. }
  rewrite (lmax_ext (across (t + PI / 2)) (fun p => - along t p)) by exact E.
  rewrite (lmax_ext (fun p => - across (t + PI / 2) p) (along t)) by (intros p; rewrite E; ring).
  ring.
Qed.
Lemma cont_area hull : continuity (fun t => area (bound hull t)).
Proof.
  unfold area, bound. cbn [x0 x1 y0 y1]. intros t.
  pose proof (cont_lmax along (cyc hull 0) hull cont_along t) as C1.
  pose proof (cont_lmax (fun t p => - along t p) (cyc hull 0) hull (fun p => continuity_opp _ (cont_along p)) t) as C2.
  pose proof (cont_lmax across (cyc hull 0) hull cont_across t) as C3.
  pose proof (cont_lmax (fun t p => - across t p) (cyc hull 0) hull (fun p => continuity_opp _ (cont_across p)) t) as C4.
  apply (continuity_pt_mult (fun t => lmax (along t) (cyc hull 0) hull - - lmax (fun p => - along t p) (cyc hull 0) hull)
                            (fun t => lmax (across t) (cyc hull 0) hull - - lmax (fun p => - across t p) (cyc hull 0) hull)).
  - apply (continuity_pt_minus (fun t => lmax (along t) (cyc hull 0) hull) (fun t => - lmax (fun p => - along t p) (cyc hull 0) hull)); [exact C1|].
    apply (continuity_pt_opp (fun t => lmax (fun p => - along t p) (cyc hull 0) hull)). exact C2.
  - apply (continuity_pt_minus (fun t => lmax (across t) (cyc hull 0) hull) (fun t => - lmax (fun p => - across t p) (cyc hull 0) hull)); [exact C3|].
    apply (continuity_pt_opp (fun t => lmax (fun p => - across t p) (cyc hull 0) hull)). exact C4.
Qed.

(** an angle at which the area is least *)
Lemma least_angle hull t : exists t0, area (bound hull t0) <= area (bound hull t) /\
  forall h, Rabs h < PI / 2 -> area (bound hull t0) <= area (bound hull (t0 + h)).
Proof.
  assert (P : 0 < PI / 2) by (pose proof PI_RGT_0; lra).
  destruct (continuity_ab_min (fun t => area (bound hull t)) t (t + PI / 2)) as (t0 & M & I0); [lra|intros c _; apply cont_area|].
  cbv beta in M. exists t0. split; [apply M; lra|].
  intros h Hh. apply Rabs_def2 in Hh.
  destruct (Rle_or_lt t (t0 + h)) as [A|A]; [destruct (Rle_or_lt (t0 + h) (t + PI / 2)) as [B|B]|].
  - apply M. lra.
  - replace (t0 + h) with (t0 + h - PI / 2 + PI / 2) by lra. rewrite area_quarter. apply M. lra.
  - rewrite <- (area_quarter hull (t0 + h)). apply M. lra.
Qed.

(** for every rectangle around the points there is one that is no larger and has
    a side along an edge of the hull *)
Theorem edge_rect pts hull r : hull_of pts hull -> (forall p, In p pts -> contains r p) ->
  exists i t, (0 <= i < zlen hull)%Z /\ parallel (bound hull t) (cyc hull i) (cyc hull (i + 1)) /\ area (bound hull t) <= area r.
Proof.
  intros H Hr. pose proof (hull_ne _ _ H) as N. pose proof H as (L3 & Inc & T & _).
  destruct (least_angle hull (ang r)) as (t0 & M1 & M2).
  assert (Ar : area (bound hull (ang r)) <= area r) by (apply area_bound_le; auto).
  destruct (classic (exists i, (0 <= i < zlen hull)%Z /\ parallel (bound hull t0) (cyc hull i) (cyc hull (i + 1)))) as [(i & Hi & Q)|Q].
  { exists i, t0. split; [exact Hi|]. split; [exact Q|]. lra. }
  exfalso.
  assert (U : forall a b f, (forall p, f p = lin a b p) ->
     (forall p q, f p = f q -> along t0 p = along t0 q \/ across t0 p = across t0 q) ->
     exists v, In v hull /\ lmax f (cyc hull 0) hull = f v /\ forall p, In p hull -> p = v \/ f p < f v).
  { intros a b f E F. destruct (lmax_in f (cyc hull 0) hull) as (v & Hv & Mv). rewrite in_d in Hv by exact N.
    exists v. split; [exact Hv|]. split; [exact Mv|]. intros p Hp.
    assert (Le : f p <= f v) by (rewrite <- Mv; apply lmax_ge; right; exact Hp).
    destruct (Req_dec (f p) (f v)) as [Eq|Ne]; [|right; lra]. left.
    apply NNPP. intros Np. destruct (hull_max2 pts hull a b v p H Hv Hp) as (i & Hi & Ei).
    - intros q Hq. rewrite <- !E, <- Mv. apply lmax_ge. right. exact Hq.
    - rewrite <- !E. exact Eq.
    - exact Np.
    - apply Q. exists i. split; [exact Hi|]. unfold parallel, bound. cbn [ang]. rewrite <- !E in Ei. apply F, Ei. }
  destruct (U _ _ (along t0) (along_lin t0)) as (p1 & P1 & E1 & S1); [intros p q X; left; exact X|].
  destruct (U _ _ (fun p => - along t0 p) (along_lin' t0)) as (p2 & P2 & E2 & S2); [intros p q X; left; lra|].
  destruct (U _ _ (across t0) (across_lin t0)) as (p3 & P3 & E3 & S3); [intros p q X; right; exact X|].
  destruct (U _ _ (fun p => - across t0 p) (across_lin' t0)) as (p4 & P4 & E4 & S4); [intros p q X; right; lra|].
  clear U.
  destruct (stays along t0 p1 hull cont_along S1) as (d1 & D1 & X1).
  destruct (stays (fun t p => - along t p) t0 p2 hull (fun p => continuity_opp _ (cont_along p)) S2) as (d2 & D2 & X2).
  destruct (stays across t0 p3 hull cont_across S3) as (d3 & D3 & X3).
  destruct (stays (fun t p => - across t p) t0 p4 hull (fun p => continuity_opp _ (cont_across p)) S4) as (d4 & D4 & X4).
  assert (Two : exists u w, In u hull /\ In w hull /\ u <> w).
  { exists (cyc hull 0), (cyc hull 1). split; [apply cyc_In, N|]. split; [apply cyc_In, N|]. intros X.
    pose proof (T 0%Z ltac:(lia)) as Y. change (0 + 1)%Z with 1%Z in Y. rewrite X in Y. unfold turn in Y. lia. }
  assert (Pa : 0 < along t0 p1 - along t0 p2).
  { destruct Two as (u & w & Hu & Hw & Nuw).
    destruct (S1 u Hu) as [->|A1]; [destruct (S2 w Hw) as [->|A2]|destruct (S2 u Hu) as [->|A2]]; cbv beta in *.
    - destruct (S1 p2 P2) as [Eq|A]; [exfalso; apply Nuw; congruence|lra].
    - destruct (S1 w Hw) as [Eq|A]; [exfalso; apply Nuw; congruence|]. lra.
    - lra.
    - lra. }
  assert (Pc : 0 < across t0 p3 - across t0 p4).
  { destruct Two as (u & w & Hu & Hw & Nuw).
    destruct (S3 u Hu) as [->|A1]; [destruct (S4 w Hw) as [->|A2]|destruct (S4 u Hu) as [->|A2]]; cbv beta in *.
    - destruct (S3 p4 P4) as [Eq|A]; [exfalso; apply Nuw; congruence|lra].
    - destruct (S3 w Hw) as [Eq|A]; [exfalso; apply Nuw; congruence|]. lra.
    - lra.
    - lra. }
  set (del := Rmin (Rmin (Rmin d1 d2) (Rmin d3 d4)) (PI / 2)).
  apply (no_min (along t0 p1 - along t0 p2) (across t0 p1 - across t0 p2) (across t0 p3 - across t0 p4) (- (along t0 p3 - along t0 p4)) del Pa Pc).
  { unfold del. pose proof PI_RGT_0. repeat apply Rmin_pos; lra. }
  intros h Hh.
  assert (Hd : Rabs h < d1 /\ Rabs h < d2 /\ Rabs h < d3 /\ Rabs h < d4 /\ Rabs h < PI / 2).
  { unfold del in Hh. pose proof (Rmin_l (Rmin (Rmin d1 d2) (Rmin d3 d4)) (PI / 2)). pose proof (Rmin_r (Rmin (Rmin d1 d2) (Rmin d3 d4)) (PI / 2)).
    pose proof (Rmin_l (Rmin d1 d2) (Rmin d3 d4)). pose proof (Rmin_r (Rmin d1 d2) (Rmin d3 d4)).
    pose proof (Rmin_l d1 d2). pose proof (Rmin_r d1 d2). pose proof (Rmin_l d3 d4). pose proof (Rmin_r d3 d4). lra. }
  destruct Hd as (H1 & H2 & H3 & H4 & H5).
  pose proof (M2 h H5) as M. unfold area, bound in M. cbn [x0 x1 y0 y1] in M.
  rewrite E1, E2, E3, E4 in M.
  rewrite (lmax_eq (along (t0 + h)) _ _ p1) in M by (first [right; exact P1|intros p Hp; rewrite in_d in Hp by exact N; apply (X1 h H1 p Hp)]).
  rewrite (lmax_eq (fun p => - along (t0 + h) p) _ _ p2) in M by (first [right; exact P2|intros p Hp; rewrite in_d in Hp by exact N; apply (X2 h H2 p Hp)]).
  rewrite (lmax_eq (across (t0 + h)) _ _ p3) in M by (first [right; exact P3|intros p Hp; rewrite in_d in Hp by exact N; apply (X3 h H3 p Hp)]).
  rewrite (lmax_eq (fun p => - across (t0 + h) p) _ _ p4) in M by (first [right; exact P4|intros p Hp; rewrite in_d in Hp by exact N; apply (X4 h H4 p Hp)]).
  assert (Ra : forall p, along (t0 + h) p = along t0 p * cos h + across t0 p * sin h).
  { intros p. unfold along, across. rewrite cos_plus, sin_plus. ring. }
  assert (Rc : forall p, across (t0 + h) p = across t0 p * cos h - along t0 p * sin h).
  { intros p. unfold along, across. rewrite cos_plus, sin_plus. ring. }
  rewrite !Ra, !Rc in M. lra.
Qed.
