(** C47-C49: convex hulls, contour areas, curve simplification. *)
From Coq Require Import Reals Lra.
From Flocq Require Import Core BinarySingleNaN.
From Verif Require Import Base BaseProofs Float FloatProofs GeometryModel GeometrySpec HullProofs HullLineSpec HullLine AreaProofs ApproxSpec ApproxProofs.
Local Ltac Zify.zify_post_hook ::= idtac.

(** ** C47 convex_hull: for every list of i32 points, not all on one line, whose
    coordinates are at most 32767 apart (so that the i32 products fit), the
    result is a strictly convex polygon on input points with every input point
    to the left of, or on, every edge. *)
Theorem c47_convex_hull : forall pts,
  i32_points pts -> spread 32767 pts ->
  (exists a b c, In a pts /\ In b pts /\ In c pts /\ ~ collinear a b c) ->
  exists hull, convex_hull pts = Ok hull /\ hull_of pts hull.
Proof. exact convex_hull_ok. Qed.
Print Assumptions c47_convex_hull.

(** Points on one line: the hull is the two ends of their segment (one point when the
    list has one). *)
Theorem c47_collinear : forall pts,
  i32_points pts -> spread 32767 pts -> pts <> [] ->
  (forall a b c, In a pts -> In b pts -> In c pts -> collinear a b c) ->
  exists a b, In a pts /\ In b pts /\ (forall p, In p pts -> on_segment a b p) /\
    (convex_hull pts = Ok [a; b] \/ (b = a /\ convex_hull pts = Ok [a])).
Proof. exact convex_hull_line. Qed.
Print Assumptions c47_collinear.
Example c47_collinear_nontrivial :
  convex_hull [(4, 6); (2, 3); (8, 12); (4, 6); (0, 0)] = Ok [(0, 0); (8, 12)] /\ convex_hull [(3, 5)] = Ok [(3, 5)].
Proof. vm_compute. auto. Qed.

(** Beyond that spread the i32 products overflow. *)
Theorem c47_wide_points_panic : exists pts,
  i32_points pts /\ spread 65536 pts /\ convex_hull pts = Panic.
Proof.
  exists [(0, 0); (65536, 1); (1, 65536)]. split; [|split; [|vm_compute; reflexivity]].
  - intros p [<-|[<-|[<-|[]]]]; cbn [fst snd]; lia.
  - intros p q Hp Hq. destruct Hp as [<-|[<-|[<-|[]]]]; destruct Hq as [<-|[<-|[<-|[]]]]; cbn [fst snd]; lia.
Qed.
Print Assumptions c47_wide_points_panic.

(** repeated points and collinear runs *)
Example c47_nontrivial :
  let pts := [(1, 1); (0, 0); (4, 0); (0, 0); (2, 0); (4, 4); (2, 2); (0, 4); (2, 4); (0, 2); (4, 4)] in
  i32_points pts /\ spread 32767 pts /\ (exists a b c, In a pts /\ In b pts /\ In c pts /\ ~ collinear a b c) /\
  convex_hull pts = Ok [(0, 0); (4, 0); (4, 4); (0, 4)].
Proof.
  cbv zeta. splits.
  - intros p Hp. cbn [In] in Hp. intuition; subst; cbn [fst snd]; lia.
  - intros p q Hp Hq.
    assert (B : forall r, In r [(1, 1); (0, 0); (4, 0); (0, 0); (2, 0); (4, 4); (2, 2); (0, 4); (2, 4); (0, 2); (4, 4)] -> 0 <= fst r <= 4 /\ 0 <= snd r <= 4).
    { intros r Hr. cbn [In] in Hr. intuition; subst; cbn [fst snd]; lia. }
    apply B in Hp. apply B in Hq. lia.
  - exists (0, 0), (4, 0), (0, 4). splits; auto 20 with datatypes. unfold collinear, turn. cbn. lia.
  - vm_compute. reflexivity.
Qed.

(** ** C48 contour areas, as real numbers.  [B2R] is the real value of a float. *)
Definition shift (dx dy : Z) (l : list (Z * Z)) : list (Z * Z) := map (fun q => (fst q + dx, snd q + dy)) l.
Definition area (l : list (Z * Z)) : R := B2R (oriented_contour_area l).
Definition c48_statement : Prop := forall l1 l2 dx dy,
  i32_points (l1 ++ l2) -> i32_points (shift dx dy (l1 ++ l2)) ->
  area (rev (l1 ++ l2)) = (- area (l1 ++ l2))%R /\ area (l2 ++ l1) = area (l1 ++ l2) /\
  area (shift dx dy (l1 ++ l2)) = area (l1 ++ l2) /\ B2R (contour_area (l1 ++ l2)) = Rabs (area (l1 ++ l2)).

(** The products of coordinates near 2^30 are rounded: the unit triangle there
    has computed area 0. *)
Theorem c48_area_refuted : ~ c48_statement.
Proof.
  intros H. destruct (H [(0, 0); (1, 0); (0, 1)] [] (2 ^ 30) (2 ^ 30)) as (_ & _ & E & _).
  - intros p [<-|[<-|[<-|[]]]]; cbn [fst snd]; lia.
  - intros p [<-|[<-|[<-|[]]]]; cbn [fst snd]; lia.
  - unfold area in E.
    assert (E1 : Bcompare (oriented_contour_area (shift (2 ^ 30) (2 ^ 30) ([(0, 0); (1, 0); (0, 1)] ++ [])))
                          (oriented_contour_area ([(0, 0); (1, 0); (0, 1)] ++ [])) = Some Lt) by (vm_compute; reflexivity).
    rewrite Bcompare_correct in E1 by (vm_compute; reflexivity).
    rewrite E, Rcompare_Eq in E1; [discriminate|reflexivity].
Qed.
Print Assumptions c48_area_refuted.

(** What holds: with n points of coordinates at most B in magnitude and
    2 B^2 n <= 2^53 (for example, B = 2^16 and a million points), the result is
    exactly half the shoelace sum, and the laws hold. *)
Theorem c48_area_partial : forall l1 l2 dx dy,
  area_fits (l1 ++ l2) -> area_fits (shift dx dy (l1 ++ l2)) ->
  area (l1 ++ l2) = (IZR (shoelace (l1 ++ l2)) / 2)%R /\
  area (rev (l1 ++ l2)) = (- area (l1 ++ l2))%R /\ area (l2 ++ l1) = area (l1 ++ l2) /\
  area (shift dx dy (l1 ++ l2)) = area (l1 ++ l2) /\ B2R (contour_area (l1 ++ l2)) = Rabs (area (l1 ++ l2)).
Proof.
  intros l1 l2 dx dy F1 F2.
  assert (X : forall l, area_fits l -> area l = (IZR (ring_sum l) / 2)%R).
  { intros l Hl. destruct (area_exact l Hl) as [_ R]. unfold area. rewrite R, shoelace_ring.
    change (bpow radix2 (-1)) with (/ 2)%R. reflexivity. }
  assert (P : forall l m, area_fits l -> zlen m = zlen l -> (forall p, In p m -> In p l) -> area_fits m).
  { intros l m (B & H1 & H2 & H3) L Hi. exists B. rewrite L. auto. }
  splits.
  - rewrite X, shoelace_ring by auto. reflexivity.
  - rewrite !X; auto.
    + rewrite ring_rev, opp_IZR. lra.
    + apply (P (l1 ++ l2)); auto; [apply zlen_rev|intros p Hp; now apply in_rev].
  - rewrite !X; auto.
    + now rewrite ring_rot.
    + apply (P (l1 ++ l2)); auto; [rewrite !zlen_app; lia|]. intros p Hp. apply in_app_or in Hp. apply in_or_app. tauto.
  - rewrite !X; auto. unfold shift. now rewrite ring_shift.
  - unfold contour_area, area, fabs. apply B2R_Babs.
Qed.
Print Assumptions c48_area_partial.

Example c48_nontrivial :
  let l := [(0, 0); (4, 0); (4, 3)] in
  area_fits l /\ area_fits (shift 100 (-50) l) /\ shoelace l = 12 /\
  feq (oriented_contour_area l) (of_int 6) = true /\ feq (oriented_contour_area (rev l)) (of_int (-6)) = true /\
  feq (contour_area (rev l)) (of_int 6) = true.
Proof.
  cbv zeta. split; [|split; [|splits; vm_compute; reflexivity]].
  - exists 4. splits; try (cbn; lia). intros p [<-|[<-|[<-|[]]]]; cbn [fst snd]; lia.
  - exists 104. splits; try (cbn; lia). intros p Hp. cbn [shift map In] in Hp. intuition; subst; cbn [fst snd]; lia.
Qed.

(** ** C49 approximate_polygon_dp *)
Definition c49_statement : Prop := forall curve (eps : f64) closed,
  2 <= zlen curve <= 2 ^ 64 -> i32_points curve -> is_finite eps = true -> (0 < B2R eps)%R ->
  exists r, approximate_polygon_dp curve eps closed = Ok (if closed : bool then removelast r else r) /\
    simplifies (fun p a b => dist_chord p a b <= B2R eps * 2)%R curve r.

(** A closed square (first point = last point) is reduced to one point: all
    distances to its chord are NaN. *)
Theorem c49_simplify_refuted : ~ c49_statement.
Proof.
  intros H. specialize (H [(0, 0); (10, 0); (10, 10); (0, 10); (0, 0)] (of_int 1) false).
  assert (D : dy 0 1 (of_int 1 : f64)) by (apply dy_int; [split; lia|lia]). destruct D as [F R].
  change (bpow radix2 0) with 1%R in R. rewrite Rmult_1_r in R.
  destruct H as (r & E & S); auto.
  - unfold zlen. cbn. lia.
  - intros p Hp. cbn [In] in Hp. intuition; subst; cbn [fst snd]; lia.
  - rewrite R. lra.
  - assert (Er : approximate_polygon_dp [(0, 0); (10, 0); (10, 10); (0, 10); (0, 0)] (of_int 1) false = Ok [(0, 0); (0, 0)]) by (vm_compute; reflexivity).
    rewrite Er in E. injection E as <-. rewrite R in S.
    destruct (simp_two _ _ _ _ S) as (dr & Ec & Hn).
    assert (I : In (10, 0) dr).
    { destruct dr as [|x dr]; [discriminate Ec|]. injection Ec as <- _. now left. }
    specialize (Hn _ I). unfold dist_chord, dist_pt in Hn. cbn [fst snd Z.eqb andb] in Hn.
    replace (IZR ((10 - 0) * (10 - 0) + (0 - 0) * (0 - 0))) with (10 * 10)%R in Hn by (cbn; lra).
    rewrite sqrt_square in Hn by lra. lra.
Qed.
Print Assumptions c49_simplify_refuted.

(** What holds: for coordinates at most 2^24 in magnitude the call returns, the
    result keeps the first and the last point (the last one is removed again
    when [closed]), and every dropped point is within eps, up to a relative
    rounding error of 2^-50, of the line through the two kept points around it,
    whenever these two points differ. *)
Theorem c49_simplify_partial : forall curve (eps : f64),
  2 <= zlen curve <= 2 ^ 64 -> (forall p, In p curve -> Z.abs (fst p) <= 2 ^ 24 /\ Z.abs (snd p) <= 2 ^ 24) ->
  is_finite eps = true -> (0 < B2R eps)%R ->
  exists r, approximate_polygon_dp curve eps false = Ok r /\
    approximate_polygon_dp curve eps true = Ok (removelast r) /\
    simplifies (fun p a b => a <> b -> dist_chord p a b <= B2R eps * (1 + / 1125899906842624))%R curve r.
Proof. intros curve eps L S F P. apply approx_ok; auto. Qed.
Print Assumptions c49_simplify_partial.

(** With larger i32 coordinates the end point of a chord can be measured as far
    from the chord itself; the function then recurses on the same curve for ever. *)
Theorem c49_endless_recursion : exists curve eps,
  i32_points curve /\ forall fuel, approx_dp fuel curve eps false = Timeout.
Proof.
  exists [(2 ^ 30 + 1, 2 ^ 30); (2 ^ 30, 2 ^ 30 + 1)], (of_dyadic 1 (-1)). split.
  - intros p [<-|[<-|[]]]; cbn [fst snd]; lia.
  - set (c := [(2 ^ 30 + 1, 2 ^ 30); (2 ^ 30, 2 ^ 30 + 1)]). set (e := of_dyadic 1 (-1) : f64).
    assert (A : fle e (of_int 0) = false) by (vm_compute; reflexivity).
    assert (C : chk_u 64 (zlen c - 1) = Ok 1) by (vm_compute; reflexivity).
    assert (X : exists d, farthest c (line_from_points (to_f64 (2 ^ 30 + 1, 2 ^ 30)) (to_f64 (2 ^ 30, 2 ^ 30 + 1))) = (d, 1) /\ flt e d = true).
    { exists (fst (farthest c (line_from_points (to_f64 (2 ^ 30 + 1, 2 ^ 30)) (to_f64 (2 ^ 30, 2 ^ 30 + 1))))).
      assert (I : snd (farthest c (line_from_points (to_f64 (2 ^ 30 + 1, 2 ^ 30)) (to_f64 (2 ^ 30, 2 ^ 30 + 1)))) = 1) by (vm_compute; reflexivity).
      split; [|vm_compute; reflexivity]. destruct (farthest c _) as [d i]. cbn [fst snd] in *. now rewrite I. }
    destruct X as (d & X1 & X2).
    induction fuel as [|fuel IH]; [reflexivity|]. cbn [approx_dp]. rewrite A. cbn [negb assert bind].
    rewrite C. cbn [bind].
    assert (V0 : vget c 0 = Ok (2 ^ 30 + 1, 2 ^ 30)) by reflexivity.
    assert (V1 : vget c 1 = Ok (2 ^ 30, 2 ^ 30 + 1)) by reflexivity.
    rewrite V0, V1. cbn [bind]. rewrite X1, X2.
    change (firstn (Z.to_nat (1 + 1)) c) with c. rewrite IH. reflexivity.
Qed.
Print Assumptions c49_endless_recursion.

Example c49_nontrivial :
  approximate_polygon_dp [(0, 0); (1, 0); (2, 1); (5, 9); (6, 10); (10, 0)] (of_int 2) false = Ok [(0, 0); (6, 10); (10, 0)].
Proof. vm_compute. reflexivity. Qed.
