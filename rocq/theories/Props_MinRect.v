(** C103: the minimum area rectangle around a set of points. *)
From Coq Require Import Reals Lra Psatz.
From Flocq Require Import Core BinarySingleNaN.
From Verif Require Import Base BaseProofs Float FloatProofs FloatErr HogCellsSpec GeometryModel GeometrySpec GeometryProofs HullProofs HullLineSpec HullLine MinRectModel MinRectSpec MinRectGeom MinRectNum MinRectProofs.
Local Ltac Zify.zify_post_hook ::= idtac.
Local Open Scope R_scope.

(** the points are not all on one line *)
Definition spanning (pts : list (Z * Z)) : Prop :=
  exists a b c, In a pts /\ In b pts /\ In c pts /\ ~ collinear a b c.
(** a rectangle around all the points *)
Definition encloses (r : rect) (pts : list (Z * Z)) : Prop := forall p, In p pts -> contains r p.

(** The full claim, for i32 coordinates: the result lists the corners, rounded
    outwards, of an enclosing rectangle of least area (up to 1/8). *)
Definition c103_statement : Prop := forall atan2 sincos, accurate_atan2 atan2 -> accurate_sincos sincos ->
  forall pts, within 1048576 pts -> spread 32767 pts -> spanning pts ->
  exists r o, min_area_rect atan2 sincos (- 2 ^ 31) (2 ^ 31 - 1) pts = Ok o /\ lists_corners r o /\
    encloses r pts /\ forall r', encloses r' pts -> area r <= area r' + / 8.

Lemma within_i32 pts : within 1048576 pts -> i32_points pts.
Proof. intros H p Hp. specialize (H p Hp). lia. Qed.
Lemma par_parallel hull t p q : par t p q <-> parallel (bound hull t) p q.
Proof. reflexivity. Qed.

(** the coordinates of the corners *)
Lemma bound_corner hull t k : hull <> [] -> (forall p, In p hull -> inb20 p) ->
  Rabs (fst (corner (bound hull t) k)) <= 4194304 /\ Rabs (snd (corner (bound hull t) k)) <= 4194304.
Proof.
  intros N Hb.
  assert (B : Rabs (x0 (bound hull t)) <= 2097152 /\ Rabs (x1 (bound hull t)) <= 2097152 /\ Rabs (y0 (bound hull t)) <= 2097152 /\ Rabs (y1 (bound hull t)) <= 2097152).
  { cbn [bound x0 x1 y0 y1].
    assert (G : forall f, (forall p, In p hull -> Rabs (f p) <= 2097152) -> Rabs (lmax f (cyc hull 0) hull) <= 2097152).
    { intros f Hf. destruct (lmax_in f (cyc hull 0) hull) as (p & Ip & ->). apply Hf. now apply in_d. }
    rewrite !Rabs_Ropp. split; [|split; [|split]]; apply G; intros p Hp; try rewrite Rabs_Ropp; apply along_b; auto. }
  unfold corner. cbn [fst snd ang bound].
  set (x := if fst k then _ else _). set (y := if snd k then _ else _).
  assert (Bx : Rabs x <= 2097152) by (unfold x; destruct (fst k); tauto).
  assert (By : Rabs y <= 2097152) by (unfold y; destruct (snd k); tauto).
  clearbody x y. pose proof (COS_bound t) as Ct. pose proof (SIN_bound t) as St.
  assert (M : forall u v, Rabs u <= 2097152 -> -1 <= v <= 1 -> -2097152 <= u * v <= 2097152).
  { intros u v Hu Hv. apply Rabs_le_inv in Hu. nra. }
  pose proof (M x (cos t) Bx Ct). pose proof (M y (sin t) By St). pose proof (M y (cos t) By Ct). pose proof (M x (sin t) Bx St).
  split; apply Rabs_le; lra.
Qed.
Lemma corners_fit r o lo hi b : lists_corners r o -> (forall k, Rabs (fst (corner r k)) <= IZR b /\ Rabs (snd (corner r k)) <= IZR b) ->
  (lo <= - b - 2)%Z -> (b + 2 <= hi)%Z -> fits lo hi o = true.
Proof.
  intros (a1 & a2 & a3 & a4 & k1 & k2 & k3 & k4 & -> & _ & A1 & A2 & B1 & B2 & C1 & C2 & D1 & D2 & _) H L1 L2.
  assert (Dn : forall z r, down z r -> Rabs r <= IZR b -> ((lo <=? z) && (z <=? hi))%Z = true).
  { intros z q (Q1 & Q2) Hq. apply Rabs_le_inv in Hq. assert (IZR (- b - 2) < IZR z) by (rewrite minus_IZR, opp_IZR; lra). assert (IZR z < IZR (b + 2)) by (rewrite plus_IZR; lra).
    apply lt_IZR in H0, H1. lia. }
  assert (Up : forall z r, up z r -> Rabs r <= IZR b -> ((lo <=? z) && (z <=? hi))%Z = true).
  { intros z q (Q1 & Q2) Hq. apply Rabs_le_inv in Hq. assert (IZR (- b - 2) < IZR z) by (rewrite minus_IZR, opp_IZR; lra). assert (IZR z < IZR (b + 2)) by (rewrite plus_IZR; lra).
    apply lt_IZR in H0, H1. lia. }
  unfold fits. cbn [forallb].
  pose proof (Dn _ _ A1 (proj1 (H k1))). pose proof (Dn _ _ A2 (proj2 (H k1))).
  pose proof (Up _ _ B1 (proj1 (H k2))). pose proof (Dn _ _ B2 (proj2 (H k2))).
  pose proof (Up _ _ C1 (proj1 (H k3))). pose proof (Up _ _ C2 (proj2 (H k3))).
  pose proof (Dn _ _ D1 (proj1 (H k4))). pose proof (Up _ _ D2 (proj2 (H k4))). lia.
Qed.

Lemma core atan2 sincos lo hi pts : accurate_atan2 atan2 -> accurate_sincos sincos ->
  within 1048576 pts -> spread 32767 pts -> spanning pts ->
  exists hull r o, convex_hull pts = Ok hull /\ hull_of pts hull /\
    (exists i t, (0 <= i < zlen hull - 1)%Z /\ r = bound hull t /\ par t (cyc hull i) (cyc hull (i + 1))) /\
    (forall i t, (0 <= i < zlen hull - 1)%Z -> par t (cyc hull i) (cyc hull (i + 1)) -> area r <= area (bound hull t) + / 8) /\
    lists_corners r o /\ min_area_rect atan2 sincos lo hi pts = if fits lo hi o then Ok o else Panic.
Proof.
  intros Ha Hs Hw Hsp Hn. destruct (convex_hull_ok pts (within_i32 _ Hw) Hsp Hn) as (hull & E & HH).
  pose proof HH as (L & Inc & _).
  destruct (calipers_ok atan2 sincos Ha Hs pts hull HH) with (lo := lo) (hi := hi) as (r & o & H1 & H2 & H3 & H4).
  { intros p Hp. apply Hw. auto. } { intros p q Hp Hq. auto. }
  exists hull, r, o. split; [exact E|]. split; [exact HH|]. split; [exact H1|]. split; [exact H2|]. split; [exact H3|].
  unfold min_area_rect. rewrite E. cbn [bind]. destruct hull as [|p [|q [|q' l]]]; try (rewrite ?zlen_cons in L; cbn in L; lia). exact H4.
Qed.

(** Proved: for an integer type with the values lo..hi, the result lists the corners,
    rounded outwards, of an enclosing rectangle with a side parallel to an edge of the
    convex hull.  No enclosing rectangle is smaller by more than 1/8, except possibly
    ones that are no smaller than a rectangle parallel to the hull's last edge, from
    its last point back to its first.  It panics exactly when a corner is not a value of
    the type; never when the type has the values -4194306..4194306.  Missing: the last
    edge, which the code does not look at; points further than 1048576 from the origin or
    32767 from one another. *)
Theorem c103_min_area_rect_partial : forall atan2 sincos, accurate_atan2 atan2 -> accurate_sincos sincos ->
  forall lo hi pts, within 1048576 pts -> spread 32767 pts -> spanning pts ->
  exists hull r o, hull_of pts hull /\
    encloses r pts /\
    (exists i, (0 <= i < zlen hull - 1)%Z /\ parallel r (cyc hull i) (cyc hull (i + 1))) /\
    (forall r', encloses r' pts ->
       area r <= area r' + / 8 \/
       exists r'', encloses r'' pts /\ parallel r'' (cyc hull (zlen hull - 1)) (cyc hull 0) /\ area r'' <= area r') /\
    lists_corners r o /\
    min_area_rect atan2 sincos lo hi pts = (if fits lo hi o then Ok o else Panic) /\
    ((lo <= - 4194306 /\ 4194306 <= hi)%Z -> fits lo hi o = true).
Proof.
  intros atan2 sincos Ha Hs lo hi pts Hw Hsp Hn.
  destruct (core atan2 sincos lo hi pts Ha Hs Hw Hsp Hn) as (hull & r & o & _ & HH & (i & t & Hi & -> & P) & Best & LC & E).
  pose proof HH as (L & Inc & _).
  exists hull, (bound hull t), o. split; [exact HH|].
  split; [intros p Hp; now apply (bound_contains pts)|].
  split; [exists i; split; [exact Hi|exact P]|].
  split.
  { intros r' Hr'. destruct (edge_rect pts hull r' HH Hr') as (j & u & Hj & Pj & Aj).
    destruct (Z.eq_dec j (zlen hull - 1)) as [->|N].
    - right. exists (bound hull u). split; [intros p Hp; now apply (bound_contains pts)|]. split; [|exact Aj].
      replace (zlen hull - 1 + 1)%Z with (0 + zlen hull)%Z in Pj by lia. rewrite cyc_mod in Pj. exact Pj.
    - left. specialize (Best j u ltac:(lia) Pj). lra. }
  split; [exact LC|]. split; [exact E|]. intros (L1 & L2).
  apply (corners_fit _ _ _ _ 4194304 LC); [|lia|lia].
  intros k. apply bound_corner; [apply (hull_ne _ _ HH)|]. intros p Hp. apply Hw. auto.
Qed.
Print Assumptions c103_min_area_rect_partial.

(** Proved: the rectangle is the least, up to 1/8, whenever the hull's last edge is
    parallel or perpendicular to another edge. *)
Theorem c103_least_partial : forall atan2 sincos, accurate_atan2 atan2 -> accurate_sincos sincos ->
  forall pts, within 1048576 pts -> spread 32767 pts -> spanning pts ->
  (forall hull, convex_hull pts = Ok hull -> exists i, (0 <= i < zlen hull - 1)%Z /\
     forall r, parallel r (cyc hull (zlen hull - 1)) (cyc hull 0) -> parallel r (cyc hull i) (cyc hull (i + 1))) ->
  exists r o, min_area_rect atan2 sincos (- 2 ^ 31) (2 ^ 31 - 1) pts = Ok o /\ lists_corners r o /\
    encloses r pts /\ forall r', encloses r' pts -> area r <= area r' + / 8.
Proof.
  intros atan2 sincos Ha Hs pts Hw Hsp Hn Hp.
  destruct (core atan2 sincos (- 2 ^ 31) (2 ^ 31 - 1) pts Ha Hs Hw Hsp Hn) as (hull & r & o & Ec & HH & (i & t & Hi & -> & P) & Best & LC & E).
  pose proof HH as (L & Inc & _). destruct (Hp hull Ec) as (j & Hj & Pj).
  exists (bound hull t), o. split.
  { rewrite E. rewrite (corners_fit _ _ _ _ 4194304 LC); [reflexivity| |lia|lia].
    intros k. apply bound_corner; [apply (hull_ne _ _ HH)|]. intros p Hq. apply Hw. auto. }
  split; [exact LC|]. split; [intros p Hq; now apply (bound_contains pts)|].
  intros r' Hr'. destruct (edge_rect pts hull r' HH Hr') as (j' & u & Hj' & Pj' & Aj').
  destruct (Z.eq_dec j' (zlen hull - 1)) as [->|N].
  - replace (zlen hull - 1 + 1)%Z with (0 + zlen hull)%Z in Pj' by lia. rewrite cyc_mod in Pj'. apply Pj in Pj'. specialize (Best j u Hj Pj'). lra.
  - specialize (Best j' u ltac:(lia) Pj'). lra.
Qed.
Print Assumptions c103_least_partial.

(** Points on one line: the rectangle is the segment between the two extreme points.
    Nothing is asked of atan2 and sin_cos. *)
Theorem c103_collinear : forall atan2 sincos lo hi pts,
  i32_points pts -> spread 32767 pts -> pts <> [] ->
  (forall a b c, In a pts -> In b pts -> In c pts -> collinear a b c) ->
  exists a b, In a pts /\ In b pts /\ (forall p, In p pts -> on_segment a b p) /\
    min_area_rect atan2 sincos lo hi pts = Ok [a; b; b; a].
Proof.
  intros atan2 sincos lo hi pts Hi Hs Hn Hc. destruct (convex_hull_line pts Hi Hs Hn Hc) as (a & b & Ia & Ib & S & H).
  exists a, b. split; [exact Ia|]. split; [exact Ib|]. split; [exact S|].
  unfold min_area_rect. destruct H as [->|(-> & ->)]; reflexivity.
Qed.
Print Assumptions c103_collinear.
Example c103_collinear_nontrivial :
  let pts := [(4, 6); (2, 3); (8, 12); (4, 6); (0, 0)]%Z in
  i32_points pts /\ spread 32767 pts /\ pts <> [] /\ (forall a b c, In a pts -> In b pts -> In c pts -> collinear a b c).
Proof.
  cbv zeta. split; [|split; [|split; [discriminate|]]].
  - intros p Hp. cbn [In] in Hp. intuition; subst; cbn [fst snd]; lia.
  - assert (B : forall p, In p [(4, 6); (2, 3); (8, 12); (4, 6); (0, 0)]%Z -> (0 <= fst p <= 12 /\ 0 <= snd p <= 12)%Z).
    { intros p Hp. cbn [In] in Hp. intuition; subst; cbn [fst snd]; lia. }
    intros p q Hp Hq. apply B in Hp. apply B in Hq. lia.
  - assert (B : forall p, In p [(4, 6); (2, 3); (8, 12); (4, 6); (0, 0)]%Z -> (2 * snd p = 3 * fst p)%Z).
    { intros p Hp. cbn [In] in Hp. intuition; subst; cbn [fst snd]; lia. }
    intros a b c Ia Ib Ic. apply B in Ia. apply B in Ib. apply B in Ic. unfold collinear, turn. nia.
Qed.

(** ** atan2 and sin_cos as required exist: every value correctly rounded. *)
Definition nearest_f64 (r : R) : f64 :=
  of_dyadic (Ztrunc (scaled_mantissa radix2 (SpecFloat.fexp 53 1024) (rnd 53 1024 r))) (cexp radix2 (SpecFloat.fexp 53 1024) (rnd 53 1024 r)).
Lemma nearest_f64_R r : Rabs r <= 4 -> is_finite (nearest_f64 r) = true /\ Rabs (B2R (nearest_f64 r) - r) <= / 100000000000000.
Proof.
  intros H.
  assert (K : is_finite (nearest_f64 r) = true /\ B2R (nearest_f64 r) = rnd 53 1024 r).
  { unfold nearest_f64, of_dyadic. set (x := rnd 53 1024 r).
    assert (G : generic_format radix2 (SpecFloat.fexp 53 1024) x) by (apply generic_format_round; [apply fexp_correct; reflexivity|apply valid_rnd_N]).
    pose proof (binary_normalize_correct 53 1024 eq_refl eq_refl mode_NE (Ztrunc (scaled_mantissa radix2 (SpecFloat.fexp 53 1024) x)) (cexp radix2 (SpecFloat.fexp 53 1024) x) false) as C.
    cbv zeta in C. replace (F2R _) with x in C by exact G.
    rewrite round_generic in C by (try exact G; apply valid_rnd_round_mode). rewrite Rlt_bool_true in C.
    - destruct C as (C1 & C2 & _). split; [exact C2|exact C1].
    - apply Rle_lt_trans with (bpow radix2 2); [|apply bpow_lt; lia]. unfold x, rnd. apply abs_round_le_generic; [apply fexp_correct; reflexivity|apply valid_rnd_N|apply generic_format_bpow; cbn; lia|].
      cbn [bpow]. exact H. }
  destruct K as (F & ->). split; [exact F|]. pose proof (f64_err r). lra.
Qed.
Definition exact_atan2 (y x : f64) : f64 := nearest_f64 (angle (Btrunc x) (Btrunc y)).
Definition exact_sincos (t : f64) : f64 * f64 := (nearest_f64 (sin (B2R t)), nearest_f64 (cos (B2R t))).
Lemma angle_bound h v : Rabs (angle h v) <= PI.
Proof.
  unfold angle. pose proof PI_RGT_0 as P. assert (B := atan_bound (IZR v / IZR h)).
  destruct (Z.ltb_spec 0 h); [apply Rabs_le; lra|]. destruct (Z.ltb_spec h 0).
  - destruct (Z.leb_spec 0 v).
    + assert (IZR v / IZR h <= 0).
      { assert (0 <= IZR v) by (apply IZR_le; lia). assert (IZR h < 0) by (apply IZR_lt; lia). unfold Rdiv. assert (/ IZR h < 0) by (apply Rinv_lt_0_compat; lra). nra. }
      assert (atan (IZR v / IZR h) <= 0). { destruct (Req_dec (IZR v / IZR h) 0) as [->|]; [rewrite atan_0; lra|]. rewrite <- atan_0. left. apply atan_increasing. lra. }
      apply Rabs_le; lra.
    + assert (0 < IZR v / IZR h).
      { assert (IZR v < 0) by (apply IZR_lt; lia). assert (IZR h < 0) by (apply IZR_lt; lia). unfold Rdiv. assert (/ IZR h < 0) by (apply Rinv_lt_0_compat; lra). nra. }
      assert (0 < atan (IZR v / IZR h)) by (rewrite <- atan_0; apply atan_increasing; lra).
      apply Rabs_le; lra.
  - destruct (0 <? v)%Z; [apply Rabs_le; lra|]. destruct (v <? 0)%Z; apply Rabs_le; lra.
Qed.
Theorem c103_libm_exists : accurate_atan2 exact_atan2 /\ accurate_sincos exact_sincos.
Proof.
  split.
  - intros h v (Hh & Hv & _). unfold exact_atan2.
    assert (T : forall z, (Z.abs z <= 65536)%Z -> Btrunc (of_int z : f64) = z).
    { intros z Hz. apply eq_IZR. rewrite Btrunc_correct by reflexivity. destruct (int64_R z) as (F & ->); [lia|].
      rewrite round_FIX_IZR. now rewrite Ztrunc_IZR. }
    rewrite !T by lia. apply nearest_f64_R. pose proof (angle_bound h v). pose proof PI_4. lra.
  - intros t _ _. unfold exact_sincos. cbn [fst snd]. split; apply nearest_f64_R.
    + pose proof (SIN_bound (B2R t)). apply Rabs_le. lra.
    + pose proof (COS_bound (B2R t)). apply Rabs_le. lra.
Qed.
Print Assumptions c103_libm_exists.

(** ** Refuted: the closing edge of the hull is not tried. *)
Definition triangle : list (Z * Z) := [(0, 0); (1000, 0); (2000, 1000)]%Z.
Lemma triangle_hull hull : convex_hull triangle = Ok hull -> hull = triangle.
Proof. intros H. assert (E : convex_hull triangle = Ok triangle) by (vm_compute; reflexivity). rewrite E in H. congruence. Qed.
Lemma triangle_ok : within 1048576 triangle /\ spread 32767 triangle /\ spanning triangle.
Proof.
  split; [|split].
  - intros p Hp. cbn [triangle In] in Hp. intuition; subst; cbn [fst snd]; lia.
  - assert (B : forall p, In p triangle -> (0 <= fst p <= 2000 /\ 0 <= snd p <= 2000)%Z).
    { intros p Hp. cbn [triangle In] in Hp. intuition; subst; cbn [fst snd]; lia. }
    intros p q Hp Hq. apply B in Hp. apply B in Hq. lia.
  - exists (0, 0)%Z, (1000, 0)%Z, (2000, 1000)%Z. cbn [triangle In]. split; [auto|]. split; [auto|]. split; [auto|]. vm_compute. discriminate.
Qed.
(** at one of the two edges tried the area is 2000000, at the other 1500000 *)
Lemma edge1_dir t : par t (1000, 0)%Z (2000, 1000)%Z -> cos t = sin t \/ cos t = - sin t.
Proof. unfold par, along, across. cbn [fst snd]. lra. Qed.
Lemma edge1_area hull t : hull_of triangle hull -> par t (1000, 0)%Z (2000, 1000)%Z -> 1500000 <= area (bound hull t).
Proof.
  intros HH P. pose proof (bound_contains triangle hull t (0, 0)%Z HH ltac:(cbn; auto)) as (A1 & A2).
  pose proof (bound_contains triangle hull t (1000, 0)%Z HH ltac:(cbn; auto)) as (B1 & B2).
  pose proof (bound_contains triangle hull t (2000, 1000)%Z HH ltac:(cbn; auto)) as (C1 & C2).
  unfold along, across in *. cbn [fst snd] in *. change (ang (bound hull t)) with t in *.
  pose proof (trig t) as T. unfold area. set (w := x1 (bound hull t) - x0 (bound hull t)) in *. set (h := y1 (bound hull t) - y0 (bound hull t)) in *.
  assert (K : exists s, s * s = / 2 /\ 0 <= s /\ ((3000 * s <= w /\ 1000 * s <= h) \/ (1000 * s <= w /\ 3000 * s <= h))).
  { apply edge1_dir in P. destruct P as [P|P]; destruct (Rle_dec 0 (sin t)).
    - exists (sin t). split; [nra|]. split; [lra|]. left. unfold w, h. lra.
    - exists (- sin t). split; [nra|]. split; [lra|]. left. unfold w, h. lra.
    - exists (sin t). split; [nra|]. split; [lra|]. right. unfold w, h. lra.
    - exists (- sin t). split; [nra|]. split; [lra|]. right. unfold w, h. lra. }
  destruct K as (s & Q & S & [(W & H)|(W & H)]); nra.
Qed.
Lemma edge0_area hull t : hull_of triangle hull -> par t (0, 0)%Z (1000, 0)%Z -> 2000000 <= area (bound hull t).
Proof.
  intros HH P. pose proof (bound_contains triangle hull t (0, 0)%Z HH ltac:(cbn; auto)) as (A1 & A2).
  pose proof (bound_contains triangle hull t (1000, 0)%Z HH ltac:(cbn; auto)) as (B1 & B2).
  pose proof (bound_contains triangle hull t (2000, 1000)%Z HH ltac:(cbn; auto)) as (C1 & C2).
  unfold par, along, across in *. cbn [fst snd] in *. change (ang (bound hull t)) with t in *.
  pose proof (trig t) as T. unfold area. set (w := x1 (bound hull t) - x0 (bound hull t)) in *. set (h := y1 (bound hull t) - y0 (bound hull t)) in *.
  assert (K : (2000 <= w /\ 1000 <= h) \/ (1000 <= w /\ 2000 <= h)).
  { destruct P as [P|P].
    - assert (Cz : cos t = 0) by lra. rewrite Cz in *. assert (sin t = 1 \/ sin t = -1) as [Q|Q] by nra; rewrite Q in *; right; unfold w, h; lra.
    - assert (Sz : sin t = 0) by lra. rewrite Sz in *. assert (cos t = 1 \/ cos t = -1) as [Q|Q] by nra; rewrite Q in *; left; unfold w, h; lra. }
  destruct K as [(W & H)|(W & H)]; nra.
Qed.
(** a smaller one *)
Definition small_rect : rect :=
  let t := atan (/ 2) in mkRect t 0 (2500 * cos t) (- 500 * cos t) 0.
Lemma small_dir : sin (atan (/ 2)) = cos (atan (/ 2)) / 2 /\ 0 < cos (atan (/ 2)) /\ cos (atan (/ 2)) * cos (atan (/ 2)) = 4 / 5.
Proof.
  assert (C : 0 < cos (atan (/ 2))) by (pose proof (atan_bound (/ 2)); apply cos_gt_0; lra).
  assert (S : sin (atan (/ 2)) = cos (atan (/ 2)) / 2).
  { pose proof (tan_atan (/ 2)) as T. unfold tan in T. apply (f_equal (fun z => z * cos (atan (/ 2)))) in T. unfold Rdiv in *. rewrite Rmult_assoc, Rinv_l in T by lra. lra. }
  split; [exact S|]. split; [exact C|]. pose proof (trig (atan (/ 2))) as Q. rewrite S in Q. lra.
Qed.
Lemma small_encloses : encloses small_rect triangle /\ area small_rect = 1000000.
Proof.
  destruct small_dir as (S & C & Q). unfold small_rect, encloses, contains, area. cbn [ang x0 x1 y0 y1]. split; [|lra].
  intros p Hp. unfold along, across. rewrite S. cbn [triangle In] in Hp. destruct Hp as [<-|[<-|[<-|[]]]]; cbn [fst snd]; lra.
Qed.

(** the area of a rectangle from three of its corners *)
Definition cross3 (a b c : R * R) : R := (fst b - fst a) * (snd c - snd a) - (snd b - snd a) * (fst c - fst a).
Lemma area_corners r a b c : a <> b -> a <> c -> b <> c -> Rabs (cross3 (corner r a) (corner r b) (corner r c)) = Rabs (area r).
Proof.
  intros N1 N2 N3. unfold cross3, corner, area. cbn [fst snd]. pose proof (trig (ang r)) as T.
  set (s := sin (ang r)) in *. set (k := cos (ang r)) in *.
  assert (G : forall xa ya xb yb xc yc, (xb * k - yb * s - (xa * k - ya * s)) * (yc * k + xc * s - (ya * k + xa * s)) - (yb * k + xb * s - (ya * k + xa * s)) * (xc * k - yc * s - (xa * k - ya * s)) = (xb - xa) * (yc - ya) - (yb - ya) * (xc - xa)).
  { intros. replace (_ - _) with ((k * k + s * s) * ((xb - xa) * (yc - ya) - (yb - ya) * (xc - xa))) by ring. rewrite T. ring. }
  rewrite G. clear - N1 N2 N3. generalize (x0 r) (x1 r) (y0 r) (y1 r). intros u0 u1 v0 v1.
  destruct a as [[] []], b as [[] []], c as [[] []]; cbn [fst snd]; try (exfalso; ((apply N1; reflexivity) || (apply N2; reflexivity) || (apply N3; reflexivity)));
    match goal with |- Rabs ?u = Rabs ?v => first [replace u with v by ring; reflexivity | replace u with (- v) by ring; apply Rabs_Ropp] end.
Qed.
Lemma cross3_near a b c a' b' c' D e : 0 <= D -> 0 <= e ->
  (forall p, In p [a; b; c] -> Rabs (fst p) <= D /\ Rabs (snd p) <= D) ->
  Rabs (fst a - fst a') <= e -> Rabs (snd a - snd a') <= e -> Rabs (fst b - fst b') <= e -> Rabs (snd b - snd b') <= e ->
  Rabs (fst c - fst c') <= e -> Rabs (snd c - snd c') <= e ->
  Rabs (cross3 a b c - cross3 a' b' c') <= 16 * D * e + 8 * e * e.
Proof.
  intros HD He Hb A1 A2 B1 B2 C1 C2. destruct (Hb a) as (Da1 & Da2); [cbn; auto|]. destruct (Hb b) as (Db1 & Db2); [cbn; auto|]. destruct (Hb c) as (Dc1 & Dc2); [cbn; auto|].
  apply Rabs_le_inv in A1, A2, B1, B2, C1, C2, Da1, Da2, Db1, Db2, Dc1, Dc2.
  assert (P : forall u v u' v', - 2 * D <= u <= 2 * D -> - 2 * D <= v <= 2 * D -> - 2 * e <= u - u' <= 2 * e -> - 2 * e <= v - v' <= 2 * e -> - (8 * D * e + 4 * e * e) <= u * v - u' * v' <= 8 * D * e + 4 * e * e).
  { intros u v u' v' Hu Hv Hu' Hv'. set (du := u - u') in *. set (dv := v - v') in *.
    replace (u * v - u' * v') with (u * dv + v * du - du * dv) by (unfold du, dv; ring).
    assert (G : forall x y X Y, 0 <= X -> 0 <= Y -> - X <= x <= X -> - Y <= y <= Y -> - (X * Y) <= x * y <= X * Y) by (intros; split; nra).
    pose proof (G u dv (2 * D) (2 * e) ltac:(lra) ltac:(lra) ltac:(lra) ltac:(lra)).
    pose proof (G v du (2 * D) (2 * e) ltac:(lra) ltac:(lra) ltac:(lra) ltac:(lra)).
    pose proof (G du dv (2 * e) (2 * e) ltac:(lra) ltac:(lra) ltac:(lra) ltac:(lra)). lra. }
  unfold cross3.
  pose proof (P (fst b - fst a) (snd c - snd a) (fst b' - fst a') (snd c' - snd a') ltac:(lra) ltac:(lra) ltac:(lra) ltac:(lra)).
  pose proof (P (snd b - snd a) (fst c - fst a) (snd b' - snd a') (fst c' - fst a') ltac:(lra) ltac:(lra) ltac:(lra) ltac:(lra)).
  apply Rabs_le. lra.
Qed.
(** two rectangles with the same rounded corners *)
Lemma same_corners r r' o D : 0 <= D -> lists_corners r o -> lists_corners r' o ->
  (forall k, Rabs (fst (corner r k)) <= D /\ Rabs (snd (corner r k)) <= D) ->
  Rabs (area r) <= Rabs (area r') + 33 * D + 36.
Proof.
  intros HD (a & b & c & d & k1 & k2 & k3 & k4 & -> & N & A1 & A2 & B1 & B2 & C1 & C2 & _) (a' & b' & c' & d' & j1 & j2 & j3 & j4 & E & N' & A1' & A2' & B1' & B2' & C1' & C2' & _) Hk.
  injection E as <- <- <- <-.
  assert (M : forall l1 l2 l3 l4 : bool * bool, NoDup [l1; l2; l3; l4] -> l1 <> l2 /\ l1 <> l3 /\ l2 <> l3).
  { intros l1 l2 l3 l4 H. inversion H as [|? ? H1 H2]; subst. inversion H2 as [|? ? H3 H4]; subst. cbn [In] in *. split; [|split]; intros ->; tauto. }
  destruct (M _ _ _ _ N) as (N1 & N2 & N3). destruct (M _ _ _ _ N') as (M1 & M2 & M3).
  rewrite <- (area_corners r k1 k2 k3 N1 N2 N3), <- (area_corners r' j1 j2 j3 M1 M2 M3).
  unfold down, up in *.
  assert (X := cross3_near (corner r k1) (corner r k2) (corner r k3) (corner r' j1) (corner r' j2) (corner r' j3) D (1 + / 250000) HD ltac:(lra)).
  assert (Q : Rabs (cross3 (corner r k1) (corner r k2) (corner r k3) - cross3 (corner r' j1) (corner r' j2) (corner r' j3)) <= 16 * D * (1 + / 250000) + 8 * (1 + / 250000) * (1 + / 250000)).
  { apply X; try (apply Rabs_le; lra). intros p [<-|[<-|[<-|[]]]]; apply Hk. }
  pose proof (Rabs_triang_inv (cross3 (corner r k1) (corner r k2) (corner r k3)) (cross3 (corner r' j1) (corner r' j2) (corner r' j3))). nra.
Qed.
Lemma triangle_corner t k : Rabs (fst (corner (bound triangle t) k)) <= 6000 /\ Rabs (snd (corner (bound triangle t) k)) <= 6000.
Proof.
  pose proof (COS_bound t) as Ct. pose proof (SIN_bound t) as St.
  assert (B : Rabs (x0 (bound triangle t)) <= 3000 /\ Rabs (x1 (bound triangle t)) <= 3000 /\ Rabs (y0 (bound triangle t)) <= 3000 /\ Rabs (y1 (bound triangle t)) <= 3000).
  { cbn [bound x0 x1 y0 y1].
    assert (G : forall f, (forall p, In p triangle -> Rabs (f p) <= 3000) -> Rabs (lmax f (cyc triangle 0) triangle) <= 3000).
    { intros f Hf. destruct (lmax_in f (cyc triangle 0) triangle) as (p & Ip & ->). apply Hf. apply in_d; [discriminate|exact Ip]. }
    assert (P : forall p, In p triangle -> Rabs (along t p) <= 3000 /\ Rabs (across t p) <= 3000).
    { intros p Hp. unfold along, across. cbn [triangle In] in Hp. destruct Hp as [<-|[<-|[<-|[]]]]; cbn [fst snd]; split; apply Rabs_le; lra. }
    rewrite !Rabs_Ropp. split; [|split; [|split]]; apply G; intros p Hp; try rewrite Rabs_Ropp; apply P; auto. }
  unfold corner. cbn [fst snd ang bound].
  set (x := if fst k then _ else _). set (y := if snd k then _ else _).
  assert (Bx : Rabs x <= 3000) by (unfold x; destruct (fst k); tauto).
  assert (By : Rabs y <= 3000) by (unfold y; destruct (snd k); tauto).
  clearbody x y.
  assert (M : forall u v, Rabs u <= 3000 -> -1 <= v <= 1 -> -3000 <= u * v <= 3000).
  { intros u v Hu Hv. apply Rabs_le_inv in Hu. nra. }
  pose proof (M x (cos t) Bx Ct). pose proof (M y (sin t) By St). pose proof (M y (cos t) By Ct). pose proof (M x (sin t) Bx St).
  split; apply Rabs_le; lra.
Qed.

Theorem c103_refuted : ~ c103_statement.
Proof.
  intros H. destruct c103_libm_exists as (Ha & Hs). destruct triangle_ok as (W & S & N).
  destruct (H _ _ Ha Hs _ W S N) as (r & o & E & LC & Enc & Least).
  destruct (core exact_atan2 exact_sincos (- 2 ^ 31) (2 ^ 31 - 1) triangle Ha Hs W S N) as (hull & r1 & o1 & Ec & HH & (i & t & Hi & -> & P) & _ & LC1 & E1).
  rewrite E in E1. destruct (fits _ _ o1); [|discriminate E1]. injection E1 as ->.
  apply triangle_hull in Ec. subst hull.
  assert (A : 1500000 <= area (bound triangle t)).
  { assert (i = 0 \/ i = 1)%Z as [->| ->] by (cbn in Hi; lia); [pose proof (edge0_area _ _ HH P); lra|apply edge1_area; auto]. }
  destruct small_encloses as (Se & Sa). specialize (Least _ Se). rewrite Sa in Least.
  pose proof (same_corners _ _ _ 6000 ltac:(lra) LC1 LC (triangle_corner t)) as Q.
  rewrite (Rabs_pos_eq (area (bound triangle t))) in Q by lra.
  assert (0 <= area r). { unfold area. destruct (Enc (0, 0)%Z) as (X & Y); [cbn; auto|]. apply Rmult_le_pos; lra. }
  rewrite (Rabs_pos_eq (area r)) in Q by lra. lra.
Qed.
Print Assumptions c103_refuted.

Lemma edge1_tried : par (PI / 4) (1000, 0)%Z (2000, 1000)%Z /\ area (bound triangle (PI / 4)) <= 1500000.
Proof.
  assert (Q : sin (PI / 4) = cos (PI / 4)) by (rewrite sin_PI4, cos_PI4; reflexivity).
  assert (C : 0 < cos (PI / 4)) by (pose proof PI_RGT_0; apply cos_gt_0; lra).
  pose proof (trig (PI / 4)) as T. rewrite Q in T. split.
  { right. unfold across. cbn [fst snd]. lra. }
  apply Rle_trans with (area (mkRect (PI / 4) 0 (3000 * cos (PI / 4)) (- 1000 * cos (PI / 4)) 0)).
  - apply area_bound_le; [discriminate|reflexivity|]. intros p Hp. unfold contains, along, across. cbn [ang x0 x1 y0 y1]. rewrite Q.
    cbn [triangle In] in Hp. destruct Hp as [<-|[<-|[<-|[]]]]; cbn [fst snd]; lra.
  - unfold area. cbn [x0 x1 y0 y1]. lra.
Qed.
Lemma fits_corner r o hi k : lists_corners r o -> fits 0 hi o = true -> - 2 <= snd (corner r k).
Proof.
  intros (a & b & c & d & k1 & k2 & k3 & k4 & -> & N & _ & A2 & _ & B2 & _ & C2 & _ & D2 & _) F.
  unfold fits in F. cbn [forallb] in F.
  assert (G : (0 <= snd a /\ 0 <= snd b /\ 0 <= snd c /\ 0 <= snd d)%Z) by lia. destruct G as (Ga & Gb & Gc & Gd).
  apply IZR_le in Ga, Gb, Gc, Gd. unfold down, up in *.
  assert (K : k = k1 \/ k = k2 \/ k = k3 \/ k = k4).
  { inversion N as [|? ? M1 N1]; subst. inversion N1 as [|? ? M2 N2]; subst. inversion N2 as [|? ? M3 N3]; subst. cbn [In] in *. clear - M1 M2 M3.
    destruct k as [[] []], k1 as [[] []], k2 as [[] []]; try tauto; destruct k3 as [[] []]; try tauto; destruct k4 as [[] []]; tauto. }
  destruct K as [->|[->|[->| ->]]]; lra.
Qed.
(** An unsigned type: the same triangle, all of whose coordinates are at least 0, makes
    the conversion of the corner near (500, -500) panic. *)
Theorem c103_unsigned_panics : exists pts : list (Z * Z),
  (forall p, In p pts -> (0 <= fst p <= 2000 /\ 0 <= snd p <= 2000)%Z) /\
  forall atan2 sincos, accurate_atan2 atan2 -> accurate_sincos sincos -> forall hi, min_area_rect atan2 sincos 0 hi pts = Panic.
Proof.
  exists triangle. split. { intros p Hp. cbn [triangle In] in Hp. intuition; subst; cbn [fst snd]; lia. }
  intros atan2 sincos Ha Hs hi. destruct triangle_ok as (W & S & N).
  destruct (core atan2 sincos 0 hi triangle Ha Hs W S N) as (hull & r1 & o & Ec & HH & (i & t & Hi & -> & P) & Best & LC & E).
  apply triangle_hull in Ec. subst hull. rewrite E. destruct (fits 0 hi o) eqn:F; [|reflexivity]. exfalso.
  assert (I1 : i = 1%Z).
  { assert (i = 0 \/ i = 1)%Z as [->| ->] by (cbn in Hi; lia); [|reflexivity]. exfalso.
    pose proof (edge0_area _ _ HH P). destruct edge1_tried as (P1 & A1). specialize (Best 1%Z (PI / 4) ltac:(cbn; lia) P1). lra. }
  subst i. change (cyc triangle 1) with (1000, 0)%Z in P. change (cyc triangle (1 + 1)) with (2000, 1000)%Z in P.
  pose proof (fun k => fits_corner _ _ _ k LC F) as K. unfold corner in K. cbn [snd] in K. change (ang (bound triangle t)) with t in K.
  pose proof (bound_contains triangle triangle t (0, 0)%Z HH ltac:(cbn; auto)) as (A1 & A2).
  pose proof (bound_contains triangle triangle t (1000, 0)%Z HH ltac:(cbn; auto)) as (B1 & B2).
  unfold along, across in *. cbn [fst snd] in A1, A2, B1, B2. change (ang (bound triangle t)) with t in *.
  pose proof (trig t) as T. apply edge1_dir in P.
  pose proof (K (false, false)) as K1. pose proof (K (true, false)) as K2. pose proof (K (false, true)) as K3. pose proof (K (true, true)) as K4. clear K. cbn [fst snd] in K1, K2, K3, K4.
  set (u0 := x0 (bound triangle t)) in *. set (u1 := x1 (bound triangle t)) in *. set (v0 := y0 (bound triangle t)) in *. set (v1 := y1 (bound triangle t)) in *.
  clearbody u0 u1 v0 v1. clear - K1 K2 K3 K4 A1 A2 B1 B2 T P. set (s := sin t) in *. set (c := cos t) in *. clearbody s c.
  destruct P as [-> | ->]; assert (Q : s * s = / 2) by lra; destruct (Rle_dec 0 s).
  - assert (v0 * s <= - 500) by nra. assert (u0 * s <= 0) by nra. lra.
  - assert (v1 * s <= - 500) by nra. assert (u1 * s <= 0) by nra. lra.
  - assert (u0 * s <= - 500) by nra. assert (0 <= v1 * s) by nra. lra.
  - assert (u1 * s <= - 500) by nra. assert (0 <= v0 * s) by nra. lra.
Qed.
Print Assumptions c103_unsigned_panics.

(** a hull of seven edges, of which the last (vertical) is perpendicular to the first *)
Example c103_nontrivial :
  let pts := [(10, 40); (0, 0); (30, 0); (15, 15); (45, 10); (50, 25); (30, 45); (0, 30); (0, 0)]%Z in
  within 1048576 pts /\ spread 32767 pts /\ spanning pts /\
  (forall hull, convex_hull pts = Ok hull -> exists i, (0 <= i < zlen hull - 1)%Z /\
     forall r, parallel r (cyc hull (zlen hull - 1)) (cyc hull 0) -> parallel r (cyc hull i) (cyc hull (i + 1))).
Proof.
  cbv zeta. set (pts := [(10, 40); (0, 0); (30, 0); (15, 15); (45, 10); (50, 25); (30, 45); (0, 30); (0, 0)]%Z).
  assert (B : forall p, In p pts -> (0 <= fst p <= 50 /\ 0 <= snd p <= 50)%Z).
  { intros p Hp. unfold pts in Hp. cbn [In] in Hp. intuition; subst; cbn [fst snd]; lia. }
  split; [|split; [|split]].
  - intros p Hp. apply B in Hp. lia.
  - intros p q Hp Hq. apply B in Hp. apply B in Hq. lia.
  - exists (0, 0)%Z, (30, 0)%Z, (0, 30)%Z. unfold pts. cbn [In]. split; [auto 20|]. split; [auto 20|]. split; [auto 20|]. vm_compute. discriminate.
  - intros hull E. assert (E' : convex_hull pts = Ok [(0, 0); (30, 0); (45, 10); (50, 25); (30, 45); (10, 40); (0, 30)]%Z) by (vm_compute; reflexivity).
    rewrite E' in E. assert (hull = [(0, 0); (30, 0); (45, 10); (50, 25); (30, 45); (10, 40); (0, 30)]%Z) as -> by congruence.
    exists 0%Z. split; [cbn; lia|]. intros r. 
    change (cyc _ (zlen _ - 1)) with (0, 30)%Z. change (cyc _ 0) with (0, 0)%Z. change (cyc _ (0 + 1)) with (30, 0)%Z.
    unfold parallel, along, across. cbn [fst snd]. lra.
Qed.
