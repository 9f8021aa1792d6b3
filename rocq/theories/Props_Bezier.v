(** C93: drawing cubic Bezier curves. *)
From Flocq Require Import Core BinarySingleNaN.
From Coq Require Import Reals Lra.
From Verif Require Import Base BaseProofs Float FloatProofs FloatErr LineModel LineSpec LineProofs BezierModel BezierSpec BezierProofs.
Local Ltac Zify.zify_post_hook ::= idtac.
Open Scope Z_scope.

(** What drawing a curve is supposed to do: recolour the pixels of a connected
    path that lie in the image; the path starts and ends at the pixels nearest
    to the end points, stays within [d1] of the curve, and has a pixel within
    [d2] of every point of the curve. *)
Definition draws_curve {A} (col : A) (im out : image A) (x y : R -> R) (d0 d1 d2 : R) : Prop :=
  exists path : list (Z * Z),
    recoloured (fun px py => In (px, py) path) (fun _ => col) im out /\
    chain touching path /\
    (exists p, znth path 0 = Some p /\ close (/ 2) p (x 0%R) (y 0%R)) /\
    (exists p, znth path (zlen path - 1) = Some p /\ close d0 p (x 1%R) (y 1%R)) /\
    (forall p, In p path -> exists t, (0 <= t <= 1)%R /\ close d1 p (x t) (y t)) /\
    (forall t, (0 <= t <= 1)%R -> exists p, In p path /\ close d2 p (x t) (y t)).

(** the real curve with the given f32 control points *)
Definition curve_x (s e a b : f32 * f32) : R -> R := bez (B2R (fst s)) (B2R (fst a)) (B2R (fst b)) (B2R (fst e)).
Definition curve_y (s e a b : f32 * f32) : R -> R := bez (B2R (snd s)) (B2R (snd a)) (B2R (snd b)) (B2R (snd e)).
Definition finite2 (p : f32 * f32) : Prop := is_finite (fst p) = true /\ is_finite (snd p) = true.

(** The full property: for all finite control points. *)
Definition c93_statement : Prop :=
  forall A (col : A) (im : image A) (s e a b : f32 * f32),
  wf im -> iw im < 2 ^ 31 -> ih im < 2 ^ 31 -> finite2 s -> finite2 e -> finite2 a -> finite2 b ->
  exists out, draw_cubic_bezier_curve s e a b (fun _ => col) im = Ok out /\
    draws_curve col im out (curve_x s e a b) (curve_y s e a b) (/ 2) (5 / 2) 3.

(** Proved: control points with coordinates up to 4096 in magnitude; the last
    pixel is only known to be nearest to the end point up to 1/15 (the last
    parameter is n * (1 / n) in f32, which need not be 1).
    Missing: larger coordinates (refuted below). *)
Theorem c93_bezier_partial A (col : A) (im : image A) (s e a b : f32 * f32) :
  wf im -> iw im < 2 ^ 31 -> ih im < 2 ^ 31 -> ctrl2 s -> ctrl2 e -> ctrl2 a -> ctrl2 b ->
  exists out, draw_cubic_bezier_curve s e a b (fun _ => col) im = Ok out /\
    draws_curve col im out (curve_x s e a b) (curve_y s e a b) (/ 2 + / 15) (5 / 2) 3.
Proof.
  intros W H1 H2 Hs He Ha Hb.
  destruct (loop_ok s e a b Hs He Ha Hb col im) as (path & out & E & R & C & P0 & Pn & N & V); [split; auto|].
  exists out. split; [exact E|]. exists path. split; [exact R|]. split; [exact C|].
  destruct (segments_ok s e a b Hs He Ha Hb) as (Hn & _). set (n := num_segments s e a b) in *.
  assert (N3 : (3 <= IZR n)%R) by (apply IZR_le; lia).
  assert (D1 : forall r, (3 <= r -> r / r = 1)%R) by (intros; field; lra).
  assert (D2 : forall r t j, (3 <= r -> (j + (t * r - j)) / r = t)%R) by (intros; field; lra).
  split.
  { eexists. split; [exact P0|]. change (0 =? 0) with true. cbv iota. unfold curve_x, curve_y. rewrite !bez_0. unfold pt, close. cbn [fst snd].
    destruct Hs as (S1 & S2), He as (E1 & E2), Ha as (A1 & A2), Hb as (B1 & B2). rewrite !coord_start by assumption.
    split; apply znearest_half. }
  split.
  { eexists. split; [exact Pn|]. destruct (sample_ok s e a b Hs He Ha Hb n) as (_ & K & _); [clear - Hn; subst n; lia|]. fold n in K.
    rewrite (D1 _ N3) in K. unfold curve_x, curve_y. unfold close in *. destruct K as (K1 & K2). split.
    - eapply Rle_trans; [exact K1|]. lra.
    - eapply Rle_trans; [exact K2|]. lra. }
  split.
  - intros p Hp. destruct (N p Hp) as (j & l & Hj & Hl & Q1 & Q2). destruct (chord_ok s e a b Hs He Ha Hb j l Hj Hl) as (T & K1 & K2). fold n in T, K1, K2.
    eexists. split; [exact T|]. split.
    + apply Rabs_le_inv in Q1, K1. apply Rabs_le. unfold curve_x, cx in *. lra.
    + apply Rabs_le_inv in Q2, K2. apply Rabs_le. unfold curve_y, cy in *. lra.
  - intros t Ht. set (j := Z.min (Zfloor (t * IZR n)) (n - 1)). set (l := (t * IZR n - IZR j)%R).
    pose proof (Zfloor_lb (t * IZR n)) as FL. pose proof (Zfloor_ub (t * IZR n)) as FU.
    assert (T0 : (0 <= t * IZR n <= IZR n)%R) by (clear - Ht N3; nra).
    assert (J0 : 0 <= Zfloor (t * IZR n)) by (apply Zfloor_lub; lra).
    assert (Hj : 0 <= j < n) by (unfold j; lia).
    assert (Hl : (0 <= l <= 1)%R).
    { unfold l, j. destruct (Z_le_gt_dec (Zfloor (t * IZR n)) (n - 1)) as [K|K].
      - rewrite Z.min_l by exact K. lra.
      - rewrite Z.min_r by lia. rewrite minus_IZR.
        assert (K2 : (IZR n <= IZR (Zfloor (t * IZR n)))%R) by (apply IZR_le; lia). lra. }
    destruct (V j l Hj Hl) as (p & Hp & Q1 & Q2). exists p. split; [exact Hp|].
    destruct (chord_ok s e a b Hs He Ha Hb j l Hj Hl) as (T & K1 & K2). fold n in K1, K2.
    pose proof (D2 (IZR n) t (IZR j) N3) as D3. fold l in D3. rewrite D3 in K1, K2. split.
    + apply Rabs_le_inv in Q1, K1. apply Rabs_le. unfold curve_x, cx in *. lra.
    + apply Rabs_le_inv in Q2, K2. apply Rabs_le. unfold curve_y, cy in *. lra.
Qed.
Print Assumptions c93_bezier_partial.

(** A curve through a point with coordinate 2^31 overflows the line iterator. *)
Theorem c93_huge_panics A (col : A) im :
  let p := (of_int (2 ^ 31), of_int 0) : f32 * f32 in draw_cubic_bezier_curve p p p p (fun _ => col) im = Panic.
Proof.
  intros p. unfold draw_cubic_bezier_curve. cbv zeta. replace (num_segments p p p p) with 3 by (vm_compute; reflexivity).
  rewrite for_range_cons by lia. unfold draw_line_segment at 1.
  replace (bres_points _ _) with (@Panic (list (Z * Z))); [reflexivity|]. vm_compute. reflexivity.
Qed.
Print Assumptions c93_huge_panics.

Theorem c93_refuted : ~ c93_statement.
Proof.
  intros S. set (p := (of_int (2 ^ 31), of_int 0) : f32 * f32).
  assert (F : finite2 p) by (split; vm_compute; reflexivity).
  destruct (S Z 1 (mkImage 1 1 [0]) p p p p) as (out & E & _); try exact F; try reflexivity.
  { unfold wf, zlen. simpl. lia. }
  rewrite c93_huge_panics in E. discriminate.
Qed.
Print Assumptions c93_refuted.

(** a curve on a 12 x 5 image: 4 segments, with its top just above the image *)
Example c93_nontrivial :
  let s := (of_int 0, of_int 4) : f32 * f32 in let e := (of_int 11, of_int 4) : f32 * f32 in
  let a := (of_int 3, of_int (-2)) : f32 * f32 in let b := (of_int 8, of_int (-2)) : f32 * f32 in
  ctrl2 s /\ ctrl2 e /\ ctrl2 a /\ ctrl2 b /\
  (match draw_cubic_bezier_curve s e a b (fun _ => 9) (new_image 12 5 0) with Ok out => idata out | _ => [] end)
    = [0; 0; 0; 0; 9; 9; 0; 9; 0; 0; 0; 0;
       0; 0; 0; 9; 0; 0; 0; 0; 9; 0; 0; 0;
       0; 0; 9; 0; 0; 0; 0; 0; 0; 9; 0; 0;
       0; 9; 0; 0; 0; 0; 0; 0; 0; 0; 9; 0;
       9; 0; 0; 0; 0; 0; 0; 0; 0; 0; 0; 9].
Proof.
  intros s e a b.
  assert (K : forall z, Z.abs z <= 4096 -> ctrl (of_int z : f32)).
  { intros z Hz. destruct (of_int_R 24 128 z) as (F & R).
    { rewrite <- abs_IZR. pose proof f32_big. apply Rle_trans with (IZR 4096); [apply IZR_le; lia|lra]. }
    split; [exact F|]. rewrite R, (rnd_int 24 128) by lia. rewrite <- abs_IZR. apply IZR_le. lia. }
  split; [split; [exact (K 0 ltac:(lia))|exact (K 4 ltac:(lia))]|].
  split; [split; [exact (K 11 ltac:(lia))|exact (K 4 ltac:(lia))]|].
  split; [split; [exact (K 3 ltac:(lia))|exact (K (-2) ltac:(lia))]|].
  split; [split; [exact (K 8 ltac:(lia))|exact (K (-2) ltac:(lia))]|]. subst s e a b. clear K. vm_compute. reflexivity.
Qed.
