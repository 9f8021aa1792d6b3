(** C31, C32, C33, C78: Bresenham lines. *)
From Flocq Require Import BinarySingleNaN.
From Verif Require Import Base BaseProofs Float FloatProofs LineModel LineSpec LineProofs.
Local Ltac Zify.zify_post_hook ::= idtac.

(** C31 *)
Theorem c31_bresenham_line : forall a b, small a -> small b ->
  exists pts,
    bres_points (of_int (fst a), of_int (snd a)) (of_int (fst b), of_int (snd b)) = Ok pts /\
    let n := Z.max (Z.abs (fst b - fst a)) (Z.abs (snd b - snd a)) in
    zlen pts = n + 1 /\
    chain king_move pts /\
    (znth pts 0 = Some a /\ znth pts n = Some b \/ znth pts 0 = Some b /\ znth pts n = Some a) /\
    Forall (near_line a b) pts /\ Forall (in_box a b) pts /\ NoDup pts.
Proof.
  intros a b Ha Hb. destruct (bres_good a b Ha Hb) as (pts & E & G).
  exists pts. split; [exact E|]. cbv zeta.
  assert (ND : NoDup pts) by (eapply bres_points_NoDup; eauto).
  assert (MX : Z.max (Z.abs (fst a - fst b)) (Z.abs (snd a - snd b)) =
               Z.max (Z.abs (fst b - fst a)) (Z.abs (snd b - snd a))) by lia.
  destruct G as [[G1 G2 G3 G4 G5 G6]|[G1 G2 G3 G4 G5 G6]]; rewrite ?MX in *; splits; auto.
  - eapply Forall_impl; [|exact G5]. intros p. apply near_line_sym.
  - eapply Forall_impl; [|exact G6]. intros p. apply in_box_sym.
Qed.

Example c31_nontrivial : small (-1, 4) /\ small (6, 1) /\
  bres_points (of_int (-1), of_int 4) (of_int 6, of_int 1)
  = Ok [(-1, 4); (0, 4); (1, 3); (2, 3); (3, 2); (4, 2); (5, 1); (6, 1)].
Proof. split; [unfold small; cbn; lia|]. split; [unfold small; cbn; lia|]. vm_compute. reflexivity. Qed.

(** C32, for all finite f32 end points: the iterators yield the same points *)
Theorem c32_direction : forall a b : f32 * f32,
  is_finite (fst a) = true -> is_finite (snd a) = true ->
  is_finite (fst b) = true -> is_finite (snd b) = true ->
  bres_points a b = bres_points b a.
Proof. intros a b H1 H2 H3 H4. apply bres_points_sym; split; assumption. Qed.

(** hence also the drawn images *)
Theorem c32_drawing_direction : forall A (dr : A -> A) im (a b : f32 * f32),
  is_finite (fst a) = true -> is_finite (snd a) = true ->
  is_finite (fst b) = true -> is_finite (snd b) = true ->
  draw_line_segment dr im a b = draw_line_segment dr im b a.
Proof.
  intros A dr im a b H1 H2 H3 H4. unfold draw_line_segment.
  rewrite (bres_points_sym a b); [reflexivity|split; assumption|split; assumption].
Qed.

Example c32_nontrivial :
  bres_points (of_dyadic 5 (-2), of_int 7) (of_int (-3), of_dyadic 9 (-1)) =
  bres_points (of_int (-3), of_dyadic 9 (-1)) (of_dyadic 5 (-2), of_int 7) /\
  bres_points (of_dyadic 5 (-2), of_int 7) (of_int (-3), of_dyadic 9 (-1))
  = Ok [(-3, 4); (-2, 5); (-1, 5); (0, 6); (1, 6)].
Proof. split; vm_compute; reflexivity. Qed.

(** C33 *)
Theorem c33_draw_line_segment : forall A (dr : A -> A) im a b,
  wf im -> iw im < 2 ^ 31 -> ih im < 2 ^ 31 -> small a -> small b ->
  exists pts out,
    bres_points (of_int (fst a), of_int (snd a)) (of_int (fst b), of_int (snd b)) = Ok pts /\
    draw_line_segment dr im (of_int (fst a), of_int (snd a)) (of_int (fst b), of_int (snd b)) = Ok out /\
    recoloured (fun x y => In (x, y) pts) dr im out.
Proof.
  intros A dr im a b W H1 H2 Ha Hb. destruct (bres_good a b Ha Hb) as (pts & E & _).
  destruct (draw_line_ok dr im (fpt a) (fpt b) pts) as (out & D & R); auto.
  - unfold cdim; auto.
  - exists pts, out. auto.
Qed.

(** any f32 end points: the drawing panics exactly when the iterator does *)
Theorem c33_draw_line_segment_any_float : forall A (dr : A -> A) im a b,
  wf im -> iw im < 2 ^ 31 -> ih im < 2 ^ 31 ->
  (exists pts out, bres_points a b = Ok pts /\ draw_line_segment dr im a b = Ok out /\
    recoloured (fun x y => In (x, y) pts) dr im out) \/
  (bres_points a b = Panic /\ draw_line_segment dr im a b = Panic).
Proof.
  intros A dr im a b W H1 H2. destruct (bres_points a b) as [pts| |] eqn:E.
  - left. destruct (draw_line_ok dr im a b pts) as (out & D & R); [unfold cdim; auto|auto|].
    exists pts, out. auto.
  - right. split; auto. unfold draw_line_segment. rewrite E. reflexivity.
  - exfalso. revert E. apply bres_points_total.
Qed.

(** an end point of 2^31 saturates to i32::MAX and the iterator's increment overflows *)
Theorem c33_huge_coordinate_panics : forall A (dr : A -> A) im,
  draw_line_segment dr im (of_int (2 ^ 31), of_int 0) (of_int (2 ^ 31), of_int 0) = Panic.
Proof. intros. unfold draw_line_segment. replace (bres_points _ _) with (@Panic (list (Z * Z))); [reflexivity|]. vm_compute. reflexivity. Qed.

Example c33_nontrivial : exists out,
  draw_line_segment (fun _ => 9) (mkImage 3 2 [1; 2; 3; 4; 5; 6]) (of_int (-2), of_int 0) (of_int 4, of_int 2) = Ok out /\
  idata out = [1; 2; 3; 9; 9; 9].
Proof. eexists. split; [vm_compute; reflexivity|vm_compute; reflexivity]. Qed.

(** C78 *)
Theorem c78_iterators_in_image : forall A (im : image A) (a b : f32 * f32),
  wf im -> 1 <= iw im <= 2 ^ 29 -> 1 <= ih im <= 2 ^ 29 ->
  exists items refs,
    line_pixel_iter im a b = Ok items /\
    line_pixel_iter_mut im a b = Ok refs /\
    refs = map fst items /\
    Forall (fun it => get im (fst (fst it)) (snd (fst it)) = Some (snd it)) items /\
    NoDup refs.
Proof.
  intros A im a b W Hw Hh. destruct (line_iter_ok im a b W Hw Hh) as (pts & E & M & items & I1 & I2 & I3).
  exists items, (filter (fun p => inb im (fst p) (snd p)) pts). splits; auto.
  apply NoDup_filter. eapply bres_points_NoDup; eauto.
Qed.

(** the pixels are those of the line between the end points moved into the
    image; for integer end points inside it, those of the line itself *)
Theorem c78_iterators_follow_line : forall A (im : image A) (a b : Z * Z),
  wf im -> 1 <= iw im <= 2 ^ 22 -> 1 <= ih im <= 2 ^ 22 ->
  0 <= fst a < iw im -> 0 <= snd a < ih im -> 0 <= fst b < iw im -> 0 <= snd b < ih im ->
  exists pts,
   bres_points (of_int (fst a), of_int (snd a)) (of_int (fst b), of_int (snd b)) = Ok pts /\
   line_pixel_iter_mut im (of_int (fst a), of_int (snd a)) (of_int (fst b), of_int (snd b)) = Ok pts.
Proof.
  intros A im a b W Hw Hh A1 A2 B1 B2.
  destruct (line_iter_ok im (fpt a) (fpt b) W) as (pts & E & M & _); try lia.
  assert (CL : forall z n, 0 <= z <= n -> n <= 2 ^ 22 ->
     fclamp (of_int z : f32) (of_int 0) (of_int n) = of_int z).
  { intros z n H H'. unfold fclamp.
    assert (D : forall u, 0 <= u <= n -> dy 0 u (of_int u : f32))
      by (intros; apply dy_int; [apply dyk_0|change (2 ^ 24) with 16777216; lia]).
    rewrite (dy_lt _ _ 0 _ _ _ _ (D z H) (D 0 ltac:(lia))).
    rewrite (dy_lt _ _ 0 _ _ _ _ (D n ltac:(lia)) (D z H)).
    replace (z <? 0) with false by lia. replace (n <? z) with false by lia. reflexivity. }
  assert (CA : clamp_point (fpt a) im = fpt a)
    by (unfold clamp_point, fpt; cbn [fst snd]; rewrite !CL by lia; reflexivity).
  assert (CB : clamp_point (fpt b) im = fpt b)
    by (unfold clamp_point, fpt; cbn [fst snd]; rewrite !CL by lia; reflexivity).
  rewrite CA, CB in E. exists pts. split; [exact E|].
  change (line_pixel_iter_mut im (fpt a) (fpt b) = Ok pts). rewrite M. f_equal.
  assert (Sa : small a) by (unfold small; lia). assert (Sb : small b) by (unfold small; lia).
  destruct (bres_good a b Sa Sb) as (pts' & E' & G).
  assert (pts' = pts) by congruence. subst pts'.
  assert (BOX : Forall (in_box a b) pts).
  { destruct G as [[_ _ _ _ _ G]|[_ _ _ _ _ G]]; [exact G|].
    eapply Forall_impl; [|exact G]. intros p. apply in_box_sym. }
  clear - BOX A1 A2 B1 B2. induction pts as [|p pts IH]; [reflexivity|].
  inversion BOX as [|? ? P PS]; subst. cbn [filter]. unfold in_box in P.
  replace (inb im (fst p) (snd p)) with true by (symmetry; apply inb_spec; lia).
  f_equal. auto.
Qed.

Example c78_nontrivial :
  line_pixel_iter_mut (mkImage 3 2 [1; 2; 3; 4; 5; 6]) (of_int (-5), B754_nan) (B754_infinity false, of_int 1)
  = Ok [(0, 0); (1, 0); (2, 0)].
Proof. vm_compute. reflexivity. Qed.

Print Assumptions c31_bresenham_line.
Print Assumptions c32_direction.
Print Assumptions c32_drawing_direction.
Print Assumptions c33_draw_line_segment.
Print Assumptions c33_draw_line_segment_any_float.
Print Assumptions c33_huge_coordinate_panics.
Print Assumptions c78_iterators_in_image.
Print Assumptions c78_iterators_follow_line.
