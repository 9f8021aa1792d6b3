(** C104: pictures of orientation histograms. *)
From Flocq Require Import BinarySingleNaN.
From Coq Require Import Reals Lra.
From Verif Require Import Base BaseProofs GeomProofs Float LineModel ClampModel HogModel HogCellsModel RenderModel RenderSpec RenderProofs.
Open Scope Z_scope.

(** The full property: the picture of a grid of cells consists of one square per
    cell, and each square shows the star of its own cell. *)
Definition c104_statement : Prop :=
  forall (sin cos : f32 -> f32) side data l0 l1 l2 signed,
  bounded_trig sin -> bounded_trig cos -> sin (of_int 0) = of_int 0 -> cos (of_int 0) = of_int 1 ->
  1 <= side -> 1 <= l0 <= 2 ^ 20 -> 1 <= l1 -> 1 <= l2 -> l1 * side <= 2 ^ 20 -> l2 * side <= 2 ^ 20 -> zlen data = l0 * l1 * l2 ->
  exists out, render_hist_grid sin cos side data l0 l1 l2 signed = Ok out /\ iw out = l1 * side /\ ih out = l2 * side /\
    forall i j x y, 0 <= i < l1 -> 0 <= j < l2 -> 0 <= x < side -> 0 <= y < side ->
      exists v, get out (i * side + x) (j * side + y) = Some v /\ star_value sin cos side side signed (cell_hist data l0 l1 i j) x y v.

(** Proved: the picture has the size of the grid and shows one star, that of the
    last cell, as large as the whole picture.  Missing: the stars of all other
    cells, which are drawn in the same place and painted over. *)
Theorem c104_picture_partial (sin cos : f32 -> f32) side data l0 l1 l2 signed :
  bounded_trig sin -> bounded_trig cos ->
  1 <= side -> 1 <= l0 <= 2 ^ 20 -> 1 <= l1 -> 1 <= l2 -> l1 * side <= 2 ^ 20 -> l2 * side <= 2 ^ 20 -> zlen data = l0 * l1 * l2 ->
  exists out, render_hist_grid sin cos side data l0 l1 l2 signed = Ok out /\ iw out = l1 * side /\ ih out = l2 * side /\
    forall x y, 0 <= x < l1 * side -> 0 <= y < l2 * side ->
      exists v, get out x y = Some v /\ star_value sin cos (l1 * side) (l2 * side) signed (cell_hist data l0 l1 (l1 - 1) (l2 - 1)) x y v.
Proof.
  intros Hsin Hcos Hs H0 H1 H2 Hw Hh HL.
  assert (l1 <= 2 ^ 20) by nia. assert (l2 <= 2 ^ 20) by nia. assert (l0 * l1 * l2 < 2 ^ 64).
  { assert (l0 * l1 <= 2 ^ 20 * 2 ^ 20) by nia. apply Z.le_lt_trans with (2 ^ 20 * 2 ^ 20 * 2 ^ 20); [nia|reflexivity]. }
  destruct (render_ok sin cos Hsin Hcos side data l0 l1 l2 signed) as (out & E & (_ & E1 & E2 & R)); try lia.
  exists out. split; [exact E|]. split; [exact E1|]. split; [exact E2|].
  intros x y Hx Hy. rewrite (R x y Hx Hy). replace (l1 =? 0) with false by lia. replace (l2 =? 0) with false by lia. cbn [orb].
  eexists. split; [reflexivity|]. apply paint_value.
Qed.
Print Assumptions c104_picture_partial.

(** For a grid of one cell that is the full property. *)
Theorem c104_one_cell (sin cos : f32 -> f32) side data l0 signed :
  bounded_trig sin -> bounded_trig cos -> 1 <= side <= 2 ^ 20 -> 1 <= l0 <= 2 ^ 20 -> zlen data = l0 ->
  exists out, render_hist_grid sin cos side data l0 1 1 signed = Ok out /\ iw out = side /\ ih out = side /\
    forall x y, 0 <= x < side -> 0 <= y < side ->
      exists v, get out x y = Some v /\ star_value sin cos side side signed data x y v.
Proof.
  intros Hsin Hcos Hs H0 HL. destruct (c104_picture_partial sin cos side data l0 1 1 signed Hsin Hcos) as (out & E & E1 & E2 & R); try lia.
  rewrite Z.mul_1_l in *. exists out. split; [exact E|]. split; [exact E1|]. split; [exact E2|]. intros x y Hx Hy.
  destruct (R x y Hx Hy) as (v & G & S). exists v. split; [exact G|]. replace (cell_hist data l0 1 (1 - 1) (1 - 1)) with data in S; [exact S|].
  unfold cell_hist. change ((1 - 1) * 1 + (1 - 1)) with 0. cbn [Z.mul Z.to_nat skipn]. rewrite firstn_all2; [reflexivity|]. unfold zlen in HL. lia.
Qed.
Print Assumptions c104_one_cell.

(** Two grids that agree in the last cell have the same picture. *)
Theorem c104_only_last_cell (sin cos : f32 -> f32) side data data' l0 l1 l2 signed out out' :
  bounded_trig sin -> bounded_trig cos ->
  1 <= side -> 1 <= l0 <= 2 ^ 20 -> 1 <= l1 -> 1 <= l2 -> l1 * side <= 2 ^ 20 -> l2 * side <= 2 ^ 20 ->
  zlen data = l0 * l1 * l2 -> zlen data' = l0 * l1 * l2 ->
  cell_hist data l0 l1 (l1 - 1) (l2 - 1) = cell_hist data' l0 l1 (l1 - 1) (l2 - 1) ->
  render_hist_grid sin cos side data l0 l1 l2 signed = Ok out -> render_hist_grid sin cos side data' l0 l1 l2 signed = Ok out' ->
  forall x y, 0 <= x < l1 * side -> 0 <= y < l2 * side -> get out x y = get out' x y.
Proof.
  intros Hsin Hcos Hs H0 H1 H2 Hw Hh HL HL' EC E E' x y Hx Hy.
  destruct (c104_picture_partial sin cos side data l0 l1 l2 signed Hsin Hcos) as (o & F & _ & _ & R); try lia.
  destruct (c104_picture_partial sin cos side data' l0 l1 l2 signed Hsin Hcos) as (o' & F' & _ & _ & R'); try lia.
  assert (o = out) by congruence. assert (o' = out') by congruence. subst o o'.
  destruct (R x y Hx Hy) as (v & -> & S). destruct (R' x y Hx Hy) as (v' & -> & S'). rewrite <- EC in S'. f_equal. eapply star_value_fun; eassumption.
Qed.
Print Assumptions c104_only_last_cell.

(** Two cells, the first at full strength and the second empty: the picture is
    black, although the first star goes through the middle of its square. *)
Definition two_cells : list f32 := [of_int 255; of_int 0].
Lemma empty_star (sin cos : f32 -> f32) w h x y v : star_value sin cos w h true [of_int 0] x y v -> v = 0.
Proof.
  intros [(b & s & Hb & E & -> & _)|(_ & E)]; [|exact E]. change (zlen [of_int 0 : f32]) with 1 in Hb. assert (b = 0) as -> by lia.
  assert (E' : Some (of_int 0 : f32) = Some s) by (rewrite <- E; reflexivity). assert (s = of_int 0) as -> by congruence. vm_compute. reflexivity.
Qed.
Theorem c104_black (sin cos : f32 -> f32) : bounded_trig sin -> bounded_trig cos -> sin (of_int 0) = of_int 0 -> cos (of_int 0) = of_int 1 ->
  (exists out, render_hist_grid sin cos 2 two_cells 1 2 1 true = Ok out /\ forall x y, 0 <= x < 4 -> 0 <= y < 2 -> get out x y = Some 0) /\
  star_value sin cos 2 2 true (cell_hist two_cells 1 2 0 0) 1 1 255.
Proof.
  intros Hsin Hcos S0 C0. split.
  - destruct (c104_picture_partial sin cos 2 two_cells 1 2 1 true Hsin Hcos) as (out & E & _ & _ & R); try (cbn; lia). exists out. split; [exact E|].
    intros x y Hx Hy. destruct (R x y) as (v & G & S); try lia. rewrite G. f_equal. apply (empty_star sin cos (2 * 2) (1 * 2) x y). exact S.
  - left. exists 0, (of_int 255). change (zlen (cell_hist two_cells 1 2 0 0)) with 1. split; [lia|]. split; [reflexivity|]. split; [vm_compute; reflexivity|].
    split; [|intros b' Hb'; lia]. unfold on_bucket. apply Bool.orb_true_iff. left. unfold on_ray, ray_end.
    assert (D : bucket_direction true 1 0 = of_int 0) by (vm_compute; reflexivity). rewrite D, S0, C0. vm_compute. reflexivity.
Qed.
Print Assumptions c104_black.

Theorem c104_refuted : ~ c104_statement.
Proof.
  intros S. set (sin := fun _ : f32 => of_int 0 : f32). set (cos := fun _ : f32 => of_int 1 : f32).
  assert (Hsin : bounded_trig sin). { intros x _. unfold sin. destruct (int32_R 0) as (F & R); [lia|]. split; [exact F|]. rewrite R, Rabs_R0. lra. }
  assert (Hcos : bounded_trig cos). { intros x _. unfold cos. destruct (int32_R 1) as (F & R); [lia|]. split; [exact F|]. rewrite R, Rabs_R1. lra. }
  destruct (c104_black sin cos Hsin Hcos eq_refl eq_refl) as ((out & E & B) & V).
  destruct (S sin cos 2 two_cells 1 2 1 true Hsin Hcos eq_refl eq_refl) as (out' & E' & _ & _ & R); try (cbn; lia).
  assert (out' = out) by congruence. subst out'. destruct (R 0 0 1 1) as (v & G & V'); try lia.
  change (0 * 2 + 1) with 1 in G. rewrite B in G by lia. assert (v = 0) as -> by congruence.
  pose proof (star_value_fun sin cos 2 2 true _ 1 1 _ _ V V'). discriminate.
Qed.
Print Assumptions c104_refuted.

(** A star of two signed buckets in a 9 x 9 square (sine and cosine rounded to
    -1, 0 and 1): the down ray shows 200, the up ray 100, the corner is black. *)
Example c104_nontrivial :
  let sin := fun _ : f32 => of_int 0 : f32 in
  let cos := fun t : f32 => if flt (of_int 1) t then of_int (-1) else of_int 1 : f32 in
  bounded_trig sin /\ bounded_trig cos /\
  match render_hist_grid sin cos 9 [of_int 200; of_int 100] 2 1 1 true with
  | Ok out => get out 4 7 = Some 200 /\ get out 4 1 = Some 100 /\ get out 4 4 = Some 100 /\ get out 0 0 = Some 0
  | _ => False
  end.
Proof.
  cbv zeta. split; [|split].
  - intros x _. destruct (int32_R 0) as (F & R); [lia|]. split; [exact F|]. rewrite R, Rabs_R0. lra.
  - intros x _. destruct (flt (of_int 1) x).
    + destruct (int32_R (-1)) as (F & R); [lia|]. split; [exact F|]. rewrite R. apply Rabs_le. lra.
    + destruct (int32_R 1) as (F & R); [lia|]. split; [exact F|]. rewrite R, Rabs_R1. lra.
  - vm_compute. repeat split; reflexivity.
Qed.
