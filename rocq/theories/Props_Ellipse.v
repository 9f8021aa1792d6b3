(** C96, C97: drawing axis-aligned ellipses.
    [recoloured S dr im out] (LineSpec.v): out is im with [dr] applied once to
    each pixel of the set S inside the image, all other pixels unchanged.
    [quarter w h e l], [on_outline], [in_outline], [near], [inside]: EllipseSpec.v. *)
From Coq Require Import Reals Lra.
From Verif Require Import Base BaseProofs Float FloatProofs LineModel LineSpec LineProofs ShapeModel ShapeSpec ShapeProofs.
From Verif Require Import EllipseModel EllipseSpec EllipseProofs EllipseProofs2 EllipseProofs3.
Local Ltac Zify.zify_post_hook ::= idtac.
Local Open Scope Z_scope.

(** ** C96. The full property: for all different positive radii, the outline is
    a connected curve, within one pixel of the ellipse, through its four
    extreme points. *)
Definition c96_statement : Prop :=
  forall A (dr : A -> A) (im : image A) c w h,
  wf im -> iw im < 2 ^ 31 -> ih im < 2 ^ 31 -> (forall a, dr (dr a) = dr a) ->
  Z.abs (fst c) <= 2 ^ 30 -> Z.abs (snd c) <= 2 ^ 30 -> 1 <= w < 2 ^ 31 -> 1 <= h < 2 ^ 31 -> w <> h ->
  exists l out fuel, quarter w h w l /\
    (forall n, fuel <= Z.of_nat n -> draw_hollow_ellipse n dr im c w h = Ok out) /\
    recoloured (on_outline c w h l) dr im out.

(** Proved: radii up to 250; the curve reaches the left and right extreme
    points unless the ellipse is very flat, 2 w > h^2.
    Missing: larger radii (from 46341 on the call panics) and flat ellipses
    (which can stop short of the extreme points); both refuted below. *)
Theorem c96_outline_partial : forall A (dr : A -> A) (im : image A) c w h,
  wf im -> iw im < 2 ^ 31 -> ih im < 2 ^ 31 -> (forall a, dr (dr a) = dr a) ->
  Z.abs (fst c) <= 2 ^ 30 -> Z.abs (snd c) <= 2 ^ 30 -> 1 <= w <= 250 -> 1 <= h <= 250 -> w <> h ->
  exists e l out, quarter w h e l /\ (2 * w <= h * h -> e = w) /\
    (forall n, w + h + 2 <= Z.of_nat n -> draw_hollow_ellipse n dr im c w h = Ok out) /\
    recoloured (on_outline c w h l) dr im out.
Proof.
  intros A dr im [cx cy] w h W H1 H2 ID Cx Cy Hw Hh N. cbn [fst snd] in *.
  destruct (ellipse_list w h Hw Hh (Z.to_nat (w + h + 2))) as (e & l & Q & F & D); [lia|].
  destruct (hollow_points dr im cx cy w h ((0, h) :: l)) as (out & E & R); try assumption; try lia; [now unfold cdim| |].
  { intros q I. pose proof (quarter_in w h e l q Q I). tauto. }
  exists e, l, out. split; [exact Q|]. split; [auto|]. split; [|exact R].
  intros n Hn. unfold draw_hollow_ellipse. replace (w =? h) with false by lia.
  apply (ellipse_fuel _ w h (Z.to_nat (w + h + 2))); [lia|]. rewrite D. exact E.
Qed.
Print Assumptions c96_outline_partial.

(** [near] says what it should: a point of the ellipse lies within one pixel,
    in each coordinate. *)
Theorem c96_near : forall w h dx dy, 1 <= w -> 1 <= h -> near w h dx dy ->
  exists u v : R, (Rabs (u - IZR dx) <= 1 /\ Rabs (v - IZR dy) <= 1 /\ u * u / (IZR w * IZR w) + v * v / (IZR h * IZR h) = 1)%R.
Proof.
  intros w h dx dy Hw Hh (I & O). unfold inside, shrink, grow in *.
  set (a := Z.abs dx) in *. set (b := Z.abs dy) in *. assert (A : 0 <= a /\ 0 <= b) by lia.
  set (a0 := Z.max (a - 1) 0) in *. set (b0 := Z.max (b - 1) 0) in *.
  assert (A0 : a - 1 <= a0 <= a + 1 /\ b - 1 <= b0 <= b + 1) by lia. clearbody a0 b0.
  set (f := fun t : R => (IZR (h * h) * ((IZR a0 + t * IZR (a + 1 - a0)) * (IZR a0 + t * IZR (a + 1 - a0))) +
    IZR (w * w) * ((IZR b0 + t * IZR (b + 1 - b0)) * (IZR b0 + t * IZR (b + 1 - b0))) - IZR (w * w * (h * h)))%R).
  assert (C : continuity f) by (unfold f; reg).
  assert (F0 : (f 0 <= 0)%R). { unfold f. apply IZR_le in I. rewrite !plus_IZR, !(mult_IZR (_ * _) (_ * _)), !(mult_IZR a0), !(mult_IZR b0) in I. rewrite (mult_IZR (w * w)). lra. }
  assert (F1 : (0 <= f 1)%R). { unfold f. apply Z.nle_gt, IZR_lt in O. rewrite plus_IZR, !(mult_IZR (_ * _) (_ * _)), !(mult_IZR (_ + _) (_ + _)) in O. rewrite (mult_IZR (w * w)). rewrite !minus_IZR, !plus_IZR in *. lra. }
  destruct (IVT_cor f 0 1 C) as (t & T & Z0); [lra|nra|].
  assert (Wp : (1 <= IZR w)%R) by (apply IZR_le; lia). assert (Hp : (1 <= IZR h)%R) by (apply IZR_le; lia).
  set (u := (IZR a0 + t * IZR (a + 1 - a0))%R) in *. set (v := (IZR b0 + t * IZR (b + 1 - b0))%R) in *.
  assert (U : (Rabs (u - IZR a) <= 1)%R).
  { assert (0 <= IZR (a + 1 - a0))%R by (apply IZR_le; lia). assert (K : (IZR (a - 1) <= IZR a0)%R) by (apply IZR_le; lia).
    unfold u. rewrite !minus_IZR, !plus_IZR in *. apply Rabs_le. split; nra. }
  assert (V : (Rabs (v - IZR b) <= 1)%R).
  { assert (0 <= IZR (b + 1 - b0))%R by (apply IZR_le; lia). assert (K : (IZR (b - 1) <= IZR b0)%R) by (apply IZR_le; lia).
    unfold v. rewrite !minus_IZR, !plus_IZR in *. apply Rabs_le. split; nra. }
  assert (Q : (u * u / (IZR w * IZR w) + v * v / (IZR h * IZR h) = 1)%R).
  { unfold f in Z0. fold u v in Z0. rewrite !mult_IZR in Z0. clear - Z0 Wp Hp.
    assert (Wn : (IZR w <> 0)%R) by lra. assert (Hn : (IZR h <> 0)%R) by lra.
    apply (Rmult_eq_reg_l (IZR w * IZR w * (IZR h * IZR h))); [|repeat apply Rmult_integral_contrapositive_currified; assumption].
    replace (IZR w * IZR w * (IZR h * IZR h) * (u * u / (IZR w * IZR w) + v * v / (IZR h * IZR h)))%R
      with (IZR h * IZR h * (u * u) + IZR w * IZR w * (v * v))%R by (field; auto). lra. }
  assert (G : forall z r c, c = Z.abs z -> (Rabs (r - IZR c) <= 1 -> exists r', Rabs (r' - IZR z) <= 1 /\ r' * r' = r * r)%R).
  { intros z r c -> K. destruct (Z_le_gt_dec 0 z) as [P|P].
    - exists r. rewrite Z.abs_eq in K by lia. split; [exact K|reflexivity].
    - exists (- r)%R. rewrite Z.abs_neq, opp_IZR in K by lia. split; [|ring]. rewrite <- Rabs_Ropp. replace (- (- r - IZR z))%R with (r - - IZR z)%R by ring. exact K. }
  destruct (G dx u a eq_refl U) as (u' & U' & EU). destruct (G dy v b eq_refl V) as (v' & V' & EV).
  exists u', v'. rewrite EU, EV. auto.
Qed.
Print Assumptions c96_near.

(** Width 8, height 1: the outline stops at offset 7. *)
Theorem c96_flat_refuted : ~ c96_statement.
Proof.
  intros S. set (im := new_image 17 3 0).
  destruct (S Z (fun _ => 1) im (8, 1) 8 1) as (l & out & fuel & (_ & L & _) & E & R); try reflexivity; try (cbn; lia).
  { apply wf_gen; lia. }
  assert (K : exists p, get im 16 1 = Some p) by (exists 0; vm_compute; reflexivity). destruct K as (p & K).
  destruct R as (_ & _ & _ & R). destruct (R 16 1 p K) as (R1 & _).
  assert (O : on_outline (8, 1) 8 1 l 16 1).
  { unfold on_outline. cbn [fst snd]. change (Z.abs (16 - 8), Z.abs (1 - 1)) with (8, 0). rewrite <- L.
    destruct l as [|q l]; [left; reflexivity|]. right. apply exists_last_in. }
  specialize (R1 O).
  assert (V : match draw_hollow_ellipse 12 (fun _ => 1) im (8, 1) 8 1 with Ok o => get o 16 1 | _ => Some 1 end = Some 0) by (vm_compute; reflexivity).
  destruct (draw_hollow_ellipse 12 (fun _ => 1) im (8, 1) 8 1) as [o| |] eqn:D; [|discriminate|discriminate].
  assert (D' : draw_hollow_ellipse (Nat.max 12 (Z.to_nat fuel)) (fun _ => 1) im (8, 1) 8 1 = Ok o).
  { unfold draw_hollow_ellipse in *. change (8 =? 1) with false in *. cbv iota in *. apply (ellipse_fuel _ 8 1 12); [lia|exact D]. }
  rewrite E in D' by lia. injection D' as <-. rewrite R1 in V. cbv beta in V. clear - V. discriminate V.
Qed.
Print Assumptions c96_flat_refuted.

(** Radii from 46341 on panic, whatever the image and the centre. *)
Theorem c96_large_panics : forall A (dr : A -> A) (im : image A) c w h n, 46341 <= w < 2 ^ 31 -> w <> h ->
  draw_hollow_ellipse n dr im c w h = Panic /\ draw_filled_ellipse n dr im c w h = Panic.
Proof.
  intros A dr im [cx cy] w h n Hw N. unfold draw_hollow_ellipse, draw_filled_ellipse. replace (w =? h) with false by lia.
  unfold draw_ellipse. assert (P : chk_i 32 (w * w) = Panic). { unfold chk_i, i_fits. assert (46341 * 46341 <= w * w) by nia. destruct (_ && _) eqn:B; [lia|reflexivity]. }
  rewrite P. split; reflexivity.
Qed.
Print Assumptions c96_large_panics.

(** Height 0 (a horizontal segment) draws only the centre. *)
Theorem c96_zero_height : forall A (dr : A -> A) (im : image A) cx cy w n,
  wf im -> iw im < 2 ^ 31 -> ih im < 2 ^ 31 -> (forall a, dr (dr a) = dr a) -> Z.abs cx <= 2 ^ 30 -> Z.abs cy <= 2 ^ 30 ->
  1 <= w <= 250 -> (1 <= n)%nat ->
  exists out, draw_hollow_ellipse n dr im (cx, cy) w 0 = Ok out /\ recoloured (fun x y => x = cx /\ y = cy) dr im out.
Proof.
  intros A dr im cx cy w n W H1 H2 ID Cx Cy Hw Hn. pose proof (zero_height w n Hw Hn) as D.
  destruct (hollow_points dr im cx cy 0 0 [(0, 0)]) as (out & E & R); try assumption; try lia; [now unfold cdim| |].
  { intros q [<-|[]]. cbn. lia. }
  exists out. split.
  - unfold draw_hollow_ellipse. replace (w =? 0) with false by lia. rewrite D. exact E.
  - revert R. apply recoloured_ext. intros x y _ _. cbn [In]. split.
    + intros [[= K1 K2]|[]]. lia.
    + intros (-> & ->). left. f_equal; lia.
Qed.
Print Assumptions c96_zero_height.

(** radii 5 and 3 *)
Example c96_nontrivial :
  match draw_hollow_ellipse 20 (fun _ => 1) (new_image 11 7 0) (5, 3) 5 3 with Ok o => idata o | _ => [] end =
  [0;0;0;1;1;1;1;1;0;0;0;
   0;1;1;0;0;0;0;0;1;1;0;
   1;0;0;0;0;0;0;0;0;0;1;
   1;0;0;0;0;0;0;0;0;0;1;
   1;0;0;0;0;0;0;0;0;0;1;
   0;1;1;0;0;0;0;0;1;1;0;
   0;0;0;1;1;1;1;1;0;0;0].
Proof. vm_compute. reflexivity. Qed.

(** ** C97. The filled ellipse: the rows between the two sides of such an
    outline, so every pixel more than one pixel inside the ellipse and no pixel
    more than one pixel outside of it. *)
Definition c97_statement : Prop :=
  forall A (dr : A -> A) (im : image A) c w h,
  wf im -> iw im < 2 ^ 31 -> ih im < 2 ^ 31 -> (forall a, dr (dr a) = dr a) ->
  Z.abs (fst c) <= 2 ^ 21 -> Z.abs (snd c) <= 2 ^ 21 -> 1 <= w < 2 ^ 31 -> 1 <= h < 2 ^ 31 -> w <> h ->
  exists l out fuel, quarter w h w l /\
    (forall n, fuel <= Z.of_nat n -> draw_filled_ellipse n dr im c w h = Ok out) /\
    recoloured (in_outline c w h l) dr im out.

(** Missing: as for C96. *)
Theorem c97_filled_partial : forall A (dr : A -> A) (im : image A) c w h,
  wf im -> iw im < 2 ^ 31 -> ih im < 2 ^ 31 -> (forall a, dr (dr a) = dr a) ->
  Z.abs (fst c) <= 2 ^ 21 -> Z.abs (snd c) <= 2 ^ 21 -> 1 <= w <= 250 -> 1 <= h <= 250 -> w <> h ->
  exists e l out, quarter w h e l /\ (2 * w <= h * h -> e = w) /\
    (forall n, w + h + 2 <= Z.of_nat n -> draw_filled_ellipse n dr im c w h = Ok out) /\
    recoloured (in_outline c w h l) dr im out /\
    (forall x y, inside w h (grow (x - fst c)) (grow (y - snd c)) -> in_outline c w h l x y) /\
    (forall x y, in_outline c w h l x y -> inside w h (shrink (x - fst c)) (shrink (y - snd c))).
Proof.
  intros A dr im [cx cy] w h W H1 H2 ID Cx Cy Hw Hh N. cbn [fst snd] in *.
  destruct (ellipse_list w h Hw Hh (Z.to_nat (w + h + 2))) as (e & l & Q & F & D); [lia|].
  destruct (filled_points dr im cx cy w h ((0, h) :: l)) as (out & E & R); try assumption; try lia; [now unfold cdim| |].
  { intros q I. pose proof (quarter_in w h e l q Q I). tauto. }
  exists e, l, out. split; [exact Q|]. split; [auto|]. split.
  { intros n Hn. unfold draw_filled_ellipse. replace (w =? h) with false by lia.
    apply (ellipse_fuel _ w h (Z.to_nat (w + h + 2))); [lia|]. rewrite D. exact E. }
  split; [exact R|]. split; intros x y; apply (filled_bounds w h e l (cx, cy) x y Hw Hh Q).
Qed.
Print Assumptions c97_filled_partial.

Theorem c97_refuted : ~ c97_statement.
Proof.
  intros S. destruct (S Z (fun _ => 1) (new_image 1 1 0) (0, 0) 46341 1) as (l & out & fuel & _ & E & _); try reflexivity; try (cbn; lia).
  { apply wf_gen; lia. }
  specialize (E (Z.to_nat fuel) ltac:(lia)). destruct (c96_large_panics Z (fun _ => 1) (new_image 1 1 0) (0, 0) 46341 1 (Z.to_nat fuel)) as (_ & P); [lia|lia|].
  congruence.
Qed.
Print Assumptions c97_refuted.

Example c97_nontrivial :
  match draw_filled_ellipse 20 (fun _ => 1) (new_image 7 9 0) (3, 4) 2 4 with Ok o => idata o | _ => [] end =
  [0;0;0;1;0;0;0;
   0;0;1;1;1;0;0;
   0;1;1;1;1;1;0;
   0;1;1;1;1;1;0;
   0;1;1;1;1;1;0;
   0;1;1;1;1;1;0;
   0;1;1;1;1;1;0;
   0;0;1;1;1;0;0;
   0;0;0;1;0;0;0].
Proof. vm_compute. reflexivity. Qed.
