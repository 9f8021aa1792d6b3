(** Proofs about rectangles, crosses and circles. *)
From Verif Require Import Base BaseProofs Float FloatProofs LineModel LineSpec LineProofs ShapeModel ShapeSpec.
Local Ltac Zify.zify_post_hook ::= idtac.

(** ** Rectangles *)
Lemma right_ok r : rect_ok r -> r_right r = Ok (r_left r + r_width r - 1).
Proof.
  intros (H1 & H2 & H3 & H4 & H5 & H6). unfold r_right. rewrite wrap_id by lia.
  rewrite chk_i_ok by lia. cbn [bind]. apply chk_i_ok. lia.
Qed.
Lemma bottom_ok r : rect_ok r -> r_bottom r = Ok (r_top r + r_height r - 1).
Proof.
  intros (H1 & H2 & H3 & H4 & H5 & H6). unfold r_bottom. rewrite wrap_id by lia.
  rewrite chk_i_ok by lia. cbn [bind]. apply chk_i_ok. lia.
Qed.

Lemma contains_ok r x y : rect_ok r ->
  exists b, rect_contains r x y = Ok b /\ (b = true <-> in_rect r x y).
Proof.
  intros R. unfold rect_contains, in_rect. rewrite right_ok, bottom_ok by assumption. cbn [bind].
  destruct (Z.leb_spec (r_left r) x); [|eexists; split; [reflexivity|lia]].
  destruct (Z.leb_spec x (r_left r + r_width r - 1)); [|eexists; split; [reflexivity|lia]].
  destruct (Z.leb_spec (r_top r) y); [|eexists; split; [reflexivity|lia]].
  eexists; split; [reflexivity|lia].
Qed.

Lemma chk_u_ok n z : 0 <= z < 2 ^ n -> chk_u n z = Ok z.
Proof. intros H. unfold chk_u, u_fits. replace (0 <=? z) with true by lia. replace (z <? 2 ^ n) with true by lia. reflexivity. Qed.

Lemma intersect_ok a b : rect_ok a -> rect_ok b ->
  exists o, rect_intersect a b = Ok o /\
    match o with
    | None => forall x y, ~ (in_rect a x y /\ in_rect b x y)
    | Some i => rect_ok i /\ (forall x y, in_rect i x y <-> in_rect a x y /\ in_rect b x y)
    end.
Proof.
  intros Ra Rb. unfold rect_intersect.
  rewrite !right_ok, !bottom_ok by assumption. cbn [bind].
  destruct Ra as (A1 & A2 & A3 & A4 & A5 & A6), Rb as (B1 & B2 & B3 & B4 & B5 & B6).
  destruct (_ || _) eqn:E.
  - eexists; split; [reflexivity|]. intros x y. unfold in_rect. lia.
  - rewrite chk_i_ok by lia. cbn [bind]. rewrite chk_u_ok by lia. cbn [bind].
    rewrite chk_i_ok by lia. cbn [bind]. rewrite chk_u_ok by lia. cbn [bind].
    eexists; split; [reflexivity|]. unfold rect_ok, in_rect; cbn. split; [lia|intros; lia].
Qed.

(** rows of a loop that draws disjoint sets *)
Lemma for_range_draw {A} (dr : A -> A) (S : Z -> Z -> Z -> Prop) body lo hi im : cdim im -> lo <= hi ->
  (forall i j x y, i <> j -> S i x y -> ~ S j x y) ->
  (forall i m, lo <= i < hi -> cdim m -> iw m = iw im -> ih m = ih im ->
     exists m', body i m = Ok m' /\ recoloured (S i) dr m m') ->
  exists out, for_range lo hi body im = Ok out /\
    recoloured (fun x y => exists i, lo <= i < hi /\ S i x y) dr im out.
Proof.
  intros C Hlh D B.
  destruct (for_range_ind (fun i m => recoloured (fun x y => exists j, lo <= j < i /\ S j x y) dr im m)
              lo hi body im Hlh) as (out & E & R).
  - apply (recoloured_ext (fun _ _ => False)); [|apply recoloured_refl; apply C].
    intros x y _ _. split; [tauto|]. intros (j & Hj & _). lia.
  - intros i m Hi R. pose proof (recoloured_cdim _ _ _ _ R C) as Cm.
    assert (Dm : iw m = iw im /\ ih m = ih im) by (destruct R as (_ & ? & ? & _); auto).
    destruct (B i m Hi Cm) as (m' & Eb & Rb); try tauto.
    exists m'. split; [exact Eb|].
    apply (recoloured_ext (fun x y => (exists j, lo <= j < i /\ S j x y) \/ S i x y)).
    + intros x y _ _. split.
      * intros [(j & Hj & Hs)|Hs]; [exists j; split; [lia|exact Hs]|exists i; split; [lia|exact Hs]].
      * intros (j & Hj & Hs). destruct (Z.eq_dec j i) as [->|N]; [auto|left; exists j; split; [lia|exact Hs]].
    + apply recoloured_seq with m; auto; [apply C|].
      intros x y (j & Hj & Hs). apply (D j i); [lia|exact Hs].
  - exists out. auto.
Qed.

Lemma filled_rect_ok {A} (dr : A -> A) im r : cdim im -> 1 <= iw im -> 1 <= ih im -> rect_ok r ->
  exists out, draw_filled_rect dr im r = Ok out /\ recoloured (in_rect r) dr im out.
Proof.
  intros C Hw Hh R. pose proof C as (W & Bw & Bh).
  unfold draw_filled_rect, rect_at_of_size, assert.
  replace (0 <? iw im) with true by lia. replace (0 <? ih im) with true by lia. cbn [bind].
  destruct (intersect_ok (mkRect 0 0 (iw im) (ih im)) r) as (o & -> & I); auto.
  { unfold rect_ok; cbn. lia. }
  cbn [bind]. destruct o as [i|].
  - destruct I as (Ri & I).
    assert (Pi : 0 <= r_left i /\ r_left i + r_width i <= iw im /\ 0 <= r_top i /\ r_top i + r_height i <= ih im).
    { destruct Ri as (_ & _ & I3 & I4 & _).
      destruct (proj1 (I (r_left i) (r_top i))) as [P _]; [unfold in_rect; lia|].
      destruct (proj1 (I (r_left i + r_width i - 1) (r_top i + r_height i - 1))) as [Q _]; [unfold in_rect; lia|].
      unfold in_rect in P, Q; cbn in P, Q. lia. }
    destruct Ri as (_ & _ & I3 & I4 & _ & _).
    destruct (for_range_draw dr (fun dy x y => y = r_top i + dy /\ r_left i <= x < r_left i + r_width i)
       (fun dy im0 => for_range 0 (r_width i) (fun dx im1 =>
          x <- chk_u 32 (r_left i + dx) ;; y <- chk_u 32 (r_top i + dy) ;;
          draw_pixel dr im1 x y) im0) 0 (r_height i) im C) as (out & E & Ro); try lia.
    + intros dy m Hdy Cm Ew Eh.
      destruct (for_range_draw dr (fun dx x y => x = r_left i + dx /\ y = r_top i + dy)
        (fun dx im1 => x <- chk_u 32 (r_left i + dx) ;; y <- chk_u 32 (r_top i + dy) ;;
          draw_pixel dr im1 x y) 0 (r_width i) m Cm) as (m' & Em & Rm); try lia.
      * intros dx m1 Hdx Cm1 Ew1 Eh1.
        rewrite chk_u_ok by lia. cbn [bind]. rewrite chk_u_ok by lia. cbn [bind].
        destruct (draw_point dr m1 (r_left i + dx) (r_top i + dy) Cm1) as (m2 & E2 & _ & R2).
        exists m2. split; [|exact R2].
        unfold draw_if_in_bounds in E2. rewrite in_canvas_inb in E2 by exact Cm1.
        replace (inb m1 (r_left i + dx) (r_top i + dy)) with true in E2 by (unfold inb; lia).
        exact E2.
      * exists m'. split; [exact Em|]. revert Rm. apply recoloured_ext.
        intros x y Hx Hy. split.
        -- intros (dx & Hdx & -> & ->). lia.
        -- intros (-> & Hx'). exists (x - r_left i). lia.
    + exists out. split; [exact E|]. revert Ro. apply recoloured_ext.
      intros x y Hx Hy. split.
      * intros (dy & Hdy & -> & Hx'). apply I. unfold in_rect. lia.
      * intros Hin. destruct (proj2 (I x y)) as [P1 P2]; [split; [unfold in_rect; cbn; lia|exact Hin]|].
        exists (y - r_top i). lia.
  - exists im. split; [reflexivity|]. apply (recoloured_ext (fun _ _ => False)); [|now apply recoloured_refl].
    intros x y Hx Hy. split; [tauto|]. intros Hin. apply (I x y). split; [unfold in_rect; cbn; lia|exact Hin].
Qed.

(** ** Horizontal and vertical segments *)
Lemma off_flat dx j : 0 <= dx -> off dx 0 j = 0.
Proof.
  intros H. unfold off. replace (2 * j * 0 + dx - 1) with (dx - 1) by ring.
  destruct (Z.eq_dec dx 0) as [->|N]; [reflexivity|].
  apply Z.div_small. lia.
Qed.

Lemma line_list_flat l r y x' y' : l <= r ->
  In (x', y') (line_list l y r y) <-> y' = y /\ l <= x' <= r.
Proof.
  intros H. unfold line_list. rewrite in_map_iff. replace (Z.abs (y - y)) with 0 by lia. split.
  - intros (j & E & Hj). apply in_zrange in Hj. rewrite off_flat, Z.mul_0_r in E by lia. injection E as <- <-. lia.
  - intros (-> & Hx). exists (x' - l). rewrite off_flat, Z.mul_0_r, in_zrange by lia. split; [f_equal; lia|lia].
Qed.

Lemma hseg l r y : l <= r -> small (l, y) -> small (r, y) ->
  exists pts, bres_points (i2f l y) (i2f r y) = Ok pts /\
    forall x' y', In (x', y') pts <-> y' = y /\ l <= x' <= r.
Proof.
  intros H Sl Sr. change (i2f l y) with (fpt (l, y)). change (i2f r y) with (fpt (r, y)).
  rewrite bres_points_int by assumption. eexists; split; [reflexivity|].
  replace (steep (l, y) (r, y)) with false by (unfold steep; cbn [fst snd]; lia).
  unfold swap. rewrite map_id. unfold norm_pts. replace (r <? l) with false by lia.
  intros. now apply line_list_flat.
Qed.

Lemma vseg x t b : t <= b -> small (x, t) -> small (x, b) ->
  exists pts, bres_points (i2f x t) (i2f x b) = Ok pts /\
    forall x' y', In (x', y') pts <-> x' = x /\ t <= y' <= b.
Proof.
  intros H Sl Sr. destruct (Z.eq_dec t b) as [<-|N].
  - destruct (hseg x x t) as (pts & E & I); auto; try lia.
    exists pts. split; [exact E|]. intros. rewrite I. lia.
  - change (i2f x t) with (fpt (x, t)). change (i2f x b) with (fpt (x, b)).
    rewrite bres_points_int by assumption. eexists; split; [reflexivity|].
    replace (steep (x, t) (x, b)) with true by (unfold steep; cbn [fst snd]; lia).
    unfold norm_pts, swap; cbn [fst snd]. replace (b <? t) with false by lia.
    intros x' y'. rewrite in_map_iff. split.
    + intros ([u v] & [= <- <-] & Hin). apply line_list_flat in Hin; [|lia]. lia.
    + intros [-> Hy]. exists (y', x). split; [reflexivity|]. apply line_list_flat; lia.
Qed.

Lemma draw_seg {A} (dr : A -> A) im a b (S : Z -> Z -> Prop) : cdim im ->
  (exists pts, bres_points a b = Ok pts /\ forall x y, In (x, y) pts <-> S x y) ->
  exists out, draw_line_segment dr im a b = Ok out /\ cdim out /\ recoloured S dr im out.
Proof.
  intros C (pts & E & I). destruct (draw_line_ok dr im a b pts C E) as (out & D & R).
  exists out. splits; auto.
  - eapply recoloured_cdim; eauto.
  - revert R. apply recoloured_ext. intros; apply I.
Qed.

Definition rect_small (r : rect) : Prop :=
  - 2 ^ 22 <= r_left r /\ - 2 ^ 22 <= r_top r /\ 1 <= r_width r /\ 1 <= r_height r /\
  r_left r + r_width r <= 2 ^ 22 /\ r_top r + r_height r <= 2 ^ 22.

Lemma hollow_rect_ok {A} (dr : A -> A) im r : cdim im -> rect_small r -> (forall a, dr (dr a) = dr a) ->
  exists out, draw_hollow_rect dr im r = Ok out /\ recoloured (on_border r) dr im out.
Proof.
  intros C (H1 & H2 & H3 & H4 & H5 & H6) ID.
  assert (R : rect_ok r) by (unfold rect_ok; lia).
  unfold draw_hollow_rect. rewrite right_ok, bottom_ok by assumption. cbn [bind].
  set (l := r_left r) in *. set (t := r_top r) in *. set (w := r_width r) in *. set (h := r_height r) in *.
  assert (SM : forall x y, l <= x <= l + w - 1 -> t <= y <= t + h - 1 -> small (x, y))
    by (intros; unfold small; cbn [fst snd]; lia).
  destruct (draw_seg dr im _ _ _ C (hseg l (l + w - 1) t ltac:(lia) ltac:(apply SM; lia) ltac:(apply SM; lia)))
    as (m1 & -> & C1 & R1). cbn [bind].
  destruct (draw_seg dr m1 _ _ _ C1 (hseg l (l + w - 1) (t + h - 1) ltac:(lia) ltac:(apply SM; lia) ltac:(apply SM; lia)))
    as (m2 & -> & C2 & R2). cbn [bind].
  destruct (draw_seg dr m2 _ _ _ C2 (vseg l t (t + h - 1) ltac:(lia) ltac:(apply SM; lia) ltac:(apply SM; lia)))
    as (m3 & -> & C3 & R3). cbn [bind].
  destruct (draw_seg dr m3 _ _ _ C3 (vseg (l + w - 1) t (t + h - 1) ltac:(lia) ltac:(apply SM; lia) ltac:(apply SM; lia)))
    as (m4 & -> & C4 & R4).
  exists m4. split; [reflexivity|].
  assert (W : wf im) by apply C.
  pose proof (fun D1 D2 => recoloured_seq_idem _ _ dr im m1 m2 W ID D1 D2 R1 R2) as Q1.
  specialize (Q1 ltac:(intros; cbv beta; lia) ltac:(intros; cbv beta; lia)).
  pose proof (fun D1 D2 => recoloured_seq_idem _ _ dr im m2 m3 W ID D1 D2 Q1 R3) as Q2.
  specialize (Q2 ltac:(intros; cbv beta; lia) ltac:(intros; cbv beta; lia)).
  pose proof (fun D1 D2 => recoloured_seq_idem _ _ dr im m3 m4 W ID D1 D2 Q2 R4) as Q3.
  specialize (Q3 ltac:(intros; cbv beta; lia) ltac:(intros; cbv beta; lia)).
  revert Q3. apply recoloured_ext. intros x y _ _. unfold on_border, in_rect. fold l t w h. lia.
Qed.

(** ** Cross *)
Lemma cross_ok {A} (dr : A -> A) im x y : cdim im -> - 2 ^ 31 < x < 2 ^ 31 - 1 -> - 2 ^ 31 < y < 2 ^ 31 - 1 ->
  exists out, draw_cross dr im x y = Ok out /\
    recoloured (fun x' y' => Z.abs (x' - x) + Z.abs (y' - y) <= 1) dr im out.
Proof.
  intros C Hx Hy. unfold draw_cross.
  match goal with |- context [for_range _ _ ?body _] =>
    destruct (for_range_draw dr (fun sy x' y' => y' = y + sy /\ Z.abs (x' - x) + Z.abs (y' - y) <= 1)
       body (-1) 2 im C) as (out & E & Ro); [lia|intros; lia| |] end.
  - intros sy m Hsy Cm Ew Eh. rewrite chk_i_ok by lia. cbn [bind].
    pose proof C as ((W1 & W2 & _) & Bw & Bh).
    rewrite Eh, wrap_id by lia.
    destruct (_ || _) eqn:EB.
    + exists m. split; [reflexivity|].
      apply (recoloured_ext (fun _ _ => False)); [|apply recoloured_refl; apply Cm].
      intros; lia.
    + match goal with |- context [for_range _ _ ?body _] =>
        destruct (for_range_draw dr (fun sx x' y' => x' = x + sx /\ y' = y + sy /\ Z.abs (x' - x) + Z.abs (y' - y) <= 1)
          body (-1) 2 m Cm) as (m' & E & Rm); [lia|intros; lia| |] end.
      * intros sx m1 Hsx Cm1 Ew1 Eh1. rewrite chk_i_ok by lia. cbn [bind].
        rewrite Ew1, Ew, wrap_id by lia.
        destruct ((x + sx <? 0) || (iw im <=? x + sx)) eqn:EB2.
        -- exists m1. split; [reflexivity|].
           apply (recoloured_ext (fun _ _ => False)); [|apply recoloured_refl; apply Cm1].
           intros; lia.
        -- destruct (draw_point dr m1 (x + sx) (y + sy) Cm1) as (m2 & E2 & _ & R2).
           unfold draw_if_in_bounds in E2. rewrite in_canvas_inb in E2 by exact Cm1.
           replace (inb m1 (x + sx) (y + sy)) with true in E2 by (unfold inb; lia).
           assert (V : vget cross_stencil (3 * (sy + 1) + sx + 1) =
                       Ok (if Z.abs sx + Z.abs sy <=? 1 then 1 else 0)).
           { assert (sx = -1 \/ sx = 0 \/ sx = 1) as [-> | [-> | ->]] by lia;
             assert (sy = -1 \/ sy = 0 \/ sy = 1) as [-> | [-> | ->]] by lia; reflexivity. }
           rewrite V. cbn [bind].
           destruct (Z.leb_spec (Z.abs sx + Z.abs sy) 1); cbn [Z.eqb].
           ++ exists m2. split; [exact E2|]. revert R2. apply recoloured_ext. intros; lia.
           ++ exists m1. split; [reflexivity|].
              apply (recoloured_ext (fun _ _ => False)); [|apply recoloured_refl; apply Cm1].
              intros; lia.
      * exists m'. split; [exact E|]. revert Rm. apply recoloured_ext. intros x' y' _ _. split.
        -- intros (sx & Hs & H). lia.
        -- intros H. exists (x' - x). lia.
  - exists out. split; [exact E|]. revert Ro. apply recoloured_ext. intros x' y' _ _. split.
    + intros (sy & Hs & H). lia.
    + intros H. exists (y' - y). lia.
Qed.

(** ** Circles *)
Definition octant_pt (r x y : Z) : Prop := 0 <= x <= y /\ on_circle r x y.

Lemma circle_loop_list r : 0 < r <= 2 ^ 28 -> forall n x y p,
  0 <= x <= r + 1 -> -1 <= y <= r -> p = (x + 1) * (x + 1) + y * y - y - r * r ->
  r * r - x * x <= y * y + y -> (x <= y -> y * y - y < r * r - x * x) ->
  r + 2 <= x + Z.of_nat n ->
  exists l, (forall S (draw : Z -> Z -> S -> res S) s,
      circle_loop n draw x y p s = for_each l (fun q s => draw (fst q) (snd q) s) s) /\
    (forall x' y', In (x', y') l <-> x <= x' <= y' /\ on_circle r x' y').
Proof.
  intros Hr. induction n as [|n IH]; intros x y p Hx Hy Hp Hup Hlo Hn; [lia|].
  destruct (Z_le_gt_dec x y) as [L|G].
  - specialize (Hlo L).
    assert (PB : 2 * x + 1 - 2 * y <= p < 2 * x + 1) by lia.
    assert (OC : on_circle r x y).
    { unfold on_circle. rewrite !Z.abs_eq by lia. rewrite Z.min_l, Z.max_r by lia. left. lia. }
    (* y is the only partner of x *)
    assert (UN : forall y', x <= y' -> on_circle r x y' -> y' = y).
    { intros y' H' O. unfold on_circle in O. rewrite !Z.abs_eq in O by lia.
      rewrite Z.min_l, Z.max_r in O by lia. destruct O as [[_ O]|[O _]]; [|lia].
      destruct (Z.lt_trichotomy y' y) as [K|[K|K]]; [|exact K|]; exfalso; nia. }
    assert (ST : forall l, (forall x' y', In (x', y') l <-> x + 1 <= x' <= y' /\ on_circle r x' y') ->
       forall x' y', In (x', y') ((x, y) :: l) <-> x <= x' <= y' /\ on_circle r x' y').
    { intros l I x' y'. cbn [In]. rewrite I. split.
      - intros [[= <- <-]|H]; [split; [lia|exact OC]|split; [lia|tauto]].
      - intros [H O]. destruct (Z.eq_dec x x') as [<-|N].
        + left. f_equal. symmetry. apply UN; [lia|exact O].
        + right. split; [lia|exact O]. }
    cbn [circle_loop]. replace (x <=? y) with true by lia.
    destruct (Z.ltb_spec p 0) as [P|P].
    + destruct (IH (x + 1) y (p + (2 * (x + 1) + 1))) as (l & E & I); try lia.
      exists ((x, y) :: l). split; [|now apply ST].
      intros S draw s. cbn [for_each fst snd]. destruct (draw x y s); cbn [bind]; try reflexivity.
      rewrite chk_i_ok by lia. cbn [bind]. rewrite chk_i_ok by lia. cbn [bind].
      rewrite chk_i_ok by lia. cbn [bind]. rewrite chk_i_ok by lia. cbn [bind]. apply E.
    + destruct (IH (x + 1) (y - 1) (p + (2 * (x + 1 - (y - 1)) + 1))) as (l & E & I); try lia.
      exists ((x, y) :: l). split; [|now apply ST].
      intros S draw s. cbn [for_each fst snd]. destruct (draw x y s); cbn [bind]; try reflexivity.
      do 5 (rewrite chk_i_ok by lia; cbn [bind]). rewrite chk_i_ok by lia; cbn [bind]. apply E.
  - exists []. split.
    + intros. cbn [circle_loop]. replace (x <=? y) with false by lia. reflexivity.
    + intros x' y'. split; [intros []|]. intros [H O]. exfalso.
      unfold on_circle in O. rewrite !Z.abs_eq in O by lia. rewrite Z.min_l, Z.max_r in O by lia.
      destruct O as [[_ O]|[O _]]; [|lia].
      assert (A1 : y * y + y <= x * x - x).
      { destruct (Z.eq_dec y (x - 1)) as [->|]; [lia|]. nia. }
      assert (A2 : x * x - x <= y' * y' - y').
      { destruct (Z.eq_dec x y') as [->|]; [lia|]. nia. }
      assert (A3 : x * x <= x' * x') by nia. lia.
Qed.

Lemma circle_list r : 0 <= r <= 2 ^ 28 ->
  exists l, (forall S (draw : Z -> Z -> S -> res S) s,
      circle draw r s = for_each l (fun q s => draw (fst q) (snd q) s) s) /\
    (forall x y, In (x, y) l <-> octant_pt r x y).
Proof.
  intros Hr. destruct (Z.eq_dec r 0) as [->|N].
  - exists [(0, 0)]. split.
    + intros. unfold circle. rewrite chk_i_ok by lia. cbn [bind].
      change (Z.to_nat (Z.max 0 0 + 2)) with 2%nat. cbn [circle_loop for_each fst snd].
      replace (0 <=? 0) with true by lia.
      destruct (draw 0 0 s); reflexivity.
    + intros x y. unfold octant_pt, on_circle. cbn [In]. split.
      * intros [[= <- <-]|[]]. split; [lia|]. right. lia.
      * intros (H & O). left. destruct O as [O|O]; [lia|]. f_equal; lia.
  - destruct (circle_loop_list r ltac:(lia) (Z.to_nat (Z.max 0 r + 2)) 0 r (1 - r)) as (l & E & I); try lia.
    exists l. split.
    + intros. unfold circle. rewrite chk_i_ok by lia. cbn [bind]. apply E.
    + intros. rewrite I. unfold octant_pt. tauto.
Qed.

Lemma circle_neg {S} (draw : Z -> Z -> S -> res S) r s : - 2 ^ 31 + 1 < r < 0 -> circle draw r s = Ok s.
Proof.
  intros H. unfold circle. rewrite chk_i_ok by lia. cbn [bind].
  replace (Z.to_nat (Z.max 0 r + 2)) with 2%nat by lia. cbn [circle_loop].
  replace (0 <=? r) with false by lia. reflexivity.
Qed.

(** drawing every point of a list of sets, idempotent effects *)
Lemma for_each_draw {A X} (dr : A -> A) (S : X -> Z -> Z -> Prop) body (l : list X) im :
  cdim im -> (forall a, dr (dr a) = dr a) ->
  (forall q x y, S q x y \/ ~ S q x y) ->
  (forall q m, In q l -> cdim m -> exists m', body q m = Ok m' /\ recoloured (S q) dr m m') ->
  exists out, for_each l body im = Ok out /\
    recoloured (fun x y => exists q, In q l /\ S q x y) dr im out.
Proof.
  intros C ID D. revert im C. induction l as [|q l IH]; intros im C B.
  - exists im. split; [reflexivity|].
    apply (recoloured_ext (fun _ _ => False)); [|apply recoloured_refl; apply C].
    intros x y _ _. split; [tauto|]. intros (q & [] & _).
  - cbn [for_each]. destruct (B q im (or_introl eq_refl) C) as (m & -> & R). cbn [bind].
    destruct (IH m) as (out & -> & Ro).
    { eapply recoloured_cdim; eauto. }
    { intros; apply B; auto. now right. }
    exists out. split; [reflexivity|].
    apply (recoloured_ext (fun x y => S q x y \/ exists q', In q' l /\ S q' x y)).
    + intros x y _ _. split.
      * intros [H|(q' & H & H')]; [exists q|exists q']; cbn; auto.
      * intros (q' & [<-|H] & H'); [auto|right; eauto].
    + apply recoloured_seq_idem with m; auto; [apply C|].
      intros x y. clear - D. induction l as [|q' l IH].
      * right. intros (q' & [] & _).
      * destruct (D q' x y) as [H|H]; [left; exists q'; cbn; auto|].
        destruct IH as [(q2 & H1 & H2)|H'].
        -- left. exists q2. cbn; auto.
        -- right. intros (q2 & [<-|H1] & H2); [auto|]. apply H'. eauto.
Qed.

Lemma hollow_circle_ok {A} (dr : A -> A) im cx cy r : cdim im -> (forall a, dr (dr a) = dr a) ->
  0 <= r <= 2 ^ 28 -> Z.abs cx <= 2 ^ 30 -> Z.abs cy <= 2 ^ 30 ->
  exists out, draw_hollow_circle dr im (cx, cy) r = Ok out /\
    recoloured (fun x y => on_circle r (x - cx) (y - cy)) dr im out.
Proof.
  intros C ID Hr Hx Hy. unfold draw_hollow_circle.
  destruct (circle_list r Hr) as (l & E & I). rewrite E.
  assert (B : forall q, In q l -> 0 <= fst q <= snd q /\ snd q <= r + 1).
  { intros [x y] Hq. apply I in Hq. destruct Hq as (H & O). cbn [fst snd]. split; [lia|].
    unfold on_circle in O. rewrite !Z.abs_eq in O by lia. rewrite Z.min_l, Z.max_r in O by lia.
    destruct O as [[_ O]|O]; [|lia]. nia. }
  match goal with |- context [for_each l ?body im] =>
    destruct (for_each_draw dr (fun q x y =>
       Z.abs (x - cx) = fst q /\ Z.abs (y - cy) = snd q \/ Z.abs (x - cx) = snd q /\ Z.abs (y - cy) = fst q)
       body l im C ID) as (out & Eo & Ro) end.
  - intros q x y. lia.
  - intros [x y] m Hq Cm. specialize (B _ Hq). clear E I Hq. cbn [fst snd] in *.
    destruct (draw_points_idem dr m
      [(cx + x, cy + y); (cx + y, cy + x); (cx + - y, cy + x); (cx + - x, cy + y);
       (cx + - x, cy + - y); (cx + - y, cy + - x); (cx + y, cy + - x); (cx + x, cy + - y)] Cm ID)
      as (m' & E & R).
    exists m'. split.
    + rewrite <- E. cbn [for_each fst snd].
      repeat rewrite chk_i_ok by lia. cbn [bind].
      do 7 (match goal with
            | |- bind (draw_if_in_bounds dr ?m0 ?a ?b) _ = _ =>
                destruct (draw_if_in_bounds dr m0 a b); cbn [bind]; [|reflexivity|reflexivity]
            end).
      destruct (draw_if_in_bounds _ _ _ _); reflexivity.
    + revert R. apply recoloured_ext. intros x' y' _ _. cbn [In]. clear - B. split.
      * intros H. repeat destruct H as [H|H]; try contradiction; injection H as <- <-; lia.
      * intros [[P Q]|[P Q]].
        -- assert (X : x' = cx + x \/ x' = cx + - x) by lia.
           assert (Y : y' = cy + y \/ y' = cy + - y) by lia.
           destruct X as [-> | ->], Y as [-> | ->]; auto 12.
        -- assert (X : x' = cx + y \/ x' = cx + - y) by lia.
           assert (Y : y' = cy + x \/ y' = cy + - x) by lia.
           destruct X as [-> | ->], Y as [-> | ->]; auto 12.
  - exists out. split; [exact Eo|]. revert Ro. apply recoloured_ext. intros x y _ _. split.
    + intros ([a b] & Hq & H). apply I in Hq. destruct Hq as (Hab & O). cbn [fst snd] in H.
      unfold on_circle in *. rewrite !Z.abs_eq in O by lia.
      destruct H as [[-> ->]|[-> ->]]; [|rewrite Z.min_comm, Z.max_comm]; exact O.
    + intros O. exists (Z.min (Z.abs (x - cx)) (Z.abs (y - cy)), Z.max (Z.abs (x - cx)) (Z.abs (y - cy))).
      cbn [fst snd]. split; [|lia]. apply I. unfold octant_pt. split; [lia|].
      unfold on_circle in *. cbv zeta in O.
      assert (0 <= Z.min (Z.abs (x - cx)) (Z.abs (y - cy)) <= Z.max (Z.abs (x - cx)) (Z.abs (y - cy))) by lia.
      generalize dependent (Z.min (Z.abs (x - cx)) (Z.abs (y - cy))).
      generalize dependent (Z.max (Z.abs (x - cx)) (Z.abs (y - cy))).
      intros b a O Hab. rewrite (Z.abs_eq a), (Z.abs_eq b), Z.min_l, Z.max_r by lia. exact O.
Qed.

Lemma filled_circle_ok {A} (dr : A -> A) im cx cy r : cdim im -> (forall a, dr (dr a) = dr a) ->
  0 <= r -> Z.abs cx + r < 2 ^ 22 -> Z.abs cy + r < 2 ^ 22 ->
  exists out, draw_filled_circle dr im (cx, cy) r = Ok out /\
    recoloured (fun x y => in_disc r (x - cx) (y - cy)) dr im out.
Proof.
  intros C ID Hr Hx Hy. unfold draw_filled_circle.
  destruct (circle_list r ltac:(lia)) as (l & E & I). rewrite E.
  assert (B : forall q, In q l -> 0 <= fst q <= snd q /\ snd q <= r + 1).
  { intros [x y] Hq. apply I in Hq. destruct Hq as (H & O). cbn [fst snd]. split; [lia|].
    unfold on_circle in O. rewrite !Z.abs_eq in O by lia. rewrite Z.min_l, Z.max_r in O by lia.
    destruct O as [[_ O]|O]; [|lia]. nia. }
  match goal with |- context [for_each l ?body im] =>
    destruct (for_each_draw dr (fun q x y =>
       Z.abs (x - cx) <= fst q /\ Z.abs (y - cy) = snd q \/ Z.abs (x - cx) <= snd q /\ Z.abs (y - cy) = fst q)
       body l im C ID) as (out & Eo & Ro) end.
  - intros q x y. lia.
  - intros [x y] m Hq Cm. specialize (B _ Hq). clear E I Hq. cbn [fst snd] in *.
    destruct (for_each_draw dr (fun q x' y' => y' = cy + snd q /\ cx - fst q <= x' <= cx + fst q)
      (fun q im => l <- chk_i 32 (cx - fst q) ;; y <- chk_i 32 (cy + snd q) ;; r <- chk_i 32 (cx + fst q) ;;
          draw_line_segment dr im (i2f l y) (i2f r y))
      [(x, y); (y, x); (x, - y); (y, - x)] m Cm ID) as (m' & E & R).
    + intros q x' y'. lia.
    + intros [hx sy] m1 Hq Cm1. cbn [fst snd].
      assert (0 <= hx <= r + 1 /\ Z.abs sy <= r + 1)
        by (cbn [In] in Hq; repeat destruct Hq as [Hq|Hq]; try contradiction; injection Hq as <- <-; lia).
      do 3 (rewrite chk_i_ok by lia; cbn [bind]).
      destruct (draw_seg dr m1 _ _ _ Cm1
        (hseg (cx - hx) (cx + hx) (cy + sy) ltac:(lia) ltac:(unfold small; cbn [fst snd]; lia) ltac:(unfold small; cbn [fst snd]; lia)))
        as (m2 & E2 & _ & R2).
      exists m2. split; [exact E2|]. exact R2.
    + exists m'. split.
      * rewrite <- E. cbn [for_each fst snd].
        repeat rewrite chk_i_ok by lia. cbn [bind].
        do 3 (match goal with
            | |- bind (draw_line_segment dr ?m0 ?a ?b) _ = _ =>
                destruct (draw_line_segment dr m0 a b); cbn [bind]; [|reflexivity|reflexivity]
            end).
        destruct (draw_line_segment _ _ _ _); reflexivity.
      * revert R. apply recoloured_ext. intros x' y' _ _. clear - B. split.
        -- intros (q & Hq & H). cbn [In] in Hq.
           repeat destruct Hq as [Hq|Hq]; try contradiction; subst q; cbn [fst snd] in H; lia.
        -- intros [[P Q]|[P Q]].
           ++ assert (Y : y' = cy + y \/ y' = cy + - y) by lia.
              destruct Y as [-> | ->]; [exists (x, y)|exists (x, - y)]; cbn [In fst snd]; split; auto; lia.
           ++ assert (Y : y' = cy + x \/ y' = cy + - x) by lia.
              destruct Y as [-> | ->]; [exists (y, x)|exists (y, - x)]; cbn [In fst snd]; split; auto; lia.
  - exists out. split; [exact Eo|]. revert Ro. apply recoloured_ext. intros x y _ _. split.
    + intros ([a b] & Hq & H). apply I in Hq. destruct Hq as (Hab & O). cbn [fst snd] in H.
      destruct H as [[H1 H2]|[H1 H2]].
      * exists a. split; [lia|]. split; [|lia]. unfold on_circle in *. rewrite H2.
        rewrite (Z.abs_eq a), (Z.abs_eq b) in O by lia. rewrite ?(Z.abs_eq a), ?(Z.abs_eq b) by lia. exact O.
      * exists b. split; [lia|]. split; [|lia]. unfold on_circle in *. rewrite H2.
        rewrite (Z.abs_eq a), (Z.abs_eq b) in O by lia. rewrite ?(Z.abs_eq a), ?(Z.abs_eq b) by lia. rewrite Z.min_comm, Z.max_comm. exact O.
    + intros (hx & H0 & O & H).
      exists (Z.min hx (Z.abs (y - cy)), Z.max hx (Z.abs (y - cy))).
      cbn [fst snd]. split; [|lia]. apply I. unfold octant_pt. split; [lia|].
      unfold on_circle in *. rewrite (Z.abs_eq hx) in O by lia. cbv zeta in O.
      assert (0 <= Z.min hx (Z.abs (y - cy)) <= Z.max hx (Z.abs (y - cy))) by lia.
      generalize dependent (Z.min hx (Z.abs (y - cy))).
      generalize dependent (Z.max hx (Z.abs (y - cy))).
      intros b a O Hab. rewrite (Z.abs_eq a), (Z.abs_eq b), Z.min_l, Z.max_r by lia. exact O.
Qed.

(** Geometry of the midpoint circle *)
Lemma on_circle_dist r dx dy : 0 < r -> on_circle r dx dy -> r * r - r < dx * dx + dy * dy < r * r + r.
Proof.
  intros Hr. unfold on_circle. cbv zeta.
  replace (dx * dx + dy * dy) with
    (Z.min (Z.abs dx) (Z.abs dy) * Z.min (Z.abs dx) (Z.abs dy) +
     Z.max (Z.abs dx) (Z.abs dy) * Z.max (Z.abs dx) (Z.abs dy)).
  - assert (0 <= Z.min (Z.abs dx) (Z.abs dy) <= Z.max (Z.abs dx) (Z.abs dy)) by lia.
    generalize dependent (Z.min (Z.abs dx) (Z.abs dy)). generalize dependent (Z.max (Z.abs dx) (Z.abs dy)).
    intros b a Hab [(_ & H1 & H2)|[H _]]; [|lia].
    assert (b <= r) by nia.
    assert (b < r \/ b = r) as [L|L] by lia; [lia|subst b; nia].
  - destruct (Z.min_spec (Z.abs dx) (Z.abs dy)) as [[H ->]|[H ->]];
      [rewrite Z.max_r by lia|rewrite Z.max_l by lia]; rewrite <- !Z.abs_mul, !Z.abs_eq by nia; lia.
Qed.

Lemma on_circle_sorted r a b : 0 < r -> 0 <= a <= b -> b * b - b < r * r - a * a <= b * b + b ->
  on_circle r a b /\ on_circle r b a.
Proof.
  intros Hr Hab H. unfold on_circle. cbv zeta.
  rewrite (Z.abs_eq a), (Z.abs_eq b) by lia.
  rewrite (Z.min_l a b), (Z.max_r a b), (Z.min_r b a), (Z.max_l b a) by lia. auto.
Qed.

Lemma on_circle_sym r dx dy : on_circle r dx dy ->
  on_circle r dy dx /\ on_circle r (- dx) dy /\ on_circle r dx (- dy).
Proof.
  unfold on_circle. cbv zeta. rewrite !Z.abs_opp, (Z.min_comm (Z.abs dy)), (Z.max_comm (Z.abs dy)). auto.
Qed.

Lemma circle_column r a : 0 < r -> 0 <= a -> 2 * (a * a) <= r * r ->
  exists b, a <= b /\ on_circle r a b /\ on_circle r b a /\
    (forall u, 0 <= u -> u * u + a * a <= r * r - r -> u <= b).
Proof.
  intros Hr Ha H. set (D := r * r - a * a).
  assert (HD : a * a <= D) by (unfold D; lia).
  assert (HD0 : 0 < D) by (unfold D; nia).
  pose proof (Z.sqrt_spec D ltac:(lia)) as S. cbv zeta in S.
  pose proof (Z.sqrt_nonneg D). set (s := Z.sqrt D) in *.
  unfold Z.succ in S.
  assert (a <= s) by nia. assert (0 < s) by nia.
  destruct (Z_le_gt_dec D (s * s + s)).
  - exists s. splits; try lia.
    + apply (proj1 (on_circle_sorted r a s Hr ltac:(lia) ltac:(fold D; lia))).
    + apply (proj2 (on_circle_sorted r a s Hr ltac:(lia) ltac:(fold D; lia))).
    + intros u Hu HH. assert (u * u <= D) by (unfold D; lia). nia.
  - exists (s + 1). splits; try lia.
    + apply (proj1 (on_circle_sorted r a (s + 1) Hr ltac:(lia) ltac:(fold D; lia))).
    + apply (proj2 (on_circle_sorted r a (s + 1) Hr ltac:(lia) ltac:(fold D; lia))).
    + intros u Hu HH. assert (u * u <= D) by (unfold D; lia). nia.
Qed.

Lemma circle_row r v u : 0 < r -> 0 <= v -> 0 <= u -> r * r < 2 * (v * v) -> u * u + v * v <= r * r - r ->
  exists a, u <= a /\ on_circle r a v.
Proof.
  intros Hr Hv Hu H HU. set (D := r * r - v * v + v - 1).
  assert (u * u <= D) by (unfold D; lia).
  pose proof (Z.sqrt_spec D ltac:(nia)) as S. cbv zeta in S.
  pose proof (Z.sqrt_nonneg D). set (s := Z.sqrt D) in *.
  unfold Z.succ in S. exists s. split; [nia|].
  assert (s <= v).
  { destruct (Z_le_gt_dec s v); [lia|]. assert ((v + 1) * (v + 1) <= s * s) by nia. unfold D in S. nia. }
  apply (proj1 (on_circle_sorted r s v Hr ltac:(lia) ltac:(unfold D in S; nia))).
Qed.

Lemma in_disc_inner r dx dy : 0 < r -> dx * dx + dy * dy <= r * r - r -> in_disc r dx dy.
Proof.
  intros Hr H. unfold in_disc.
  assert (A : exists hx, 0 <= hx /\ on_circle r hx (Z.abs dy) /\ Z.abs dx <= hx).
  { assert (Hx : Z.abs dx * Z.abs dx = dx * dx) by (rewrite <- Z.abs_mul, Z.abs_eq by nia; lia).
    assert (Hy : Z.abs dy * Z.abs dy = dy * dy) by (rewrite <- Z.abs_mul, Z.abs_eq by nia; lia).
    destruct (Z_le_gt_dec (2 * (Z.abs dy * Z.abs dy)) (r * r)) as [L|G].
    - destruct (circle_column r (Z.abs dy)) as (b & B1 & _ & B2 & B3); try lia.
      exists b. splits; auto; try lia. apply B3; lia.
    - destruct (circle_row r (Z.abs dy) (Z.abs dx)) as (a & A1 & A2); try lia.
      exists a. splits; auto; lia. }
  destruct A as (hx & H0 & H1 & H2). exists hx. splits; auto.
  destruct (Z.abs_spec dy) as [[_ E]|[_ E]]; rewrite E in H1; [exact H1|].
  apply on_circle_sym in H1. destruct H1 as (_ & _ & H1). rewrite Z.opp_involutive in H1. exact H1.
Qed.

Lemma in_disc_outer r dx dy : 0 < r -> in_disc r dx dy -> dx * dx + dy * dy < r * r + r.
Proof.
  intros Hr (hx & H0 & H1 & H2). apply on_circle_dist in H1; [|exact Hr].
  assert (dx * dx <= hx * hx) by nia. lia.
Qed.

(** Region<f32>::contains *)
Lemma contains_f32_ok r x y : rect_ok r -> Z.abs (r_left r) <= 2 ^ 23 -> Z.abs (r_top r) <= 2 ^ 23 ->
  r_width r <= 2 ^ 23 -> r_height r <= 2 ^ 23 -> Z.abs x <= 2 ^ 24 -> Z.abs y <= 2 ^ 24 ->
  exists b, rect_contains_f32 r (of_int x) (of_int y) = Ok b /\ (b = true <-> in_rect r x y).
Proof.
  intros R H1 H2 H3 H4 H5 H6. unfold rect_contains_f32.
  rewrite right_ok, bottom_ok by assumption. cbn [bind].
  assert (D : forall u, Z.abs u <= 2 ^ 24 -> dy 0 u (of_int u : f32))
    by (intros; apply dy_int; [apply dyk_0|lia]).
  assert (1 <= r_width r /\ 1 <= r_height r) by (unfold rect_ok in R; lia).
  rewrite (dy_le _ _ 0 _ _ _ _ (D (r_left r) ltac:(lia)) (D x ltac:(lia))).
  rewrite (dy_le _ _ 0 _ _ _ _ (D x ltac:(lia)) (D (r_left r + r_width r - 1) ltac:(lia))).
  rewrite (dy_le _ _ 0 _ _ _ _ (D (r_top r) ltac:(lia)) (D y ltac:(lia))).
  rewrite (dy_le _ _ 0 _ _ _ _ (D y ltac:(lia)) (D (r_top r + r_height r - 1) ltac:(lia))).
  unfold in_rect.
  destruct (r_left r <=? x) eqn:E1; [|eexists; split; [reflexivity|lia]].
  destruct (x <=? r_left r + r_width r - 1) eqn:E2; [|eexists; split; [reflexivity|lia]].
  destruct (r_top r <=? y) eqn:E3; [|eexists; split; [reflexivity|lia]].
  eexists; split; [reflexivity|lia].
Qed.
