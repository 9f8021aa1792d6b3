(** Proofs about drawing Bezier curves. *)
From Flocq Require Import Core BinarySingleNaN.
From Coq Require Import Reals Lra Psatz.
From Verif Require Import Base BaseProofs Float FloatProofs FloatErr LineModel LineSpec LineProofs BezierModel BezierSpec WarpProofs2 HullProofs.
Local Ltac Zify.zify_post_hook ::= idtac.
Local Open Scope R_scope.
Local Notation rn := (rnd 24 128).

(** ** the curve and its chords, over the reals *)
Lemma bez_chord p0 p1 p2 p3 a h l :
  bez p0 p1 p2 p3 (a + l * h) - ((1 - l) * bez p0 p1 p2 p3 a + l * bez p0 p1 p2 p3 (a + h)) =
  - (l * (1 - l) * (h * h)) * (3 * ((p0 - 2 * p1 + p2) * (1 - (a + (1 + l) * h / 3)) + (p1 - 2 * p2 + p3) * (a + (1 + l) * h / 3))).
Proof. unfold bez. field. Qed.

Lemma bez_chord_le p0 p1 p2 p3 a h l L : 0 <= a -> 0 <= h -> a + h <= 1 -> 0 <= l <= 1 ->
  Rabs (p1 - p0) + Rabs (p2 - p1) + Rabs (p3 - p2) <= L ->
  Rabs (bez p0 p1 p2 p3 (a + l * h) - ((1 - l) * bez p0 p1 p2 p3 a + l * bez p0 p1 p2 p3 (a + h))) <= 3 / 4 * L * (h * h).
Proof.
  intros Ha Hh Hs Hl HL. rewrite bez_chord. set (s := a + (1 + l) * h / 3).
  assert (S : 0 <= s <= 1) by (unfold s; nra).
  assert (A : Rabs (p0 - 2 * p1 + p2) <= L /\ Rabs (p1 - 2 * p2 + p3) <= L).
  { revert HL. unfold Rabs. repeat destruct Rcase_abs; lra. }
  assert (B : Rabs ((p0 - 2 * p1 + p2) * (1 - s) + (p1 - 2 * p2 + p3) * s) <= L).
  { destruct A as (A1 & A2). apply Rabs_le_inv in A1, A2. apply Rabs_le. nra. }
  rewrite Rabs_mult, Rabs_Ropp, (Rabs_mult 3), (Rabs_pos_eq 3) by lra.
  assert (C : 0 <= l * (1 - l) <= / 4).
  { clear - Hl. assert (0 <= (l - / 2) * (l - / 2)) by apply Rle_0_sqr. split; [apply Rmult_le_pos; lra|]. lra. }
  assert (D : 0 <= h * h) by (apply Rmult_le_pos; assumption).
  rewrite (Rabs_pos_eq (l * (1 - l) * (h * h))) by (apply Rmult_le_pos; lra).
  replace (3 / 4 * L * (h * h)) with (/ 4 * (h * h) * (3 * L)) by field.
  pose proof (Rabs_pos ((p0 - 2 * p1 + p2) * (1 - s) + (p1 - 2 * p2 + p3) * s)).
  apply Rmult_le_compat; [apply Rmult_le_pos; lra|lra| |lra]. apply Rmult_le_compat_r; lra.
Qed.

(** ** points of a discrete line *)
Local Open Scope Z_scope.
Lemma chain_iff {X} (R : X -> X -> Prop) l :
  chain R l <-> forall k a b, znth l k = Some a -> znth l (k + 1) = Some b -> R a b.
Proof.
  induction l as [|u l IH].
  - split; [|exact (fun _ => I)]. intros _ k a b Ha. apply znth_range in Ha. change (zlen (@nil X)) with 0 in Ha. lia.
  - destruct l as [|v l].
    + split; [|exact (fun _ => I)]. intros _ k a b Ha Hb. apply znth_range in Ha, Hb. rewrite zlen_cons in Ha, Hb. change (zlen (@nil X)) with 0 in Ha, Hb. lia.
    + change (chain R (u :: v :: l)) with (R u v /\ chain R (v :: l)). rewrite IH. split.
      * intros (C1 & C2) k a b Ha Hb. pose proof (znth_range _ _ _ Ha) as K. destruct (Z.eq_dec k 0) as [->|N].
        -- rewrite znth_cons_0 in Ha. rewrite znth_cons_S in Hb by lia. change (0 + 1 - 1) with 0 in Hb. rewrite znth_cons_0 in Hb.
           injection Ha as <-. injection Hb as <-. exact C1.
        -- rewrite znth_cons_S in Ha, Hb by lia. apply (C2 (k - 1)); [exact Ha|]. replace (k - 1 + 1) with (k + 1 - 1) by lia. exact Hb.
      * intros H. split.
        -- apply (H 0); [apply znth_cons_0|]. rewrite znth_cons_S by lia. apply znth_cons_0.
        -- intros k a b Ha Hb. pose proof (znth_range _ _ _ Ha) as K. apply (H (k + 1)).
           ++ rewrite znth_cons_S by lia. replace (k + 1 - 1) with k by lia. exact Ha.
           ++ rewrite znth_cons_S by lia. replace (k + 1 + 1 - 1) with (k + 1) by lia. exact Hb.
Qed.

Lemma chain_dist l : chain king_move l -> forall d i p q, 0 <= d -> znth l i = Some p -> znth l (i + d) = Some q ->
  Z.abs (fst q - fst p) <= d /\ Z.abs (snd q - snd p) <= d.
Proof.
  intros C d i p q Hd. revert q. pattern d. apply natlike_ind; [| |exact Hd].
  - intros q Hp Hq. rewrite Z.add_0_r, Hp in Hq. injection Hq as <-. lia.
  - clear d Hd. intros d Hd IH q Hp Hq. pose proof (znth_range _ _ _ Hp). pose proof (znth_range _ _ _ Hq).
    destruct (znth_some l (i + d)) as (r & Hr); [lia|]. destruct (IH r Hp Hr) as (I1 & I2).
    replace (i + Z.succ d) with (i + d + 1) in Hq by lia. pose proof (proj1 (chain_iff _ _) C _ _ _ Hr Hq) as K. unfold king_move in K. lia.
Qed.

Lemma chain_rev l : chain king_move l -> chain king_move (rev l).
Proof.
  rewrite !chain_iff. intros C k a b Ha Hb. pose proof (znth_range _ _ _ Ha) as Ka. pose proof (znth_range _ _ _ Hb) as Kb.
  assert (L : zlen (rev l) = zlen l) by (unfold zlen; rewrite rev_length; reflexivity). rewrite L in Ka, Kb.
  rewrite znth_rev in Ha, Hb by lia. replace (zlen l - 1 - k) with (zlen l - 1 - (k + 1) + 1) in Ha by lia.
  pose proof (C _ _ _ Hb Ha) as K. unfold king_move in *. lia.
Qed.

(** the line drawn from a to b, as a list from a to b *)
Lemma line_oriented a b pts : good_line a b pts \/ good_line b a pts ->
  exists l, (forall p, In p l <-> In p pts) /\ good_line a b l.
Proof.
  intros [G|G]; [exists pts; split; [reflexivity|exact G]|]. exists (rev pts). split; [intros p; rewrite <- in_rev; reflexivity|].
  destruct G as [G1 G2 G3 G4 G5 G6]. assert (L : zlen (rev pts) = zlen pts) by (unfold zlen; rewrite rev_length; reflexivity).
  replace (Z.max (Z.abs (fst a - fst b)) (Z.abs (snd a - snd b))) with (Z.max (Z.abs (fst b - fst a)) (Z.abs (snd b - snd a))) in G1, G4 by lia.
  constructor.
  - rewrite L. exact G1.
  - apply chain_rev. exact G2.
  - rewrite znth_rev by lia. rewrite G1. match goal with |- znth _ ?k = _ => match type of G4 with znth _ ?k' = _ => replace k with k' by lia end end. exact G4.
  - rewrite znth_rev by lia. rewrite G1. match goal with |- znth _ ?k = _ => replace k with 0 by lia end. exact G3.
  - apply Forall_rev. revert G5. apply Forall_impl. intros p. apply near_line_sym.
  - apply Forall_rev. revert G6. apply Forall_impl. intros p. apply in_box_sym.
Qed.

(** every point of the drawn line is near the ideal segment ... *)
Lemma line_near a b p : near_line a b p -> in_box a b p ->
  exists l, (0 <= l <= 1)%R /\ close (/ 2) p (IZR (fst a) + l * (IZR (fst b) - IZR (fst a))) (IZR (snd a) + l * (IZR (snd b) - IZR (snd a))).
Proof.
  destruct a as (ax & ay), b as (bx & by_), p as (px & py). unfold near_line, in_box, close. cbn [fst snd]. intros N B.
  assert (Dv : forall u v c e : Z, 0 < Z.abs u -> (2 * Z.abs (c * u - v * e) <= Z.abs u) ->
     (Rabs (IZR c - IZR v / IZR u * IZR e) <= / 2)%R).
  { clear. intros u v c e H K. assert (U : (0 < Rabs (IZR u))%R) by (rewrite <- abs_IZR; apply IZR_lt; lia).
    assert (U0 : IZR u <> 0%R) by (apply IZR_neq; lia).
    apply IZR_le in K. rewrite mult_IZR, !abs_IZR, minus_IZR, !mult_IZR in K.
    apply Rmult_le_reg_r with (Rabs (IZR u)); [exact U|]. rewrite <- Rabs_mult.
    replace ((IZR c - IZR v / IZR u * IZR e) * IZR u)%R with (IZR c * IZR u - IZR v * IZR e)%R by (field; exact U0). lra. }
  assert (Fr : forall u v, 0 < Z.abs u -> Z.min 0 u <= v <= Z.max 0 u -> (0 <= IZR v / IZR u <= 1)%R).
  { clear. intros u v H K. destruct (Z_lt_le_dec 0 u).
    - assert (0 < IZR u)%R by (apply IZR_lt; lia). assert (0 <= IZR v <= IZR u)%R by (split; apply IZR_le; lia).
      split; [apply Rmult_le_pos; [lra|left; apply Rinv_0_lt_compat; lra]|]. apply Rmult_le_reg_r with (IZR u); [lra|]. unfold Rdiv. rewrite Rmult_assoc, Rinv_l, Rmult_1_r by lra. lra.
    - assert (IZR u < 0)%R by (apply IZR_lt; lia). assert (IZR u <= IZR v <= 0)%R by (split; apply IZR_le; lia).
      replace (IZR v / IZR u)%R with ((- IZR v) / (- IZR u))%R by (field; lra).
      split; [apply Rmult_le_pos; [lra|left; apply Rinv_0_lt_compat; lra]|]. apply Rmult_le_reg_r with (- IZR u)%R; [lra|]. unfold Rdiv. rewrite Rmult_assoc, Rinv_l, Rmult_1_r by lra. lra. }
  rewrite <- !minus_IZR.
  destruct (Z.eq_dec (Z.max (Z.abs (bx - ax)) (Z.abs (by_ - ay))) 0) as [E|E].
  - exists 0%R. split; [lra|]. rewrite !Rmult_0_l, !Rplus_0_r. assert (px = ax) as -> by lia. assert (py = ay) as -> by lia.
    rewrite !Rminus_diag_eq by reflexivity. rewrite Rabs_R0. lra.
  - destruct (Z_le_gt_dec (Z.abs (by_ - ay)) (Z.abs (bx - ax))) as [M|M].
    + exists (IZR (px - ax) / IZR (bx - ax))%R. split; [apply Fr; lia|]. split.
      * replace (IZR px - (IZR ax + IZR (px - ax) / IZR (bx - ax) * IZR (bx - ax)))%R with 0%R; [rewrite Rabs_R0; lra|].
        assert (IZR (bx - ax) <> 0%R) by (apply IZR_neq; lia). rewrite (minus_IZR px). field. assumption.
      * replace (IZR py - (IZR ay + IZR (px - ax) / IZR (bx - ax) * IZR (by_ - ay)))%R with (IZR (py - ay) - IZR (px - ax) / IZR (bx - ax) * IZR (by_ - ay))%R by (rewrite (minus_IZR py); ring).
        apply Dv; [lia|]. rewrite Z.max_l in N by lia. exact N.
    + exists (IZR (py - ay) / IZR (by_ - ay))%R. split; [apply Fr; lia|]. split.
      * replace (IZR px - (IZR ax + IZR (py - ay) / IZR (by_ - ay) * IZR (bx - ax)))%R with (IZR (px - ax) - IZR (py - ay) / IZR (by_ - ay) * IZR (bx - ax))%R by (rewrite (minus_IZR px); ring).
        apply Dv; [lia|]. rewrite Z.max_r in N by lia. rewrite <- Z.abs_opp in N. rewrite Z.opp_sub_distr, Z.add_comm, Z.add_opp_r in N. exact N.
      * replace (IZR py - (IZR ay + IZR (py - ay) / IZR (by_ - ay) * IZR (by_ - ay)))%R with 0%R; [rewrite Rabs_R0; lra|].
        assert (IZR (by_ - ay) <> 0%R) by (apply IZR_neq; lia). rewrite (minus_IZR py). field. assumption.
Qed.

(** ... and every point of the segment near a drawn point *)
Lemma line_covers a b l r : good_line a b l -> (0 <= r <= 1)%R ->
  exists p, In p l /\ close 1 p (IZR (fst a) + r * (IZR (fst b) - IZR (fst a))) (IZR (snd a) + r * (IZR (snd b) - IZR (snd a))).
Proof.
  intros G Hr. destruct G as [G1 G2 G3 G4 G5 G6]. set (n := Z.max (Z.abs (fst b - fst a)) (Z.abs (snd b - snd a))) in *.
  assert (N0 : 0 <= n) by (unfold n; lia).
  set (k := ZnearestE (r * IZR n)). assert (Hk : (Rabs (IZR k - r * IZR n) <= / 2)%R) by apply znearest_half.
  assert (P : (0 <= IZR n)%R) by (apply IZR_le; lia).
  assert (Kr : 0 <= k <= n).
  { apply Rabs_le_inv in Hk. assert (0 <= r * IZR n <= IZR n)%R by nra. split.
    - assert (- 1 < k); [|lia]. apply lt_IZR. lra.
    - assert (k < n + 1); [|lia]. apply lt_IZR. rewrite plus_IZR. lra. }
  destruct (znth_some l k) as (p & Hp); [lia|]. exists p. split; [apply (znth_In _ _ _ Hp)|].
  pose proof (chain_dist l G2 k 0 a p ltac:(lia) G3 Hp) as (D1 & D2).
  pose proof (chain_dist l G2 (n - k) k p b ltac:(lia) Hp ltac:(replace (k + (n - k)) with n by lia; exact G4)) as (D3 & D4).
  pose proof (proj1 (Forall_forall _ _) G5 p (znth_In _ _ _ Hp)) as Np. clear G5 G6 G4 G3 G2 G1 Hp.
  destruct a as (ax & ay), b as (bx & by_), p as (px & py). unfold near_line, close in *. cbn [fst snd] in *. rewrite <- !minus_IZR.
  assert (Core : forall dx dy vx vy : Z, Z.abs dy <= Z.abs dx -> Z.abs dx = n -> Z.abs vx <= k -> Z.abs vy <= k -> Z.abs (dx - vx) <= n - k ->
     (2 * Z.abs (vy * dx - vx * dy) <= n) -> (Rabs (IZR vx - r * IZR dx) <= 1 /\ Rabs (IZR vy - r * IZR dy) <= 1)%R).
  { clear - Hk P Kr Hr N0. intros dx dy vx vy A B C C' D E. destruct (Z.eq_dec n 0) as [Z0|Zn].
    - assert (dx = 0) as -> by lia. assert (dy = 0) as -> by lia. assert (vx = 0) as -> by lia. assert (vy = 0) as -> by lia.
      rewrite !Rmult_0_r, !Rminus_0_r, Rabs_R0. lra.
    - assert (X : (Rabs (IZR vx - r * IZR dx) <= / 2)%R).
      { destruct (Z_lt_le_dec 0 dx).
        - assert (dx = n) as -> by lia. assert (vx = k) as -> by lia. exact Hk.
        - assert (dx = - n) as -> by lia. assert (vx = - k) as -> by lia. rewrite !opp_IZR. replace (- IZR k - r * - IZR n)%R with (- (IZR k - r * IZR n))%R by ring.
          rewrite Rabs_Ropp. exact Hk. }
      split; [lra|]. assert (U : (0 < IZR n)%R) by (apply IZR_lt; lia).
      assert (Un : Rabs (IZR dx) = IZR n) by (rewrite <- abs_IZR; f_equal; exact B).
      assert (Ud : (Rabs (IZR dy) <= IZR n)%R) by (rewrite <- abs_IZR; apply IZR_le; lia).
      apply IZR_le in E. rewrite mult_IZR, abs_IZR, minus_IZR, !mult_IZR in E.
      apply Rmult_le_reg_r with (IZR n); [exact U|]. rewrite <- Un at 1. rewrite <- Rabs_mult.
      replace ((IZR vy - r * IZR dy) * IZR dx)%R with ((IZR vy * IZR dx - IZR vx * IZR dy) + IZR dy * (IZR vx - r * IZR dx))%R by ring.
      eapply Rle_trans; [apply Rabs_triang|]. rewrite (Rabs_mult (IZR dy)).
      assert (Rabs (IZR dy) * Rabs (IZR vx - r * IZR dx) <= IZR n * / 2)%R by (apply Rmult_le_compat; auto using Rabs_pos). lra. }
  assert (Q : forall u v w : Z, (IZR u - (IZR v + r * IZR w) = IZR (u - v) - r * IZR w)%R) by (intros; rewrite minus_IZR; ring).
  rewrite !Q. destruct (Z_le_gt_dec (Z.abs (by_ - ay)) (Z.abs (bx - ax))) as [M|M].
  - apply Core; lia.
  - assert (T : (Rabs (IZR (py - ay) - r * IZR (by_ - ay)) <= 1 /\ Rabs (IZR (px - ax) - r * IZR (bx - ax)) <= 1)%R); [|tauto].
    apply Core; lia.
Qed.

(** lines between rounded points: the sign of a zero does not matter *)
Definition zpt (p : Z * Z) (f : f32 * f32) : Prop := dy 0 (fst p) (fst f) /\ dy 0 (snd p) (snd f).
Lemma bres_points_dy a b f g : small a -> small b -> zpt a f -> zpt b g -> bres_points f g = bres_points (fpt a) (fpt b).
Proof.
  intros Ha Hb Hf Hg. rewrite bres_points_int by assumption. revert Ha Hb Hf Hg.
  destruct a as [ax ay], b as [bx by_], f as [fx fy], g as [gx gy]. unfold small, zpt; cbn [fst snd]. intros [A1 A2] [B1 B2] [Dax Day] [Dbx Dby].
  assert (DS : forall p q (fp fq : f32), Z.abs p <= 2 ^ 22 -> Z.abs q <= 2 ^ 22 ->
     dy 0 p fp -> dy 0 q fq -> dy 0 (Z.abs (p - q)) (fabs (fsub fp fq)))
    by (intros; apply dy_abs, dy_sub; [apply dyk_0|cbn; lia|assumption|assumption]).
  unfold bres_points, bres_new.
  rewrite (dy_lt _ _ 0 _ _ _ _ (DS _ _ _ _ B1 A1 Dbx Dax) (DS _ _ _ _ B2 A2 Dby Day)).
  change (Z.abs (bx - ax) <? Z.abs (by_ - ay)) with (steep (ax, ay) (bx, by_)).
  destruct (steep (ax, ay) (bx, by_)) eqn:ST; unfold steep in ST; cbn [fst snd] in ST;
    cbn [swap fst snd]; unfold norm_pts.
  - rewrite (dy_lt _ _ 0 _ _ _ _ Dby Day).
    destruct (Z.ltb_spec by_ ay).
    + apply (bres_norm_run by_ bx ay ax); try assumption; lia.
    + apply (bres_norm_run ay ax by_ bx); try assumption; lia.
  - rewrite (dy_lt _ _ 0 _ _ _ _ Dbx Dax).
    destruct (Z.ltb_spec bx ax).
    + apply (bres_norm_run bx by_ ax ay); try assumption; lia.
    + apply (bres_norm_run ax ay bx by_); try assumption; lia.
Qed.

Lemma draw_seg {A} dr (im : image A) a b f g : cdim im -> small a -> small b -> zpt a f -> zpt b g ->
  exists l out, draw_line_segment dr im f g = Ok out /\ good_line a b l /\ recoloured (fun x y => In (x, y) l) dr im out.
Proof.
  intros C Ha Hb Hf Hg. destruct (bres_good a b Ha Hb) as (pts & E & G). destruct (line_oriented a b pts G) as (l & Hl & Gl).
  destruct (draw_line_ok dr im f g pts) as (out & D & R); [exact C|rewrite (bres_points_dy a b f g); assumption|].
  exists l, out. split; [exact D|]. split; [exact Gl|]. revert R. apply recoloured_ext. intros x y _ _. symmetry. apply Hl.
Qed.

(** ** the float part *)
Local Open Scope R_scope.
Definition ctrl (f : f32) : Prop := is_finite f = true /\ Rabs (B2R f) <= 4096.

Lemma ap_ctrl f : ctrl f -> ap f (B2R f) 4096 0.
Proof. intros (F & H). split; [exact F|]. rewrite Rminus_diag_eq by reflexivity. rewrite Rabs_R0. split; [lra|exact H]. Qed.

Lemma coord_ok (s a b e t : f32) tau : ctrl s -> ctrl a -> ctrl b -> ctrl e -> is_finite t = true ->
  Rabs (B2R t - tau) <= / 4000000 -> 0 <= tau <= 1 ->
  is_finite (bezier_coord s a b e t) = true /\ Rabs (B2R (bezier_coord s a b e t) - bez (B2R s) (B2R a) (B2R b) (B2R e) tau) <= / 15.
Proof.
  intros Hs Ha Hb He Ft Ht Htau. apply ap_ctrl in Hs, Ha, Hb, He.
  assert (At : ap t tau 1 (/ 4000000)) by (split; [exact Ft|]; split; [exact Ht|]; apply Rabs_le; lra).
  pose proof (ap_int 1 1 ltac:(lia) ltac:(lra)) as A1. pose proof (ap_int 3 3 ltac:(lia) ltac:(lra)) as A3.
  assert (T2 : ap (fmul t t) (tau * tau) 1 (6 / 10000000)) by (eapply ap_weaken; [eapply ap_mul; [exact At|exact At|lra]|lra|lra]).
  assert (T3 : ap (fmul (fmul t t) t) (tau * tau * tau) 1 (10 / 10000000)) by (eapply ap_weaken; [eapply ap_mul; [exact T2|exact At|lra]|lra|lra]).
  assert (M1 : ap (fsub (of_int 1) t) (1 - tau) 1 (4 / 10000000)).
  { assert (Q : ap (fsub (of_int 1) t) (1 - tau) 2 (4 / 10000000)) by (eapply ap_weaken; [eapply ap_sub; [exact A1|exact At|lra]|lra|lra]).
    destruct Q as (Q1 & Q2 & _). split; [exact Q1|]. split; [exact Q2|]. apply Rabs_le; lra. }
  assert (M2 : ap (fmul (fsub (of_int 1) t) (fsub (of_int 1) t)) ((1 - tau) * (1 - tau)) 1 (9 / 10000000)) by (eapply ap_weaken; [eapply ap_mul; [exact M1|exact M1|lra]|lra|lra]).
  assert (M3 : ap (fmul (fmul (fsub (of_int 1) t) (fsub (of_int 1) t)) (fsub (of_int 1) t)) ((1 - tau) * (1 - tau) * (1 - tau)) 1 (14 / 10000000)) by (eapply ap_weaken; [eapply ap_mul; [exact M2|exact M1|lra]|lra|lra]).
  unfold bezier_coord. cbv zeta.
  set (t2 := fmul t t) in *. set (t3 := fmul t2 t) in *. set (mt := fsub (of_int 1) t) in *. set (mt2 := fmul mt mt) in *. set (mt3 := fmul mt2 mt) in *.
  assert (X1 : ap (fmul s mt3) (B2R s * ((1 - tau) * (1 - tau) * (1 - tau))) 4096 (7 / 1000)) by (eapply ap_weaken; [eapply ap_mul; [exact Hs|exact M3|lra]|lra|lra]).
  assert (X2 : ap (fmul (of_int 3) a) (3 * B2R a) 12288 (1 / 1000)) by (eapply ap_weaken; [eapply ap_mul; [exact A3|exact Ha|lra]|lra|lra]).
  assert (X3 : ap (fmul (fmul (of_int 3) a) mt2) (3 * B2R a * ((1 - tau) * (1 - tau))) 12288 (14 / 1000)) by (eapply ap_weaken; [eapply ap_mul; [exact X2|exact M2|lra]|lra|lra]).
  assert (X4 : ap (fmul (fmul (fmul (of_int 3) a) mt2) t) (3 * B2R a * ((1 - tau) * (1 - tau)) * tau) 12288 (18 / 1000)) by (eapply ap_weaken; [eapply ap_mul; [exact X3|exact At|lra]|lra|lra]).
  assert (Y2 : ap (fmul (of_int 3) b) (3 * B2R b) 12288 (1 / 1000)) by (eapply ap_weaken; [eapply ap_mul; [exact A3|exact Hb|lra]|lra|lra]).
  assert (Y3 : ap (fmul (fmul (of_int 3) b) mt) (3 * B2R b * (1 - tau)) 12288 (7 / 1000)) by (eapply ap_weaken; [eapply ap_mul; [exact Y2|exact M1|lra]|lra|lra]).
  assert (Y4 : ap (fmul (fmul (fmul (of_int 3) b) mt) t2) (3 * B2R b * (1 - tau) * (tau * tau)) 12288 (16 / 1000)) by (eapply ap_weaken; [eapply ap_mul; [exact Y3|exact T2|lra]|lra|lra]).
  assert (Z1 : ap (fmul e t3) (B2R e * (tau * tau * tau)) 4096 (5 / 1000)) by (eapply ap_weaken; [eapply ap_mul; [exact He|exact T3|lra]|lra|lra]).
  pose proof (ap_add _ _ _ _ _ _ _ _ X1 X4 ltac:(lra)) as W1.
  pose proof (ap_add _ _ _ _ _ _ _ _ W1 Y4 ltac:(lra)) as W2.
  pose proof (ap_add _ _ _ _ _ _ _ _ W2 Z1 ltac:(lra)) as W3. destruct W3 as (F & E & _). split; [exact F|].
  unfold bez. match type of E with Rabs (_ - ?v) <= _ => replace v with ((1 - tau) ^ 3 * B2R s + 3 * (1 - tau) ^ 2 * tau * B2R a + 3 * (1 - tau) * tau ^ 2 * B2R b + tau ^ 3 * B2R e) in E by ring end.
  eapply Rle_trans; [exact E|]. lra.
Qed.

(** rounding to a pixel *)
Lemma round_ok (x : f32) V d : is_finite x = true -> Rabs (B2R x - V) <= d ->
  let z := ZnearestA (B2R x) in dy 0 z (fround x) /\ Rabs (IZR z - V) <= d + / 2.
Proof.
  intros F H z. destruct (nearby_R 24 128 mode_NA x F) as (Fn & Rn). unfold z. split.
  - split; [exact Fn|]. unfold fround. rewrite Rn. cbn [round_mode bpow]. rewrite Rmult_1_r. reflexivity.
  - pose proof (znearest_half (Zle_bool 0) (B2R x)) as K. change (Znearest (Zle_bool 0) (B2R x)) with (ZnearestA (B2R x)) in K.
    apply Rabs_le_inv in K, H. apply Rabs_le. lra.
Qed.

(** the sample parameters *)
Lemma param_ok n i (f : f32) : (1 <= n <= 16777216)%Z -> (0 <= i <= n)%Z -> is_finite f = true -> B2R f = IZR i ->
  let t := fmul f (fdiv (of_int 1) (of_int n)) : f32 in
  is_finite t = true /\ Rabs (B2R t - IZR i / IZR n) <= / 4000000.
Proof.
  intros Hn Hi Fi Ri t.
  assert (I32 : forall k, (0 <= k <= 16777216)%Z -> is_finite (of_int k : f32) = true /\ B2R (of_int k : f32) = IZR k).
  { intros k Hk. destruct (of_int_R 24 128 k) as (F & R).
    { rewrite <- abs_IZR. pose proof f32_big. apply Rle_trans with (IZR 16777216); [apply IZR_le; lia|lra]. }
    split; [exact F|]. rewrite R. apply (rnd_int 24 128). lia. }
  destruct (I32 1%Z) as (F1 & R1); [lia|]. destruct (I32 n) as (Fn & Rn); [lia|].
  assert (N1 : 1 <= IZR n <= 16777216) by (split; apply IZR_le; lia). assert (I1 : 0 <= IZR i <= IZR n) by (split; apply IZR_le; lia).
  assert (V : 0 < / IZR n <= 1). { split; [apply Rinv_0_lt_compat; lra|]. rewrite <- Rinv_1. apply Rinv_le; lra. }
  pose proof f32_big as BIG.
  destruct (fdiv_R 24 128 (of_int 1) (of_int n) F1) as (Fd & Rd).
  { rewrite Rn. lra. } { rewrite R1, Rn. unfold Rdiv. rewrite Rmult_1_l, Rabs_pos_eq by lra. lra. }
  rewrite R1, Rn in Rd. unfold Rdiv in Rd. rewrite Rmult_1_l in Rd. pose proof (f32_err (/ IZR n)) as E1. rewrite <- Rd, (Rabs_pos_eq (/ IZR n)) in E1 by lra.
  set (q := fdiv (of_int 1) (of_int n) : f32) in *.
  assert (IQ : 0 <= IZR i * / IZR n <= 1).
  { split; [apply Rmult_le_pos; lra|]. apply Rmult_le_reg_r with (IZR n); [lra|]. rewrite Rmult_assoc, Rinv_l by lra. lra. }
  assert (E2 : Rabs (IZR i * B2R q - IZR i * / IZR n) <= 2 / 16777216).
  { rewrite <- Rmult_minus_distr_l, Rabs_mult, (Rabs_pos_eq (IZR i)) by lra.
    apply Rle_trans with (IZR i * (/ IZR n / 16777216 + / 1152921504606846976)); [apply Rmult_le_compat_l; lra|].
    rewrite Rmult_plus_distr_l. unfold Rdiv. rewrite <- Rmult_assoc. lra. }
  destruct (fmul_R 24 128 f q Fi Fd) as (Ft & Rt).
  { rewrite Ri. apply Rabs_le_inv in E2. apply Rle_trans with 2; [apply Rabs_le; lra|lra]. }
  split; [exact Ft|]. fold t in Rt. rewrite Ri in Rt. pose proof (f32_err (IZR i * B2R q)) as E3. rewrite <- Rt in E3.
  assert (B : Rabs (IZR i * B2R q) <= 1 + 2 / 16777216) by (apply Rabs_le_inv in E2; apply Rabs_le; lra).
  unfold Rdiv. apply Rabs_le_inv in E2, E3. apply Rabs_le. lra.
Qed.

(** ** the number of segments *)
Definition dist2 (p q : f32 * f32) : R := sqrt ((B2R (fst p) - B2R (fst q)) * (B2R (fst p) - B2R (fst q)) + (B2R (snd p) - B2R (snd q)) * (B2R (snd p) - B2R (snd q))).
Definition ctrl2 (p : f32 * f32) : Prop := ctrl (fst p) /\ ctrl (snd p).
Local Notation eta := (/ 1152921504606846976).

Lemma rn_low r : 0 <= r -> r * (1 - / 16777216) - eta <= rn r <= r * (1 + / 16777216) + eta.
Proof. intros H. pose proof (f32_err r) as E. rewrite (Rabs_pos_eq r H) in E. apply Rabs_le_inv in E. lra. Qed.

Lemma diff_sq (x y : f32) : ctrl x -> ctrl y ->
  let d := B2R x - B2R y in let m := fmul (fsub x y) (fsub x y) in
  is_finite m = true /\ d * d * (1 - 3 / 16777216) - / 1000000000000 <= B2R m <= 67200000.
Proof.
  intros (Fx & Hx) (Fy & Hy) d m. pose proof f32_big as BIG. apply Rabs_le_inv in Hx, Hy.
  destruct (fsub_R 24 128 x y Fx Fy) as (F1 & R1). { apply Rle_trans with 8192; [apply Rabs_le|]; lra. }
  fold d in R1. pose proof (f32_err d) as E1. rewrite <- R1 in E1.
  assert (Dd : Rabs d <= 8192) by (apply Rabs_le; unfold d; lra).
  set (d' := B2R (fsub x y)) in *.
  assert (Dd' : Rabs d' <= 8193) by (pose proof (Rabs_le_inv _ _ Dd); apply Rabs_le_inv in E1; apply Rabs_le; lra).
  assert (D2 : 0 <= d' * d' <= 67125249).
  { split; [apply Rle_0_sqr|]. replace (d' * d') with (Rabs d' * Rabs d') by (rewrite <- Rabs_mult; apply Rabs_pos_eq, Rle_0_sqr).
    pose proof (Rabs_pos d'). nra. }
  destruct (fmul_R 24 128 _ _ F1 F1) as (F2 & R2). { fold d'. rewrite Rabs_pos_eq; lra. }
  fold d' in R2. fold m in F2, R2. split; [exact F2|]. pose proof (rn_low (d' * d') (proj1 D2)) as E2. rewrite <- R2 in E2.
  assert (L : d * d * (1 - 2 / 16777216) - / 10000000000000 <= d' * d').
  { assert (S : 0 <= (d' - d) * (d' - d)) by apply Rle_0_sqr.
    assert (P : Rabs (d * (d' - d)) <= d * d / 16777216 + 8192 * eta).
    { rewrite Rabs_mult. assert (AA : Rabs d * Rabs d = d * d) by (rewrite <- Rabs_mult; apply Rabs_pos_eq, Rle_0_sqr).
      pose proof (Rabs_pos d). apply Rle_trans with (Rabs d * (Rabs d / 16777216 + eta)); [apply Rmult_le_compat_l; lra|].
      rewrite Rmult_plus_distr_l. apply Rplus_le_compat; [unfold Rdiv; rewrite <- Rmult_assoc, AA; lra|]. apply Rmult_le_compat_r; lra. }
    apply Rabs_le_inv in P. clear - S P. clearbody d d'. replace (d' * d') with (d * d + 2 * (d * (d' - d)) + (d' - d) * (d' - d)) by ring.
    revert S P. generalize (d * (d' - d)) ((d' - d) * (d' - d)) (d * d). intros; lra. }
  assert (DD : 0 <= d * d) by apply Rle_0_sqr. clear - DD L E2 D2. revert DD L E2 D2. generalize (d * d) (d' * d'). intros; lra.
Qed.

Lemma rn_nonneg r : 0 <= r -> 0 <= rn r.
Proof. intros H. rewrite <- (rnd_0 24 128). apply (rnd_le 24 128). exact H. Qed.

Lemma dist_ok p q : ctrl2 p -> ctrl2 q ->
  is_finite (distance p q) = true /\ dist2 p q * (1 - 6 / 16777216) - / 100000 <= B2R (distance p q) <= 11700 /\ 0 <= B2R (distance p q).
Proof.
  intros (P1 & P2) (Q1 & Q2). pose proof f32_big as BIG. unfold distance, dist2. cbv zeta.
  destruct (diff_sq _ _ P1 Q1) as (F1 & B1). destruct (diff_sq _ _ P2 Q2) as (F2 & B2).
  set (dx := B2R (fst p) - B2R (fst q)) in *. set (dy := B2R (snd p) - B2R (snd q)) in *.
  set (m1 := fmul (fsub (fst p) (fst q)) (fsub (fst p) (fst q))) in *. set (m2 := fmul (fsub (snd p) (snd q)) (fsub (snd p) (snd q))) in *.
  assert (DX : 0 <= dx * dx) by apply Rle_0_sqr. assert (DY : 0 <= dy * dy) by apply Rle_0_sqr.
  assert (PM : forall m : f32, is_finite m = true -> 0 - / 1000000000000 <= B2R m -> True) by auto.
  destruct (fadd_R 24 128 m1 m2 F1 F2) as (F3 & R3). { apply Rle_trans with 134400001; [apply Rabs_le|]; lra. }
  set (s := fadd m1 m2) in *. pose proof (f32_err (B2R m1 + B2R m2)) as E3. rewrite <- R3 in E3.
  assert (AB : Rabs (B2R m1 + B2R m2) <= B2R m1 + B2R m2 + / 100000000000) by (unfold Rabs; destruct Rcase_abs; lra).
  set (D2 := dx * dx + dy * dy) in *. assert (D0 : 0 <= D2) by (unfold D2; lra).
  assert (SL : D2 * (1 - 5 / 16777216) - / 100000000000 <= B2R s <= 134500000).
  { apply Rabs_le_inv in E3. assert (D2 * (1 - 3 / 16777216) - 2 / 1000000000000 <= B2R m1 + B2R m2) by (unfold D2; lra). lra. }
  assert (S0 : 0 <= B2R s).
  { rewrite R3. apply rn_nonneg.
    assert (N : forall f : f32, is_finite f = true -> Rabs (B2R f * B2R f) <= bpow radix2 (128 - 1) -> 0 <= B2R (fmul f f)).
    { intros f Ff Hf. destruct (fmul_R 24 128 f f Ff Ff Hf) as (_ & R). rewrite R. apply rn_nonneg, Rle_0_sqr. }
    assert (Fd : forall x y : f32, ctrl x -> ctrl y -> 0 <= B2R (fmul (fsub x y) (fsub x y))).
    { intros x y (Fx & Hx) (Fy & Hy). apply Rabs_le_inv in Hx, Hy. destruct (fsub_R 24 128 x y Fx Fy) as (F & R). { apply Rle_trans with 8192; [apply Rabs_le|]; lra. }
      apply N; [exact F|]. pose proof (f32_err (B2R x - B2R y)) as E. rewrite <- R in E.
      assert (Rabs (B2R x - B2R y) <= 8192) by (apply Rabs_le; lra).
      assert (Rabs (B2R (fsub x y)) <= 9000). { pose proof (Rabs_le_inv _ _ H). apply Rabs_le_inv in E. apply Rabs_le. lra. }
      rewrite Rabs_mult. pose proof (Rabs_pos (B2R (fsub x y))). nra. }
    pose proof (Fd _ _ P1 Q1). pose proof (Fd _ _ P2 Q2). fold m1 in H. fold m2 in H0. lra. }
  destruct (fsqrt_R 24 128 s F3 S0) as (F4 & R4). split; [exact F4|]. rewrite R4.
  pose proof (sqrt_pos (B2R s)) as Q0. pose proof (sqrt_sqrt _ S0) as Q3. pose proof (sqrt_sqrt _ D0) as Q4. pose proof (sqrt_pos D2) as Q5.
  set (g := sqrt (B2R s)) in *. set (D := sqrt D2) in *.
  pose proof (rn_low g Q0) as E4. split; [|apply rn_nonneg; exact Q0].
  assert (QU : g <= 11600) by (clear - Q0 Q3 SL; nra).
  assert (QL : D * (1 - 5 / 16777216) - / 200000 <= g).
  { clear - Q0 Q3 Q4 Q5 SL. apply Rnot_lt_le. intros K. set (v := 1 - 5 / 16777216) in *.
    assert (V : 0 < v < 1) by (unfold v; lra). assert (K2 : g + / 200000 < D * v) by lra.
    assert ((g + / 200000) * (g + / 200000) < (D * v) * (D * v)) by (apply Rmult_le_0_lt_compat; lra).
    assert ((D * v) * (D * v) <= D2 * v). { replace (D * v * (D * v)) with (D * D * v * v) by ring. rewrite Q4. assert (0 <= D2) by (rewrite <- Q4; apply Rle_0_sqr). assert (0 <= D2 * v) by (apply Rmult_le_pos; lra). clearbody v. nra. }
    replace ((g + / 200000) * (g + / 200000)) with (g * g + 2 * / 200000 * g + / 200000 * / 200000) in H by ring. rewrite Q3 in H. lra. }
  lra.
Qed.

Section Segments.
  Context (s e a b : f32 * f32).
  Hypothesis Hs : ctrl2 s.
  Hypothesis He : ctrl2 e.
  Hypothesis Ha : ctrl2 a.
  Hypothesis Hb : ctrl2 b.
  Let L := dist2 s a + dist2 a b + dist2 b e.

  Lemma length_ok : is_finite (curve_length_bound s e a b) = true /\
    L <= B2R (curve_length_bound s e a b) * (1 + 20 / 16777216) + / 10000 /\ 0 <= B2R (curve_length_bound s e a b) <= 35200.
  Proof.
    unfold curve_length_bound. pose proof f32_big as BIG. destruct (dist_ok s a Hs Ha) as (F1 & B1 & N1). destruct (dist_ok a b Ha Hb) as (F2 & B2 & N2).
    destruct (dist_ok b e Hb He) as (F3 & B3 & N3).
    destruct (fadd_R 24 128 _ _ F1 F2) as (F4 & R4). { rewrite Rabs_pos_eq; lra. }
    pose proof (rn_low (B2R (distance s a) + B2R (distance a b)) ltac:(lra)) as E4. rewrite <- R4 in E4.
    assert (N4 : 0 <= B2R (fadd (distance s a) (distance a b))) by (rewrite R4; apply rn_nonneg; lra).
    destruct (fadd_R 24 128 _ _ F4 F3) as (F5 & R5). { rewrite Rabs_pos_eq; lra. }
    assert (N5 : 0 <= B2R (fadd (distance s a) (distance a b)) + B2R (distance b e)) by (apply Rplus_le_le_0_compat; assumption).
    pose proof (rn_low _ N5) as E5. rewrite <- R5 in E5.
    split; [exact F5|]. split; [|split; [rewrite R5; apply rn_nonneg; lra|lra]].
    assert (0 <= dist2 s a) by apply sqrt_pos. assert (0 <= dist2 a b) by apply sqrt_pos. assert (0 <= dist2 b e) by apply sqrt_pos.
    unfold L. lra.
  Qed.

  Lemma segments_ok : (3 <= num_segments s e a b <= 5000)%Z /\ L <= 9 / 5 * (IZR (num_segments s e a b) * IZR (num_segments s e a b)).
  Proof.
    destruct length_ok as (F & HL & B). unfold num_segments. set (l := curve_length_bound s e a b) in *. pose proof f32_big as BIG.
    assert (I32 : forall k, (0 <= k <= 16777216)%Z -> is_finite (of_int k : f32) = true /\ B2R (of_int k : f32) = IZR k).
    { intros k Hk. destruct (of_int_R 24 128 k) as (Fk & R).
      { rewrite <- abs_IZR. apply Rle_trans with (IZR 16777216); [apply IZR_le; lia|lra]. }
      split; [exact Fk|]. rewrite R. apply (rnd_int 24 128). lia. }
    destruct (I32 800%Z) as (F8 & R8); [lia|]. destruct (I32 8%Z) as (F9 & R9); [lia|].
    assert (S0 : 0 <= B2R l * B2R l <= 1300000000) by nra.
    destruct (fmul_R 24 128 l l F F) as (F1 & R1). { rewrite Rabs_pos_eq; lra. }
    pose proof (rn_low _ (proj1 S0)) as E1. rewrite <- R1 in E1. assert (N1 : 0 <= B2R (fmul l l)) by (rewrite R1; apply rn_nonneg; lra).
    set (q := fmul l l) in *.
    destruct (fadd_R 24 128 q (of_int 800) F1 F8) as (F2 & R2). { rewrite R8, Rabs_pos_eq; lra. }
    rewrite R8 in R2. pose proof (rn_low (B2R q + 800) ltac:(lra)) as E2. rewrite <- R2 in E2. set (w := fadd q (of_int 800)) in *.
    destruct (fsqrt_R 24 128 w F2 ltac:(lra)) as (F3 & R3). pose proof (sqrt_pos (B2R w)) as P3. pose proof (sqrt_sqrt (B2R w) ltac:(lra)) as Q3.
    pose proof (rn_low _ P3) as E3. rewrite <- R3 in E3. set (v := fsqrt w) in *. set (g := sqrt (B2R w)) in *.
    assert (G : 28 <= g <= 36100) by (clear - P3 Q3 E2 E1 S0; nra).
    destruct (fdiv_R 24 128 v (of_int 8) F3) as (F4 & R4). { rewrite R9. lra. } { rewrite R9, Rabs_pos_eq; lra. }
    rewrite R9 in R4. pose proof (rn_low (B2R v / 8) ltac:(lra)) as E4. rewrite <- R4 in E4. set (x := fdiv v (of_int 8)) in *.
    unfold i32_of_f32. rewrite (to_int_R 24 128) by (first [exact F4|reflexivity]).
    assert (X : 3.4 <= B2R x <= 4900) by lra. rewrite Ztrunc_floor by lra. pose proof (Zfloor_lb (B2R x)) as FL. pose proof (Zfloor_ub (B2R x)) as FU.
    assert (T : (3 <= Zfloor (B2R x) <= 5000)%Z). { split; [apply Zfloor_lub; lra|]. apply le_IZR. lra. }
    set (n := Zfloor (B2R x)) in *. unfold zclamp. replace (Z.max (- 2 ^ 31) (Z.min (2 ^ 31 - 1) n)) with n by lia. split; [exact T|].
    assert (N3 : 3 <= IZR n <= 5000) by (split; apply IZR_le; lia). set (N := IZR n) in *.
    assert (GU : g <= 8 * (N + 1) * (1 + / 1000000)) by lra.
    assert (WU : B2R w <= 64 * ((N + 1) * (N + 1)) * (1 + 3 / 1000000)).
    { rewrite <- Q3. apply Rle_trans with (8 * (N + 1) * (1 + / 1000000) * (8 * (N + 1) * (1 + / 1000000))); [apply Rmult_le_compat; lra|].
      replace (8 * (N + 1) * (1 + / 1000000) * (8 * (N + 1) * (1 + / 1000000))) with (64 * ((N + 1) * (N + 1)) * ((1 + / 1000000) * (1 + / 1000000))) by ring.
      apply Rmult_le_compat_l; [nra|lra]. }
    set (M := (N + 1) * (N + 1)) in *. assert (M0 : 16 <= M) by (unfold M; nra).
    assert (LU : B2R l * B2R l <= 64 * M * (1 + 4 / 1000000) - 799) by lra.
    set (y := B2R l) in *. clear - HL B LU N3 M0 T.
    destruct (Z_le_gt_dec n 5) as [K|K].
    - assert (C : (n = 3 \/ n = 4 \/ n = 5)%Z) by lia. unfold M, N in *. destruct C as [-> | [-> | ->]].
      + assert (y <= 15.1) by nra. lra.
      + assert (y <= 28.4) by nra. lra.
      + assert (y <= 39) by nra. lra.
    - assert (K6 : 6 <= N) by (unfold N; apply IZR_le; lia). assert (YU : y <= 8.001 * (N + 1)).
      { apply Rnot_lt_le. intros Q. assert (8.001 * (N + 1) * (8.001 * (N + 1)) < y * y) by (apply Rmult_le_0_lt_compat; lra).
        replace (8.001 * (N + 1) * (8.001 * (N + 1))) with (64.016001 * M) in H by (unfold M; lra). lra. }
      nra.
  Qed.
End Segments.

Lemma bez_hull p0 p1 p2 p3 t B : 0 <= t <= 1 -> Rabs p0 <= B -> Rabs p1 <= B -> Rabs p2 <= B -> Rabs p3 <= B -> Rabs (bez p0 p1 p2 p3 t) <= B.
Proof.
  intros Ht H0 H1 H2 H3. unfold bez. apply Rabs_le_inv in H0, H1, H2, H3.
  assert (A : 0 <= (1 - t) ^ 3) by (apply pow_le; lra). assert (D : 0 <= t ^ 3) by (apply pow_le; lra).
  assert (C1 : 0 <= (1 - t) ^ 2) by (apply pow_le; lra). assert (C2 : 0 <= t ^ 2) by (apply pow_le; lra).
  assert (E1 : 0 <= 3 * (1 - t) ^ 2 * t) by (apply Rmult_le_pos; lra). assert (E2 : 0 <= 3 * (1 - t) * t ^ 2) by (apply Rmult_le_pos; lra).
  assert (S : (1 - t) ^ 3 + 3 * (1 - t) ^ 2 * t + 3 * (1 - t) * t ^ 2 + t ^ 3 = 1) by ring.
  revert A D E1 E2 S. generalize ((1 - t) ^ 3) (t ^ 3) (3 * (1 - t) ^ 2 * t) (3 * (1 - t) * t ^ 2). intros u w v x A D E1 E2 S.
  apply Rabs_le. split.
  - replace (- B) with (- B * (u + v + x + w)) by (rewrite S; ring). nra.
  - replace B with (B * (u + v + x + w)) by (rewrite S; ring). nra.
Qed.

Lemma bez_0 p0 p1 p2 p3 : bez p0 p1 p2 p3 0 = p0.
Proof. unfold bez. ring. Qed.
Lemma bez_1 p0 p1 p2 p3 : bez p0 p1 p2 p3 1 = p3.
Proof. unfold bez. ring. Qed.

(** at parameter 0 the code computes the start point exactly *)
Lemma coord_start (s a b e : f32) : ctrl s -> ctrl a -> ctrl b -> ctrl e -> B2R (bezier_coord s a b e (of_int 0)) = B2R s.
Proof.
  intros (Fs & Hs) (Fa & Ha) (Fb & Hb) (Fe & He). pose proof f32_big as BIG.
  assert (I32 : forall k, (0 <= k <= 16777216)%Z -> is_finite (of_int k : f32) = true /\ B2R (of_int k : f32) = IZR k).
  { intros k Hk. destruct (of_int_R 24 128 k) as (F & R).
    { rewrite <- abs_IZR. apply Rle_trans with (IZR 16777216); [apply IZR_le; lia|lra]. }
    split; [exact F|]. rewrite R. apply (rnd_int 24 128). lia. }
  destruct (I32 0%Z) as (F0 & R0); [lia|]. destruct (I32 1%Z) as (F1 & R1); [lia|]. destruct (I32 3%Z) as (F3 & R3); [lia|].
  assert (Z : forall f g : f32, is_finite f = true -> is_finite g = true -> (B2R f = 0 \/ B2R g = 0) -> is_finite (fmul f g) = true /\ B2R (fmul f g) = 0).
  { intros f g Ff Fg H. assert (E : B2R f * B2R g = 0) by (destruct H as [-> | ->]; ring).
    destruct (fmul_R 24 128 f g Ff Fg) as (F & R). { rewrite E, Rabs_R0. lra. } split; [exact F|]. rewrite R, E. apply (rnd_0 24 128). }
  assert (O : forall f g : f32, is_finite f = true -> is_finite g = true -> Rabs (B2R f) <= 4096 -> B2R g = 1 -> is_finite (fmul f g) = true /\ B2R (fmul f g) = B2R f).
  { intros f g Ff Fg H H1. destruct (fmul_R 24 128 f g Ff Fg) as (F & R). { rewrite H1, Rmult_1_r. lra. } split; [exact F|]. rewrite R, H1, Rmult_1_r. apply (rnd_idF 24 128). }
  assert (P : forall f g : f32, is_finite f = true -> is_finite g = true -> Rabs (B2R f) <= 4096 -> B2R g = 0 -> is_finite (fadd f g) = true /\ B2R (fadd f g) = B2R f).
  { intros f g Ff Fg H H1. destruct (fadd_R 24 128 f g Ff Fg) as (F & R). { rewrite H1, Rplus_0_r. lra. } split; [exact F|]. rewrite R, H1, Rplus_0_r. apply (rnd_idF 24 128). }
  unfold bezier_coord. cbv zeta.
  destruct (Z _ _ F0 F0 (or_introl R0)) as (Ft2 & Rt2). destruct (Z _ _ Ft2 F0 (or_introl Rt2)) as (Ft3 & Rt3).
  destruct (fsub_R 24 128 _ _ F1 F0) as (Fm & Rm). { rewrite R1, R0, Rminus_0_r, Rabs_R1. lra. }
  rewrite R1, R0, Rminus_0_r in Rm. rewrite (rnd_int 24 128 1) in Rm by lia.
  destruct (O _ _ Fm Fm) as (Fm2 & Rm2); [rewrite Rm, Rabs_R1; lra|exact Rm|]. rewrite Rm in Rm2.
  destruct (O _ _ Fm2 Fm) as (Fm3 & Rm3); [rewrite Rm2, Rabs_R1; lra|exact Rm|]. rewrite Rm2 in Rm3.
  assert (T : forall f : f32, is_finite f = true -> Rabs (B2R f) <= 4096 -> is_finite (fmul (of_int 3) f) = true /\ Rabs (B2R (fmul (of_int 3) f)) <= 13000).
  { intros f Ff H. assert (Rabs (3 * B2R f) <= 12288) by (rewrite Rabs_mult, (Rabs_pos_eq 3) by lra; lra).
    destruct (fmul_R 24 128 _ _ F3 Ff) as (F & R). { rewrite R3. lra. } split; [exact F|]. rewrite R3 in R. pose proof (f32_err (3 * B2R f)) as E. rewrite <- R in E.
    pose proof (Rabs_le_inv _ _ H0). apply Rabs_le_inv in E. apply Rabs_le. lra. }
  assert (T2 : forall f g : f32, is_finite f = true -> is_finite g = true -> Rabs (B2R f) <= 13000 -> B2R g = 1 -> is_finite (fmul f g) = true).
  { intros f g Ff Fg H H1. destruct (fmul_R 24 128 f g Ff Fg) as (F & R). { rewrite H1, Rmult_1_r. lra. } exact F. }
  destruct (T a Fa Ha) as (Fa3 & Ha3). destruct (T b Fb Hb) as (Fb3 & Hb3).
  destruct (Z _ _ (T2 _ _ Fa3 Fm2 Ha3 Rm2) F0 (or_intror R0)) as (G1 & H1). destruct (Z _ _ (T2 _ _ Fb3 Fm Hb3 Rm) Ft2 (or_intror Rt2)) as (G2 & H2).
  destruct (Z _ _ Fe Ft3 (or_intror Rt3)) as (G3 & H3). destruct (O _ _ Fs Fm3 Hs Rm3) as (G0 & H0).
  destruct (P _ _ G0 G1) as (K1 & J1); [rewrite H0; exact Hs|exact H1|].
  destruct (P _ _ K1 G2) as (K2 & J2); [rewrite J1, H0; exact Hs|exact H2|].
  destruct (P _ _ K2 G3) as (K3 & J3); [rewrite J2, J1, H0; exact Hs|exact H3|]. rewrite J3, J2, J1. exact H0.
Qed.

Lemma chain_app {X} (R : X -> X -> Prop) l m : chain R l -> chain R m ->
  (forall p q, znth l (zlen l - 1) = Some p -> znth m 0 = Some q -> R p q) -> chain R (l ++ m).
Proof.
  rewrite !chain_iff. intros Cl Cm J k a b Ha Hb. pose proof (znth_range _ _ _ Ha) as Ka. pose proof (znth_range _ _ _ Hb) as Kb. rewrite zlen_app in Ka, Kb.
  destruct (Z_lt_le_dec (k + 1) (zlen l)).
  - rewrite znth_app_l in Ha, Hb by lia. exact (Cl _ _ _ Ha Hb).
  - destruct (Z.eq_dec (k + 1) (zlen l)) as [E|E].
    + rewrite znth_app_l in Ha by lia. rewrite znth_app_r in Hb by lia. apply J; [replace (zlen l - 1)%Z with k by lia; exact Ha|].
      replace (k + 1 - zlen l)%Z with 0%Z in Hb by lia. exact Hb.
    + rewrite znth_app_r in Ha, Hb by lia. apply (Cm (k - zlen l)%Z); [exact Ha|]. replace (k - zlen l + 1)%Z with (k + 1 - zlen l)%Z by lia. exact Hb.
Qed.

(** ** the loop *)
Section Curve.
  Context (s e a b : f32 * f32).
  Hypothesis Hs : ctrl2 s.
  Hypothesis He : ctrl2 e.
  Hypothesis Ha : ctrl2 a.
  Hypothesis Hb : ctrl2 b.
  Let n := num_segments s e a b.
  Let tin : f32 := fdiv (of_int 1) (of_int n).
  Definition cx (t : R) : R := bez (B2R (fst s)) (B2R (fst a)) (B2R (fst b)) (B2R (fst e)) t.
  Definition cy (t : R) : R := bez (B2R (snd s)) (B2R (snd a)) (B2R (snd b)) (B2R (snd e)) t.
  Let tt (i : Z) : f32 := if (i =? 0)%Z then of_int 0 else fmul (fadd (of_int (i - 1)) (of_int 1)) tin.
  Definition pt (t : f32) : Z * Z :=
    (ZnearestA (B2R (bezier_coord (fst s) (fst a) (fst b) (fst e) t)), ZnearestA (B2R (bezier_coord (snd s) (snd a) (snd b) (snd e) t))).

  Lemma tt_ok i : (0 <= i <= n)%Z -> is_finite (tt i) = true /\ Rabs (B2R (tt i) - IZR i / IZR n) <= / 4000000.
  Proof.
    intros Hi. destruct (segments_ok s e a b Hs He Ha Hb) as (Hn & _). fold n in Hn. pose proof f32_big as BIG.
    assert (I32 : forall k, (0 <= k <= 16777216)%Z -> is_finite (of_int k : f32) = true /\ B2R (of_int k : f32) = IZR k).
    { intros k Hk. destruct (of_int_R 24 128 k) as (F & R).
      { rewrite <- abs_IZR. apply Rle_trans with (IZR 16777216); [apply IZR_le; lia|lra]. }
      split; [exact F|]. rewrite R. apply (rnd_int 24 128). lia. }
    unfold tt. destruct (Z.eqb_spec i 0) as [->|N].
    - destruct (I32 0%Z) as (F & R); [lia|]. split; [exact F|]. rewrite R. unfold Rdiv. rewrite Rmult_0_l, Rminus_0_r, Rabs_R0. lra.
    - destruct (I32 1%Z) as (F1 & R1); [lia|]. destruct (I32 (i - 1)%Z) as (Fi & Ri); [lia|].
      destruct (fadd_R 24 128 _ _ Fi F1) as (F & R). { rewrite Ri, R1, <- plus_IZR, <- abs_IZR. apply Rle_trans with (IZR 16777216); [apply IZR_le; lia|lra]. }
      rewrite Ri, R1, <- plus_IZR in R. rewrite (rnd_int 24 128) in R by lia. replace (i - 1 + 1)%Z with i in R by lia.
      apply (param_ok n i); [lia|lia|exact F|exact R].
  Qed.

  Lemma frac_ok i : (0 <= i <= n)%Z -> 0 <= IZR i / IZR n <= 1.
  Proof.
    intros Hi. destruct (segments_ok s e a b Hs He Ha Hb) as (Hn & _). fold n in Hn.
    assert (3 <= IZR n) by (apply IZR_le; lia). assert (0 <= IZR i <= IZR n) by (split; apply IZR_le; lia).
    unfold Rdiv. split; [apply Rmult_le_pos; [lra|left; apply Rinv_0_lt_compat; lra]|]. apply Rmult_le_reg_r with (IZR n); [lra|]. rewrite Rmult_assoc, Rinv_l by lra. lra.
  Qed.

  Lemma sample_ok i : (0 <= i <= n)%Z ->
    zpt (pt (tt i)) (cubic_bezier_curve s e a b (tt i)) /\ close (/ 15 + / 2) (pt (tt i)) (cx (IZR i / IZR n)) (cy (IZR i / IZR n)) /\ small (pt (tt i)).
  Proof.
    intros Hi. destruct (tt_ok i Hi) as (F & E). pose proof (frac_ok i Hi) as Fr.
    destruct Hs as (S1 & S2), He as (E1 & E2), Ha as (A1 & A2), Hb as (B1 & B2).
    destruct (coord_ok _ _ _ _ _ _ S1 A1 B1 E1 F E Fr) as (Fx & Ex). destruct (coord_ok _ _ _ _ _ _ S2 A2 B2 E2 F E Fr) as (Fy & Ey).
    destruct (round_ok _ _ _ Fx Ex) as (Dx & Kx). destruct (round_ok _ _ _ Fy Ey) as (Dy & Ky).
    split; [split; [exact Dx|exact Dy]|]. split; [split; [exact Kx|exact Ky]|].
    assert (Sm : forall z p0 p1 p2 p3 t, 0 <= t <= 1 -> Rabs p0 <= 4096 -> Rabs p1 <= 4096 -> Rabs p2 <= 4096 -> Rabs p3 <= 4096 ->
      Rabs (IZR z - bez p0 p1 p2 p3 t) <= / 15 + / 2 -> (Z.abs z <= 2 ^ 22)%Z).
    { intros z p0 p1 p2 p3 t Ht H0 H1 H2 H3 H4. pose proof (bez_hull p0 p1 p2 p3 t 4096 Ht H0 H1 H2 H3) as H5. apply Rabs_le_inv in H4, H5.
      apply le_IZR. rewrite abs_IZR. apply Rle_trans with 4097; [apply Rabs_le; lra|apply IZR_le; lia]. }
    split; [eapply Sm; [exact Fr| | | | |exact Kx]|eapply Sm; [exact Fr| | | | |exact Ky]]; [apply S1|apply A1|apply B1|apply E1|apply S2|apply A2|apply B2|apply E2].
  Qed.

  Definition lerpx (p q : Z * Z) (l : R) : R := IZR (fst p) + l * (IZR (fst q) - IZR (fst p)).
  Definition lerpy (p q : Z * Z) (l : R) : R := IZR (snd p) + l * (IZR (snd q) - IZR (snd p)).

  Lemma loop_ok {A} (col : A) (im : image A) : cdim im ->
    exists path out, draw_cubic_bezier_curve s e a b (fun _ => col) im = Ok out /\ recoloured (fun x y => In (x, y) path) (fun _ => col) im out /\
      chain touching path /\ znth path 0 = Some (pt (tt 0)) /\ znth path (zlen path - 1) = Some (pt (tt n)) /\
      (forall p, In p path -> exists j l, (0 <= j < n)%Z /\ 0 <= l <= 1 /\ close (/ 2) p (lerpx (pt (tt j)) (pt (tt (j + 1))) l) (lerpy (pt (tt j)) (pt (tt (j + 1))) l)) /\
      (forall j l, (0 <= j < n)%Z -> 0 <= l <= 1 -> exists p, In p path /\ close 1 p (lerpx (pt (tt j)) (pt (tt (j + 1))) l) (lerpy (pt (tt j)) (pt (tt (j + 1))) l)).
  Proof.
    intros C. destruct (segments_ok s e a b Hs He Ha Hb) as (Hn & _). fold n in Hn. unfold draw_cubic_bezier_curve. cbv zeta. fold n.
    set (Inv := fun (i : Z) (st : f32 * image A) => fst st = tt i /\ exists path,
      recoloured (fun x y => In (x, y) path) (fun _ => col) im (snd st) /\ chain touching path /\
      ((0 < i)%Z -> znth path 0 = Some (pt (tt 0))) /\ ((0 < i)%Z -> znth path (zlen path - 1) = Some (pt (tt i))) /\ (i = 0%Z -> path = []) /\
      (forall p, In p path -> exists j l, (0 <= j < i)%Z /\ 0 <= l <= 1 /\ close (/ 2) p (lerpx (pt (tt j)) (pt (tt (j + 1))) l) (lerpy (pt (tt j)) (pt (tt (j + 1))) l)) /\
      (forall j l, (0 <= j < i)%Z -> 0 <= l <= 1 -> exists p, In p path /\ close 1 p (lerpx (pt (tt j)) (pt (tt (j + 1))) l) (lerpy (pt (tt j)) (pt (tt (j + 1))) l))).
    match goal with |- context [for_range 0 n ?bd ?s0] => destruct (for_range_ind Inv 0%Z n bd s0) as ((t & out) & E & (_ & path & P)) end.
    - lia.
    - split; [reflexivity|]. exists []. split; [exact (recoloured_refl _ _ (proj1 C))|]. split; [exact I|]. split; [lia|]. split; [lia|].
      split; [reflexivity|]. split; [intros p []|intros; lia].
    - intros i (t & m) Hi (Et & path & R & Ch & P0 & Pl & Pe & Pn & Pc). cbn [fst snd] in *. subst t.
      destruct (sample_ok i ltac:(lia)) as (Z1 & _ & S1). destruct (sample_ok (i + 1)%Z ltac:(lia)) as (Z2 & _ & S2).
      assert (Tn : tt (i + 1) = fmul (fadd (of_int i) (of_int 1)) (fdiv (of_int 1) (of_int n))).
      { unfold tt. replace (i + 1 =? 0)%Z with false by lia. replace (i + 1 - 1)%Z with i by lia. reflexivity. }
      rewrite <- Tn. destruct (draw_seg (fun _ => col) m _ _ _ _ (recoloured_cdim _ _ _ _ R C) S1 S2 Z1 Z2) as (l & out & Ed & G & Rl).
      rewrite Ed. cbn [bind]. eexists. split; [reflexivity|]. split; [reflexivity|]. cbn [snd]. exists (path ++ l).
      destruct G as [G1 G2 G3 G4 G5 G6]. set (k := Z.max (Z.abs (fst (pt (tt (i + 1))) - fst (pt (tt i)))) (Z.abs (snd (pt (tt (i + 1))) - snd (pt (tt i))))) in *.
      assert (k0 : (0 <= k)%Z) by (unfold k; lia). pose proof (zlen_nonneg path) as Lp.
      assert (Dec : forall (q : list (Z * Z)) x y, In (x, y) q \/ ~ In (x, y) q).
      { intros q x y. destruct (in_dec (fun u v : Z * Z => ltac:(decide equality; apply Z.eq_dec)) (x, y) q); auto. }
      split.
      { eapply recoloured_ext; [|exact (recoloured_seq_idem _ _ (fun _ => col) _ _ _ (proj1 C) (fun _ => eq_refl) (Dec path) (Dec l) R Rl)].
        intros x y _ _. cbv beta. rewrite in_app_iff. reflexivity. }
      split.
      { apply chain_app; [exact Ch| |].
        - rewrite chain_iff in G2 |- *. intros u p q Hp Hq. right. exact (G2 _ _ _ Hp Hq).
        - intros p q Hp Hq. left. destruct (Z.eq_dec i 0) as [->|N].
          + rewrite (Pe eq_refl) in Hp. apply znth_range in Hp. change (zlen (@nil (Z * Z))) with 0%Z in Hp. lia.
          + rewrite Pl in Hp by lia. rewrite G3 in Hq. congruence. }
      split.
      { intros _. destruct (Z.eq_dec i 0) as [->|N].
        - rewrite (Pe eq_refl). cbn [app]. exact G3.
        - rewrite znth_app_l; [apply P0; lia|]. specialize (P0 ltac:(lia)). apply znth_range in P0. lia. }
      split.
      { intros _. rewrite zlen_app, znth_app_r by lia. replace (zlen path + zlen l - 1 - zlen path)%Z with k by lia. exact G4. }
      split; [lia|]. split.
      { intros p Hp. apply in_app_iff in Hp. destruct Hp as [Hp|Hp].
        - destruct (Pn p Hp) as (j & r & Q). exists j, r. split; [lia|apply Q].
        - destruct (line_near _ _ p (proj1 (Forall_forall _ _) G5 p Hp) (proj1 (Forall_forall _ _) G6 p Hp)) as (r & Q1 & Q2). exists i, r. split; [lia|]. split; [exact Q1|exact Q2]. }
      intros j r Hj Hr. destruct (Z.eq_dec j i) as [->|N].
      + destruct (line_covers (pt (tt i)) (pt (tt (i + 1))) l r) as (p & Q1 & Q2); [constructor; assumption|exact Hr|].
        exists p. split; [apply in_app_iff; right; exact Q1|exact Q2].
      + destruct (Pc j r ltac:(lia) Hr) as (p & Q1 & Q2). exists p. split; [apply in_app_iff; left; exact Q1|exact Q2].
    - rewrite E. cbn [bind snd] in *. exists path, out. split; [reflexivity|]. destruct P as (P1 & P2 & P3 & P4 & _ & P6 & P7).
      split; [exact P1|]. split; [exact P2|]. split; [apply P3; lia|]. split; [apply P4; lia|]. split; [exact P6|exact P7].
  Qed.

  (** chords between sample points and the curve *)
  Lemma axis_len (f g : f32 * f32) : Rabs (B2R (fst g) - B2R (fst f)) <= dist2 f g /\ Rabs (B2R (snd g) - B2R (snd f)) <= dist2 f g.
  Proof.
    unfold dist2. split; rewrite Rabs_minus_sym, <- sqrt_Rsqr_abs; apply sqrt_le_1_alt; unfold Rsqr.
    - pose proof (Rle_0_sqr (B2R (snd f) - B2R (snd g))). unfold Rsqr in H. lra.
    - pose proof (Rle_0_sqr (B2R (fst f) - B2R (fst g))). unfold Rsqr in H. lra.
  Qed.

  Lemma chord_ok j l : (0 <= j < n)%Z -> 0 <= l <= 1 ->
    let t := (IZR j + l) / IZR n in
    0 <= t <= 1 /\ Rabs (lerpx (pt (tt j)) (pt (tt (j + 1))) l - cx t) <= 2 - / 15 /\ Rabs (lerpy (pt (tt j)) (pt (tt (j + 1))) l - cy t) <= 2 - / 15.
  Proof.
    intros Hj Hl t. destruct (segments_ok s e a b Hs He Ha Hb) as (Hn & HL). fold n in Hn, HL.
    assert (N3 : 3 <= IZR n) by (apply IZR_le; lia). set (h := / IZR n).
    assert (h0 : 0 < h) by (apply Rinv_0_lt_compat; lra).
    pose proof (frac_ok j ltac:(lia)) as F0. pose proof (frac_ok (j + 1) ltac:(lia)) as F1. rewrite plus_IZR in F1.
    assert (Et : t = IZR j / IZR n + l * h) by (unfold t, h, Rdiv; ring).
    assert (E1 : IZR (j + 1) / IZR n = IZR j / IZR n + h) by (rewrite plus_IZR; unfold h, Rdiv; ring).
    unfold Rdiv in F1. rewrite Rmult_plus_distr_r, Rmult_1_l in F1. fold (Rdiv (IZR j) (IZR n)) in F1. fold h in F1.
    destruct (sample_ok j ltac:(lia)) as (_ & (X0 & Y0) & _). destruct (sample_ok (j + 1)%Z ltac:(lia)) as (_ & (X1 & Y1) & _). rewrite E1 in X1, Y1.
    set (L := dist2 s a + dist2 a b + dist2 b e) in *.
    assert (HH : 3 / 4 * L * (h * h) <= 1.35).
    { apply Rle_trans with (3 / 4 * (9 / 5 * (IZR n * IZR n)) * (h * h)); [apply Rmult_le_compat_r; [nra|lra]|].
      replace (3 / 4 * (9 / 5 * (IZR n * IZR n)) * (h * h)) with (27 / 20 * ((IZR n * h) * (IZR n * h))) by field.
      unfold h. rewrite Rinv_r by lra. lra. }
    destruct (axis_len s a) as (Lx1 & Ly1). destruct (axis_len a b) as (Lx2 & Ly2). destruct (axis_len b e) as (Lx3 & Ly3).
    split; [rewrite Et; split; [apply Rplus_le_le_0_compat; [lra|apply Rmult_le_pos; lra]|nra]|]. rewrite Et.
    assert (Ax : forall p0 p1 p2 p3 u v, Rabs (p1 - p0) + Rabs (p2 - p1) + Rabs (p3 - p2) <= L ->
      Rabs (u - bez p0 p1 p2 p3 (IZR j / IZR n)) <= / 15 + / 2 -> Rabs (v - bez p0 p1 p2 p3 (IZR j / IZR n + h)) <= / 15 + / 2 ->
      Rabs (u + l * (v - u) - bez p0 p1 p2 p3 (IZR j / IZR n + l * h)) <= 2 - / 15).
    { intros p0 p1 p2 p3 u v HQ Hu Hv. pose proof (bez_chord_le p0 p1 p2 p3 (IZR j / IZR n) h l L ltac:(lra) ltac:(lra) ltac:(lra) Hl HQ) as K.
      apply Rabs_le_inv in K, Hu, Hv. revert K Hu Hv. generalize (bez p0 p1 p2 p3 (IZR j / IZR n)) (bez p0 p1 p2 p3 (IZR j / IZR n + h)) (bez p0 p1 p2 p3 (IZR j / IZR n + l * h)).
      intros q0 q1 q K Hu Hv. assert (W : - (/ 15 + / 2) <= (1 - l) * (u - q0) + l * (v - q1) <= / 15 + / 2) by (clear - Hl Hu Hv; split; nra).
      apply Rabs_le. replace (u + l * (v - u) - q) with ((1 - l) * (u - q0) + l * (v - q1) - (q - ((1 - l) * q0 + l * q1))) by ring. lra. }
    split; apply Ax; try assumption; unfold L; lra.
  Qed.
End Curve.
