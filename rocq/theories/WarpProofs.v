(** Proofs about interpolation and warping. *)
From Flocq Require Import Core BinarySingleNaN Sterbenz.
From Coq Require Import Reals Lra Psatz.
From Verif Require Import Base BaseProofs Float FloatProofs FloatErr ClampModel TemplateProofs FContrastProofs WuModel WuSpec WuProofs.
From Verif Require Import RasterProofs ProjModel WarpModel WarpSpec.
Local Ltac Zify.zify_post_hook ::= idtac.
Local Open Scope R_scope.
Local Notation rn := (rnd 24 128).
Local Notation MAXF := (bpow radix2 128).

Lemma half_R : is_finite half = true /\ B2R half = / 2.
Proof. split; [reflexivity|]. destruct (dy_dyadic 24 128 (-1) 1) as (_ & R); [split; lia|lia|]. unfold half. rewrite R. change (bpow radix2 (-1)) with (/ 2). lra. Qed.
Lemma neg_half_R : is_finite (fneg half) = true /\ B2R (fneg half) = - / 2.
Proof. destruct half_R as (F & R). unfold fneg. rewrite B2R_Bopp, R, is_finite_Bopp. split; [exact F|reflexivity]. Qed.
Lemma floor32 (x : f32) : is_finite x = true -> is_finite (ffloor x) = true /\ B2R (ffloor x) = IZR (Zfloor (B2R x)).
Proof. intros F. destruct (nearby_R 24 128 mode_DN x F) as (A & B). split; [exact A|]. unfold ffloor. rewrite B. reflexivity. Qed.

Lemma sign_neg (f : f32) : Bsign f = true -> B2R f <= 0.
Proof.
  intros E. destruct f as [s|s| |s m e h]; try (cbn; lra). cbn [Bsign] in E. subst s.
  unfold B2R. apply F2R_le_0. exact (Pos2Z.neg_is_nonpos m).
Qed.
(** sums that may overflow *)
Lemma add_cases (f g : f32) : is_finite f = true -> is_finite g = true -> 0 <= B2R f -> 0 <= B2R g ->
  (is_finite (fadd f g) = true /\ B2R (fadd f g) = rn (B2R f + B2R g)) \/
  (fadd f g = B754_infinity false /\ MAXF <= rn (B2R f + B2R g)).
Proof.
  intros Ff Fg Pf Pg. pose proof (Bplus_correct 24 128 _ _ mode_NE f g Ff Fg) as C.
  cbn [round_mode] in C. fold (rn (B2R f + B2R g)) in C.
  assert (P : 0 <= rn (B2R f + B2R g)) by (apply rnd_ge0; lra). rewrite (Rabs_pos_eq _ P) in C.
  destruct (Rlt_bool_spec (rn (B2R f + B2R g)) (bpow radix2 128)) as [L|L].
  - left. destruct C as (C1 & C2 & _). auto.
  - right. split; [|exact L]. destruct C as (C1 & C2). unfold fadd.
    assert (S : Bsign f = false).
    { destruct (Bsign f) eqn:E; [|reflexivity]. exfalso.
      pose proof (sign_neg f E). pose proof (sign_neg g (eq_sym C2)).
      assert (Z : B2R f + B2R g = 0) by lra. rewrite Z, (rnd_0 24 128) in L. pose proof (bpow_gt_0 radix2 128). lra. }
    rewrite S in C1. destruct (Bplus mode_NE f g) as [s|s| |s m e h]; cbn in C1; try discriminate. congruence.
Qed.

Lemma fle_inf (w : f32) : is_finite w = true -> fle w (B754_infinity false) = true.
Proof. intros F. destruct w as [s|s| |s m e h]; try discriminate; try reflexivity; destruct s; reflexivity. Qed.

Lemma rn_mono a b : a <= b -> rn a <= rn b.
Proof. intros H. apply (rnd_le 24 128); exact H. Qed.
Lemma rn_self (x : f32) : rn (B2R x) = B2R x.
Proof. unfold rnd. apply round_generic; [apply valid_rnd_N|apply generic_format_B2R]. Qed.

Lemma fle_R (a b : f32) : is_finite a = true -> is_finite b = true -> fle a b = Rle_bool (B2R a) (B2R b).
Proof. intros. unfold fle. apply (Bleb_correct 24 128); assumption. Qed.
Lemma Rle_bool_IZR a b : Rle_bool (IZR a) (IZR b) = (a <=? b)%Z.
Proof. destruct (Rle_bool_spec (IZR a) (IZR b)) as [L|L]; [apply le_IZR in L|apply lt_IZR in L]; symmetry; [apply Z.leb_le; exact L|apply Z.leb_gt; exact L]. Qed.
Lemma Rlt_bool_IZR a b : Rlt_bool (IZR a) (IZR b) = (a <? b)%Z.
Proof. destruct (Rlt_bool_spec (IZR a) (IZR b)) as [L|L]; [apply lt_IZR in L|apply le_IZR in L]; symmetry; [apply Z.ltb_lt; exact L|apply Z.ltb_ge; exact L]. Qed.

(** [left + j >= width as f32] *)
Lemma edge (f : f32) k j w : is_finite f = true -> B2R f = IZR k -> (0 <= k)%Z -> (0 <= j <= 4)%Z -> (0 <= w <= 2 ^ 24)%Z ->
  fle (of_int w) (fadd f (of_int j)) = (w <=? k + j)%Z /\
  ((k + j < w)%Z -> is_finite (fadd f (of_int j)) = true /\ B2R (fadd f (of_int j)) = IZR (k + j)).
Proof.
  intros F E Hk Hj Hw. destruct (int32_R w Hw) as (Fw & Rw). destruct (int32_R j) as (Fj & Rj); [lia|].
  destruct (add_cases f (of_int j) F Fj) as [(Fs & Rs)|(Is & Rs)].
  - rewrite E. apply IZR_le. lia.
  - rewrite Rj. apply IZR_le. lia.
  - rewrite E, Rj, <- plus_IZR in Rs. rewrite fle_R by assumption. rewrite Rw, Rs.
    destruct (Z_le_gt_dec (k + j) (2 ^ 24)) as [L|L].
    + rewrite (rnd_int 24 128) by lia. rewrite Rle_bool_IZR. split; [reflexivity|]. auto.
    + split; [|lia]. replace (w <=? k + j)%Z with true by lia. apply Rle_bool_true.
      apply Rle_trans with (rn (IZR (2 ^ 24))); [rewrite (rnd_int 24 128) by lia; apply IZR_le; lia|].
      apply rn_mono, IZR_le. lia.
  - rewrite E, Rj, <- plus_IZR in Rs. rewrite Is. split; [|intros L; exfalso].
    + rewrite fle_inf by assumption. symmetry. apply Z.leb_le.
      destruct (Z.le_gt_cases w (k + j)) as [L|L]; [exact L|]. exfalso.
      rewrite (rnd_int 24 128) in Rs by lia. assert (IZR (k + j) <= IZR (2 ^ 24)) by (apply IZR_le; lia).
      pose proof (bpow_le radix2 25 128 ltac:(lia)). change (bpow radix2 25) with 33554432 in H0. change (IZR (2 ^ 24)) with 16777216 in H. lra.
    + rewrite (rnd_int 24 128) in Rs by lia. assert (IZR (k + j) <= IZR (2 ^ 24)) by (apply IZR_le; lia).
      pose proof (bpow_le radix2 25 128 ltac:(lia)). change (bpow radix2 25) with 33554432 in H0. change (IZR (2 ^ 24)) with 16777216 in H. lra.
Qed.

Lemma flt_0 (f : f32) k : is_finite f = true -> B2R f = IZR k -> flt f (of_int 0) = (k <? 0)%Z.
Proof. intros F E. destruct (int32_R 0) as (F0 & R0); [lia|]. rewrite flt32_R by assumption. rewrite E, R0. apply Rlt_bool_IZR. Qed.
Lemma u32_R (f : f32) k : is_finite f = true -> B2R f = IZR k -> (0 <= k < 2 ^ 32)%Z -> u32_of f = k.
Proof.
  intros F E H. unfold u32_of. rewrite (to_int_R 24 128) by (first [assumption|reflexivity]). rewrite E, Ztrunc_IZR. unfold zclamp. lia.
Qed.

(** the fractional part is exact *)
Lemma frac_exact (x l : f32) : is_finite x = true -> is_finite l = true -> 0 <= B2R x -> B2R l = IZR (Zfloor (B2R x)) ->
  is_finite (fsub x l) = true /\ B2R (fsub x l) = B2R x - IZR (Zfloor (B2R x)) /\ 0 <= B2R (fsub x l) < 1.
Proof.
  intros Fx Fl P E. pose proof (Zfloor_lb (B2R x)) as L. pose proof (Zfloor_ub (B2R x)) as U. pose proof f32_big as BIG.
  assert (D : 0 <= B2R x - B2R l < 1) by (rewrite E; lra).
  destruct (fsub_R 24 128 x l Fx Fl) as (F & R). { rewrite Rabs_pos_eq; lra. }
  assert (G : generic_format radix2 (SpecFloat.fexp 24 128) (B2R x - B2R l)).
  { destruct (Z.le_gt_cases (Zfloor (B2R x)) 0) as [Z|Z].
    - assert (Zfloor (B2R x) = 0)%Z. { apply Z.le_antisymm; [exact Z|]. apply Zfloor_lub. exact P. }
      rewrite E, H, Rminus_0_r. apply generic_format_B2R.
    - apply sterbenz; [apply fexp_correct; reflexivity|exact _|apply generic_format_B2R|apply generic_format_B2R|].
      rewrite E in *. assert (1 <= IZR (Zfloor (B2R x))) by (apply IZR_le; lia). lra. }
  assert (R' : B2R (fsub x l) = B2R x - B2R l). { rewrite R. unfold rnd. apply round_generic; [apply valid_rnd_N|exact G]. }
  split; [exact F|]. rewrite R', E in *. lra.
Qed.

(** ** nearest *)
Lemma near_index (x : f32) : is_finite x = true -> exists k, nearest_to (B2R x) k /\
  (if flt x (fneg half) then (k < 0)%Z else (0 <= k)%Z /\ u32_of (fadd x half) = Z.min k (2 ^ 32 - 1)).
Proof.
  intros F. destruct half_R as (Fh & Rh). destruct neg_half_R as (Fn & Rn). rewrite flt32_R by assumption. rewrite Rn.
  unfold nearest_to. set (X := B2R x). assert (PX : 0 <= (Rabs X + 1) / 16777216) by (pose proof (Rabs_pos X); lra).
  destruct (Rlt_bool_spec X (- / 2)) as [L|L].
  - exists (Zfloor (X + / 2)). pose proof (Zfloor_lb (X + / 2)). pose proof (Zfloor_ub (X + / 2)). split.
    + apply Rle_trans with (/ 2); [apply Rabs_le|]; lra.
    + apply lt_IZR. lra.
  - assert (Main : is_finite (fadd x half) = true -> B2R (fadd x half) = rn (X + / 2) ->
      exists k, Rabs (IZR k - X) <= / 2 + (Rabs X + 1) / 16777216 /\ (0 <= k)%Z /\ u32_of (fadd x half) = Z.min k (2 ^ 32 - 1)).
    { intros Fv Rv. set (V := rn (X + / 2)) in *. assert (PV : 0 <= V) by (apply rnd_ge0; lra).
      pose proof (f32_err (X + / 2)) as Er. fold V in Er. pose proof (Rabs_triang X (/ 2)) as T. rewrite (Rabs_pos_eq (/ 2)) in T by lra.
      exists (Zfloor V). pose proof (Zfloor_lb V). pose proof (Zfloor_ub V). split.
      - set (e := (Rabs X + 1) / 16777216) in *. assert (Ee : Rabs (V - (X + / 2)) <= e).
        { eapply Rle_trans; [exact Er|]. unfold e. lra. }
        clearbody e V. apply Rabs_le_inv in Ee. apply Rabs_le. lra.
      - split; [apply Zfloor_lub; exact PV|]. unfold u32_of. rewrite (to_int_R 24 128) by (first [assumption|reflexivity]).
        rewrite Rv, Ztrunc_floor by exact PV. assert (0 <= Zfloor V)%Z by (apply Zfloor_lub; exact PV). unfold zclamp. lia. }
    pose proof f32_big as BIG.
    destruct (Rle_or_lt X 33554432) as [S|S].
    + destruct (fadd_R 24 128 x half F Fh) as (Fv & Rv). { fold X. rewrite Rh. apply Rabs_le. lra. }
      rewrite Rh in Rv. fold X in Rv. apply Main; assumption.
    + destruct (add_cases x half F Fh ltac:(fold X; lra) ltac:(lra)) as [(Fv & Rv)|(Iv & Rv)].
      * rewrite Rh in Rv. fold X in Rv. apply Main; assumption.
      * exists (Zfloor X). rewrite Rh in Rv. fold X in Rv. pose proof (Zfloor_lb X). pose proof (Zfloor_ub X).
        assert (RX : Rabs X = X) by (apply Rabs_pos_eq; lra). rewrite RX.
        assert (Big : 4294967296 <= X).
        { apply Rnot_lt_le. intros N. assert (K : rn (X + / 2) <= rn (IZR (2 ^ 33))) by (apply rn_mono; change (IZR (2 ^ 33)) with 8589934592; lra).
          assert (Es : rn (IZR (2 ^ 33)) = 8589934592).
          { unfold rnd. rewrite round_generic; [reflexivity|apply valid_rnd_N|]. change (IZR (2 ^ 33)) with (bpow radix2 33). apply generic_format_bpow. cbn. lia. }
          rewrite Es in K. pose proof (bpow_le radix2 34 128 ltac:(lia)) as B. change (bpow radix2 34) with 17179869184 in B. lra. }
        split; [apply Rabs_le; lra|]. split; [apply Zfloor_lub; lra|]. rewrite Iv. unfold u32_of. cbn [to_int].
        assert (2 ^ 32 <= Zfloor X)%Z by (apply Zfloor_lub; change (IZR (2 ^ 32)) with 4294967296; lra). lia.
Qed.

Lemma nearest_ok (im : image pixel) x y d : wf im -> (iw im < 2 ^ 32)%Z -> (ih im < 2 ^ 32)%Z -> is_finite x = true -> is_finite y = true ->
  exists o, interpolate_nearest im x y d = Ok o /\ nearest_value im (B2R x) (B2R y) d o.
Proof.
  intros W Hw Hh Fx Fy. destruct (near_index x Fx) as (i & Ni & Ci). destruct (near_index y Fy) as (j & Nj & Cj).
  assert (Def : inb im i j = false -> exists o, Ok d = Ok o /\ nearest_value im (B2R x) (B2R y) d o).
  { intros Z. exists d. split; [reflexivity|]. exists i, j. split; [exact Ni|]. split; [exact Nj|].
    destruct (get im i j) as [p|] eqn:G; [|reflexivity]. apply get_inb in G. apply inb_false in Z. lia. }
  unfold interpolate_nearest.
  destruct (flt x (fneg half)). { cbn [orb]. apply Def. apply inb_false. lia. }
  destruct (flt y (fneg half)). { cbn [orb]. apply Def. apply inb_false. lia. }
  cbn [orb]. destruct Ci as (Pi & Ei). destruct Cj as (Pj & Ej). rewrite Ei, Ej.
  destruct (iw im <=? Z.min i (2 ^ 32 - 1))%Z eqn:E1. { cbn [orb]. apply Def. apply inb_false. apply Z.leb_le in E1. lia. }
  destruct (ih im <=? Z.min j (2 ^ 32 - 1))%Z eqn:E2. { cbn [orb]. apply Def. apply inb_false. apply Z.leb_le in E2. lia. }
  cbn [orb]. apply Z.leb_gt in E1, E2. replace (Z.min i (2 ^ 32 - 1)) with i by lia. replace (Z.min j (2 ^ 32 - 1)) with j by lia.
  destruct (get_some im i j W ltac:(lia) ltac:(lia)) as (p & G). exists p. split; [apply get_pixel_ok; exact G|].
  exists i, j. split; [exact Ni|]. split; [exact Nj|]. rewrite G. reflexivity.
Qed.

(** ** linear interpolation of one channel *)
Lemma lerp_weighted hi w u v : hi = 255%Z \/ hi = 65535%Z -> (0 <= u <= hi)%Z -> (0 <= v <= hi)%Z -> unit_weight w ->
  lerp hi w u v = weighted_channel_sum hi v u w (fsub (of_int 1) w).
Proof.
  intros Hh Hu Hv Hw. unfold lerp, weighted_channel_sum.
  destruct (mix_R v u w ltac:(lia) ltac:(lia) Hw) as (Fm & _).
  destruct (unit_R w Hw) as (Fw & Bw). destruct (int32_R 1) as (F1 & R1); [lia|].
  destruct (int32_R u) as (Fu & Ru); [lia|]. destruct (int32_R v) as (Fv & Rv); [lia|]. pose proof f32_big as BIG.
  assert (Bu : 0 <= IZR u <= 65535) by (split; apply IZR_le; lia). assert (Bv : 0 <= IZR v <= 65535) by (split; apply IZR_le; lia).
  destruct (fsub_R 24 128 (of_int 1) w F1 Fw) as (Fc & Rc). { rewrite R1. apply Rabs_le. lra. }
  assert (C01 : 0 <= B2R (fsub (of_int 1) w) <= 1). { rewrite Rc, R1. split; [apply rnd_ge0; lra|apply rnd_le1; lra]. }
  set (c := fsub (of_int 1) w) in *. clearbody c.
  assert (L1 : 0 <= IZR v * B2R w <= 65535) by nra. assert (L2 : 0 <= IZR u * B2R c <= 65535) by nra.
  destruct (fmul_R 24 128 (of_int v) w Fv Fw) as (Fa & Ra). { rewrite Rv, Rabs_pos_eq by lra. lra. }
  destruct (fmul_R 24 128 (of_int u) c Fu Fc) as (Fb & Rb). { rewrite Ru, Rabs_pos_eq by lra. lra. }
  destruct (fmul_R 24 128 w (of_int v) Fw Fv) as (Fa' & Ra'). { rewrite Rv, Rmult_comm, Rabs_pos_eq by lra. lra. }
  destruct (fmul_R 24 128 c (of_int u) Fc Fu) as (Fb' & Rb'). { rewrite Ru, Rmult_comm, Rabs_pos_eq by lra. lra. }
  rewrite Rv in Ra, Ra'. rewrite Ru in Rb, Rb'. rewrite Rmult_comm in Ra', Rb'.
  assert (BA : 0 <= rn (IZR v * B2R w) <= 65535).
  { split; [apply rnd_ge0; lra|]. rewrite <- (rnd_int 24 128 65535) by lia. apply (rnd_le 24 128); lra. }
  assert (BB : 0 <= rn (IZR u * B2R c) <= 65535).
  { split; [apply rnd_ge0; lra|]. rewrite <- (rnd_int 24 128 65535) by lia. apply (rnd_le 24 128); lra. }
  destruct (fadd_R 24 128 _ _ Fa Fb) as (F & R). { rewrite Ra, Rb. rewrite Rabs_pos_eq by lra. lra. }
  destruct (fadd_R 24 128 _ _ Fb' Fa') as (F' & R'). { rewrite Ra', Rb'. rewrite Rabs_pos_eq by lra. lra. }
  rewrite !clamp_R by (assumption || lia). rewrite R, R', Ra, Ra', Rb, Rb'. f_equal. f_equal. f_equal. ring.
Qed.

Definition lin (w : R) (u v : R) : R := (1 - w) * u + w * v.
Lemma lerp_bounds hi w u v : hi = 255%Z \/ hi = 65535%Z -> (0 <= u <= hi)%Z -> (0 <= v <= hi)%Z -> unit_weight w ->
  (0 <= lerp hi w u v <= hi)%Z /\ lin (B2R w) (IZR u) (IZR v) - (1 + / 32) <= IZR (lerp hi w u v) <= lin (B2R w) (IZR u) (IZR v) + / 32.
Proof.
  intros Hh Hu Hv Hw. rewrite lerp_weighted by assumption.
  destruct (weighted_bounds hi v u w Hh Hv Hu Hw) as (_ & A & B). split; [exact A|].
  unfold mix in B. unfold lin. lra.
Qed.
Lemma lerp_0 hi w u v : hi = 255%Z \/ hi = 65535%Z -> (0 <= u <= hi)%Z -> (0 <= v <= hi)%Z -> unit_weight w -> B2R w = 0 -> lerp hi w u v = u.
Proof. intros Hh Hu Hv Hw E. rewrite lerp_weighted by assumption. apply (weighted_ends hi v u w Hh Hv Hu Hw). exact E. Qed.

Lemma znth_map2 f p q k a b : znth p k = Some a -> znth q k = Some b -> znth (map2 f p q) k = Some (f a b).
Proof.
  unfold map2. revert q k. induction p as [|u p IH]; intros [|v q] k A B.
  - apply znth_range in A. cbn in A. lia.
  - apply znth_range in A. cbn in A. lia.
  - apply znth_range in B. cbn in B. lia.
  - pose proof (znth_range _ _ _ A). destruct (Z.eqb_spec k 0) as [->|N].
    + rewrite znth_cons_0 in A, B. inversion A; inversion B; subst. cbn [combine map]. rewrite znth_cons_0. reflexivity.
    + rewrite znth_cons_S in A, B by lia. cbn [combine map]. rewrite znth_cons_S by lia. apply IH; assumption.
Qed.
Lemma zlen_map2 f p q : zlen p = zlen q -> zlen (map2 f p q) = zlen p.
Proof. unfold map2, zlen. rewrite map_length, combine_length. lia. Qed.

Lemma bilinear_channel hi a b c d u v : hi = 255%Z \/ hi = 65535%Z ->
  (0 <= a <= hi)%Z -> (0 <= b <= hi)%Z -> (0 <= c <= hi)%Z -> (0 <= d <= hi)%Z -> unit_weight u -> unit_weight v ->
  let o := lerp hi v (lerp hi u a b) (lerp hi u c d) in
  bilinear a b c d (B2R u) (B2R v) - (2 + / 16) <= IZR o <= bilinear a b c d (B2R u) (B2R v) + / 16.
Proof.
  intros Hh Ha Hb Hc Hd Hu Hv. cbv zeta.
  destruct (lerp_bounds hi u a b Hh Ha Hb Hu) as (R1 & B1). destruct (lerp_bounds hi u c d Hh Hc Hd Hu) as (R2 & B2).
  set (p := lerp hi u a b) in *. set (q := lerp hi u c d) in *. clearbody p q.
  destruct (lerp_bounds hi v p q Hh R1 R2 Hv) as (R3 & B3). set (o := lerp hi v p q) in *. clearbody o.
  unfold bilinear. fold (lin (B2R u) (IZR a) (IZR b)). fold (lin (B2R u) (IZR c) (IZR d)).
  set (A := lin (B2R u) (IZR a) (IZR b)) in *. set (C := lin (B2R u) (IZR c) (IZR d)) in *. clearbody A C.
  destruct (unit_R v Hv) as (_ & Bv). unfold lin in B3. set (V := B2R v) in *. clearbody V. clear - B1 B2 B3 Bv.
  assert (X : (1 - V) * (IZR p - A) + V * (IZR q - C) <= / 32) by nra.
  assert (Y : - (1 + / 32) <= (1 - V) * (IZR p - A) + V * (IZR q - C)) by nra.
  replace ((1 - V) * (IZR p - A) + V * (IZR q - C)) with ((1 - V) * IZR p + V * IZR q - ((1 - V) * A + V * C)) in X, Y by ring. lra.
Qed.
