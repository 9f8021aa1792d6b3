(** Proofs about orientation histograms: the whole image. *)
From Flocq Require Import Core BinarySingleNaN.
From Coq Require Import Reals Lra Psatz.
From Verif Require Import Base BaseProofs Float FloatProofs FloatErr TemplateProofs WuProofs WarpProofs FilterModel FilterSpec FilterProofs Props_Filter GradientModel GradientSpec GradientProofs.
From Verif Require Import HogModel HogSpec HogProofs HogCellsModel HogCellsSpec HogCellsProofs HogCellsProofs2 HogCellsProofs3.
Local Ltac Zify.zify_post_hook ::= idtac.
Local Open Scope R_scope.
Local Notation rn := (rnd 24 128).

(** ** The gradient images *)
Lemma filter_i32_ok (im : image (list Z)) data : channels 1 im -> zlen data = 9%Z ->
  exists out, filter_clamped_i32 im data = Ok out /\ forall x y, (0 <= x < iw im)%Z -> (0 <= y < ih im)%Z ->
    exists p, get_pixel out x y = Ok p /\ vget p 0 = Ok (zclamp (- 2 ^ 31) (2 ^ 31 - 1) (corr3 im data 0 x y)).
Proof.
  intros C L. unfold filter_clamped_i32.
  assert (K : kernel_new data 3 3 = Ok (mkKernel data 3 3)).
  { unfold kernel_new. rewrite L. reflexivity. }
  rewrite K. cbn [bind].
  destruct (c27_filter_integer (zclamp (- 2 ^ 31) (2 ^ 31 - 1)) 1 im data 3 3 _ ltac:(lia) C ltac:(lia) ltac:(lia) ltac:(lia) K) as (out & E & (O1 & O2 & O3 & O4)).
  exists out. split; [exact E|]. intros x y Hx Hy. destruct (O4 x y Hx Hy) as (p & Gp & Hp). exists p.
  split; [apply get_pixel_ok; exact Gp|]. apply vget_ok. rewrite Hp by lia. reflexivity.
Qed.
Lemma clamp32_id z : (Z.abs z <= 1020)%Z -> zclamp (- 2 ^ 31) (2 ^ 31 - 1) z = z.
Proof. intros. unfold zclamp. lia. Qed.

(** ** The magnitude *)
Lemma magnitude_R h v : (Z.abs h <= 1020)%Z -> (Z.abs v <= 1020)%Z ->
  let m := fsqrt (fadd (fmul (of_int h) (of_int h)) (fmul (of_int v) (of_int v))) : f32 in
  0 <= sqrt (IZR (h * h + v * v)) <= 1443 /\
  is_finite m = true /\ 0 <= B2R m <= 1444 /\ Rabs (B2R m - sqrt (IZR (h * h + v * v))) <= / 10000.
Proof.
  intros Hh Hv. cbv zeta.
  assert (D0 : dyk 24 128 0) by (split; lia).
  assert (Da : dy 0 h (of_int h : f32)) by (apply dy_int; [exact D0|lia]).
  assert (Db : dy 0 v (of_int v : f32)) by (apply dy_int; [exact D0|lia]).
  assert (Ma : dy (0 + 0) (h * h) (fmul (of_int h) (of_int h) : f32)) by (apply dy_mul; [exact D0|nia|assumption|assumption]).
  assert (Mb : dy (0 + 0) (v * v) (fmul (of_int v) (of_int v) : f32)) by (apply dy_mul; [exact D0|nia|assumption|assumption]).
  assert (A : dy (0 + 0) (h * h + v * v) (fadd (fmul (of_int h) (of_int h) : f32) (fmul (of_int v) (of_int v) : f32))).
  { apply dy_add; [exact D0|nia| |]; assumption. }
  destruct A as (Fa & Ra). change (bpow radix2 (0 + 0)) with 1 in Ra. rewrite Rmult_1_r in Ra.
  set (q := fadd (fmul (of_int h) (of_int h) : f32) (fmul (of_int v) (of_int v) : f32)) in *.
  assert (Q : 0 <= IZR (h * h + v * v) <= 1443 * 1443) by (rewrite <- mult_IZR; split; apply IZR_le; nia).
  assert (S : 0 <= sqrt (IZR (h * h + v * v)) <= 1443).
  { split; [apply sqrt_pos|]. rewrite <- (sqrt_square 1443) by lra. apply sqrt_le_1_alt. lra. }
  destruct (fsqrt_R 24 128 q Fa) as (Fs & Rs); [lra|]. rewrite Ra in Rs.
  split; [exact S|]. split; [exact Fs|]. rewrite Rs. split.
  - split; [rewrite <- (rnd_0 24 128); apply (rnd_le 24 128); lra|].
    replace 1444 with (rn 1444) by (apply (rnd_int 24 128 1444); lia). apply (rnd_le 24 128). lra.
  - eapply Rle_trans; [apply f32_err|]. rewrite Rabs_pos_eq by lra. lra.
Qed.

(** ** Sums *)
Lemma rsum_snoc f i : (0 <= i)%Z -> rsum_to (Z.to_nat (i + 1)) f = rsum_to (Z.to_nat i) f + f i.
Proof. intros H. replace (Z.to_nat (i + 1)) with (S (Z.to_nat i)) by lia. cbn [rsum_to]. rewrite Z2Nat.id by lia. reflexivity. Qed.
Lemma touch_count side c k : (1 <= side)%Z ->
  0 <= rsum_to k (fun x => ind (touches side x c)) <= IZR (zclamp 0 (2 * side) (Z.of_nat k - c * side + side)).
Proof.
  intros Hs. induction k as [|k IH]; cbn [rsum_to].
  - split; [lra|]. apply IZR_le. unfold zclamp. lia.
  - split; [destruct (ind_b (touches side (Z.of_nat k) c)) as [-> | ->]; lra|].
    apply Rle_trans with (IZR (zclamp 0 (2 * side) (Z.of_nat k - c * side + side)) + ind (touches side (Z.of_nat k) c)); [lra|].
    unfold ind, touches. destruct (Z.ltb_spec (Z.abs (Z.of_nat k - c * side)) side); [rewrite <- plus_IZR|rewrite Rplus_0_r]; apply IZR_le; unfold zclamp; lia.
Qed.
Lemma touch_count_le side c k : (1 <= side)%Z -> 0 <= rsum_to k (fun x => ind (touches side x c)) <= 2 * IZR side.
Proof.
  intros Hs. destruct (touch_count side c k Hs) as (A & B). split; [exact A|]. eapply Rle_trans; [exact B|].
  rewrite <- mult_IZR. apply IZR_le. unfold zclamp. lia.
Qed.

Section Whole.
  Context (atan2 : f32 -> f32 -> f32) (HA : atan2_ok atan2).
  Context (im : image (list Z)) (s : hog_spec).
  Let opt := options s.
  Let n := orientations opt.
  Let cs := cell_side opt.
  Let cw := cells_wide s.
  Let ch := cells_high s.
  Context (Hn : (1 <= n <= 4096)%Z) (Hcs : (1 <= cs <= 256)%Z) (Hcw' : (cw * cs = iw im)%Z) (Hch : (0 <= ch)%Z) (HL : (n * cw * ch < 2 ^ 64)%Z).
  Context (HW : (iw im <= 2 ^ 18)%Z) (HH : (ih im <= 2 ^ 18)%Z) (CI : channels 1 im) (U8 : u8_image im).
  Let A := IZR cs * IZR cs.
  Let W0 : (0 <= iw im)%Z. Proof. destruct CI as ((?&_&_)&_). assumption. Qed.
  Let H0 : (0 <= ih im)%Z. Proof. destruct CI as ((_&?&_)&_). assumption. Qed.
  Let Hcw : (0 <= cw)%Z. Proof. nia. Qed.
  Definition pixel_error : R := / 256 + (1444 * ((IZR (iw im) + IZR (ih im)) / IZR cs / 16777216 + IZR n / 131072 + 3 / 8000000) + / 10000) / A.

  Lemma cs_R : 1 <= IZR cs <= 256. Proof. split; apply IZR_le; lia. Qed.
  Lemma A_R : 1 <= A <= 65536. Proof. unfold A. pose proof cs_R. nra. Qed.

  Lemma dx_b x y : (Z.abs (sobel_dx im x y) <= 1020)%Z.
  Proof. pose proof (deriv_x_bound im 1 2 0 x y (proj1 CI) U8 ltac:(lia) ltac:(lia)). exact H. Qed.
  Lemma dy_b x y : (Z.abs (sobel_dy im x y) <= 1020)%Z.
  Proof. pose proof (deriv_y_bound im 1 2 0 x y (proj1 CI) U8 ltac:(lia) ltac:(lia)). exact H. Qed.

  Lemma hat_far x c : touches cs x c = false -> hat (IZR x / IZR cs - IZR c) = 0.
  Proof.
    intros T. apply hat_zero. unfold touches in T. assert (T' : (cs <= Z.abs (x - c * cs))%Z) by lia. clear T.
    pose proof cs_R. replace (IZR x / IZR cs - IZR c) with (IZR (x - c * cs) / IZR cs) by (rewrite minus_IZR, mult_IZR; field; lra).
    unfold Rdiv. rewrite Rabs_mult, (Rabs_pos_eq (/ IZR cs)) by (apply Rlt_le, Rinv_0_lt_compat; lra). rewrite <- abs_IZR.
    apply IZR_le in T'. apply Rmult_le_reg_r with (IZR cs); [lra|]. rewrite Rmult_assoc, Rinv_l by lra. lra.
  Qed.

  Definition hits (cx cy x y : Z) : R := ind (touches cs y cy) * ind (touches cs x cx).
  Lemma contribution_b o cx cy x y : (0 <= o < n)%Z -> 0 <= contribution im opt o cx cy x y <= hits cx cy x y * (1443 / A).
  Proof.
    intros Ho. unfold contribution. fold n cs. fold A. pose proof A_R as HA'.
    destruct (magnitude_R _ _ (dx_b x y) (dy_b x y)) as (M & _). cbv zeta in M |- *.
    set (mm := sqrt (IZR (sobel_dx im x y * sobel_dx im x y + sobel_dy im x y * sobel_dy im x y))) in *.
    pose proof (chat_bounds n (IZR n * direction (signed opt) (sobel_dx im x y) (sobel_dy im x y) / full_range (signed opt)) o ltac:(lia)) as Bo.
    set (O := circular_hat _ _ _) in *.
    pose proof (hat_bounds (IZR y / IZR cs - IZR cy)) as By. pose proof (hat_bounds (IZR x / IZR cs - IZR cx)) as Bx.
    assert (IA : 0 < / A) by (apply Rinv_0_lt_compat; lra).
    unfold hits. destruct (touches cs y cy) eqn:Ty.
    - destruct (touches cs x cx) eqn:Tx.
      + unfold ind. rewrite !Rmult_1_l. set (Y := hat _) in *. set (X := hat (IZR x / IZR cs - IZR cx)) in *.
        pose proof (unit_mul _ _ By Bx). pose proof (unit_mul _ _ H Bo) as B3. set (P := Y * X * O) in *.
        unfold Rdiv. clear - IA M B3. split; [apply Rmult_le_pos; [|lra]; apply Rmult_le_pos; lra|]. apply Rmult_le_compat_r; [lra|]. nra.
      + rewrite (hat_far x cx Tx). unfold ind, Rdiv. rewrite !Rmult_0_r, !Rmult_0_l. lra.
    - rewrite (hat_far y cy Ty). unfold ind, Rdiv. rewrite !Rmult_0_l. lra.
  Qed.

  (** one pixel *)
  Lemma pixel_step (g : list f32) (yi xi oi : interpolation) x y :
    (0 <= x < iw im)%Z -> (0 <= y < ih im)%Z ->
    bounded s g 7500 ->
    from_position (fdiv (of_int y) (of_int cs)) = Ok yi -> from_position (fdiv (of_int x) (of_int cs)) = Ok xi ->
    from_position_wrapping (fdiv (gradient_direction atan2 opt (of_int (sobel_dx im x y)) (of_int (sobel_dy im x y))) (orientation_bin_width opt)) n = Ok oi ->
    let h := of_int (sobel_dx im x y) : f32 in let v := of_int (sobel_dy im x y) : f32 in
    exists g', add_pixel s (of_int (cs * cs)) (fsqrt (fadd (fmul h h) (fmul v v))) yi xi oi g = Ok g' /\ bounded s g' 19068 /\
      forall o cx cy, in_grid s o cx cy -> exists e e', znth g (at_pos s o cx cy) = Some e /\ znth g' (at_pos s o cx cy) = Some e' /\
        Rabs (B2R e' - (B2R e + contribution im opt o cx cy x y)) <= hits cx cy x y * pixel_error.
  Proof.
    intros Hx Hy Bg Ey Ex Eo. cbv zeta.
    destruct (cell_inter y cs ltac:(lia) Hcs) as (yi' & Ey' & Gy & Py). rewrite Ey in Ey'. injection Ey' as <-.
    destruct (cell_inter x cs ltac:(lia) Hcs) as (xi' & Ex' & Gx & Px). rewrite Ex in Ex'. injection Ex' as <-.
    destruct (bin_inter atan2 HA opt _ _ (dx_b x y) (dy_b x y) Hn) as (oi' & Eo' & Go & I0 & I1 & Po). cbv zeta in *. fold n in Eo', I0, I1, Po. rewrite Eo in Eo'. injection Eo' as <-.
    destruct (magnitude_R _ _ (dx_b x y) (dy_b x y)) as (Mb & Fm & Bm & Em). cbv zeta in *.
    set (m := fsqrt _) in *.
    destruct (small_int (cs * cs) ltac:(nia)) as (FA & RA). rewrite mult_IZR in RA. fold A in RA. pose proof A_R as HA'.
    destruct (add_pixel_ok s ltac:(subst n opt; lia) Hcw HL g m (of_int (cs * cs)) A yi xi oi Bg Gy Gx Go I0 I1 Fm Bm RA ltac:(lra)) as (g' & E & Bg' & Gr).
    exists g'. split; [exact E|]. split; [exact Bg'|]. intros o cx cy I. destruct (Gr o cx cy I) as (e & e' & G1 & G2 & D). exists e, e'. split; [exact G1|]. split; [exact G2|].
    destruct I as (Io & _ & _). change (orientations (options s)) with n in Io.
    destruct (Py cy) as (Y1 & Y2 & Y3 & Y4). destruct (Px cx) as (X1 & X2 & X3 & X4). specialize (Po o Io).
    unfold contribution. fold n cs. fold A. cbv zeta.
    set (M := sqrt _) in *. set (C := circular_hat _ _ _) in *.
    assert (BC : 0 <= C <= 1) by (apply chat_bounds; lia).
    assert (EN : 0 <= entries yi cy * entries xi cx * (ind (index0 oi =? o)%Z + ind (index1 oi =? o)%Z) <= hits cx cy x y * 2).
    { assert (0 <= ind (index0 oi =? o)%Z + ind (index1 oi =? o)%Z <= 2) by (destruct (ind_b (index0 oi =? o)%Z) as [-> | ->], (ind_b (index1 oi =? o)%Z) as [-> | ->]; lra).
      unfold hits. split; [apply Rmult_le_pos; [apply Rmult_le_pos|]; lra|]. apply Rmult_le_compat; [apply Rmult_le_pos; lra|lra|apply Rmult_le_compat; lra|lra]. }
    assert (IA : 0 < / A) by (apply Rinv_0_lt_compat; lra).
    unfold hits, pixel_error in *. fold A. set (NE := entries yi cy * entries xi cx * (ind (index0 oi =? o)%Z + ind (index1 oi =? o)%Z)) in *.
    destruct (touches cs y cy) eqn:Ty; [destruct (touches cs x cx) eqn:Tx|].
    - change (ind true) with 1 in *. rewrite !Rmult_1_l in *.
      pose proof (hat_bounds (IZR y / IZR cs - IZR cy)) as BY. pose proof (hat_bounds (IZR x / IZR cs - IZR cx)) as BX.
      set (YT := hat _) in *. set (XT := hat (IZR x / IZR cs - IZR cx)) in *. set (Y := given yi cy) in *. set (X := given xi cx) in *. set (O := given oi o) in *.
      assert (QY : IZR y / IZR cs <= IZR (ih im) / IZR cs) by (pose proof cs_R; unfold Rdiv; apply Rmult_le_compat_r; [apply Rlt_le, Rinv_0_lt_compat; lra|apply IZR_le; lia]).
      assert (QX : IZR x / IZR cs <= IZR (iw im) / IZR cs) by (pose proof cs_R; unfold Rdiv; apply Rmult_le_compat_r; [apply Rlt_le, Rinv_0_lt_compat; lra|apply IZR_le; lia]).
      set (ey := IZR (ih im) / IZR cs / 16777216 + / 8000000). set (ex := IZR (iw im) / IZR cs / 16777216 + / 8000000). set (eo := IZR n / 131072 + / 8000000) in *.
      assert (Y1' : Rabs (Y - YT) <= ey) by (unfold ey; lra). assert (X1' : Rabs (X - XT) <= ex) by (unfold ex; lra).
      assert (PX : Rabs (Y * X - YT * XT) <= ex + ey).
      { replace (Y * X - YT * XT) with (Y * (X - XT) + (Y - YT) * XT) by ring. eapply Rle_trans; [apply Rabs_triang|]. rewrite !Rabs_mult, (Rabs_pos_eq Y), (Rabs_pos_eq XT) by lra.
        pose proof (Rabs_pos (X - XT)). pose proof (Rabs_pos (Y - YT)). clear - X1' Y1' Y2 BX H H1. nra. }
      pose proof (unit_mul Y X Y2 X2) as YX. pose proof (unit_mul YT XT BY BX) as YXT. pose proof (unit_mul _ _ YXT BC) as YXC.
      set (P := Y * X) in *. set (PT := YT * XT) in *.
      assert (K : Rabs (P * O * B2R m - PT * C * M) <= 1444 * (ex + ey + eo) + / 10000).
      { replace (P * O * B2R m - PT * C * M) with (P * B2R m * (O - C) + C * B2R m * (P - PT) + PT * C * (B2R m - M)) by ring.
        eapply Rle_trans; [apply Rabs_triang|]. eapply Rle_trans; [apply Rplus_le_compat_r, Rabs_triang|].
        rewrite !(Rabs_mult _ (_ - _)).
        rewrite (Rabs_pos_eq (P * B2R m)), (Rabs_pos_eq (C * B2R m)), (Rabs_pos_eq (PT * C)) by (try apply Rmult_le_pos; lra).
        assert (P * B2R m * Rabs (O - C) <= 1444 * eo) by (apply Rmult_le_compat; [apply Rmult_le_pos; lra|apply Rabs_pos|clear - YX Bm; nra|exact Po]).
        assert (C * B2R m * Rabs (P - PT) <= 1444 * (ex + ey)) by (apply Rmult_le_compat; [apply Rmult_le_pos; lra|apply Rabs_pos|clear - BC Bm; nra|exact PX]).
        assert (PT * C * Rabs (B2R m - M) <= 1 * / 10000) by (apply Rmult_le_compat; [apply Rmult_le_pos; lra|apply Rabs_pos|lra|exact Em]).
        lra. }
      assert (K' : Rabs (P * O * (B2R m / A) - PT * C * M / A) <= (1444 * (ex + ey + eo) + / 10000) / A).
      { replace (P * O * (B2R m / A) - PT * C * M / A) with ((P * O * B2R m - PT * C * M) * / A) by (unfold Rdiv; ring).
        rewrite Rabs_mult, (Rabs_pos_eq (/ A)) by lra. unfold Rdiv. apply Rmult_le_compat_r; lra. }
      replace ((IZR (iw im) + IZR (ih im)) / IZR cs / 16777216 + IZR n / 131072 + 3 / 8000000) with (ex + ey + eo) by (unfold ex, ey, eo, Rdiv; ring).
      set (KK := (1444 * (ex + ey + eo) + / 10000) / A) in *.
      apply Rabs_le_inv in K'. apply Rabs_le_inv in D. apply Rabs_le. lra.
    - change (ind true) with 1 in *. change (ind false) with 0 in *. rewrite (hat_far x cx Tx), (X4 ltac:(lra)) in *. unfold Rdiv in *. rewrite ?Rmult_0_r, ?Rmult_0_l, ?Rplus_0_r in *.
      apply Rabs_le_inv in D. apply Rabs_le. lra.
    - change (ind true) with 1 in *. change (ind false) with 0 in *. rewrite (hat_far y cy Ty), (Y4 ltac:(lra)) in *. unfold Rdiv in *. rewrite ?Rmult_0_r, ?Rmult_0_l, ?Rplus_0_r in *.
      apply Rabs_le_inv in D. apply Rabs_le. lra.
  Qed.

  (** the sums over the pixels before (x, y) in reading order *)
  Definition up_to (f : Z -> Z -> R) (y x : Z) : R :=
    rsum_to (Z.to_nat y) (fun y => rsum_to (Z.to_nat (iw im)) (fun x => f x y)) + rsum_to (Z.to_nat x) (fun x => f x y).

  Lemma rsum_le k f f' : (forall i, f i <= f' i) -> rsum_to k f <= rsum_to k f'.
  Proof. intros L. induction k; cbn [rsum_to]; [lra|]. specialize (L (Z.of_nat k)). lra. Qed.
  Lemma rsum_r k f c : rsum_to k (fun i => f i * c) = rsum_to k f * c.
  Proof. induction k; cbn [rsum_to]; [ring|]. rewrite IHk. ring. Qed.
  Lemma rsum_l k f c : rsum_to k (fun i => c * f i) = c * rsum_to k f.
  Proof. induction k; cbn [rsum_to]; [ring|]. rewrite IHk. ring. Qed.
  Lemma rsum_ext k f f' : (forall i, f i = f' i) -> rsum_to k f = rsum_to k f'.
  Proof. intros L. induction k; cbn [rsum_to]; [reflexivity|]. rewrite IHk, L. reflexivity. Qed.

  Lemma up_to_le f f' y x : (forall x y, f x y <= f' x y) -> up_to f y x <= up_to f' y x.
  Proof. intros L. unfold up_to. apply Rplus_le_compat; apply rsum_le; intros i; [apply rsum_le; intros j|]; apply L. Qed.
  Lemma up_to_r f c y x : up_to (fun x y => f x y * c) y x = up_to f y x * c.
  Proof. unfold up_to. rewrite rsum_r. rewrite (rsum_ext _ _ (fun y => rsum_to (Z.to_nat (iw im)) (fun x => f x y) * c)) by (intros; apply rsum_r). rewrite rsum_r. ring. Qed.
  Lemma up_to_hits cx cy y x : (0 <= y)%Z -> 0 <= up_to (hits cx cy) y x <= 4 * A.
  Proof.
    intros Hy. unfold up_to, hits. rewrite rsum_l.
    rewrite (rsum_ext (Z.to_nat y) _ (fun y => ind (touches cs y cy) * rsum_to (Z.to_nat (iw im)) (fun x => ind (touches cs x cx)))) by (intros; apply rsum_l).
    rewrite rsum_r. pose proof (touch_count_le cs cx (Z.to_nat (iw im)) ltac:(lia)) as TW. pose proof (touch_count_le cs cx (Z.to_nat x) ltac:(lia)) as TX.
    pose proof (touch_count_le cs cy (Z.to_nat (y + 1)) ltac:(lia)) as TY. rewrite rsum_snoc in TY by exact Hy.
    pose proof (touch_count_le cs cy (Z.to_nat y) ltac:(lia)) as TY'. cbn beta in *. pose proof cs_R.
    set (a := rsum_to (Z.to_nat y) _) in *. set (b := rsum_to (Z.to_nat (iw im)) _) in *. set (c := rsum_to (Z.to_nat x) _) in *.
    assert (I : 0 <= ind (touches cs y cy)) by (destruct (ind_b (touches cs y cy)) as [-> | ->]; lra). set (i := ind _) in *.
    unfold A. split; [apply Rplus_le_le_0_compat; apply Rmult_le_pos; lra|].
    apply Rle_trans with ((a + i) * (2 * IZR cs)); [|clear - TY H; nra].
    rewrite Rmult_plus_distr_r. apply Rplus_le_compat; apply Rmult_le_compat_l; lra.
  Qed.
  Lemma up_to_next f y x : (0 <= x)%Z -> up_to f y (x + 1) = up_to f y x + f x y.
  Proof. intros Hx. unfold up_to. rewrite rsum_snoc by exact Hx. ring. Qed.
  Lemma up_to_row f y : (0 <= y)%Z -> up_to f y (iw im) = up_to f (y + 1) 0.
  Proof. intros Hy. unfold up_to. rewrite (rsum_snoc _ y) by exact Hy. cbn. ring. Qed.

  Lemma error_total : 0 <= pixel_error /\ 4 * A * pixel_error <= A / 64 + (IZR (iw im) + IZR (ih im)) / (2900 * IZR cs) + IZR n / 22 + / 100 <= 1600.
  Proof.
    pose proof A_R as HA'. pose proof cs_R. unfold pixel_error.
    assert (BW : 0 <= IZR (iw im) <= 262144) by (split; apply IZR_le; lia). assert (BH : 0 <= IZR (ih im) <= 262144) by (split; apply IZR_le; lia).
    assert (BN : 1 <= IZR n <= 4096) by (split; apply IZR_le; lia).
    assert (IC : 0 < / IZR cs <= 1). { split; [apply Rinv_0_lt_compat; lra|]. rewrite <- Rinv_1. apply Rinv_le; lra. }
    assert (IA : 0 < / A) by (apply Rinv_0_lt_compat; lra).
    set (w := (IZR (iw im) + IZR (ih im)) * / IZR cs).
    assert (BQ : 0 <= w <= 524288) by (unfold w; clear - BW BH IC; nra).
    replace ((IZR (iw im) + IZR (ih im)) / IZR cs / 16777216) with (w / 16777216) by (unfold w; field; lra).
    replace ((IZR (iw im) + IZR (ih im)) / (2900 * IZR cs)) with (w / 2900) by (unfold w; field; lra).
    set (K := 1444 * (w / 16777216 + IZR n / 131072 + 3 / 8000000) + / 10000).
    assert (BK : 0 <= K) by (unfold K; lra).
    replace (4 * A * (/ 256 + K / A)) with (A / 64 + 4 * K) by (field; lra).
    split; [|unfold K; lra]. apply Rplus_le_le_0_compat; [lra|]. apply Rmult_le_pos; lra.
  Qed.

  Definition sofar (y x : Z) (g : list f32) : Prop := zlen g = (n * cw * ch)%Z /\
    forall o cx cy, in_grid s o cx cy -> exists e, znth g (at_pos s o cx cy) = Some e /\ is_finite e = true /\
      Rabs (B2R e - up_to (contribution im opt o cx cy) y x) <= up_to (hits cx cy) y x * pixel_error.

  Lemma at_pos_onto i : (0 <= i < n * cw * ch)%Z -> exists o cx cy, in_grid s o cx cy /\ at_pos s o cx cy = i.
  Proof.
    intros Hi. assert (P : (0 < cw)%Z) by nia.
    exists (i mod n)%Z, ((i / n) mod cw)%Z, (i / n / cw)%Z. unfold in_grid, at_pos. fold opt n cw ch.
    pose proof (Z.div_mod i n ltac:(lia)) as D1. pose proof (Z.mod_pos_bound i n ltac:(lia)) as M1.
    pose proof (Z.div_mod (i / n) cw ltac:(lia)) as D2. pose proof (Z.mod_pos_bound (i / n) cw P) as M2.
    assert (Q : (0 <= i / n < cw * ch)%Z). { split; [apply Z.div_pos; lia|]. apply Z.div_lt_upper_bound; lia. }
    assert (R : (0 <= i / n / cw < ch)%Z). { split; [apply Z.div_pos; lia|]. apply Z.div_lt_upper_bound; lia. }
    split; [lia|]. nia.
  Qed.

  Lemma sofar_bounded y x g : (0 <= y)%Z -> sofar y x g -> bounded s g 7500.
  Proof.
    intros Hy (L & F). split; [exact L|]. intros i v E. pose proof (znth_range g i v E) as Hi. rewrite L in Hi.
    destruct (at_pos_onto i Hi) as (o & cx & cy & I & <-). destruct (F o cx cy I) as (e & E' & Fe & K). rewrite E in E'. injection E' as <-.
    split; [exact Fe|]. pose proof (up_to_hits cx cy y x Hy) as T. destruct error_total as (P0 & P1). pose proof A_R as HA'.
    assert (C : 0 <= up_to (contribution im opt o cx cy) y x <= up_to (hits cx cy) y x * (1443 / A)).
    { destruct I as (Io & _). change (orientations (options s)) with n in Io. split.
      - replace 0 with (up_to (fun _ _ => 0 * 0) y x) by (rewrite (up_to_r (fun _ _ => 0)); ring). apply up_to_le. intros. destruct (contribution_b o cx cy x0 y0 Io). lra.
      - rewrite <- up_to_r. apply up_to_le. intros. apply contribution_b, Io. }
    set (t := up_to (hits cx cy) y x) in *. set (c := up_to (contribution im opt o cx cy) y x) in *.
    assert (C1 : c <= 5772). { apply Rle_trans with (4 * A * (1443 / A)); [|apply Req_le; field; lra]. apply Rle_trans with (1 := proj2 C). apply Rmult_le_compat_r; [|lra]. apply Rmult_le_pos; [lra|apply Rlt_le, Rinv_0_lt_compat; lra]. }
    assert (C2 : t * pixel_error <= 1600). { apply Rle_trans with (4 * A * pixel_error); [apply Rmult_le_compat_r; lra|lra]. }
    apply Rabs_le_inv in K. apply Rabs_le. lra.
  Qed.

  Lemma sofar_start : sofar 0 0 (map (fun _ => of_int 0 : f32) (zrange 0 (n * cw * ch))).
  Proof.
    assert (N : (0 <= n * cw * ch)%Z) by (apply Z.mul_nonneg_nonneg; [apply Z.mul_nonneg_nonneg|]; lia).
    split; [rewrite zlen_map, zlen_zrange; lia|]. intros o cx cy I. pose proof (at_pos_in s ltac:(subst n opt; lia) Hcw o cx cy I) as P. fold opt n cw ch in P.
    exists (of_int 0). rewrite znth_map, znth_zrange by lia. destruct (small_int 0) as (F & R); [lia|]. split; [reflexivity|]. split; [exact F|]. rewrite R.
    unfold up_to. cbn. rewrite !Rplus_0_r, Rminus_0_r, Rabs_R0, Rmult_0_l. lra.
  Qed.

  Theorem cell_histograms_ok : exists g, cell_histograms atan2 im s = Ok g /\ zlen g = (n * cw * ch)%Z /\
    forall o cx cy, in_grid s o cx cy -> exists e, znth g (at_pos s o cx cy) = Some e /\ is_finite e = true /\
      Rabs (B2R e - histogram im opt o cx cy) <= A / 64 + (IZR (iw im) + IZR (ih im)) / (2900 * IZR cs) + IZR n / 22 + / 100.
  Proof.
    unfold cell_histograms. fold opt. fold n cs cw ch.
    rewrite (usz_ok (n * cw)) by nia. cbn [bind]. rewrite (usz_ok (n * cw * ch)) by nia. cbn [bind]. rewrite (usz_ok (cs * cs)) by nia. cbn [bind].
    destruct (filter_i32_ok im sobel_h CI eq_refl) as (hor & Eh & Ph). rewrite Eh. cbn [bind].
    destruct (filter_i32_ok im sobel_v CI eq_refl) as (ver & Ev & Pv). rewrite Ev. cbn [bind].
    match goal with |- context [for_range 0 (ih im) ?b ?g0] => destruct (for_range_ind (fun y g => sofar y 0 g) 0 (ih im) b g0) as (g & E & (L & F)) end.
    - exact H0.
    - apply sofar_start.
    - intros y g Hy S. destruct (cell_inter y cs ltac:(lia) Hcs) as (yi & Ey & _). rewrite Ey. cbn [bind].
      match goal with |- exists s', for_range 0 (iw im) ?b ?g0 = _ /\ _ => destruct (for_range_ind (fun x g => sofar y x g) 0 (iw im) b g0) as (g' & E & S') end.
      + exact W0.
      + exact S.
      + intros x g1 Hx S1. destruct (cell_inter x cs ltac:(lia) Hcs) as (xi & Ex & _). rewrite Ex. cbn [bind].
        destruct (Ph x y Hx Hy) as (p & Gp & Vp). rewrite Gp. cbn [bind]. rewrite Vp. cbn [bind].
        destruct (Pv x y Hx Hy) as (q & Gq & Vq). rewrite Gq. cbn [bind]. rewrite Vq. cbn [bind].
        change sobel_h with [- (1); 0; 1; - (2); 0; 2; - (1); 0; 1]%Z. change sobel_v with [- (1); - (2); - (1); 0; 0; 0; 1; 2; 1]%Z.
        rewrite corr_dx, corr_dy. change (deriv_x 1 2 im 0 x y) with (sobel_dx im x y). change (deriv_y 1 2 im 0 x y) with (sobel_dy im x y).
        rewrite !clamp32_id by (apply dx_b || apply dy_b). cbv zeta.
        destruct (bin_inter atan2 HA opt _ _ (dx_b x y) (dy_b x y) Hn) as (oi & Eo & _). fold n in Eo. rewrite Eo. cbn [bind].
        destruct (pixel_step g1 yi xi oi x y Hx Hy (sofar_bounded y x g1 ltac:(lia) S1) Ey Ex Eo) as (g2 & E2 & (L2 & F2) & P2). cbv zeta in E2.
        exists g2. split; [exact E2|]. split; [exact L2|]. intros o cx cy I. destruct (P2 o cx cy I) as (e & e' & G1 & G2 & D). exists e'. split; [exact G2|].
        split; [apply (F2 _ _ G2)|]. destruct S1 as (_ & S1). destruct (S1 o cx cy I) as (e1 & G3 & _ & D3). rewrite G1 in G3. injection G3 as <-.
        rewrite !up_to_next by lia. rewrite Rmult_plus_distr_r. apply Rabs_le_inv in D. apply Rabs_le_inv in D3. apply Rabs_le. lra.
      + exists g'. split; [exact E|]. destruct S' as (L' & F'). split; [exact L'|]. intros o cx cy I. destruct (F' o cx cy I) as (e & G & Fe & D). exists e.
        split; [exact G|]. split; [exact Fe|]. rewrite !up_to_row in D by lia. exact D.
    - exists g. split; [exact E|]. split; [exact L|]. intros o cx cy I. destruct (F o cx cy I) as (e & G & Fe & D). exists e. split; [exact G|]. split; [exact Fe|].
      destruct error_total as (P0 & P1 & _). pose proof (up_to_hits cx cy (ih im) 0 H0) as T.
      assert (U : up_to (contribution im opt o cx cy) (ih im) 0 = histogram im opt o cx cy) by (unfold up_to, histogram; cbn [Z.to_nat rsum_to]; ring). rewrite U in D.
      eapply Rle_trans; [exact D|]. eapply Rle_trans; [|exact P1]. apply Rmult_le_compat_r; lra.
  Qed.
End Whole.
