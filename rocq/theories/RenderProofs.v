(** Proofs about the rendering of histograms. *)
From Flocq Require Import Core BinarySingleNaN.
From Coq Require Import Reals Lra.
From Verif Require Import Base BaseProofs RasterProofs GeomProofs SuppressProofs Float FloatProofs FloatErr LineModel LineSpec LineProofs ClampModel HogModel HogProofs HogCellsModel
  RenderModel RenderSpec.
Local Ltac Zify.zify_post_hook ::= idtac.
Open Scope Z_scope.
Local Notation rn := (rnd 24 128).

Lemma rn_abs r m : 0 <= m <= 2 ^ 24 -> (Rabs r <= IZR m)%R -> (Rabs (rn r) <= IZR m)%R.
Proof.
  intros Hm H. apply Rabs_le_inv in H. apply Rabs_le. rewrite <- opp_IZR in *.
  rewrite <- (rnd_int 24 128 m), <- (rnd_int 24 128 (- m)) by lia. split; apply (rnd_le 24 128); tauto.
Qed.
Lemma big32 m : 0 <= m <= 2 ^ 60 -> (IZR m <= bpow radix2 (128 - 1))%R.
Proof. intros H. apply Rle_trans with (bpow radix2 60); [change (bpow radix2 60) with (IZR (2 ^ 60)); apply IZR_le; lia|apply bpow_le; lia]. Qed.
Lemma int32_R z : Z.abs z <= 2 ^ 24 -> is_finite (of_int z : f32) = true /\ B2R (of_int z : f32) = IZR z.
Proof.
  intros H. destruct (dy_int 24 128 z) as (F & R); [split; lia|lia|]. split; [exact F|]. rewrite R. change (bpow radix2 0) with 1%R. ring.
Qed.

(** ** a line between points of moderate size never panics *)
Definition moderate (x : f32) : Prop := is_finite x = true /\ (Rabs (B2R x) <= IZR (2 ^ 22))%R.
Lemma moderate_i32 x : moderate x -> - 2 ^ 22 <= i32_of_f32 x <= 2 ^ 22.
Proof.
  intros (F & B). unfold i32_of_f32. rewrite to_int_R by first [assumption | exact emax32].
  apply Rabs_le_inv in B. rewrite <- opp_IZR in B. destruct B as (B1 & B2). apply Ztrunc_le in B1, B2. rewrite Ztrunc_IZR in B1, B2. unfold zclamp. lia.
Qed.
Lemma moderate_points a b : moderate (fst a) -> moderate (snd a) -> moderate (fst b) -> moderate (snd b) -> exists pts, bres_points a b = Ok pts.
Proof.
  intros A1 A2 B1 B2. rewrite bres_points_raw.
  apply moderate_i32 in A1, A2, B1, B2. destruct a as (x0, y0), b as (x1, y1). cbn [fst snd] in *. cbv zeta.
  assert (G : forall u0 v0 u1 v1 st, - 2 ^ 22 <= i32_of_f32 u0 <= 2 ^ 22 -> - 2 ^ 22 <= i32_of_f32 v0 <= 2 ^ 22 ->
    - 2 ^ 22 <= i32_of_f32 u1 <= 2 ^ 22 -> - 2 ^ 22 <= i32_of_f32 v1 <= 2 ^ 22 ->
    let s := bres_raw u0 v0 u1 v1 st in
    exists pts, bres_run (Z.to_nat (b_end_x s - b_x s + 1) + 1) s = Ok pts).
  { intros u0 v0 u1 v1 st U0 V0 U1 V1 s. rewrite Nat.add_1_r.
    unfold s, bres_raw. cbn [b_end_x b_x].
    apply bres_run_ok; cbn [b_end_x b_x b_y b_y_step]; try lia.
    destruct (flt v0 v1); reflexivity. }
  destruct (flt (fabs (fsub x1 x0)) (fabs (fsub y1 y0))).
  - destruct (flt y1 y0); apply G; assumption.
  - destruct (flt x1 x0); apply G; assumption.
Qed.

Lemma firstn_next {X} (l : list X) n s : nth_error l n = Some s -> firstn (S n) l = firstn n l ++ [s].
Proof.
  revert n. induction l as [|a l IH]; intros [|n] H; try discriminate; [cbn in H; injection H as ->; reflexivity|]. cbn [firstn app]. f_equal. apply IH. exact H.
Qed.

Lemma inner_slice_at len l0 l1 l2 x1 x2 : 1 <= l0 -> 0 <= x1 < l1 -> 0 <= x2 < l2 -> len = l0 * l1 * l2 -> len < 2 ^ 64 ->
  inner_slice len l0 l1 x1 x2 = Ok ((x2 * l1 + x1) * l0).
Proof.
  intros H0 H1 H2 HL HB. unfold inner_slice, offset.
  assert (K : (x2 * l1 + x1) * l0 + l0 <= len).
  { assert (x2 * l1 + x1 + 1 <= l1 * l2) by nia. nia. }
  assert (P1 : 0 <= x2 * l1) by nia. assert (P2 : 0 <= x2 * l1 * l0) by nia. assert (P3 : 0 <= x1 * l0) by nia.
  assert (P4 : x2 * l1 <= x2 * l1 * l0) by nia.
  assert (P5 : (x2 * l1 + x1) * l0 = x2 * l1 * l0 + x1 * l0) by ring.
  rewrite usz_ok by lia. cbn [bind]. rewrite usz_ok by lia. cbn [bind]. rewrite usz_ok by lia. cbn [bind].
  rewrite usz_ok by lia. cbn [bind]. rewrite usz_ok by lia. cbn [bind]. rewrite usz_ok by lia. cbn [bind].
  rewrite (proj2 (Z.leb_le _ len)) by lia. cbn [assert bind]. f_equal. lia.
Qed.

Section Render.
  Context (sin cos : f32 -> f32) (Hsin : bounded_trig sin) (Hcos : bounded_trig cos).

  Lemma ray_end_ok w h theta : 0 <= w <= 2 ^ 20 -> 0 <= h <= 2 ^ 20 -> is_finite theta = true ->
    moderate (fst (middle w h)) /\ moderate (snd (middle w h)) /\ moderate (fst (ray_end sin cos w h theta)) /\ moderate (snd (ray_end sin cos w h theta)).
  Proof.
    intros Hw Hh Ft. unfold middle, ray_end. cbn [fst snd]. cbv zeta.
    assert (C : forall z, 0 <= z <= 2 ^ 20 -> is_finite (of_int (z / 2) : f32) = true /\ (Rabs (B2R (of_int (z / 2) : f32)) <= IZR (2 ^ 20))%R).
    { intros z Hz. assert (0 <= z / 2 <= 2 ^ 20) by (split; [apply Z.div_pos; lia|apply Z.div_le_upper_bound; lia]).
      destruct (int32_R (z / 2)) as (F & R); [lia|]. split; [exact F|]. rewrite R. rewrite <- abs_IZR. apply IZR_le. lia. }
    destruct (C w Hw) as (Fw & Rw). destruct (C h Hh) as (Fh & Rh).
    destruct (int32_R (Z.max w h)) as (Fm & Rm); [lia|]. destruct (int32_R 2) as (F2 & R2); [lia|].
    assert (Q : (Rabs (IZR (Z.max w h) / 2) <= IZR (2 ^ 20))%R).
    { rewrite Rabs_pos_eq; [|apply Rmult_le_pos; [apply IZR_le; lia|lra]]. assert (IZR (Z.max w h) <= IZR (2 ^ 20))%R by (apply IZR_le; lia). assert (0 <= IZR (Z.max w h))%R by (apply IZR_le; lia). lra. }
    destruct (fdiv_R 24 128 (of_int (Z.max w h)) (of_int 2) Fm) as (Fs & Rs). { rewrite R2. lra. } { rewrite Rm, R2. eapply Rle_trans; [exact Q|]. apply big32. lia. }
    set (r := fdiv (of_int (Z.max w h)) (of_int 2)) in *. assert (Br : (Rabs (B2R r) <= IZR (2 ^ 20))%R) by (rewrite Rs, Rm, R2; apply rn_abs; [lia|exact Q]). clearbody r.
    assert (M : forall (r' t c : f32), is_finite r' = true -> (Rabs (B2R r') <= IZR (2 ^ 20))%R -> is_finite t = true -> (Rabs (B2R t) <= 2)%R -> is_finite c = true -> (Rabs (B2R c) <= IZR (2 ^ 20))%R ->
      moderate (fadd c (fmul r' t))).
    { intros r' t c Fr' Br' Ftt Bt Fc Bc.
      assert (P : (Rabs (B2R r' * B2R t) <= IZR (2 ^ 21))%R).
      { rewrite Rabs_mult. replace (IZR (2 ^ 21)) with (IZR (2 ^ 20) * 2)%R by (rewrite <- mult_IZR; reflexivity). apply Rmult_le_compat; auto using Rabs_pos. }
      destruct (fmul_R 24 128 r' t Fr' Ftt) as (Fp & Rp). { eapply Rle_trans; [exact P|]. apply big32. lia. }
      assert (Bp : (Rabs (B2R (fmul r' t)) <= IZR (2 ^ 21))%R) by (rewrite Rp; apply rn_abs; [lia|exact P]).
      assert (S : (Rabs (B2R c + B2R (fmul r' t)) <= IZR (2 ^ 22))%R).
      { eapply Rle_trans; [apply Rabs_triang|]. apply Rle_trans with (IZR (2 ^ 20) + IZR (2 ^ 21))%R; [lra|]. rewrite <- plus_IZR. apply IZR_le. lia. }
      destruct (fadd_R 24 128 c (fmul r' t) Fc Fp) as (Fa & Ra). { eapply Rle_trans; [exact S|]. apply big32. lia. }
      split; [exact Fa|]. rewrite Ra. apply rn_abs; [lia|exact S]. }
    assert (L : (IZR (2 ^ 20) <= IZR (2 ^ 22))%R) by (apply IZR_le; lia).
    destruct (Hsin theta Ft) as (Fsin & Bsin). destruct (Hcos theta Ft) as (Fcos & Bcos).
    split; [split; [exact Fw|lra]|]. split; [split; [exact Fh|lra]|]. split; apply M; try assumption.
    - unfold fneg. now rewrite is_finite_Bopp.
    - unfold fneg. rewrite B2R_Bopp, Rabs_Ropp. exact Br.
  Qed.

  Notation onr := (on_ray sin cos).
  Lemma draw_ray_ok (im : image Z) theta c : wf im -> iw im <= 2 ^ 20 -> ih im <= 2 ^ 20 -> is_finite theta = true ->
    exists out, draw_ray sin cos im theta c = Ok out /\ wf out /\ iw out = iw im /\ ih out = ih im /\
      forall x y p, get im x y = Some p -> get out x y = Some (if onr (iw im) (ih im) theta x y then c else p).
  Proof.
    intros W Hw Hh Ft. destruct (ray_end_ok (iw im) (ih im) theta) as (M1 & M2 & M3 & M4); [destruct W; lia|destruct W as (_ & ? & _); lia|exact Ft|].
    destruct (moderate_points (middle (iw im) (ih im)) (ray_end sin cos (iw im) (ih im) theta) M1 M2 M3 M4) as (pts & E).
    destruct (draw_line_ok (fun _ => c) im (middle (iw im) (ih im)) (ray_end sin cos (iw im) (ih im) theta) pts) as (out & D & (W' & E1 & E2 & R)).
    { split; [exact W|]. lia. } { exact E. }
    exists out. split; [exact D|]. split; [exact W'|]. split; [exact E1|]. split; [exact E2|].
    intros x y p G. destruct (R x y p G) as (R1 & R2). unfold on_ray, on_line. rewrite E.
    destruct (existsb (fun q => (fst q =? x) && (snd q =? y)) pts) eqn:X.
    - apply existsb_exists in X. destruct X as ((a, b) & I & Q). cbn [fst snd] in Q. apply R1. assert (a = x /\ b = y) as (<- & <-) by lia. exact I.
    - apply R2. intros I. rewrite <- Bool.not_true_iff_false in X. apply X. apply existsb_exists. exists (x, y). split; [exact I|]. cbn [fst snd]. lia.
  Qed.

  (** ** directions *)
  Lemma pi32_R : is_finite pi32 = true /\ (Rabs (B2R pi32) <= 4)%R /\ is_finite (fmul (of_int 2) pi32) = true /\ (Rabs (B2R (fmul (of_int 2) pi32)) <= 8)%R.
  Proof.
    assert (E : B2SF pi32 = SpecFloat.S754_finite false 13176795 (-22)) by (vm_compute; reflexivity).
    assert (P : is_finite pi32 = true /\ (Rabs (B2R pi32) <= 4)%R).
    { destruct pi32 as [s|s| |s m e B]; try discriminate E. cbn [B2SF] in E. injection E as -> -> ->. split; [reflexivity|].
      cbn [B2R cond_Zopp]. unfold F2R. cbn [Fnum Fexp]. change (bpow radix2 (-22)) with (/ 4194304)%R. apply Rabs_le. lra. }
    destruct P as (F & B). split; [exact F|]. split; [exact B|]. destruct (int32_R 2) as (F2 & R2); [lia|].
    assert (Q : (Rabs (B2R (of_int 2 : f32) * B2R pi32) <= 8)%R). { rewrite R2, Rabs_mult, (Rabs_pos_eq 2) by lra. lra. }
    destruct (fmul_R 24 128 (of_int 2) pi32 F2 F) as (Fm & Rm). { eapply Rle_trans; [exact Q|]. apply (big32 8). lia. }
    split; [exact Fm|]. rewrite Rm. apply (rn_abs _ 8); [lia|exact Q].
  Qed.
  Lemma direction_ok signed n b : 0 <= b < n -> n <= 2 ^ 20 -> is_finite (bucket_direction signed n b) = true /\ is_finite (fadd (bucket_direction signed n b) pi32) = true.
  Proof.
    intros Hb Hn. destruct pi32_R as (F & B & F2 & B2). unfold bucket_direction.
    assert (A : exists a : f32, (if signed then fmul (of_int 2) pi32 else pi32) = a /\ is_finite a = true /\ (Rabs (B2R a) <= 8)%R).
    { destruct signed; eexists; split; try reflexivity; split; try assumption. lra. }
    destruct A as (a & -> & Fa & Ba). destruct (int32_R b) as (Fb & Rb); [lia|]. destruct (int32_R n) as (Fn & Rn); [lia|].
    assert (Pb : (0 <= IZR b)%R) by (apply IZR_le; lia). assert (Pn : (1 <= IZR n)%R) by (apply IZR_le; lia). assert (Bb : (IZR b <= IZR (2 ^ 20))%R) by (apply IZR_le; lia).
    assert (Q : (Rabs (B2R a * B2R (of_int b : f32)) <= IZR (2 ^ 23))%R).
    { rewrite Rabs_mult, Rb, (Rabs_pos_eq (IZR b)) by lra. replace (IZR (2 ^ 23)) with (8 * IZR (2 ^ 20))%R by (rewrite <- mult_IZR; reflexivity). apply Rmult_le_compat; auto using Rabs_pos. }
    destruct (fmul_R 24 128 a (of_int b) Fa Fb) as (Fm & Rm). { eapply Rle_trans; [exact Q|]. apply big32. lia. }
    assert (Bm : (Rabs (B2R (fmul a (of_int b))) <= IZR (2 ^ 23))%R) by (rewrite Rm; apply rn_abs; [lia|exact Q]).
    assert (Qd : (Rabs (B2R (fmul a (of_int b)) / B2R (of_int n : f32)) <= IZR (2 ^ 23))%R).
    { rewrite Rn. unfold Rdiv. rewrite Rabs_mult. rewrite (Rabs_pos_eq (/ IZR n)) by (left; apply Rinv_0_lt_compat; lra).
      rewrite <- (Rmult_1_r (IZR (2 ^ 23))). apply Rmult_le_compat; auto using Rabs_pos; [left; apply Rinv_0_lt_compat; lra|]. rewrite <- Rinv_1. apply Rinv_le_contravar; lra. }
    destruct (fdiv_R 24 128 (fmul a (of_int b)) (of_int n) Fm) as (Fd & Rd). { rewrite Rn. lra. } { eapply Rle_trans; [exact Qd|]. apply big32. lia. }
    split; [exact Fd|]. assert (Bd : (Rabs (B2R (fdiv (fmul a (of_int b)) (of_int n))) <= IZR (2 ^ 23))%R) by (rewrite Rd; apply rn_abs; [lia|exact Qd]).
    assert (S : (Rabs (B2R (fdiv (fmul a (of_int b)) (of_int n)) + B2R pi32) <= IZR (2 ^ 24))%R).
    { eapply Rle_trans; [apply Rabs_triang|]. apply Rle_trans with (IZR (2 ^ 23) + 4)%R; [lra|]. rewrite <- plus_IZR. apply IZR_le. lia. }
    destruct (fadd_R 24 128 (fdiv (fmul a (of_int b)) (of_int n)) pi32 Fd F) as (Fs & _); [|exact Fs]. eapply Rle_trans; [exact S|]. apply big32. lia.
  Qed.

  (** ** one star: painting the buckets in turn *)
  Notation onb := (on_bucket sin cos).
  Fixpoint paint (on : Z -> bool) (hist : list f32) (b : Z) (v : Z) : Z :=
    match hist with
    | [] => v
    | s :: hist => paint on hist (b + 1) (if on b then clamp_f32_u8 s else v)
    end.
  Lemma paint_app on l l' b v : paint on (l ++ l') b v = paint on l' (b + zlen l) (paint on l b v).
  Proof.
    revert b v. induction l as [|s l IH]; intros b v; cbn [app paint]; [f_equal; unfold zlen; cbn; lia|].
    rewrite IH. f_equal. rewrite zlen_cons. lia.
  Qed.
  Lemma star_paint hist signed (im : image Z) : wf im -> iw im <= 2 ^ 20 -> ih im <= 2 ^ 20 -> zlen hist <= 2 ^ 20 ->
    exists out, draw_star sin cos hist signed im = Ok out /\ wf out /\ iw out = iw im /\ ih out = ih im /\
      forall x y p, get im x y = Some p -> get out x y = Some (paint (fun b => onb (iw im) (ih im) signed (zlen hist) b x y) hist 0 p).
  Proof.
    intros W Hw Hh Hn. unfold draw_star. cbv zeta.
    set (P := fun (k : Z) (o : image Z) => wf o /\ iw o = iw im /\ ih o = ih im /\
      forall x y p, get im x y = Some p -> get o x y = Some (paint (fun b => onb (iw im) (ih im) signed (zlen hist) b x y) (firstn (Z.to_nat k) hist) 0 p)).
    match goal with |- context [for_range 0 ?n ?b ?s0] => destruct (for_range_ind P 0 n b s0) as (out & E & (W' & E1 & E2 & R)) end.
    - apply zlen_nonneg.
    - repeat split; try apply W. intros x y p G. exact G.
    - intros b o Hb (Wo & O1 & O2 & Ro). destruct (znth_some hist b ltac:(lia)) as (s & Es). rewrite (proj2 (vget_ok hist b s) Es). cbn [bind].
      assert (Fn : firstn (Z.to_nat (b + 1)) hist = firstn (Z.to_nat b) hist ++ [s]).
      { replace (Z.to_nat (b + 1)) with (S (Z.to_nat b)) by lia. apply firstn_next. unfold znth in Es. replace (0 <=? b) with true in Es by lia. exact Es. }
      assert (Lf : zlen (firstn (Z.to_nat b) hist) = b) by (unfold zlen in *; rewrite firstn_length; lia).
      destruct (direction_ok signed (zlen hist) b Hb Hn) as (D1 & D2).
      assert (Fin : forall o', (wf o' /\ iw o' = iw im /\ ih o' = ih im) ->
        (forall x y p, get o x y = Some p -> get o' x y = Some (if onb (iw im) (ih im) signed (zlen hist) b x y then clamp_f32_u8 s else p)) -> P (b + 1) o').
      { intros o' (A1 & A2 & A3) A4. split; [exact A1|]. split; [exact A2|]. split; [exact A3|]. intros x y p G. rewrite (A4 x y _ (Ro x y p G)).
        rewrite Fn, paint_app, Lf. cbn [paint]. reflexivity. }
      destruct signed.
      + change (fdiv (fmul (fmul (of_int 2) pi32) (of_int b)) (of_int (zlen hist))) with (bucket_direction true (zlen hist) b).
        destruct (draw_ray_ok o (bucket_direction true (zlen hist) b) (clamp_f32_u8 s)) as (o' & Eo & Wo' & Q1 & Q2 & Q3); [exact Wo|lia|lia|exact D1|].
        exists o'. split; [exact Eo|]. apply Fin; [split; [exact Wo'|lia]|]. intros x y p G. rewrite (Q3 x y p G). rewrite O1, O2. unfold on_bucket. cbn [negb andb]. rewrite Bool.orb_false_r. reflexivity.
      + change (fdiv (fmul pi32 (of_int b)) (of_int (zlen hist))) with (bucket_direction false (zlen hist) b).
        destruct (draw_ray_ok o (bucket_direction false (zlen hist) b) (clamp_f32_u8 s)) as (o' & Eo & Wo' & Q1 & Q2 & Q3); [exact Wo|lia|lia|exact D1|]. rewrite Eo. cbn [bind].
        destruct (draw_ray_ok o' (fadd (bucket_direction false (zlen hist) b) pi32) (clamp_f32_u8 s)) as (o2 & Eo2 & Wo2 & T1 & T2 & T3); [exact Wo'|lia|lia|exact D2|].
        exists o2. split; [exact Eo2|]. apply Fin; [split; [exact Wo2|lia]|]. intros x y p G. rewrite (T3 x y _ (Q3 x y p G)). rewrite Q1, Q2, O1, O2. unfold on_bucket. cbn [negb andb].
        destruct (onr (iw im) (ih im) (bucket_direction false (zlen hist) b) x y), (onr (iw im) (ih im) (fadd (bucket_direction false (zlen hist) b) pi32) x y); reflexivity.
    - exists out. split; [exact E|]. split; [exact W'|]. split; [exact E1|]. split; [exact E2|]. intros x y p G. rewrite (R x y p G).
      rewrite firstn_all2 by (unfold zlen; lia). reflexivity.
  Qed.

  (** what painting leaves *)
  Lemma paint_cases on hist b v :
    (exists c s, b <= c < b + zlen hist /\ znth hist (c - b) = Some s /\ paint on hist b v = clamp_f32_u8 s /\ on c = true /\ forall c', c < c' < b + zlen hist -> on c' = false) \/
    (forall c, b <= c < b + zlen hist -> on c = false) /\ paint on hist b v = v.
  Proof.
    revert b v. induction hist as [|s hist IH]; intros b v; cbn [paint]; [right; split; [intros c Hc; unfold zlen in Hc; cbn in Hc; lia|reflexivity]|].
    rewrite zlen_cons. destruct (IH (b + 1) (if on b then clamp_f32_u8 s else v)) as [(c & t & A1 & A2 & A3 & A4 & A5)|(A1 & A2)].
    - left. exists c, t. split; [lia|]. split; [replace (c - b) with (c - (b + 1) + 1) by lia; rewrite znth_cons_S by lia; replace (c - (b + 1) + 1 - 1) with (c - (b + 1)) by lia; exact A2|]. split; [exact A3|]. split; [exact A4|]. intros c' Hc'. apply A5. lia.
    - rewrite A2. destruct (on b) eqn:E.
      + left. exists b, s. pose proof (zlen_nonneg hist). split; [lia|]. split; [rewrite Z.sub_diag; reflexivity|]. split; [reflexivity|]. split; [exact E|]. intros c' Hc'. apply A1. lia.
      + right. split; [|reflexivity]. intros c Hc. destruct (Z.eq_dec c b) as [->|D]; [exact E|]. apply A1. lia.
  Qed.
  (** the same rays painted again leave nothing of what was there *)
  Lemma paint_twice on h1 h2 v : zlen h1 = zlen h2 -> paint on h2 0 (paint on h1 0 v) = paint on h2 0 v.
  Proof.
    intros L. destruct (paint_cases on h1 0 v) as [(c & s & A1 & _ & _ & A4 & _)|(_ & ->)]; [|reflexivity].
    assert (K : forall l b a a', (exists c, b <= c < b + zlen l /\ on c = true) -> paint on l b a = paint on l b a').
    { induction l as [|t l IH]; intros b a a' (d & D1 & D2); [unfold zlen in D1; cbn in D1; lia|]. rewrite zlen_cons in D1. cbn [paint].
      destruct (on b) eqn:Eb; [reflexivity|]. apply IH. exists d. split; [|exact D2]. destruct (Z.eq_dec d b) as [->|]; [congruence|lia]. }
    apply K. exists c. split; [lia|exact A4].
  Qed.
  Lemma paint_value w h signed hist x y : star_value sin cos w h signed hist x y (paint (fun b => onb w h signed (zlen hist) b x y) hist 0 0).
  Proof.
    destruct (paint_cases (fun b => onb w h signed (zlen hist) b x y) hist 0 0) as [(c & s & A1 & A2 & A3 & A4 & A5)|(A1 & A2)].
    - left. exists c, s. rewrite Z.sub_0_r in A2. split; [lia|]. split; [exact A2|]. split; [exact A3|]. split; [exact A4|]. intros b' Hb'. apply A5. lia.
    - right. split; [intros b Hb; apply A1; lia|exact A2].
  Qed.
  Lemma star_value_fun w h signed hist x y v v' : star_value sin cos w h signed hist x y v -> star_value sin cos w h signed hist x y v' -> v = v'.
  Proof.
    intros [(b & s & A1 & A2 & A3 & A4 & A5)|(A1 & A2)] [(b' & s' & B1 & B2 & B3 & B4 & B5)|(B1 & B2)].
    - assert (b = b') as <-. { destruct (Z.lt_trichotomy b b') as [L|[L|L]]; [|exact L|]; exfalso; [rewrite A5 in B4 by lia|rewrite B5 in A4 by lia]; discriminate. }
      congruence.
    - rewrite B1 in A4 by lia. discriminate.
    - rewrite A1 in B4 by lia. discriminate.
    - congruence.
  Qed.

  (** ** the whole picture *)
  Definition shown (w h : Z) (signed : bool) (D : option (list f32)) (out : image Z) : Prop :=
    wf out /\ iw out = w /\ ih out = h /\
    forall x y, 0 <= x < w -> 0 <= y < h ->
      get out x y = Some (match D with None => 0 | Some hist => paint (fun b => onb w h signed (zlen hist) b x y) hist 0 0 end).
  Lemma star_over w h signed D hist out : w <= 2 ^ 20 -> h <= 2 ^ 20 -> zlen hist <= 2 ^ 20 ->
    (forall d, D = Some d -> zlen d = zlen hist) -> shown w h signed D out ->
    exists out', draw_star sin cos hist signed out = Ok out' /\ shown w h signed (Some hist) out'.
  Proof.
    intros Hw Hh Hn HD (W & E1 & E2 & R). destruct (star_paint hist signed out W ltac:(lia) ltac:(lia) Hn) as (o & E & Wo & O1 & O2 & Ro).
    exists o. split; [exact E|]. split; [exact Wo|]. split; [lia|]. split; [lia|]. intros x y Hx Hy. rewrite (Ro x y _ (R x y Hx Hy)). rewrite E1, E2. f_equal.
    destruct D as [d|]; [|reflexivity]. rewrite (HD d eq_refl). apply paint_twice. apply HD. reflexivity.
  Qed.
  Lemma cell_len data l0 l1 l2 x y : 0 <= l0 -> 0 <= x < l1 -> 0 <= y < l2 -> zlen data = l0 * l1 * l2 -> zlen (cell_hist data l0 l1 x y) = l0.
  Proof.
    intros H0 Hx Hy HL. unfold cell_hist, zlen in *. rewrite firstn_length, skipn_length.
    assert (K1 : 0 <= y * l1 + x) by nia. assert (K2 : y * l1 + x + 1 <= l1 * l2) by nia. set (k := y * l1 + x) in *. clearbody k.
    assert (0 <= k * l0) by nia. assert (k * l0 + l0 <= l0 * l1 * l2) by nia. set (m := k * l0) in *. clearbody m. rewrite <- HL in *. lia.
  Qed.
  Lemma render_ok side data l0 l1 l2 signed : 0 <= side -> 1 <= l0 <= 2 ^ 20 -> 0 <= l1 < 2 ^ 32 -> 0 <= l2 < 2 ^ 32 ->
    l1 * side <= 2 ^ 20 -> l2 * side <= 2 ^ 20 -> zlen data = l0 * l1 * l2 -> zlen data < 2 ^ 64 ->
    exists out, render_hist_grid sin cos side data l0 l1 l2 signed = Ok out /\
      shown (l1 * side) (l2 * side) signed (if (l1 =? 0) || (l2 =? 0) then None else Some (cell_hist data l0 l1 (l1 - 1) (l2 - 1))) out.
  Proof.
    intros Hs H0 H1 H2 Hw Hh HL HB. unfold render_hist_grid. rewrite !Z.mod_small by lia. rewrite !chk_u_ok by nia. cbn [bind].
    set (w := l1 * side) in *. set (h := l2 * side) in *.
    set (P := fun y (o : image Z) => shown w h signed (if (l1 =? 0) || (y =? 0) then None else Some (cell_hist data l0 l1 (l1 - 1) (y - 1))) o).
    match goal with |- context [for_range 0 l2 ?b ?s0] => destruct (for_range_ind P 0 l2 b s0) as (out & E & R) end.
    - lia.
    - unfold P. rewrite Bool.orb_true_r. assert (0 <= w /\ 0 <= h) as (w0 & h0) by (unfold w, h; nia). split; [apply wf_new; lia|]. rewrite iw_new, ih_new. split; [reflexivity|]. split; [reflexivity|].
      intros x y Hx Hy. unfold new_image. rewrite get_gen_in by lia. reflexivity.
    - intros y o Hy I. rewrite Z.mod_small by lia. rewrite chk_u_ok by (unfold h in *; nia). cbn [bind].
      set (Q := fun x (o' : image Z) => shown w h signed (if x =? 0 then (if (l1 =? 0) || (y =? 0) then None else Some (cell_hist data l0 l1 (l1 - 1) (y - 1))) else Some (cell_hist data l0 l1 (x - 1) y)) o').
      match goal with |- context [for_range 0 l1 ?b ?s0] => destruct (for_range_ind Q 0 l1 b s0) as (out & E & R) end.
      + lia.
      + exact I.
      + intros x o' Hx I'. rewrite Z.mod_small by lia. rewrite chk_u_ok by (unfold w in *; nia). cbn [bind].
        assert (A : (x * side + side <=? iw o') && (y * side + side <=? ih o') = true).
        { destruct I' as (_ & -> & -> & _). unfold w, h. assert (x * side + side <= l1 * side) by nia. assert (y * side + side <= l2 * side) by nia. lia. }
        rewrite A. cbn [assert bind]. rewrite (inner_slice_at (zlen data) l0 l1 l2 x y) by (try assumption; lia). cbn [bind].
        change (slice data ((y * l1 + x) * l0) l0) with (cell_hist data l0 l1 x y).
        assert (Lx : zlen (cell_hist data l0 l1 x y) = l0) by (apply (cell_len data l0 l1 l2); try assumption; lia).
        unfold Q in I'. match type of I' with shown _ _ _ ?D _ => destruct (star_over w h signed D (cell_hist data l0 l1 x y) o' Hw Hh ltac:(lia)) as (o2 & E2 & S2) end.
        { intros d Hd. rewrite Lx. destruct (x =? 0) eqn:X0.
          - destruct ((l1 =? 0) || (y =? 0)) eqn:Y0; [discriminate|]. injection Hd as <-. apply (cell_len data l0 l1 l2); try assumption; lia.
          - injection Hd as <-. apply (cell_len data l0 l1 l2); try assumption; lia. }
        { exact I'. }
        exists o2. split; [exact E2|]. unfold Q. replace (x + 1 =? 0) with false by lia. replace (x + 1 - 1) with x by lia. exact S2.
      + exists out. split; [exact E|]. unfold P. replace (y + 1 =? 0) with false by lia. rewrite Bool.orb_false_r. replace (y + 1 - 1) with y by lia.
        unfold Q in R. destruct (l1 =? 0) eqn:L1; [|exact R]. cbn [orb] in R. exact R.
    - exists out. split; [exact E|]. exact R.
  Qed.
End Render.
