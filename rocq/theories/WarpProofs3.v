(** Interpolation of pixels and warping. *)
From Flocq Require Import Core BinarySingleNaN.
From Coq Require Import Reals Lra Psatz.
From Verif Require Import Base BaseProofs Float FloatProofs FloatErr ClampModel TemplateProofs FContrastProofs WuModel WuSpec WuProofs.
From Verif Require Import RasterProofs ProjModel WarpModel WarpSpec WarpProofs WarpProofs2.
Local Ltac Zify.zify_post_hook ::= idtac.
Local Open Scope R_scope.
Local Notation rn := (rnd 24 128).

Lemma pixel_nth hi n p k a : pixel_ok hi n p -> znth p k = Some a -> (0 <= a <= hi)%Z.
Proof. intros (_ & H) E. apply H. eapply znth_In; exact E. Qed.
Lemma pixel_some hi n p k : pixel_ok hi n p -> (0 <= k < n)%Z -> exists a, znth p k = Some a /\ (0 <= a <= hi)%Z.
Proof. intros H Hk. destruct (znth_some p k) as (a & E); [destruct H; lia|]. exists a. split; [exact E|]. (eapply pixel_nth; [|eassumption]; eassumption). Qed.
Lemma nth_eq (p q : pixel) : zlen p = zlen q -> (forall k, (0 <= k < zlen p)%Z -> znth p k = znth q k) -> p = q.
Proof. intros L H. apply znth_ext; [unfold zlen in L; lia|exact H]. Qed.

Lemma znth_cubic hi u q0 : forall q1 q2 q3 k a b c d, znth q0 k = Some a -> znth q1 k = Some b -> znth q2 k = Some c -> znth q3 k = Some d ->
  znth (blend_cubic hi u q0 q1 q2 q3) k = Some (clamp_float 0 hi (cubic u (of_int a) (of_int b) (of_int c) (of_int d))).
Proof.
  induction q0 as [|v0 q0 IH]; intros q1 q2 q3 k a b c d A B C D; [apply znth_range in A; cbn in A; lia|].
  destruct q1 as [|v1 q1]; [apply znth_range in B; cbn in B; lia|]. destruct q2 as [|v2 q2]; [apply znth_range in C; cbn in C; lia|].
  destruct q3 as [|v3 q3]; [apply znth_range in D; cbn in D; lia|]. cbn [blend_cubic].
  pose proof (znth_range _ _ _ A). destruct (Z.eqb_spec k 0) as [->|N].
  - rewrite znth_cons_0 in *. inversion A; inversion B; inversion C; inversion D; subst. reflexivity.
  - rewrite znth_cons_S in * by lia. apply IH; assumption.
Qed.
Lemma zlen_cubic hi u q0 : forall q1 q2 q3, zlen q1 = zlen q0 -> zlen q2 = zlen q0 -> zlen q3 = zlen q0 -> zlen (blend_cubic hi u q0 q1 q2 q3) = zlen q0.
Proof.
  unfold zlen. induction q0 as [|v0 q0 IH]; intros [|v1 q1] [|v2 q2] [|v3 q3]; cbn [length]; intros A B C; try lia; [reflexivity|].
  cbn [blend_cubic length]. specialize (IH q1 q2 q3). lia.
Qed.
Lemma cubic_pixel_ok hi n u q0 q1 q2 q3 : hi = 255%Z \/ hi = 65535%Z -> unit_weight u ->
  pixel_ok hi n q0 -> pixel_ok hi n q1 -> pixel_ok hi n q2 -> pixel_ok hi n q3 ->
  let o := blend_cubic hi u q0 q1 q2 q3 in
  pixel_ok hi n o /\ cubic_pixel hi (B2R u) q0 q1 q2 q3 o /\ (B2R u = 0 -> o = q1).
Proof.
  intros Hh Hu A0 A1 A2 A3 o.
  assert (L : zlen o = zlen q0). { destruct A0, A1, A2, A3. unfold o. apply zlen_cubic; congruence. }
  assert (K : forall k a b c d, znth q0 k = Some a -> znth q1 k = Some b -> znth q2 k = Some c -> znth q3 k = Some d ->
     exists v, znth o k = Some v /\ (0 <= v <= hi)%Z /\ cubic_value hi (B2R u) a b c d v /\ (B2R u = 0 -> v = b)).
  { intros k a b c d E0 E1 E2 E3. eexists. split; [apply znth_cubic; eassumption|].
    apply cubic_channel; try assumption; (eapply pixel_nth; [|eassumption]; eassumption). }
  assert (Some4 : forall k, (0 <= k < n)%Z -> exists a b c d, znth q0 k = Some a /\ znth q1 k = Some b /\ znth q2 k = Some c /\ znth q3 k = Some d).
  { intros k Hk. destruct (pixel_some _ _ _ k A0 Hk) as (a & E0 & _). destruct (pixel_some _ _ _ k A1 Hk) as (b & E1 & _).
    destruct (pixel_some _ _ _ k A2 Hk) as (c & E2 & _). destruct (pixel_some _ _ _ k A3 Hk) as (d & E3 & _). exists a, b, c, d. auto. }
  split; [|split].
  - split; [rewrite L; apply A0|]. intros v I. apply In_znth in I. destruct I as (k & Hk & E).
    rewrite L in Hk. destruct A0 as (L0 & R0). destruct (Some4 k ltac:(lia)) as (a & b & c & d & E0 & E1 & E2 & E3).
    destruct (K k a b c d E0 E1 E2 E3) as (v' & E' & B' & _). rewrite E in E'. inversion E'; subst. exact B'.
  - split; [exact L|]. intros k a b c d E0 E1 E2 E3. destruct (K k a b c d E0 E1 E2 E3) as (v & E & B & C & _). exists v. auto.
  - intros Z. apply nth_eq; [destruct A0, A1; congruence|]. intros k Hk. rewrite L in Hk. destruct A0 as (L0 & R0).
    destruct (Some4 k ltac:(lia)) as (a & b & c & d & E0 & E1 & E2 & E3).
    destruct (K k a b c d E0 E1 E2 E3) as (v & E & _ & _ & V). rewrite E, E1, (V Z). reflexivity.
Qed.

Lemma bilinear_pixel_ok hi n u v q00 q10 q01 q11 : hi = 255%Z \/ hi = 65535%Z -> unit_weight u -> unit_weight v ->
  pixel_ok hi n q00 -> pixel_ok hi n q10 -> pixel_ok hi n q01 -> pixel_ok hi n q11 ->
  let o := blend_bilinear hi q00 q10 q01 q11 u v in
  zlen o = zlen q00 /\
  (forall k a b c d, znth q00 k = Some a -> znth q10 k = Some b -> znth q01 k = Some c -> znth q11 k = Some d ->
     exists w, znth o k = Some w /\
       bilinear a b c d (B2R u) (B2R v) - (2 + / 16) <= IZR w <= bilinear a b c d (B2R u) (B2R v) + / 16) /\
  (B2R u = 0 -> B2R v = 0 -> o = q00).
Proof.
  intros Hh Hu Hv A0 A1 A2 A3 o.
  assert (L : zlen o = zlen q00). { destruct A0, A1, A2, A3. unfold o, blend_bilinear. rewrite !zlen_map2; rewrite ?zlen_map2; congruence. }
  assert (K : forall k a b c d, znth q00 k = Some a -> znth q10 k = Some b -> znth q01 k = Some c -> znth q11 k = Some d ->
     znth o k = Some (lerp hi v (lerp hi u a b) (lerp hi u c d))).
  { intros. unfold o, blend_bilinear. apply znth_map2; apply znth_map2; assumption. }
  split; [exact L|]. split.
  - intros k a b c d E0 E1 E2 E3. eexists. split; [apply K; eassumption|]. apply bilinear_channel; try assumption; (eapply pixel_nth; [|eassumption]; eassumption).
  - intros Zu Zv. apply nth_eq; [exact L|]. intros k Hk. rewrite L in Hk. pose proof A0 as (L0 & _).
    destruct (pixel_some _ _ _ k A0 ltac:(lia)) as (a & E0 & Ra). destruct (pixel_some _ _ _ k A1 ltac:(lia)) as (b & E1 & Rb).
    destruct (pixel_some _ _ _ k A2 ltac:(lia)) as (c & E2 & Rc). destruct (pixel_some _ _ _ k A3 ltac:(lia)) as (d & E3 & Rd).
    rewrite (K k a b c d E0 E1 E2 E3), E0. f_equal.
    rewrite (lerp_0 hi u a b) by assumption. rewrite (lerp_0 hi u c d) by assumption. apply lerp_0; assumption.
Qed.

Section At.
  Context (hi n : Z) (im : image pixel) (default : pixel).
  Context (Hhi : hi = 255%Z \/ hi = 65535%Z) (HI : channels_ok hi n im) (Hw : (0 <= iw im <= 2 ^ 24)%Z) (Hh : (0 <= ih im <= 2 ^ 24)%Z).
  Context (x y : f32) (Fx : is_finite x = true) (Fy : is_finite y = true).
  Let X := B2R x. Let Y := B2R y.

  Lemma px i j : (0 <= i < iw im)%Z -> (0 <= j < ih im)%Z -> exists p, get im i j = Some p /\ get_pixel im i j = Ok p /\ pixel_ok hi n p.
  Proof.
    intros Hi Hj. destruct HI as (W & A). destruct (get_some im i j W Hi Hj) as (p & G). exists p. split; [exact G|].
    split; [apply get_pixel_ok; exact G|]. eapply A; exact G.
  Qed.
  Lemma unit_of (f : f32) : is_finite f = true -> 0 <= B2R f < 1 -> unit_weight f.
  Proof. intros F H. apply R_unit; [exact F|]. lra. Qed.

  Lemma bilinear_ok : exists o, interpolate_bilinear hi im x y default = Ok o /\ bilinear_value im X Y default o /\
    (forall i j, X = IZR i -> Y = IZR j -> o = if covered Bilinear (iw im) (ih im) i j then match get im i j with Some p => p | None => default end else default).
  Proof.
    destruct (floor32 x Fx) as (Fl & Rl). destruct (floor32 y Fy) as (Ft & Rt). fold X in Rl. fold Y in Rt.
    unfold interpolate_bilinear, bilinear_value. cbv zeta.
    set (l := Zfloor X) in *. set (t := Zfloor Y) in *.
    assert (Def : (0 <=? l)%Z && (l + 1 <? iw im)%Z && (0 <=? t)%Z && (t + 1 <? ih im)%Z = false ->
      exists o, Ok default = Ok o /\
        (if (0 <=? l)%Z && (l + 1 <? iw im)%Z && (0 <=? t)%Z && (t + 1 <? ih im)%Z then
           exists p00 p10 p01 p11, get im l t = Some p00 /\ get im (l + 1) t = Some p10 /\ get im l (t + 1) = Some p01 /\ get im (l + 1) (t + 1) = Some p11 /\
           zlen o = zlen p00 /\ forall k a b c d, znth p00 k = Some a -> znth p10 k = Some b -> znth p01 k = Some c -> znth p11 k = Some d ->
           exists v, znth o k = Some v /\ bilinear a b c d (X - IZR l) (Y - IZR t) - (2 + / 16) <= IZR v <= bilinear a b c d (X - IZR l) (Y - IZR t) + / 16
         else o = default) /\
        (forall i j, X = IZR i -> Y = IZR j -> o = if covered Bilinear (iw im) (ih im) i j then match get im i j with Some p => p | None => default end else default)).
    { intros E. exists default. split; [reflexivity|]. rewrite E. split; [reflexivity|]. intros i j Ei Ej.
      unfold l, t in E. rewrite Ei, Ej, !Zfloor_IZR in E. cbn [covered]. rewrite E. reflexivity. }
    rewrite (flt_0 _ l Fl Rl), (flt_0 _ t Ft Rt).
    destruct (Z.ltb_spec l 0) as [Nl|Pl]. { cbn [orb]. apply Def. replace (0 <=? l)%Z with false by lia. reflexivity. }
    destruct (edge (ffloor x) l 1 (iw im) Fl Rl Pl ltac:(lia) Hw) as (Ex & Kx). rewrite Ex.
    destruct (Z.leb_spec (iw im) (l + 1)) as [Ol|Il]. { cbn [orb]. apply Def. replace (l + 1 <? iw im)%Z with false by lia. rewrite andb_false_r. reflexivity. }
    destruct (Z.ltb_spec t 0) as [Nt|Pt]. { cbn [orb]. apply Def. replace (0 <=? t)%Z with false by lia. rewrite andb_false_r. reflexivity. }
    destruct (edge (ffloor y) t 1 (ih im) Ft Rt Pt ltac:(lia) Hh) as (Ey & Ky). rewrite Ey.
    destruct (Z.leb_spec (ih im) (t + 1)) as [Ot|It]. { cbn [orb]. apply Def. replace (t + 1 <? ih im)%Z with false by lia. rewrite andb_false_r. reflexivity. }
    cbn [orb]. clear Def. destruct (Kx Il) as (Fr & Rr). destruct (Ky It) as (Fb & Rb).
    rewrite (u32_R _ l Fl Rl) by lia. rewrite (u32_R _ t Ft Rt) by lia. rewrite (u32_R _ _ Fr Rr) by lia. rewrite (u32_R _ _ Fb Rb) by lia.
    destruct (px l t ltac:(lia) ltac:(lia)) as (q00 & G00 & E00 & A00). destruct (px (l + 1) t ltac:(lia) ltac:(lia)) as (q10 & G10 & E10 & A10).
    destruct (px l (t + 1) ltac:(lia) ltac:(lia)) as (q01 & G01 & E01 & A01). destruct (px (l + 1) (t + 1) ltac:(lia) ltac:(lia)) as (q11 & G11 & E11 & A11).
    rewrite E00, E10, E01, E11. cbn [bind].
    assert (PX : 0 <= B2R x). { pose proof (Zfloor_lb X) as K. fold l in K. assert (0 <= IZR l) by (apply IZR_le; exact Pl). fold X. lra. }
    assert (PY : 0 <= B2R y). { pose proof (Zfloor_lb Y) as K. fold t in K. assert (0 <= IZR t) by (apply IZR_le; exact Pt). fold Y. lra. }
    destruct (frac_exact x (ffloor x) Fx Fl PX Rl) as (Fu & Ru & Bu). destruct (frac_exact y (ffloor y) Fy Ft PY Rt) as (Fv & Rv & Bv).
    fold X in Ru. fold Y in Rv. fold l in Ru. fold t in Rv.
    destruct (bilinear_pixel_ok hi n (fsub x (ffloor x)) (fsub y (ffloor y)) q00 q10 q01 q11 Hhi (unit_of _ Fu Bu) (unit_of _ Fv Bv) A00 A10 A01 A11) as (L & K & Z).
    eexists. split; [reflexivity|]. replace (0 <=? l)%Z with true by lia. replace (l + 1 <? iw im)%Z with true by lia.
    replace (0 <=? t)%Z with true by lia. replace (t + 1 <? ih im)%Z with true by lia. cbn [andb]. split.
    - exists q00, q10, q01, q11. repeat (split; [assumption|]). rewrite Ru, Rv in K. exact K.
    - intros i j Ei Ej. assert (El : l = i) by (unfold l; rewrite Ei; apply Zfloor_IZR). assert (Et : t = j) by (unfold t; rewrite Ej; apply Zfloor_IZR).
      rewrite Z; [|rewrite Ru, Ei, El; ring|rewrite Rv, Ej, Et; ring]. rewrite El, Et in *. rewrite G00. cbn [covered].
      replace (0 <=? i)%Z with true by lia. replace (i + 1 <? iw im)%Z with true by lia.
      replace (0 <=? j)%Z with true by lia. replace (j + 1 <? ih im)%Z with true by lia. reflexivity.
  Qed.

  Let l := (Zfloor X - 1)%Z. Let t := (Zfloor Y - 1)%Z.
  Definition colrow (u : f32) (lx ty r : Z) : pixel :=
    match get im lx (ty + r), get im (lx + 1) (ty + r), get im (lx + 2) (ty + r), get im (lx + 3) (ty + r) with
    | Some q0, Some q1, Some q2, Some q3 => blend_cubic hi u q0 q1 q2 q3
    | _, _, _, _ => []
    end.
  Lemma window_loop u lx ty : (0 <= lx)%Z -> (lx + 4 < iw im)%Z -> (0 <= ty)%Z -> (ty + 4 < ih im)%Z ->
    for_range ty (ty + 4) (fun row col =>
      p0 <- get_pixel im lx row ;;
      p1 <- get_pixel im (lx + 1) row ;;
      p2 <- get_pixel im (lx + 2) row ;;
      p3 <- get_pixel im (lx + 3) row ;;
      vset col (row - ty) (blend_cubic hi u p0 p1 p2 p3)) [default; default; default; default]
    = Ok [colrow u lx ty 0; colrow u lx ty 1; colrow u lx ty 2; colrow u lx ty 3].
  Proof.
    intros H1 H2 H3 H4.
    set (body := fun row col => _).
    assert (Row : forall row col, (ty <= row < ty + 4)%Z -> body row col = vset col (row - ty) (colrow u lx ty (row - ty))).
    { intros row col Hr. unfold body. destruct (px lx row ltac:(lia) ltac:(lia)) as (q0 & G0 & E0 & _). destruct (px (lx + 1) row ltac:(lia) ltac:(lia)) as (q1 & G1 & E1 & _).
      destruct (px (lx + 2) row ltac:(lia) ltac:(lia)) as (q2 & G2 & E2 & _). destruct (px (lx + 3) row ltac:(lia) ltac:(lia)) as (q3 & G3 & E3 & _).
      rewrite E0, E1, E2, E3. cbn [bind]. unfold colrow. replace (ty + (row - ty))%Z with row by lia. rewrite G0, G1, G2, G3. reflexivity. }
    clearbody body.
    rewrite for_range_cons by lia. rewrite Row by lia. replace (ty - ty)%Z with 0%Z by lia.
    change (vset [default; default; default; default] 0 (colrow u lx ty 0)) with (Ok [colrow u lx ty 0; default; default; default]). cbn [bind].
    rewrite for_range_cons by lia. rewrite Row by lia. replace (ty + 1 - ty)%Z with 1%Z by lia.
    change (vset [colrow u lx ty 0; default; default; default] 1 (colrow u lx ty 1)) with (Ok [colrow u lx ty 0; colrow u lx ty 1; default; default]). cbn [bind].
    rewrite for_range_cons by lia. rewrite Row by lia. replace (ty + 1 + 1 - ty)%Z with 2%Z by lia.
    change (vset [colrow u lx ty 0; colrow u lx ty 1; default; default] 2 (colrow u lx ty 2)) with (Ok [colrow u lx ty 0; colrow u lx ty 1; colrow u lx ty 2; default]). cbn [bind].
    rewrite for_range_cons by lia. rewrite Row by lia. replace (ty + 1 + 1 + 1 - ty)%Z with 3%Z by lia.
    change (vset [colrow u lx ty 0; colrow u lx ty 1; colrow u lx ty 2; default] 3 (colrow u lx ty 3)) with (Ok [colrow u lx ty 0; colrow u lx ty 1; colrow u lx ty 2; colrow u lx ty 3]). cbn [bind].
    apply for_range_empty. lia.
  Qed.

  Lemma colrow_ok u lx ty r : unit_weight u -> (0 <= lx)%Z -> (lx + 4 < iw im)%Z -> (0 <= ty)%Z -> (ty + 4 < ih im)%Z -> (0 <= r < 4)%Z ->
    exists q0 q1 q2 q3, get im lx (ty + r) = Some q0 /\ get im (lx + 1) (ty + r) = Some q1 /\ get im (lx + 2) (ty + r) = Some q2 /\ get im (lx + 3) (ty + r) = Some q3 /\
      cubic_pixel hi (B2R u) q0 q1 q2 q3 (colrow u lx ty r) /\ pixel_ok hi n (colrow u lx ty r) /\ (B2R u = 0 -> colrow u lx ty r = q1).
  Proof.
    intros Hu H1 H2 H3 H4 Hr.
    destruct (px lx (ty + r) ltac:(lia) ltac:(lia)) as (q0 & G0 & _ & A0). destruct (px (lx + 1) (ty + r) ltac:(lia) ltac:(lia)) as (q1 & G1 & _ & A1).
    destruct (px (lx + 2) (ty + r) ltac:(lia) ltac:(lia)) as (q2 & G2 & _ & A2). destruct (px (lx + 3) (ty + r) ltac:(lia) ltac:(lia)) as (q3 & G3 & _ & A3).
    exists q0, q1, q2, q3. repeat (split; [assumption|]). unfold colrow. rewrite G0, G1, G2, G3.
    destruct (cubic_pixel_ok hi n u q0 q1 q2 q3 Hhi Hu A0 A1 A2 A3) as (P & C & Z). auto.
  Qed.

  (** [floor() - 1] *)
  Lemma sub1_neg (f : f32) : is_finite f = true -> B2R f <= 0 -> flt (fsub f (of_int 1)) (of_int 0) = true.
  Proof.
    intros F L. destruct (int32_R 1) as (F1 & R1); [lia|]. destruct (int32_R 0) as (F0 & R0); [lia|].
    pose proof (Bminus_correct 24 128 _ _ mode_NE f (of_int 1) F F1) as C.
    cbn [round_mode] in C. fold (rn (B2R f - B2R (of_int 1 : f32))) in C. rewrite R1 in C.
    assert (N : rn (B2R f - 1) <= -1). { replace (-1) with (rn (IZR (-1))) by (apply (rnd_int 24 128); lia). apply rn_mono. change (IZR (-1)) with (-1). lra. }
    destruct (Rlt_bool_spec (Rabs (rn (B2R f - 1))) (bpow radix2 128)) as [B|B].
    - destruct C as (C1 & C2 & _). fold (fsub f (of_int 1)) in C1, C2. rewrite flt32_R by assumption. rewrite C1, R0. apply Rlt_bool_true. lra.
    - destruct C as (C1 & C2). change (Bsign (of_int 1 : f32)) with false in C2. cbn [negb] in C2. rewrite C2 in C1.
      unfold fsub, flt. destruct (Bminus mode_NE f (of_int 1)) as [s|s| |s m e h]; cbn in C1; try discriminate. inversion C1; subst s. reflexivity.
  Qed.
  Lemma sub1_pos (f : f32) : is_finite f = true -> 1 <= B2R f ->
    is_finite (fsub f (of_int 1)) = true /\ B2R (fsub f (of_int 1)) = rn (B2R f - 1).
  Proof.
    intros F L. destruct (int32_R 1) as (F1 & R1); [lia|].
    pose proof (Bminus_correct 24 128 _ _ mode_NE f (of_int 1) F F1) as C.
    cbn [round_mode] in C. fold (rn (B2R f - B2R (of_int 1 : f32))) in C. rewrite R1 in C.
    assert (N : 0 <= rn (B2R f - 1) <= B2R f). { split; [apply rnd_ge0; lra|]. rewrite <- (rn_self f) at 2. apply rn_mono. lra. }
    rewrite Rlt_bool_true in C. { destruct C as (C1 & C2 & _). auto. }
    rewrite Rabs_pos_eq by lra. pose proof (abs_B2R_lt_emax 24 128 f) as A. rewrite Rabs_pos_eq in A by lra. lra.
  Qed.
  Lemma edge_big (f : f32) j w : is_finite f = true -> IZR (2 ^ 24) <= B2R f -> (0 <= j <= 4)%Z -> (0 <= w <= 2 ^ 24)%Z ->
    fle (of_int w) (fadd f (of_int j)) = true.
  Proof.
    intros F E Hj Hw'. destruct (int32_R w Hw') as (Fw & Rw). destruct (int32_R j) as (Fj & Rj); [lia|].
    assert (Pj : 0 <= IZR j) by (apply IZR_le; lia). change (IZR (2 ^ 24)) with 16777216 in E.
    destruct (add_cases f (of_int j) F Fj) as [(Fs & Rs)|(Is & Rs)]; [lra|rewrite Rj; exact Pj| |].
    - rewrite fle_R by assumption. rewrite Rw, Rs, Rj. apply Rle_bool_true.
      apply Rle_trans with (rn (IZR (2 ^ 24))); [rewrite (rnd_int 24 128) by lia; apply IZR_le; lia|].
      apply rn_mono. change (IZR (2 ^ 24)) with 16777216. lra.
    - rewrite Is. apply fle_inf. exact Fw.
  Qed.

  (** the guard and the indices along one axis *)
  Lemma axis (z : f32) w : is_finite z = true -> (0 <= w <= 2 ^ 24)%Z ->
    let k := (Zfloor (B2R z) - 1)%Z in
    let left := fsub (ffloor z) (of_int 1) in
    if (0 <=? k)%Z && (k + 4 <? w)%Z then
      flt left (of_int 0) = false /\ fle (of_int w) (fadd left (of_int 4)) = false /\
      u32_of left = k /\ u32_of (fadd left (of_int 4)) = (k + 4)%Z /\
      unit_weight (fsub z (fadd left (of_int 1))) /\ B2R (fsub z (fadd left (of_int 1))) = B2R z - IZR (Zfloor (B2R z))
    else flt left (of_int 0) = true \/ fle (of_int w) (fadd left (of_int 4)) = true.
  Proof.
    intros F Hz k left. destruct (floor32 z F) as (Ff & Rf).
    destruct (Z.leb_spec 0 k) as [Pk|Nk]; cbn [andb].
    2:{ left. apply sub1_neg; [exact Ff|]. rewrite Rf. apply IZR_le. unfold k in Nk. lia. }
    destruct (sub1_pos (ffloor z) Ff) as (Fl & Rl). { rewrite Rf. apply IZR_le. unfold k in Pk. lia. }
    fold left in Fl, Rl. rewrite Rf, <- minus_IZR in Rl. fold k in Rl.
    destruct (Z.le_gt_cases k (2 ^ 24)) as [S|S].
    - rewrite (rnd_int 24 128) in Rl by lia. destruct (edge left k 4 w Fl Rl Pk ltac:(lia) Hz) as (E4 & K4).
      destruct (edge left k 1 w Fl Rl Pk ltac:(lia) Hz) as (_ & K1).
      destruct (Z.ltb_spec (k + 4) w) as [I|O].
      + destruct (K4 I) as (F4 & R4). destruct (K1 ltac:(lia)) as (F1 & R1).
        split; [rewrite (flt_0 _ _ Fl Rl); lia|]. split; [rewrite E4; lia|]. split; [apply u32_R; auto; lia|]. split; [apply u32_R; auto; lia|].
        assert (PZ : 0 <= B2R z). { pose proof (Zfloor_lb (B2R z)). assert (0 <= IZR (Zfloor (B2R z))) by (apply IZR_le; unfold k in Pk; lia). lra. }
        destruct (frac_exact z (fadd left (of_int 1)) F F1 PZ) as (Fu & Ru & Bu). { rewrite R1. f_equal. unfold k. lia. }
        split; [apply unit_of; assumption|exact Ru].
      + right. rewrite E4. lia.
    - replace (k + 4 <? w)%Z with false by lia. right. apply edge_big; [exact Fl| |lia|exact Hz]. rewrite Rl.
      rewrite <- (rnd_int 24 128 (2 ^ 24)) by lia. apply rn_mono. apply IZR_le. lia.
  Qed.

  Lemma bicubic_ok : exists o, interpolate_bicubic hi im x y default = Ok o /\ bicubic_value hi im X Y default o /\
    (forall i j, X = IZR i -> Y = IZR j -> o = if covered Bicubic (iw im) (ih im) i j then match get im i j with Some p => p | None => default end else default).
  Proof.
    pose proof (axis x (iw im) Fx Hw) as AX. pose proof (axis y (ih im) Fy Hh) as AY. cbv zeta in AX, AY.
    fold X in AX. fold Y in AY. fold l in AX. fold t in AY.
    unfold interpolate_bicubic, bicubic_value. cbv zeta. fold l t.
    assert (Def : (0 <=? l)%Z && (l + 4 <? iw im)%Z && (0 <=? t)%Z && (t + 4 <? ih im)%Z = false ->
      forall r, r = Ok default -> exists o, r = Ok o /\
        (if (0 <=? l)%Z && (l + 4 <? iw im)%Z && (0 <=? t)%Z && (t + 4 <? ih im)%Z then
           exists col : Z -> pixel,
             (forall r, (0 <= r < 4)%Z -> exists q0 q1 q2 q3, get im l (t + r) = Some q0 /\ get im (l + 1) (t + r) = Some q1 /\
                get im (l + 2) (t + r) = Some q2 /\ get im (l + 3) (t + r) = Some q3 /\ cubic_pixel hi (X - IZR (Zfloor X)) q0 q1 q2 q3 (col r)) /\
             cubic_pixel hi (Y - IZR (Zfloor Y)) (col 0%Z) (col 1%Z) (col 2%Z) (col 3%Z) o
         else o = default) /\
        (forall i j, X = IZR i -> Y = IZR j -> o = if covered Bicubic (iw im) (ih im) i j then match get im i j with Some p => p | None => default end else default)).
    { intros E r ->. exists default. split; [reflexivity|]. rewrite E. split; [reflexivity|]. intros i j Ei Ej.
      replace (covered Bicubic (iw im) (ih im) i j) with false; [reflexivity|]. symmetry.
      unfold l, t in E. rewrite Ei, Ej, !Zfloor_IZR in E. cbn [covered]. lia. }
    destruct ((0 <=? l)%Z && (l + 4 <? iw im)%Z) eqn:BX.
    2:{ apply Def; [reflexivity|]. destruct AX as [->| ->]; rewrite ?orb_true_r; reflexivity. }
    destruct ((0 <=? t)%Z && (t + 4 <? ih im)%Z) eqn:BY.
    2:{ apply Def; [rewrite <- andb_assoc, BY; apply andb_false_r|]. destruct AY as [->| ->]; rewrite ?orb_true_r; reflexivity. }
    clear Def. destruct AX as (X1 & X2 & X3 & X4 & UX & RX). destruct AY as (Y1 & Y2 & Y3 & Y4 & UY & RY).
    rewrite X1, X2, Y1, Y2. cbn [orb]. rewrite X3, Y3, Y4.
    rewrite <- andb_assoc, BY. cbn [andb].
    rewrite window_loop by lia. cbn [bind].
    set (u := fsub x _) in *. set (v := fsub y _) in *. clearbody u v.
    match goal with |- context [vget ?c 0] => change (vget c 0) with (Ok (colrow u l t 0)); change (vget c 1) with (Ok (colrow u l t 1));
      change (vget c 2) with (Ok (colrow u l t 2)); change (vget c 3) with (Ok (colrow u l t 3)) end. cbn [bind].
    assert (CR : forall r, (0 <= r < 4)%Z -> _) by (intros r Hr; exact (colrow_ok u l t r UX ltac:(lia) ltac:(lia) ltac:(lia) ltac:(lia) Hr)).
    assert (PO : forall r, (0 <= r < 4)%Z -> pixel_ok hi n (colrow u l t r)).
    { intros r Hr. destruct (CR r Hr) as (? & ? & ? & ? & _ & _ & _ & _ & _ & P & _). exact P. }
    destruct (cubic_pixel_ok hi n v _ _ _ _ Hhi UY (PO 0%Z ltac:(lia)) (PO 1%Z ltac:(lia)) (PO 2%Z ltac:(lia)) (PO 3%Z ltac:(lia))) as (_ & CP & Z).
    eexists. split; [reflexivity|]. split.
    - exists (colrow u l t). split.
      + intros r Hr. destruct (CR r Hr) as (q0 & q1 & q2 & q3 & G0 & G1 & G2 & G3 & C & _). exists q0, q1, q2, q3. rewrite <- RX. auto 6.
      + rewrite <- RY. exact CP.
    - intros i j Ei Ej. assert (El : (l + 1)%Z = i) by (unfold l; rewrite Ei, Zfloor_IZR; lia). assert (Et : (t + 1)%Z = j) by (unfold t; rewrite Ej, Zfloor_IZR; lia).
      rewrite Z by (rewrite RY, Ej, Zfloor_IZR; ring).
      destruct (CR 1%Z ltac:(lia)) as (q0 & q1 & q2 & q3 & G0 & G1 & G2 & G3 & _ & _ & Zr).
      rewrite Zr by (rewrite RX, Ei, Zfloor_IZR; ring). rewrite El, Et in G1. rewrite G1.
      replace (covered Bicubic (iw im) (ih im) i j) with true; [reflexivity|]. cbn [covered]. lia.
  Qed.
End At.
