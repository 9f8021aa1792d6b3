(** Warping: infinite pre-images, the whole image, and shifts by whole pixels. *)
From Flocq Require Import Core BinarySingleNaN.
From Coq Require Import Reals Lra Psatz.
From Verif Require Import Base BaseProofs Float FloatProofs FloatErr ClampModel TemplateProofs FContrastProofs WuModel WuSpec WuProofs.
From Verif Require Import RasterProofs ProjModel WarpModel WarpSpec WarpProofs WarpProofs2 WarpProofs3.
Local Ltac Zify.zify_post_hook ::= idtac.
Local Open Scope R_scope.
Local Notation rn := (rnd 24 128).

Lemma not_finite (x : f32) : fis_nan x = false -> is_finite x = false -> exists s, x = B754_infinity s.
Proof. destruct x as [s|s| |s m e h]; cbn; try discriminate; eauto. Qed.
Lemma fin_int w : (0 <= w <= 2 ^ 24)%Z -> is_finite (of_int w : f32) = true.
Proof. intros H. destruct (int32_R w H) as (F & _). exact F. Qed.

Lemma axis_inf s j w : (0 <= w <= 2 ^ 24)%Z -> (0 <= j <= 4)%Z ->
  flt (B754_infinity s : f32) (of_int 0) = true \/ fle (of_int w) (fadd (B754_infinity s : f32) (of_int j)) = true.
Proof.
  intros H Hj. destruct s; [left; reflexivity|right].
  assert (F : is_finite (of_int j : f32) = true) by (apply fin_int; lia).
  replace (fadd (B754_infinity false : f32) (of_int j)) with (B754_infinity false : f32); [apply fle_inf, fin_int, H|].
  unfold fadd. destruct (of_int j) as [b|b| |b m e h]; try discriminate; reflexivity.
Qed.
Lemma axis_inf2 s j w : (0 <= w <= 2 ^ 24)%Z -> (0 <= j <= 4)%Z ->
  let left := fsub (B754_infinity s : f32) (of_int 1) in
  flt left (of_int 0) = true \/ fle (of_int w) (fadd left (of_int j)) = true.
Proof.
  intros H Hj left. replace left with (B754_infinity s : f32); [apply axis_inf; assumption|].
  unfold left, fsub. destruct (int32_R 1) as (F & _); [lia|]. destruct (of_int 1) as [b|b| |b m e h]; try discriminate; reflexivity.
Qed.
Lemma near_inf s w : (0 <= w <= 2 ^ 24)%Z ->
  flt (B754_infinity s : f32) (fneg half) = true \/ (w <= u32_of (fadd (B754_infinity s : f32) half))%Z.
Proof.
  intros H. destruct s; [left; vm_compute; reflexivity|right].
  replace (u32_of (fadd (B754_infinity false : f32) half)) with (2 ^ 32 - 1)%Z by (vm_compute; reflexivity). lia.
Qed.

Lemma infinite_ok hi i im x y default : (0 <= iw im <= 2 ^ 24)%Z -> (0 <= ih im <= 2 ^ 24)%Z ->
  (exists s, x = B754_infinity s) \/ (exists s, y = B754_infinity s) -> interpolate hi i im x y default = Ok default.
Proof.
  intros Hw Hh H. destruct i; cbn [interpolate].
  - unfold interpolate_nearest. destruct H as [(s & ->)|(s & ->)].
    + destruct (near_inf s (iw im) Hw) as [->|L]; [reflexivity|]. destruct (_ || _)%bool; [reflexivity|].
      replace (iw im <=? _)%Z with true by (symmetry; apply Z.leb_le; exact L). reflexivity.
    + destruct (near_inf s (ih im) Hh) as [->|L]; [rewrite orb_true_r; reflexivity|]. destruct (_ || _)%bool; [reflexivity|].
      replace (ih im <=? _)%Z with true by (symmetry; apply Z.leb_le; exact L). rewrite orb_true_r. reflexivity.
  - unfold interpolate_bilinear. destruct H as [(s & ->)|(s & ->)].
    all: change (ffloor (B754_infinity s : f32)) with (B754_infinity s : f32).
    + destruct (axis_inf s 1 (iw im) Hw ltac:(lia)) as [->| ->]; rewrite ?orb_true_r; reflexivity.
    + destruct (axis_inf s 1 (ih im) Hh ltac:(lia)) as [->| ->]; rewrite ?orb_true_r; reflexivity.
  - unfold interpolate_bicubic. destruct H as [(s & ->)|(s & ->)].
    all: change (ffloor (B754_infinity s : f32)) with (B754_infinity s : f32).
    + destruct (axis_inf2 s 4 (iw im) Hw ltac:(lia)) as [->| ->]; rewrite ?orb_true_r; reflexivity.
    + destruct (axis_inf2 s 4 (ih im) Hh ltac:(lia)) as [->| ->]; rewrite ?orb_true_r; reflexivity.
Qed.

Lemma nearest_int k i : (Z.abs i < 2 ^ 23 - 1)%Z -> nearest_to (IZR i) k -> k = i.
Proof.
  intros B N. unfold nearest_to in N. rewrite <- minus_IZR, <- !abs_IZR in N.
  assert (IZR (Z.abs i) < IZR (2 ^ 23 - 1)) by (apply IZR_lt; exact B). change (IZR (2 ^ 23 - 1)) with 8388607 in H.
  assert (IZR (Z.abs (k - i)) < 1) by lra. apply (lt_IZR _ 1) in H0. lia.
Qed.

Lemma interpolate_ok hi n i im x y default : hi = 255%Z \/ hi = 65535%Z -> channels_ok hi n im ->
  (0 <= iw im <= 2 ^ 24)%Z -> (0 <= ih im <= 2 ^ 24)%Z -> fis_nan x = false -> fis_nan y = false ->
  exists o, interpolate hi i im x y default = Ok o /\ value_at hi i im x y default o /\
    (forall k l, (Z.abs k < 2 ^ 23 - 1)%Z -> (Z.abs l < 2 ^ 23 - 1)%Z -> is_finite x = true -> is_finite y = true -> B2R x = IZR k -> B2R y = IZR l ->
       o = if covered i (iw im) (ih im) k l then match get im k l with Some p => p | None => default end else default).
Proof.
  intros Hhi HI Hw Hh Nx Ny. unfold value_at.
  destruct (is_finite x) eqn:Fx. 2:{ destruct (not_finite x Nx Fx) as (s & ->). exists default. rewrite infinite_ok by eauto. cbn. split; [reflexivity|]. split; [reflexivity|]. discriminate. }
  destruct (is_finite y) eqn:Fy. 2:{ destruct (not_finite y Ny Fy) as (s & ->). exists default. rewrite infinite_ok by eauto. rewrite andb_false_r. split; [reflexivity|]. split; [reflexivity|]. discriminate. }
  cbn [andb]. destruct i; cbn [interpolate].
  - destruct (nearest_ok im x y default) as (o & E & V); try assumption; try lia. { apply HI. }
    exists o. split; [exact E|]. split; [exact V|]. intros k l Bk Bl _ _ Ek El. destruct V as (a & b & Na & Nb & ->).
    rewrite Ek in Na. rewrite El in Nb. apply nearest_int in Na; [|assumption]. apply nearest_int in Nb; [|assumption]. subst a b.
    cbn [covered]. destruct (get im k l) eqn:G; [|destruct (_ && _)%bool; reflexivity]. apply get_inb in G.
    replace ((0 <=? k) && (k <? iw im) && (0 <=? l) && (l <? ih im))%Z with true by lia. reflexivity.
  - destruct (bilinear_ok hi n im default Hhi HI Hw Hh x y Fx Fy) as (o & E & V & I). exists o. split; [exact E|]. split; [exact V|]. intros; apply I; assumption.
  - destruct (bicubic_ok hi n im default Hhi HI Hw Hh x y Fx Fy) as (o & E & V & I). exists o. split; [exact E|]. split; [exact V|]. intros; apply I; assumption.
Qed.

(** [x + tx] on whole numbers *)
Lemma small_abs z : (Z.abs z <= 2 ^ 24)%Z -> Rabs (IZR z) <= bpow radix2 (128 - 1).
Proof.
  intros H. rewrite <- abs_IZR. apply Rle_trans with (IZR (2 ^ 24)); [apply IZR_le; exact H|].
  change (IZR (2 ^ 24)) with (bpow radix2 24). apply bpow_le. lia.
Qed.
Lemma int_signed z : (Z.abs z <= 2 ^ 24)%Z -> is_finite (of_int z : f32) = true /\ B2R (of_int z : f32) = IZR z.
Proof.
  intros H. destruct (of_int_R 24 128 z (small_abs z H)) as (F & E). split; [exact F|]. rewrite E. apply (rnd_int 24 128). lia.
Qed.
Lemma add_int a b : (Z.abs a <= 2 ^ 23)%Z -> (Z.abs b <= 2 ^ 23)%Z ->
  is_finite (fadd (of_int a) (fneg (of_int b)) : f32) = true /\ B2R (fadd (of_int a) (fneg (of_int b)) : f32) = IZR (a - b).
Proof.
  intros Ha Hb. destruct (int_signed a ltac:(lia)) as (Fa & Ra). destruct (int_signed b ltac:(lia)) as (Fb & Rb).
  assert (Fn : is_finite (fneg (of_int b) : f32) = true) by (unfold fneg; rewrite is_finite_Bopp; exact Fb).
  assert (Rn : B2R (fneg (of_int b) : f32) = - IZR b) by (unfold fneg; rewrite B2R_Bopp, Rb; reflexivity).
  assert (E : B2R (of_int a : f32) + B2R (fneg (of_int b) : f32) = IZR (a - b)) by (rewrite Ra, Rn, minus_IZR; ring).
  destruct (fadd_R 24 128 (of_int a) (fneg (of_int b)) Fa Fn) as (F & R).
  - rewrite E. apply small_abs. lia.
  - split; [exact F|]. rewrite R, E. apply (rnd_int 24 128). lia.
Qed.

Lemma finite_not_nan (x : f32) : is_finite x = true -> fis_nan x = false.
Proof. destruct x; cbn; congruence. Qed.

(** the whole image *)
Lemma warp_inner_ok {A} (d : A) (out : image A) mapping pixel_at (P : Z -> Z -> A -> Prop) : (0 < iw out)%Z -> (0 <= ih out)%Z ->
  (forall x y, (0 <= x < iw out)%Z -> (0 <= y < ih out)%Z ->
     exists o, pixel_at (fst (mapping (of_int x) (of_int y))) (snd (mapping (of_int x) (of_int y))) = Ok o /\ P x y o) ->
  exists r, warp_inner out mapping pixel_at = Ok r /\ wf r /\ iw r = iw out /\ ih r = ih out /\
    forall x y, (0 <= x < iw out)%Z -> (0 <= y < ih out)%Z -> exists o, get r x y = Some o /\ P x y o.
Proof.
  intros Hw Hh H. unfold warp_inner. replace (iw out =? 0)%Z with false by lia.
  set (f := fun x y => pixel_at (fst (mapping (of_int x) (of_int y))) (snd (mapping (of_int x) (of_int y)))).
  set (g := fun x y => match f x y with Ok o => o | _ => d end).
  exists (gen (iw out) (ih out) g). split.
  { apply gen_res_ok. intros x y Hx Hy. destruct (H x y Hx Hy) as (o & E & _). unfold g, f. rewrite E.
    destruct (mapping (of_int x) (of_int y)); exact E. }
  split; [apply wf_gen; lia|]. split; [reflexivity|]. split; [reflexivity|]. intros x y Hx Hy.
  destruct (H x y Hx Hy) as (o & E & HP). exists o. rewrite get_gen_in by lia. unfold g, f. rewrite E. auto.
Qed.
