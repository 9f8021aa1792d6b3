(** C60: the hysteresis stage of the Canny edge detector. *)
From Coq Require Import Reals Lra.
From Flocq Require Import Core BinarySingleNaN.
From Verif Require Import Base BaseProofs Float FloatProofs FloatErr TemplateProofs WuProofs EdgesModel EdgesSpec EdgesProofs.
Local Ltac Zify.zify_post_hook ::= idtac.
Open Scope Z_scope.

(** images as the suppression stage produces them, 0 < low <= high *)
Definition thin_image (im : image f32) : Prop :=
  wf im /\ 1 <= iw im < 2 ^ 32 /\ 1 <= ih im < 2 ^ 32 /\ iw im * ih im < 2 ^ 32 /\ zero_border im.
Definition thresholds (low high : f32) : Prop := flt (of_int 0) low = true /\ fle low high = true.

(** [out] marks with 255 exactly the pixels satisfying P, and has 0 elsewhere *)
Definition marks (im : image f32) (out : image Z) (P : Z -> Z -> Prop) : Prop :=
  wf out /\ iw out = iw im /\ ih out = ih im /\
  forall x y, 0 <= x < iw im -> 0 <= y < ih im ->
    (get out x y = Some 255 \/ get out x y = Some 0) /\ (get out x y = Some 255 <-> P x y).

(** the full property *)
Definition c60_statement : Prop := forall im low high, thin_image im -> thresholds low high ->
  exists out, hysteresis im low high = Ok out /\ marks im out (linked eight im low high).

Lemma fle_trans (a b c : f32) : fle a b = true -> fle b c = true -> fle a c = true.
Proof.
  intros H1 H2.
  destruct (is_finite a) eqn:Fa; destruct (is_finite b) eqn:Fb; destruct (is_finite c) eqn:Fc;
    try (unfold fle in *; rewrite Bleb_correct in * by auto; revert H1 H2;
         do 3 match goal with |- context [Rle_bool ?x ?y] => destruct (Rle_bool_spec x y) end;
         intros; try discriminate; auto; exfalso;
         match goal with K1 : (_ <= _)%R, K2 : (_ <= _)%R, K3 : (_ < _)%R |- _ => exact (Rlt_irrefl _ (Rle_lt_trans _ _ _ (Rle_trans _ _ _ K1 K2) K3)) end).
  all: destruct a as [sa|[]| |sa ma ea Ha], b as [sb|[]| |sb mb eb Hb], c as [sc|[]| |sc mc ec Hc];
    try discriminate Fa; try discriminate Fb; try discriminate Fc; try discriminate H1; try discriminate H2; try reflexivity.
Qed.
Lemma zero_low (v low : f32) : feq v (of_int 0) = true -> flt (of_int 0) low = true -> fle low v = false.
Proof.
  change (of_int 0 : f32) with (B754_zero false : f32). intros H1 H2.
  destruct v as [sv|[]| |[] mv ev Hv]; try discriminate H1.
  destruct low as [sl|[]| |[] ml el Hl]; try discriminate H2; reflexivity.
Qed.

Lemma thin_low im low : thin_image im -> flt (of_int 0) low = true -> forall x y,
  lowb im low x y = true -> 1 <= x < iw im - 1 /\ 1 <= y < ih im - 1.
Proof.
  intros (W & _ & _ & _ & ZB) Hl x y H. unfold lowb in H. destruct (get im x y) as [v|] eqn:E; [|discriminate].
  pose proof (get_inb _ _ _ _ E) as R.
  destruct (Z.eq_dec x 0); [|destruct (Z.eq_dec y 0); [|destruct (Z.eq_dec x (iw im - 1)); [|destruct (Z.eq_dec y (ih im - 1)); [|lia]]]];
  exfalso; rewrite (zero_low v low) in H; try discriminate; auto; apply (ZB x y v E); auto.
Qed.

(** What holds: the search continues only to six of the eight neighbours; with
    those, the marked pixels are exactly the linked ones. *)
Theorem c60_hysteresis_partial : forall im low high, thin_image im -> thresholds low high ->
  exists out, hysteresis im low high = Ok out /\ marks im out (linked eight_but_two im low high).
Proof.
  intros im low high T (Hl & Hh). pose proof T as (W & Ww & Wh & A & ZB).
  destruct (hysteresis_ok im low high W ltac:(lia) (thin_low im low T Hl)) as (out & E & M).
  - intros x y H. unfold lowb in *. destruct (get im x y); auto. apply (fle_trans low high); auto.
  - exact A.
  - lia.
  - exists out. split; [exact E|exact M].
Qed.
(** hence every strong pixel is marked, and every marked pixel is linked in the
    sense of the full property *)
Theorem c60_hysteresis_sound_partial : forall im low high, thin_image im -> thresholds low high ->
  exists out, hysteresis im low high = Ok out /\
    (forall x y, get out x y = Some 255 -> linked eight im low high x y) /\
    (forall x y, 1 <= x < iw im - 1 -> 1 <= y < ih im - 1 -> at_least im high x y -> get out x y = Some 255).
Proof.
  intros im low high T Th. destruct (c60_hysteresis_partial im low high T Th) as (out & E & W & Ew & Eh & M).
  exists out. split; [exact E|]. split.
  - intros x y G. pose proof (get_inb _ _ _ _ G) as R. apply (M x y) in G; [|lia|lia].
    clear -G. induction G as [x y Hx Hy Hs|x y x' y' L IH Hn Hl].
    + apply l_strong; auto.
    + apply (l_step _ _ _ _ x y); auto. apply Hn.
  - intros x y Hx Hy Hs. apply (M x y); [lia|lia|]. apply l_strong; auto.
Qed.

(** a weak pixel directly above a strong one *)
Definition above : image f32 := gen 3 4 (fun x y => if (x =? 1) && (y =? 2) then of_int 9 else if (x =? 1) && (y =? 1) then of_int 5 else of_int 0).
Lemma above_thin : thin_image above.
Proof.
  split; [apply wf_gen; lia|]. split; [cbn; lia|]. split; [cbn; lia|]. split; [cbn; lia|].
  intros x y v G H. pose proof (get_inb _ _ _ _ G) as R. unfold above in G, R, H. cbn [gen iw ih] in R, H.
  rewrite get_gen_in in G by lia. injection G as <-.
  destruct (Z.eqb_spec x 1), (Z.eqb_spec y 2), (Z.eqb_spec y 1); try lia; reflexivity.
Qed.
Example c60_nontrivial : thin_image above /\ thresholds (of_int 4) (of_int 8) /\
  hysteresis above (of_int 4) (of_int 8) = Ok (mkImage 3 4 [0;0;0; 0;0;0; 0;255;0; 0;0;0]).
Proof. split; [apply above_thin|]. split; [split; reflexivity|]. vm_compute. reflexivity. Qed.

(** The full property is false: the pixel above is not marked. *)
Theorem c60_hysteresis_refuted : ~ c60_statement.
Proof.
  intros H. destruct c60_nontrivial as (A & B & C).
  destruct (H above (of_int 4) (of_int 8) A B) as (out & E & _ & _ & _ & M). rewrite C in E. injection E as <-.
  destruct (M 1 1) as [_ K]; [cbn; lia|cbn; lia|].
  assert (L : linked eight above (of_int 4) (of_int 8) 1 1).
  { apply (l_step _ _ _ _ 1 2).
    - apply l_strong; [cbn; lia|cbn; lia|]. exists (of_int 9). split; reflexivity.
    - unfold eight. cbn. reflexivity.
    - exists (of_int 5). split; reflexivity. }
  apply K in L. discriminate L.
Qed.
(** With a threshold of 0 even the border counts as weak, and following it the
    program subtracts 1 from coordinate 0: it panics. *)
Theorem c60_zero_threshold_panics : hysteresis above (of_int 0) (of_int 8) = Panic.
Proof. vm_compute. reflexivity. Qed.

(** Suppression, for every image and every assignment of directions: the border
    becomes 0, every other pixel is kept unless one of its two neighbours one
    step forwards or backwards in its direction is larger, then it becomes 0. *)
Theorem c60_suppression : forall g dir, wf g -> 1 <= iw g < 2 ^ 32 -> 1 <= ih g < 2 ^ 32 ->
  exists out, non_maximum_suppression g dir = Ok out /\ wf out /\ iw out = iw g /\ ih out = ih g /\ zero_border out /\
    forall x y p a b, 1 <= x < iw g - 1 -> 1 <= y < ih g - 1 ->
      let '(sx, sy) := unit_step (degrees (dir x y)) in
      get g x y = Some p -> get g (x + sx) (y + sy) = Some a -> get g (x - sx) (y - sy) = Some b ->
      get out x y = Some (if flt p a || flt p b then of_int 0 else p).
Proof.
  intros g dir W Hw Hh. destruct (nms_ok g dir W ltac:(lia)) as (out & E & Wo & Ew & Eh & HG).
  exists out. split; [exact E|]. split; [auto|]. split; [auto|]. split; [auto|]. split.
  - intros x y v G H. pose proof (get_inb _ _ _ _ G) as R. rewrite HG in G by lia. injection G as <-.
    match goal with |- feq (if ?b then _ else _) _ = _ => replace b with false by lia end. reflexivity.
  - intros x y p a b Hx Hy. specialize (HG x y ltac:(lia) ltac:(lia)).
    match type of HG with _ = Some (if ?c then _ else _) => replace c with true in HG by (clear - Hx Hy; lia) end.
    unfold nms_at in HG.
    destruct (dir x y); cbn [degrees across] in *; unfold unit_step; cbn [Z.eqb Pos.eqb]; intros Ep Ea Eb;
      rewrite HG; f_equal;
      repeat match goal with |- context [get g ?u ?v] =>
        first [ replace (get g u v) with (Some p) by (rewrite <- Ep; f_equal; lia)
              | replace (get g u v) with (Some a) by (rewrite <- Ea; f_equal; lia)
              | replace (get g u v) with (Some b) by (rewrite <- Eb; f_equal; lia) ] end;
      cbv beta iota; try reflexivity; rewrite orb_comm; reflexivity.
Qed.

(** The direction is the multiple of 45 degrees nearest to the angle (modulo 180). *)
Theorem c60_direction : forall a : f32, is_finite a = true -> (-200 <= B2R a <= 200)%R ->
  exists m : Z, (Rabs (B2R a - IZR (degrees (dir_of_angle a)) - 180 * IZR m) <= 22.5 + / 10000)%R.
Proof.
  intros a F B. unfold dir_of_angle.
  assert (H0 : is_finite (of_int 0 : f32) = true /\ B2R (of_int 0 : f32) = 0%R) by (split; [reflexivity|vm_compute; reflexivity]).
  destruct H0 as (F0 & R0).
  set (v := if flt a (of_int 0) then fadd a (of_int 180) else a).
  assert (V : is_finite v = true /\ exists k, (k = 0 \/ k = 1)%Z /\ (0 <= IZR k * B2R v \/ True)%R /\ (Rabs (B2R v - (B2R a + 180 * IZR k)) <= / 10000)%R /\ (B2R v <= 201)%R /\ (-21 <= B2R v)%R).
  { unfold v. rewrite flt32_R by assumption. rewrite R0. destruct (int32_R 180) as (F1 & R1); [lia|].
    destruct (Rlt_bool_spec (B2R a) 0) as [L|L].
    - destruct (fadd_R 24 128 a (of_int 180) F F1) as (Fs & Rs). { rewrite R1. pose proof f32_big. apply Rabs_le. lra. }
      rewrite R1 in Rs. split; [exact Fs|]. exists 1. split; [auto|]. split; [auto|].
      pose proof (err_le (B2R a + 180) 200 ltac:(apply Rabs_le; lra)) as E. rewrite <- Rs in E. split; [|apply Rabs_le_inv in E; lra].
      replace (180 * 1)%R with 180%R by ring. lra.
    - split; [exact F|]. exists 0. split; [auto|]. split; [auto|]. rewrite Rmult_0_r, Rplus_0_r, Rminus_diag_eq by reflexivity. rewrite Rabs_R0. lra. }
  destruct V as (Fv & k & Hk & _ & E & U & L). clearbody v. cbv zeta.
  assert (Q : forall n : Z, (0 <= n <= 1000)%Z -> is_finite (of_dyadic n (-1) : f32) = true /\ B2R (of_dyadic n (-1) : f32) = (IZR n / 2)%R).
  { intros n Hn. destruct (dy_dyadic 24 128 (-1) n) as (Fn & Rn); [split; lia|lia|]. split; [exact Fn|]. rewrite Rn. change (bpow radix2 (-1)) with (/ 2)%R. reflexivity. }
  destruct (Q 45 ltac:(lia)) as (F1 & R1). destruct (Q 135 ltac:(lia)) as (F2 & R2). destruct (Q 225 ltac:(lia)) as (F3 & R3). destruct (Q 315 ltac:(lia)) as (F4 & R4).
  unfold fle. rewrite !(Bleb_correct 24 128) by assumption. rewrite !flt32_R by assumption. rewrite R1, R2, R3, R4. clear - E U L.
  apply Rabs_le_inv in E. generalize dependent (B2R v). intros r E U L.
  destruct (Rle_bool_spec (45 / 2) r) as [A1|A1]; destruct (Rlt_bool_spec r (315 / 2)) as [A4|A4]; cbn [andb negb].
  - destruct (Rlt_bool_spec r (135 / 2)) as [A2|A2]; cbn [andb].
    + exists (- k). rewrite opp_IZR. cbn [degrees]. apply Rabs_le. lra.
    + destruct (Rle_bool_spec (135 / 2) r); [|lra]. destruct (Rlt_bool_spec r (225 / 2)) as [A3|A3]; cbn [andb]; exists (- k); rewrite opp_IZR; cbn [degrees]; apply Rabs_le; lra.
  - exists (1 - k). rewrite minus_IZR. cbn [degrees]. apply Rabs_le. lra.
  - exists (- k). rewrite opp_IZR. cbn [degrees]. apply Rabs_le. lra.
  - lra.
Qed.

(** both stages together never panic *)
Theorem c60_canny_stages : forall g dir low high,
  wf g -> 1 <= iw g < 2 ^ 32 -> 1 <= ih g < 2 ^ 32 -> iw g * ih g < 2 ^ 32 -> thresholds low high ->
  exists thin out, non_maximum_suppression g dir = Ok thin /\ thin_image thin /\
    canny_stages g dir low high = Ok out /\ marks thin out (linked eight_but_two thin low high).
Proof.
  intros g dir low high W Hw Hh A Th.
  destruct (c60_suppression g dir W Hw Hh) as (thin & E & Wt & Ew & Eh & ZB & _).
  assert (T : thin_image thin) by (unfold thin_image; rewrite Ew, Eh; auto).
  destruct (c60_hysteresis_partial thin low high T Th) as (out & Eo & M).
  exists thin, out. split; [exact E|]. split; [exact T|]. split; [|exact M].
  unfold canny_stages. destruct Th as [_ ->]. cbn [assert bind]. rewrite E. cbn [bind]. exact Eo.
Qed.

Print Assumptions c60_hysteresis_partial.
Print Assumptions c60_hysteresis_sound_partial.
Print Assumptions c60_hysteresis_refuted.
Print Assumptions c60_zero_threshold_panics.
Print Assumptions c60_suppression.
Print Assumptions c60_direction.
Print Assumptions c60_canny_stages.
