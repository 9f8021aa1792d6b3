(** Proofs about phash. *)
From Flocq Require Import Core BinarySingleNaN.
From Coq Require Import Reals Lra Psatz.
From Verif Require Import Base BaseProofs Float FloatProofs FloatErr SignalsModel SignalsSpec SignalsProofs Props_Signals ComposeModel ComposeSpec Props_Compose BriefModel Props_Brief PhashModel PhashSpec.
Local Ltac Zify.zify_post_hook ::= idtac.
Local Open Scope R_scope.

(** ** sums *)
Lemma sum_ext n f g : (forall i, (0 <= i < Z.of_nat n)%Z -> f i = g i) -> sum_to n f = sum_to n g.
Proof. induction n; intros H; cbn [sum_to]; [reflexivity|]. rewrite IHn, H by (intros; try apply H; lia). reflexivity. Qed.
Lemma sum_near n f g e : (forall i, (0 <= i < Z.of_nat n)%Z -> Rabs (f i - g i) <= e) -> Rabs (sum_to n f - sum_to n g) <= INR n * e.
Proof.
  induction n; intros H.
  - cbn. rewrite Rminus_diag_eq, Rabs_R0 by reflexivity. lra.
  - cbn [sum_to]. rewrite S_INR. replace (sum_to n f + f (Z.of_nat n) - (sum_to n g + g (Z.of_nat n))) with ((sum_to n f - sum_to n g) + (f (Z.of_nat n) - g (Z.of_nat n))) by ring.
    eapply Rle_trans; [apply Rabs_triang|]. assert (Rabs (sum_to n f - sum_to n g) <= INR n * e) by (apply IHn; intros; apply H; lia).
    pose proof (H (Z.of_nat n) ltac:(lia)). lra.
Qed.
Lemma sum_le n f M : (forall i, (0 <= i < Z.of_nat n)%Z -> Rabs (f i) <= M) -> Rabs (sum_to n f) <= INR n * M.
Proof.
  intros H. pose proof (sum_near n f (fun _ => 0) M) as S. assert (Z0 : sum_to n (fun _ => 0) = 0) by (clear; induction n; cbn [sum_to]; lra).
  rewrite Z0, Rminus_0_r in S. apply S. intros i Hi. rewrite Rminus_0_r. auto.
Qed.
Lemma sum_scale n f c : sum_to n (fun i => f i * c) = sum_to n f * c.
Proof. induction n; cbn [sum_to]; [ring|]. rewrite IHn. ring. Qed.
Lemma sum_plus n f g : sum_to n (fun i => f i + g i) = sum_to n f + sum_to n g.
Proof. induction n; cbn [sum_to]; [ring|]. rewrite IHn. ring. Qed.

(** ** waves *)
Lemma wave_1 k n : Rabs (wave k n) <= 1.
Proof. apply Rabs_le. apply COS_bound. Qed.
Lemma wave_sum k : (1 <= k <= 31)%Z -> sum_to 32 (wave k) = 0.
Proof.
  intros Hk. set (t := PI * IZR k / 64).
  assert (T : forall n, sum_to n (wave k) * (2 * sin t) = sin (IZR (2 * Z.of_nat n) * t)).
  { induction n.
    - cbn [sum_to]. replace (IZR (2 * Z.of_nat 0) * t) with 0 by (cbn; ring). rewrite sin_0. ring.
    - cbn [sum_to]. rewrite Rmult_plus_distr_r, IHn.
      replace (sin (IZR (2 * Z.of_nat (S n)) * t)) with (sin (IZR (2 * Z.of_nat n) * t) + (sin (IZR (2 * Z.of_nat (S n)) * t) - sin (IZR (2 * Z.of_nat n) * t))) by ring.
      f_equal. rewrite form4. unfold wave. replace (Z.of_nat (S n)) with (Z.of_nat n + 1)%Z by lia. set (m := Z.of_nat n).
      replace ((IZR (2 * (m + 1)) * t + IZR (2 * m) * t) / 2) with (PI * IZR ((2 * m + 1) * k) / 64).
      + replace ((IZR (2 * (m + 1)) * t - IZR (2 * m) * t) / 2) with t; [ring|]. rewrite !mult_IZR, plus_IZR. field.
      + unfold t. rewrite !mult_IZR, !plus_IZR, !mult_IZR. field. }
  specialize (T 32%nat). replace (IZR (2 * Z.of_nat 32) * t) with (IZR k * PI) in T by (unfold t; change (2 * Z.of_nat 32)%Z with 64%Z; field).
  rewrite (sin_eq_0_1 (IZR k * PI)) in T by (exists k; reflexivity).
  assert (S : 0 < sin t).
  { assert (B : 1 <= IZR k <= 31) by (split; apply IZR_le; lia). pose proof PI_RGT_0. apply sin_gt_0; unfold t; nra. }
  nra.
Qed.
Lemma coef_affine f a b k l : (1 <= k <= 31)%Z -> coef (fun x y => a * f x y + b) k l = a * coef f k l.
Proof.
  intros Hk. unfold coef.
  rewrite (sum_ext 32 _ (fun x => sum_to 32 (fun y => f x y * wave k x * wave l y) * a + wave k x * (sum_to 32 (wave l) * b))).
  - rewrite sum_plus, !sum_scale, wave_sum by exact Hk. ring.
  - intros x _. rewrite <- sum_scale, <- (sum_scale 32 (wave l) b). rewrite (Rmult_comm (wave k x)), <- sum_scale, <- sum_plus. apply sum_ext. intros y _. ring.
Qed.
Lemma coef_ext f g k l : (forall x y, (0 <= x < 32)%Z -> (0 <= y < 32)%Z -> f x y = g x y) -> coef f k l = coef g k l.
Proof. intros H. unfold coef. apply sum_ext. intros x Hx. apply sum_ext. intros y Hy. rewrite H by (cbn in *; lia). reflexivity. Qed.
Lemma mean_affine f a b : mean_coef (fun x y => a * f x y + b) = a * mean_coef f.
Proof.
  unfold mean_coef. rewrite (sum_ext 8 _ (fun j => sum_to 8 (fun i => coef f (i + 1) (j + 1)) * a)).
  - rewrite sum_scale. field.
  - intros j _. rewrite <- sum_scale. apply sum_ext. intros i Hi. rewrite coef_affine by (cbn in Hi; lia). ring.
Qed.

(** ** columns and rows as lists *)
Local Open Scope Z_scope.
Lemma line_exists {A} (g : Z -> option A) n : 0 <= n -> (forall i, 0 <= i < n -> exists a, g i = Some a) -> (forall i, ~ 0 <= i < n -> g i = None) ->
  exists l, zlen l = n /\ forall i, znth l i = g i.
Proof.
  intros Hn H O. destruct (mapM_exists (fun i => match g i with Some a => Ok a | None => Panic end) (fun _ _ => True) (zrange 0 n)) as (l & E & _).
  { intros i Hi. apply in_zrange in Hi. destruct (H i Hi) as (a & ->). eauto. }
  pose proof (mapM_length _ _ _ E) as L. rewrite zrange_length in L. assert (Zl : zlen l = n) by (unfold zlen; lia).
  exists l. split; [exact Zl|]. intros i. destruct (Z_le_dec 0 i) as [I|I]; [destruct (Z_lt_dec i n) as [J|J]|].
  - destruct (H i ltac:(lia)) as (a & Ga). destruct (znth_some l i) as (b & Eb); [lia|].
    destruct (mapM_nth _ _ _ i i E) as (c & Ec & Fc). { rewrite znth_zrange by lia. reflexivity. }
    rewrite Ga in Fc. injection Fc as <-. congruence.
  - rewrite O by lia. apply znth_none. lia.
  - rewrite O by lia. apply znth_none. lia.
Qed.

Lemma column_exists {A} (im : image A) x : wf im -> 0 <= x < iw im -> exists l, zlen l = ih im /\ is_column im x l.
Proof.
  intros W Hx. apply (line_exists (fun y => get im x y)).
  - destruct W as (_ & W & _). exact W.
  - intros y Hy. apply get_some; assumption.
  - intros y Hy. destruct (get im x y) eqn:G; [|reflexivity]. apply get_inb in G. lia.
Qed.
Lemma row_exists {A} (im : image A) y : wf im -> 0 <= y < ih im -> exists l, zlen l = iw im /\ is_row im y l.
Proof.
  intros W Hy. apply (line_exists (fun x => get im x y)).
  - destruct W as (W & _). exact W.
  - intros x Hx. apply get_some; assumption.
  - intros x Hx. destruct (get im x y) eqn:G; [|reflexivity]. apply get_inb in G. lia.
Qed.

Lemma transform_ok e dct r B : dct_ok e dct -> (0 <= e <= 1)%R -> (1 <= B <= 1000000)%R -> reduction B r ->
  exists d, dct2d dct r = Ok d /\ wf d /\ iw d = 32 /\ ih d = 32 /\
    forall k l, 0 <= k < 32 -> 0 <= l < 32 -> exists c, get d k l = Some c /\ is_finite c = true /\
      (Rabs (B2R c - coef (shade r) k l) <= 65 * e * B)%R.
Proof.
  intros (DL & DA) He HB (W & Rw & Rh & Bd).
  destruct (c70_dct2d f32 dct r W DL) as (mid & out & E & (Wo & Ow & Oh) & (Wm & Mw & Mh) & C & R). rewrite Rw, Rh in *.
  exists out. split; [exact E|]. split; [exact Wo|]. split; [exact Ow|]. split; [exact Oh|].
  assert (MID : forall x l, 0 <= x < 32 -> 0 <= l < 32 -> exists c, get mid x l = Some c /\ is_finite c = true /\
    (Rabs (B2R c - sum_to 32 (fun y => shade r x y * wave l y)) <= e * B)%R).
  { intros x l Hx Hl. destruct (column_exists r x W) as (col & Lc & Ic); [lia|]. pose proof (C x col Hx Ic) as Im.
    destruct (get_some mid x l Wm) as (c & Gc); [lia|lia|]. exists c. split; [exact Gc|].
    destruct (DA col B) with (k := l) (c := c) as (Fc & Ec); [congruence|lra| |rewrite Im; exact Gc|].
    - intros a Ia. destruct (In_znth _ _ Ia) as (i & _ & Ni). rewrite Ic in Ni. exact (Bd _ _ _ Ni).
    - split; [exact Fc|]. rewrite (sum_ext 32 _ (fun n => val col n * wave l n)%R); [exact Ec|].
      intros i _. unfold val, shade. rewrite Ic. reflexivity. }
  assert (MB : forall x l, (Rabs (sum_to 32 (fun y => shade r x y * wave l y)) <= 32 * B)%R).
  { intros x l. pose proof (sum_le 32 (fun y => shade r x y * wave l y)%R B) as S. replace (INR 32) with 32%R in S by (cbn; lra). apply S. intros y _.
    rewrite Rabs_mult. assert (Rabs (shade r x y) <= B)%R. { unfold shade. destruct (get r x y) eqn:G; [apply (Bd _ _ _ G)|rewrite Rabs_R0; lra]. }
    pose proof (wave_1 l y). pose proof (Rabs_pos (shade r x y)). pose proof (Rabs_pos (wave l y)). nra. }
  intros k l Hk Hl. destruct (row_exists mid l Wm) as (row & Lr & Ir); [lia|]. pose proof (R l row Hl Ir) as Io.
  destruct (get_some out k l Wo) as (c & Gc); [lia|lia|]. exists c. split; [exact Gc|].
  destruct (DA row (33 * B)%R) with (k := k) (c := c) as (Fc & Ec); [congruence|lra| |rewrite Io; exact Gc|].
  - intros a Ia. destruct (In_znth _ _ Ia) as (i & _ & Ni). rewrite Ir in Ni. pose proof (get_inb _ _ _ _ Ni) as Q.
    destruct (MID i l) as (c' & G' & F' & E'); [lia|lia|]. rewrite Ni in G'. injection G' as <-. split; [exact F'|].
    specialize (MB i l). replace (B2R a) with ((B2R a - sum_to 32 (fun y => shade r i y * wave l y)) + sum_to 32 (fun y => shade r i y * wave l y))%R by ring.
    eapply Rle_trans; [apply Rabs_triang|]. assert (e * B <= B)%R by nra. lra.
  - split; [exact Fc|]. replace (B2R c - coef (shade r) k l)%R with ((B2R c - sum_to 32 (fun n => val row n * wave k n)) + (sum_to 32 (fun n => val row n * wave k n) - coef (shade r) k l))%R by ring.
    eapply Rle_trans; [apply Rabs_triang|]. replace (65 * e * B)%R with (e * (33 * B) + INR 32 * (e * B))%R by (replace (INR 32) with 32%R by (cbn; lra); ring).
    apply Rplus_le_compat; [exact Ec|]. unfold coef. apply sum_near. intros x Hx. cbn in Hx.
    destruct (MID x l) as (c' & G' & F' & E'); [lia|lia|]. unfold val. rewrite Ir, G'.
    rewrite (sum_ext 32 _ (fun y => shade r x y * wave l y * wave k x)%R) by (intros; ring). rewrite sum_scale, <- Rmult_minus_distr_r, Rabs_mult.
    pose proof (wave_1 k x). pose proof (Rabs_pos (wave k x)). pose proof (Rabs_pos (B2R c' - sum_to 32 (fun y => shade r x y * wave l y))%R). nra.
Qed.

(** ** the mean *)
Definition total (l : list f32) : R := fold_right (fun a s => (B2R a + s)%R) 0%R l.
Lemma fold_err M l : (1 <= M <= 2000000000)%R -> (forall a, In a l -> bounded M a) -> forall n a S,
  (1 <= n)%R -> (n + INR (length l) <= 64)%R -> is_finite a = true -> (Rabs (B2R a - S) <= n * (M / 200000))%R -> (Rabs S <= n * M)%R ->
  is_finite (fold_left fadd l a) = true /\
  (Rabs (B2R (fold_left fadd l a) - (S + total l)) <= (n + INR (length l)) * (M / 200000))%R /\ (Rabs (S + total l) <= (n + INR (length l)) * M)%R.
Proof.
  intros HM. induction l as [|x l IH]; intros Hl n a S Hn Hln Fa Ea HS.
  - cbn [fold_left total fold_right length INR]. rewrite !Rplus_0_r. auto.
  - cbn [fold_left total fold_right length]. rewrite S_INR. cbn [length] in Hln. rewrite S_INR in Hln.
    pose proof (pos_INR (length l)) as PL. destruct (Hl x (or_introl eq_refl)) as (Fx & Bx).
    assert (Bs : (Rabs (B2R a + B2R x) <= 65 * M)%R).
    { replace (B2R a + B2R x)%R with ((B2R a - S) + S + B2R x)%R by ring. eapply Rle_trans; [apply Rabs_triang|]. eapply Rle_trans; [apply Rplus_le_compat_r; apply Rabs_triang|]. nra. }
    destruct (fadd_R 24 128 a x Fa Fx) as (Ff & Rf); [pose proof f32_big; lra|].
    pose proof (f32_err (B2R a + B2R x)) as Er. rewrite <- Rf in Er.
    replace (S + (B2R x + fold_right (fun a0 s => B2R a0 + s) 0 l))%R with ((S + B2R x) + total l)%R by (unfold total; ring).
    replace (n + (INR (length l) + 1))%R with ((n + 1) + INR (length l))%R by ring.
    apply IH; [intros b Ib; apply Hl; right; exact Ib|lra|lra|exact Ff| |].
    + replace (B2R (fadd a x) - (S + B2R x))%R with ((B2R (fadd a x) - (B2R a + B2R x)) + (B2R a - S))%R by ring.
      eapply Rle_trans; [apply Rabs_triang|]. lra.
    + eapply Rle_trans; [apply Rabs_triang|]. lra.
Qed.
