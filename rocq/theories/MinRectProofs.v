(** The rotating calipers: the model against rectangles over the reals. *)
From Coq Require Import Reals Lra Psatz Permutation Sorted Classical.
From Flocq Require Import Core BinarySingleNaN.
From Verif Require Import Base BaseProofs Float FloatProofs FloatErr HogCellsSpec GeometryModel GeometrySpec MinRectModel MinRectSpec MinRectGeom MinRectNum.
Local Ltac Zify.zify_post_hook ::= idtac.
Local Open Scope R_scope.

(** ** the angle of an edge *)
Lemma angle_dir h v : (h, v) <> (0, 0)%Z -> IZR v * cos (angle h v) = IZR h * sin (angle h v).
Proof.
  intros N. unfold angle.
  assert (T : h <> 0%Z -> IZR v * cos (atan (IZR v / IZR h)) = IZR h * sin (atan (IZR v / IZR h))).
  { intros H. assert (H' : IZR h <> 0) by (apply not_0_IZR; exact H).
    set (a := atan (IZR v / IZR h)). assert (Ta : tan a = IZR v / IZR h) by apply tan_atan.
    assert (C : 0 < cos a) by (pose proof (atan_bound (IZR v / IZR h)) as Q; fold a in Q; apply cos_gt_0; lra).
    unfold tan in Ta. assert (S : sin a = IZR v / IZR h * cos a) by (rewrite <- Ta; field; lra). rewrite S. field. exact H'. }
  destruct (Z.ltb_spec 0 h); [apply T; lia|]. destruct (Z.ltb_spec h 0).
  - specialize (T ltac:(lia)). destruct (0 <=? v)%Z.
    + rewrite neg_cos, neg_sin. lra.
    + unfold Rminus. rewrite cos_plus, sin_plus, cos_neg, sin_neg, cos_PI, sin_PI. lra.
  - assert (h = 0)%Z as -> by lia. destruct (Z.ltb_spec 0 v); [rewrite cos_PI2, sin_PI2; lra|].
    destruct (Z.ltb_spec v 0); [rewrite cos_neg, sin_neg, cos_PI2, sin_PI2; lra|]. exfalso. apply N. f_equal; lia.
Qed.
Lemma angle_range h v : - PI <= angle h v <= PI.
Proof.
  unfold angle. pose proof PI_RGT_0. pose proof (atan_bound (IZR v / IZR h)) as B.
  destruct (Z.ltb_spec 0 h); [lra|]. destruct (Z.ltb_spec h 0) as [L|L].
  - destruct (Z.leb_spec 0 v) as [V|V].
    + assert (IZR v / IZR h <= 0). { apply IZR_lt in L. apply IZR_le in V. assert (0 <= IZR v * / - IZR h) by (apply Rmult_le_pos; [lra|left; apply Rinv_0_lt_compat; lra]).
        replace (IZR v / IZR h) with (- (IZR v * / - IZR h)) by (field; lra). lra. }
      assert (atan (IZR v / IZR h) <= 0). { rewrite <- atan_0. destruct (Req_dec (IZR v / IZR h) 0) as [->|Q]; [lra|left; apply atan_increasing; lra]. } lra.
    + assert (0 <= IZR v / IZR h). { apply IZR_lt in L, V. assert (0 <= - IZR v * / - IZR h) by (apply Rmult_le_pos; [lra|left; apply Rinv_0_lt_compat; lra]).
        replace (IZR v / IZR h) with (- IZR v * / - IZR h) by (field; lra). lra. }
      assert (0 <= atan (IZR v / IZR h)). { rewrite <- atan_0. destruct (Req_dec (IZR v / IZR h) 0) as [->|Q]; [lra|left; apply atan_increasing; lra]. } lra.
  - destruct (0 <? v)%Z; [lra|]. destruct (v <? 0)%Z; lra.
Qed.
(** the direction t, up to quarter turns *)
Definition par (t : R) (p q : Z * Z) : Prop := along t p = along t q \/ across t p = across t q.
Lemma par_quarter t p q : par t p q -> par (t - PI / 2) p q.
Proof.
  assert (A : forall p, across (t - PI / 2) p = along t p). { intros r. rewrite across_along. f_equal. lra. }
  assert (B : forall p, along (t - PI / 2) p = - across t p).
  { intros r. rewrite across_along. rewrite <- along_PI. rewrite <- (Ropp_involutive (along (t - PI / 2) r)), <- along_PI. rewrite <- along_PI. f_equal. lra. }
  intros [H|H]; [right; rewrite !A; exact H|left; rewrite !B; lra].
Qed.
Lemma par_quarters t p q k : (0 <= k)%Z -> par t p q -> par (t - IZR k * (PI / 2)) p q.
Proof.
  intros Hk H. revert k Hk. apply natlike_ind.
  - replace (t - 0 * (PI / 2)) with t by ring. exact H.
  - intros k Hk IH. unfold Z.succ. rewrite plus_IZR. replace (t - (IZR k + 1) * (PI / 2)) with (t - IZR k * (PI / 2) - PI / 2) by ring. apply par_quarter, IH.
Qed.
Lemma par_edge p q : p <> q -> par (angle (fst q - fst p) (snd q - snd p) + PI) p q.
Proof.
  intros N. right. unfold across. rewrite neg_cos, neg_sin.
  pose proof (angle_dir (fst q - fst p) (snd q - snd p)) as D.
  rewrite !minus_IZR in D. assert (E : (fst q - fst p, snd q - snd p)%Z <> (0, 0)%Z).
  { intros E. apply N. destruct p, q. cbn [fst snd] in *. injection E as E1 E2. f_equal; lia. }
  specialize (D E). lra.
Qed.

(** the angle [a] computed for the edge p q *)
Definition good (a : f64) (p q : Z * Z) : Prop :=
  is_finite a = true /\ 0 <= B2R a <= 2 /\ exists t, par t p q /\ Rabs (B2R a - t) <= / 50000000000000.

Section Angles.
  Context (atan2 : f64 -> f64 -> f64) (Hat : accurate_atan2 atan2).
  Lemma edge_angle_ok p q : p <> q -> (Z.abs (fst p) <= 2 ^ 20 /\ Z.abs (snd p) <= 2 ^ 20 /\ Z.abs (fst q) <= 2 ^ 20 /\ Z.abs (snd q) <= 2 ^ 20)%Z ->
    (Z.abs (fst q - fst p) <= 65536 /\ Z.abs (snd q - snd p) <= 65536)%Z ->
    good (edge_angle atan2 p q) p q.
  Proof.
    intros N (B1 & B2 & B3 & B4) (S1 & S2). unfold edge_angle, to_f64. cbn [fst snd].
    rewrite !sub_int by lia. set (h := (fst q - fst p)%Z) in *. set (v := (snd q - snd p)%Z) in *.
    assert (Nz : (h, v) <> (0, 0)%Z). { intros E. apply N. destruct p, q. unfold h, v in E. cbn [fst snd] in *. injection E as E1 E2. f_equal; lia. }
    destruct (Hat h v) as (Fa & Ea); [repeat split; auto; lia|]. set (a := atan2 (of_int v) (of_int h)) in *. clearbody a.
    pose proof (angle_range h v) as Ar. pose proof pi64_err as Pe. destruct pi64_R as (Fp & Rp).
    assert (PB : 3 <= P64 <= 32 / 10) by (unfold P64; lra).
    apply Rabs_le_inv in Ea, Pe.
    assert (Aa : ap a (angle h v) 4 (/ 100000000000000)). { split; [exact Fa|]. split; [apply Rabs_le; lra|apply Rabs_le; lra]. }
    assert (Ap : ap pi_f64 PI 4 (/ 1000000000000000)). { split; [exact Fp|]. rewrite Rp. split; apply Rabs_le; lra. }
    destruct (ap_add _ _ _ _ _ _ _ _ Aa Ap ltac:(lra)) as (Fx & Ex & _). set (x := fadd a pi_f64) in *. clearbody x.
    destruct (int64_R 2) as (F2 & R2); [lia|].
    destruct (fdiv_R 53 1024 pi_f64 (of_int 2) Fp) as (Fd & Rd). { rewrite R2. lra. } { rewrite Rp, R2. pose proof big64. rewrite Rabs_right; lra. }
    assert (Rd' : B2R (fdiv pi_f64 (of_int 2)) = P64 / 2).
    { rewrite Rd, Rp, R2. destruct (dy_dyadic 53 1024 (-52) 7074237752028440) as (_ & RD); [split; lia|lia|].
      replace (P64 / 2) with (B2R (of_dyadic 7074237752028440 (-52) : f64)); [apply rnd_idF|]. rewrite RD. unfold P64. change (bpow radix2 (-52)) with (/ 4503599627370496). lra. }
    set (d := fdiv pi_f64 (of_int 2)) in *. clearbody d.
    destruct (frem_R x d Fx Fd) as (Fr & k & Hk & Er & Lr); [rewrite Rd'; lra|].
    set (r := frem x d) in *. clearbody r.
    unfold good, fabs. rewrite is_finite_Babs, B2R_Babs. split; [exact Fr|].
    pose proof (Rabs_pos (B2R r)) as R0. rewrite Rd' in *. split; [lra|].
    exists (angle h v + PI - IZR k * (PI / 2)). split; [apply par_quarters; [exact Hk|apply (par_edge p q N)]|].
    rewrite Er. assert (Xb : Rabs (Rabs (B2R x) - (angle h v + PI)) <= 12 / 1000000000000000).
    { apply Rabs_le_inv in Ex. apply Rabs_le. unfold Rabs. destruct (Rcase_abs (B2R x)); lra. }
    apply Rabs_le_inv in Xb.
    assert (Kb : IZR k <= 5). { destruct (Rle_or_lt (IZR k) 5) as [Q|Q]; [exact Q|]. exfalso. assert (5 * (P64 / 2) <= IZR k * (P64 / 2)) by (apply Rmult_le_compat_r; lra). lra. }
    apply IZR_le in Hk.
    assert (E1 : IZR k * (P64 / 2 - PI / 2) <= 5 * / 2000000000000000). { apply Rle_trans with (IZR k * / 2000000000000000); [apply Rmult_le_compat_l; lra|apply Rmult_le_compat_r; lra]. }
    assert (E2 : IZR k * (PI / 2 - P64 / 2) <= 5 * / 2000000000000000). { apply Rle_trans with (IZR k * / 2000000000000000); [apply Rmult_le_compat_l; lra|apply Rmult_le_compat_r; lra]. }
    apply Rabs_le. split; lra.
  Qed.
End Angles.

(** ** points turned by a computed angle *)
Definition inb20 (p : Z * Z) : Prop := (Z.abs (fst p) <= 1048576 /\ Z.abs (snd p) <= 1048576)%Z.
Definition e1 : R := / 10000000.
Lemma trig t : cos t * cos t + sin t * sin t = 1.
Proof. pose proof (sin2_cos2 t) as Q. unfold Rsqr in Q. lra. Qed.
Lemma along_b t p : inb20 p -> Rabs (along t p) <= 2097152 /\ Rabs (across t p) <= 2097152.
Proof.
  intros (A & B). assert (A' : Rabs (IZR (fst p)) <= 1048576) by (rewrite <- abs_IZR; apply IZR_le; lia).
  assert (B' : Rabs (IZR (snd p)) <= 1048576) by (rewrite <- abs_IZR; apply IZR_le; lia).
  assert (C : Rabs (cos t) <= 1) by (pose proof (COS_bound t); apply Rabs_le; lra).
  assert (S : Rabs (sin t) <= 1) by (pose proof (SIN_bound t); apply Rabs_le; lra).
  assert (M : forall a b, Rabs a <= 1048576 -> Rabs b <= 1 -> Rabs (a * b) <= 1048576).
  { intros a b Ha Hb. rewrite Rabs_mult. pose proof (Rabs_pos a). pose proof (Rabs_pos b).
    replace 1048576 with (1048576 * 1) by ring. apply Rmult_le_compat; lra. }
  unfold along, across. split.
  - eapply Rle_trans; [apply Rabs_triang|]. pose proof (M _ _ A' C). pose proof (M _ _ B' S). lra.
  - unfold Rminus. eapply Rle_trans; [apply Rabs_triang|]. rewrite Rabs_Ropp. pose proof (M _ _ A' S). pose proof (M _ _ B' C). lra.
Qed.
(** a rotation close to the exact one *)
Definition near_rot (r : f64 * f64) (t : R) : Prop :=
  ap (fst r) (sin t) 1 (3 / 100000000000000) /\ ap (snd r) (cos t) 1 (3 / 100000000000000).
Lemma rotate_ok r t p : near_rot r t -> inb20 p ->
  ap (fst (rotate r (to_f64 p))) (along t p) 2097152 e1 /\ ap (snd (rotate r (to_f64 p))) (across t p) 2097152 e1.
Proof.
  intros (S & C) Hp. pose proof (along_b t p Hp) as (Ba & Bc). destruct Hp as (A & B). destruct r as [s c]. cbn [fst snd] in S, C.
  unfold rotate, to_f64. cbn [fst snd].
  pose proof (ap_int (fst p) 1048576 A ltac:(lia)) as X. pose proof (ap_int (snd p) 1048576 B ltac:(lia)) as Y.
  pose proof (ap_mul _ _ _ _ _ _ _ _ X C ltac:(lra)) as XC. pose proof (ap_mul _ _ _ _ _ _ _ _ Y S ltac:(lra)) as YS.
  pose proof (ap_mul _ _ _ _ _ _ _ _ Y C ltac:(lra)) as YC. pose proof (ap_mul _ _ _ _ _ _ _ _ X S ltac:(lra)) as XS.
  pose proof (ap_add _ _ _ _ _ _ _ _ XC YS ltac:(lra)) as U. pose proof (ap_sub _ _ _ _ _ _ _ _ YC XS ltac:(lra)) as V.
  unfold e1. split.
  - destruct U as (F & E & _). split; [exact F|]. split; [|exact Ba]. eapply Rle_trans; [exact E|]. lra.
  - destruct V as (F & E & _). split; [exact F|]. split; [|exact Bc]. eapply Rle_trans; [exact E|]. lra.
Qed.
Definition e2 : R := / 1000000.
Lemma invert_ok r t fx fy X Y : near_rot r t -> ap fx X 2097152 e1 -> ap fy Y 2097152 e1 ->
  ap (fst (invert_rotation r (fx, fy))) (X * cos t - Y * sin t) 4194304 e2 /\
  ap (snd (invert_rotation r (fx, fy))) (Y * cos t + X * sin t) 4194304 e2.
Proof.
  intros (S & C) FX FY. destruct r as [s c]. cbn [fst snd] in S, C. unfold invert_rotation. cbn [fst snd]. unfold e1 in *.
  pose proof (ap_mul _ _ _ _ _ _ _ _ FX C ltac:(lra)) as XC. pose proof (ap_mul _ _ _ _ _ _ _ _ FY S ltac:(lra)) as YS.
  pose proof (ap_mul _ _ _ _ _ _ _ _ FY C ltac:(lra)) as YC. pose proof (ap_mul _ _ _ _ _ _ _ _ FX S ltac:(lra)) as XS.
  pose proof (ap_sub _ _ _ _ _ _ _ _ XC YS ltac:(lra)) as U. pose proof (ap_add _ _ _ _ _ _ _ _ YC XS ltac:(lra)) as V.
  unfold e2. split; eapply ap_weaken; [exact U| | |exact V| |]; lra.
Qed.

(** ** the extents *)
Lemma max64_R : is_finite max_f64 = true /\ 1000000000000000 <= B2R max_f64.
Proof.
  assert (E : B2SF max_f64 = SpecFloat.S754_finite false 9007199254740991 971) by (vm_compute; reflexivity).
  destruct max_f64 as [s|s| |s m e B]; try discriminate E. cbn [B2SF] in E. injection E as -> -> ->.
  split; [reflexivity|]. cbn [B2R cond_Zopp]. unfold F2R. cbn [Fnum Fexp].
  assert (1 <= bpow radix2 971) by (apply (bpow_le radix2 0); lia). nra.
Qed.
Lemma fmin_R (x y : f64) : is_finite x = true -> is_finite y = true -> fmin x y = if Rlt_bool (B2R y) (B2R x) then y else x.
Proof.
  intros Fx Fy. unfold fmin, fis_nan, flt.
  assert (is_nan x = false) as -> by (destruct x; try discriminate; reflexivity).
  assert (is_nan y = false) as -> by (destruct y; try discriminate; reflexivity).
  rewrite Bltb_correct by assumption. reflexivity.
Qed.
Lemma fmax_R (x y : f64) : is_finite x = true -> is_finite y = true -> fmax x y = if Rlt_bool (B2R x) (B2R y) then y else x.
Proof.
  intros Fx Fy. unfold fmax, fis_nan, flt.
  assert (is_nan x = false) as -> by (destruct x; try discriminate; reflexivity).
  assert (is_nan y = false) as -> by (destruct y; try discriminate; reflexivity).
  rewrite Bltb_correct by assumption. reflexivity.
Qed.
Lemma fold_min {A} (f : A -> f64) l z : is_finite z = true -> (forall a, In a l -> is_finite (f a) = true) ->
  let m := fold_left (fun z a => fmin z (f a)) l z in
  is_finite m = true /\ (m = z \/ exists a, In a l /\ m = f a) /\ B2R m <= B2R z /\ (forall a, In a l -> B2R m <= B2R (f a)).
Proof.
  revert z. induction l as [|a l IH]; intros z Fz Fl; cbn [fold_left].
  - split; [exact Fz|]. split; [left; reflexivity|]. split; [lra|]. intros a [].
  - assert (Fa : is_finite (f a) = true) by (apply Fl; left; reflexivity).
    assert (Q : is_finite (fmin z (f a)) = true /\ (fmin z (f a) = z \/ fmin z (f a) = f a) /\ B2R (fmin z (f a)) <= B2R z /\ B2R (fmin z (f a)) <= B2R (f a)).
    { rewrite (fmin_R z (f a) Fz Fa). destruct (Rlt_bool_spec (B2R (f a)) (B2R z)); repeat split; auto; lra. }
    destruct Q as (F1 & Q1 & Q2 & Q3).
    destruct (IH (fmin z (f a)) F1) as (G1 & G2 & G3 & G4); [intros b Hb; apply Fl; right; exact Hb|].
    cbv zeta in *. split; [exact G1|]. split; [|split; [lra|]].
    + destruct G2 as [G2|(b & Hb & G2)]; [|right; exists b; split; [right; exact Hb|exact G2]].
      destruct Q1 as [Q1|Q1]; [left; congruence|right; exists a; split; [left; reflexivity|congruence]].
    + intros b [<-|Hb]; [lra|apply G4, Hb].
Qed.
Lemma fold_max {A} (f : A -> f64) l z : is_finite z = true -> (forall a, In a l -> is_finite (f a) = true) ->
  let m := fold_left (fun z a => fmax z (f a)) l z in
  is_finite m = true /\ (m = z \/ exists a, In a l /\ m = f a) /\ B2R z <= B2R m /\ (forall a, In a l -> B2R (f a) <= B2R m).
Proof.
  revert z. induction l as [|a l IH]; intros z Fz Fl; cbn [fold_left].
  - split; [exact Fz|]. split; [left; reflexivity|]. split; [lra|]. intros a [].
  - assert (Fa : is_finite (f a) = true) by (apply Fl; left; reflexivity).
    assert (Q : is_finite (fmax z (f a)) = true /\ (fmax z (f a) = z \/ fmax z (f a) = f a) /\ B2R z <= B2R (fmax z (f a)) /\ B2R (f a) <= B2R (fmax z (f a))).
    { rewrite (fmax_R z (f a) Fz Fa). destruct (Rlt_bool_spec (B2R z) (B2R (f a))); repeat split; auto; lra. }
    destruct Q as (F1 & Q1 & Q2 & Q3).
    destruct (IH (fmax z (f a)) F1) as (G1 & G2 & G3 & G4); [intros b Hb; apply Fl; right; exact Hb|].
    cbv zeta in *. split; [exact G1|]. split; [|split; [lra|]].
    + destruct G2 as [G2|(b & Hb & G2)]; [|right; exists b; split; [right; exact Hb|exact G2]].
      destruct Q1 as [Q1|Q1]; [left; congruence|right; exists a; split; [left; reflexivity|congruence]].
    + intros b [<-|Hb]; [lra|apply G4, Hb].
Qed.
Lemma extents_split r l : extents r l =
  (fold_left (fun z p => fmin z (fst (rotate r (to_f64 p)))) l max_f64,
   fold_left (fun z p => fmax z (fst (rotate r (to_f64 p)))) l min_f64,
   fold_left (fun z p => fmin z (snd (rotate r (to_f64 p)))) l max_f64,
   fold_left (fun z p => fmax z (snd (rotate r (to_f64 p)))) l min_f64).
Proof.
  unfold extents. generalize max_f64 at 1 3 as a. generalize max_f64 as c. generalize min_f64 at 1 3 as b. generalize min_f64 as d.
  induction l as [|p l IH]; intros d b c a; cbn [fold_left]; [reflexivity|]. apply IH.
Qed.
(** the least and the largest value of a list, computed with errors *)
Lemma min_near (f : Z * Z -> f64) (g : Z * Z -> R) d l : In d l ->
  (forall p, In p l -> ap (f p) (g p) 2097152 e1) ->
  ap (fold_left (fun z p => fmin z (f p)) l max_f64) (- lmax (fun p => - g p) d l) 2097152 e1.
Proof.
  intros Hd H. destruct max64_R as (Fm & Bm).
  destruct (fold_min f l max_f64 Fm) as (F & At & _ & Le). { intros p Hp. apply (H p Hp). }
  cbv zeta in *. set (m := fold_left _ l max_f64) in *. clearbody m.
  assert (I : forall p, In p (d :: l) -> In p l) by (intros p [<-|Hp]; auto).
  destruct (lmax_in (fun p => - g p) d l) as (v & Hv & E). apply I in Hv. rewrite E, Ropp_involutive.
  pose proof (H v Hv) as (_ & Ev & Mv). split; [exact F|]. split; [|exact Mv].
  pose proof (Le v Hv) as Lv.
  assert (exists a, In a l /\ m = f a) as (a & Ha & Ea).
  { destruct At as [->|At]; [|exact At]. exfalso. unfold e1 in *. pose proof (ap_abs _ _ _ _ (H v Hv)) as Q. unfold e1 in Q. apply Rabs_le_inv in Q. lra. }
  pose proof (H a Ha) as (_ & Eaa & _). pose proof (lmax_ge (fun p => - g p) d l a (or_intror Ha)) as La. cbv beta in La. rewrite E in La.
  rewrite <- Ea in Eaa. apply Rabs_le_inv in Ev, Eaa. apply Rabs_le. lra.
Qed.
Lemma max_near (f : Z * Z -> f64) (g : Z * Z -> R) d l : In d l ->
  (forall p, In p l -> ap (f p) (g p) 2097152 e1) ->
  ap (fold_left (fun z p => fmax z (f p)) l min_f64) (lmax g d l) 2097152 e1.
Proof.
  intros Hd H. destruct max64_R as (Fm & Bm).
  assert (Fn : is_finite min_f64 = true) by (unfold min_f64, fneg; rewrite is_finite_Bopp; exact Fm).
  assert (Bn : B2R min_f64 <= -1000000000000000) by (unfold min_f64, fneg; rewrite B2R_Bopp; lra).
  destruct (fold_max f l min_f64 Fn) as (F & At & _ & Le). { intros p Hp. apply (H p Hp). }
  cbv zeta in *. set (m := fold_left _ l min_f64) in *. clearbody m.
  assert (I : forall p, In p (d :: l) -> In p l) by (intros p [<-|Hp]; auto).
  destruct (lmax_in g d l) as (v & Hv & E). apply I in Hv. rewrite E.
  pose proof (H v Hv) as (_ & Ev & Mv). split; [exact F|]. split; [|exact Mv].
  pose proof (Le v Hv) as Lv.
  assert (exists a, In a l /\ m = f a) as (a & Ha & Ea).
  { destruct At as [->|At]; [|exact At]. exfalso. pose proof (ap_abs _ _ _ _ (H v Hv)) as Q. unfold e1 in Q. apply Rabs_le_inv in Q. lra. }
  pose proof (H a Ha) as (_ & Eaa & _). pose proof (lmax_ge g d l a (or_intror Ha)) as La. rewrite E in La.
  rewrite <- Ea in Eaa. apply Rabs_le_inv in Ev, Eaa. apply Rabs_le. lra.
Qed.

Section Hull.
  Context (pts hull : list (Z * Z)) (HH : hull_of pts hull).
  Context (Hin : forall p, In p hull -> inb20 p) (Hsp : spread 32767 hull).
  Lemma hull_d : In (cyc hull 0) hull.
  Proof. apply cyc_In. exact (hull_ne _ _ HH). Qed.
  Lemma width t : 0 <= x1 (bound hull t) - x0 (bound hull t) <= 65534 /\ 0 <= y1 (bound hull t) - y0 (bound hull t) <= 65534.
  Proof.
    assert (P : forall p q, In p hull -> In q hull -> Rabs (along t p - along t q) <= 65534 /\ Rabs (across t p - across t q) <= 65534).
    { intros p q Hp Hq. destruct (Hsp p q Hp Hq) as (A & B).
      assert (A' : Rabs (IZR (fst p) - IZR (fst q)) <= 32767) by (rewrite <- minus_IZR, <- abs_IZR; apply IZR_le; lia).
      assert (B' : Rabs (IZR (snd p) - IZR (snd q)) <= 32767) by (rewrite <- minus_IZR, <- abs_IZR; apply IZR_le; lia).
      assert (C : Rabs (cos t) <= 1) by (pose proof (COS_bound t); apply Rabs_le; lra).
      assert (S : Rabs (sin t) <= 1) by (pose proof (SIN_bound t); apply Rabs_le; lra).
      assert (M : forall a b, Rabs a <= 32767 -> Rabs b <= 1 -> Rabs (a * b) <= 32767).
      { intros a b Ha Hb. rewrite Rabs_mult. pose proof (Rabs_pos a). pose proof (Rabs_pos b).
        replace 32767 with (32767 * 1) by ring. apply Rmult_le_compat; lra. }
      unfold along, across. split.
      - replace (_ - _) with ((IZR (fst p) - IZR (fst q)) * cos t + (IZR (snd p) - IZR (snd q)) * sin t) by ring.
        eapply Rle_trans; [apply Rabs_triang|]. pose proof (M _ _ A' C). pose proof (M _ _ B' S). lra.
      - replace (_ - _) with ((IZR (snd p) - IZR (snd q)) * cos t + - ((IZR (fst p) - IZR (fst q)) * sin t)) by ring.
        eapply Rle_trans; [apply Rabs_triang|]. rewrite Rabs_Ropp. pose proof (M _ _ A' S). pose proof (M _ _ B' C). lra. }
    pose proof (hull_ne _ _ HH) as N. pose proof hull_d as D.
    pose proof (bound_least hull t (bound hull t) N eq_refl) as L.
    destruct L as ((L1 & _) & (L2 & _)). { intros p Hp. apply (bound_contains pts); [exact HH|]. destruct HH as (_ & Inc & _). apply Inc, Hp. }
    split; (split; [assumption|]); unfold bound; cbn [x0 x1 y0 y1].
    - destruct (lmax_in (along t) (cyc hull 0) hull) as (v1 & V1 & Q1). destruct (lmax_in (fun p => - along t p) (cyc hull 0) hull) as (v2 & V2 & Q2).
      rewrite in_d in V1, V2 by exact N. rewrite Q1, Q2. destruct (P v1 v2 V1 V2) as (A & _). apply Rabs_le_inv in A. lra.
    - destruct (lmax_in (across t) (cyc hull 0) hull) as (v1 & V1 & Q1). destruct (lmax_in (fun p => - across t p) (cyc hull 0) hull) as (v2 & V2 & Q2).
      rewrite in_d in V1, V2 by exact N. rewrite Q1, Q2. destruct (P v1 v2 V1 V2) as (_ & A). apply Rabs_le_inv in A. lra.
  Qed.
  Lemma extents_ok r t : near_rot r t -> exists a b c d, extents r hull = (a, b, c, d) /\
    ap a (x0 (bound hull t)) 2097152 e1 /\ ap b (x1 (bound hull t)) 2097152 e1 /\
    ap c (y0 (bound hull t)) 2097152 e1 /\ ap d (y1 (bound hull t)) 2097152 e1.
  Proof.
    intros Hr. rewrite extents_split. do 4 eexists. split; [reflexivity|]. unfold bound. cbn [x0 x1 y0 y1]. pose proof hull_d as D.
    split; [|split; [|split]].
    - apply (min_near (fun p => fst (rotate r (to_f64 p)))); [exact D|]. intros p Hp. apply (rotate_ok r t p Hr (Hin p Hp)).
    - apply (max_near (fun p => fst (rotate r (to_f64 p)))); [exact D|]. intros p Hp. apply (rotate_ok r t p Hr (Hin p Hp)).
    - apply (min_near (fun p => snd (rotate r (to_f64 p)))); [exact D|]. intros p Hp. apply (rotate_ok r t p Hr (Hin p Hp)).
    - apply (max_near (fun p => snd (rotate r (to_f64 p)))); [exact D|]. intros p Hp. apply (rotate_ok r t p Hr (Hin p Hp)).
  Qed.

  (** the area and the corners found for one angle *)
  Definition candidate (r : f64 * f64) : f64 * (bool * bool -> fpt) :=
    let '(a, b, c, d) := extents r hull in
    (fmul (fsub b a) (fsub d c), fun k : bool * bool => invert_rotation r (if fst k then b else a, if snd k then d else c)).
  Definition near_corner (f : fpt) (c : R * R) : Prop := ap (fst f) (fst c) 4194304 e2 /\ ap (snd f) (snd c) 4194304 e2.
  Lemma candidate_ok r t : near_rot r t ->
    ap (fst (candidate r)) (area (bound hull t)) 4294967296 (/ 16) /\
    forall k, near_corner (snd (candidate r) k) (corner (bound hull t) k).
  Proof.
    intros Hr. destruct (extents_ok r t Hr) as (a & b & c & d & E & A & B & C & D). unfold candidate. rewrite E. cbn [fst snd].
    pose proof (width t) as (W1 & W2). unfold e1 in *. split.
    - assert (X : ap (fsub b a) (x1 (bound hull t) - x0 (bound hull t)) 65534 (/ 4000000)).
      { destruct (ap_sub _ _ _ _ _ _ _ _ B A ltac:(lra)) as (F & Er & _). split; [exact F|]. split; [eapply Rle_trans; [exact Er|]; lra|apply Rabs_le; lra]. }
      assert (Y : ap (fsub d c) (y1 (bound hull t) - y0 (bound hull t)) 65534 (/ 4000000)).
      { destruct (ap_sub _ _ _ _ _ _ _ _ D C ltac:(lra)) as (F & Er & _). split; [exact F|]. split; [eapply Rle_trans; [exact Er|]; lra|apply Rabs_le; lra]. }
      eapply ap_weaken; [exact (ap_mul _ _ _ _ _ _ _ _ X Y ltac:(lra))| |]; lra.
    - intros (u & v). unfold near_corner, corner. change (ang (bound hull t)) with t. cbn [fst snd].
      apply (invert_ok r t); [exact Hr| |]; unfold e1; [destruct u|destruct v]; assumption.
  Qed.
End Hull.

(** ** the loop over the angles *)
Definition labels : list (bool * bool) := [(true, false); (false, false); (false, true); (true, true)].
Lemma try_eq sincos hull st a : try_angle sincos hull st a =
  let c := candidate hull (sincos a) in
  if flt (fst c) (fst st) then (fst c, map (snd c) labels) else st.
Proof.
  unfold try_angle, candidate. destruct (extents (sincos a) hull) as (((p & q) & u) & v). reflexivity.
Qed.
Lemma loop_ok sincos hull l st : is_finite (fst st) = true ->
  (forall a, In a l -> is_finite (fst (candidate hull (sincos a))) = true) ->
  let r := fold_left (try_angle sincos hull) l st in
  is_finite (fst r) = true /\
  (r = st \/ exists a, In a l /\ r = (fst (candidate hull (sincos a)), map (snd (candidate hull (sincos a))) labels)) /\
  B2R (fst r) <= B2R (fst st) /\ (forall a, In a l -> B2R (fst r) <= B2R (fst (candidate hull (sincos a)))).
Proof.
  revert st. induction l as [|a l IH]; intros st Fs Fl; cbn [fold_left].
  - split; [exact Fs|]. split; [left; reflexivity|]. split; [lra|]. intros a [].
  - pose proof (Fl a (or_introl eq_refl)) as Fa.
    assert (Q : let s := try_angle sincos hull st a in is_finite (fst s) = true /\
       (s = st \/ s = (fst (candidate hull (sincos a)), map (snd (candidate hull (sincos a))) labels)) /\
       B2R (fst s) <= B2R (fst st) /\ B2R (fst s) <= B2R (fst (candidate hull (sincos a)))).
    { rewrite try_eq. cbv zeta. unfold flt. rewrite (Bltb_correct _ _ _ _ Fa Fs).
      destruct (Rlt_bool_spec (B2R (fst (candidate hull (sincos a)))) (B2R (fst st))); cbn [fst]; repeat split; auto; lra. }
    cbv zeta in Q. destruct Q as (F1 & Q1 & Q2 & Q3).
    destruct (IH (try_angle sincos hull st a) F1) as (G1 & G2 & G3 & G4); [intros b Hb; apply Fl; right; exact Hb|].
    cbv zeta in *. split; [exact G1|]. split; [|split; [lra|]].
    + destruct G2 as [G2|(b & Hb & G2)]; [|right; exists b; split; [right; exact Hb|exact G2]].
      destruct Q1 as [Q1|Q1]; [left; rewrite G2; exact Q1|right; exists a; split; [left; reflexivity|rewrite G2; exact Q1]].
    + intros b [<-|Hb]; [lra|apply G4, Hb].
Qed.
Lemma dedup_from_in a l b : In b (dedup_from a l) -> In b l.
Proof.
  revert a. induction l as [|c l IH]; intros a; cbn [dedup_from]; [auto|].
  destruct (feq c a); [intros H; right; exact (IH a H)|]. intros [<-|H]; [left; reflexivity|right; exact (IH c H)].
Qed.
Lemma dedup_in l b : In b (dedup l) -> In b l.
Proof. destruct l as [|a l]; cbn [dedup]; [auto|]. intros [<-|H]; [left; reflexivity|right; exact (dedup_from_in a l b H)]. Qed.
Lemma dedup_from_all a l b : (forall c, In c (a :: l) -> is_finite c = true) -> In b (a :: l) ->
  exists c, In c (a :: dedup_from a l) /\ B2R c = B2R b.
Proof.
  revert a. induction l as [|c l IH]; intros a F Hb; cbn [dedup_from].
  - exists b. split; [exact Hb|reflexivity].
  - assert (Fa : is_finite a = true) by (apply F; left; reflexivity). assert (Fc : is_finite c = true) by (apply F; right; left; reflexivity).
    unfold feq. rewrite (Beqb_correct _ _ c a Fc Fa). destruct (Req_bool_spec (B2R c) (B2R a)) as [E|E].
    + destruct Hb as [<-|[<-|Hb]].
      * exists a. split; [left; reflexivity|reflexivity].
      * exists a. split; [left; reflexivity|symmetry; exact E].
      * apply (IH a); [|right; exact Hb]. intros d [<-|Hd]; apply F; [left; reflexivity|right; right; exact Hd].
    + destruct Hb as [<-|Hb]; [exists a; split; [left|]; reflexivity|].
      destruct (IH c) with (2 := Hb) as (d & Hd & Ed). { intros e He. apply F. right. exact He. }
      exists d. split; [right; exact Hd|exact Ed].
Qed.
Lemma dedup_all l b : (forall c, In c l -> is_finite c = true) -> In b l -> exists c, In c (dedup l) /\ B2R c = B2R b.
Proof. destruct l as [|a l]; intros F Hb; [destruct Hb|]. apply dedup_from_all; assumption. Qed.
Lemma edge_angles_in at2 p l a : In a (edge_angles at2 p l) ->
  exists i q r, (0 <= i)%Z /\ znth (p :: l) i = Some q /\ znth (p :: l) (i + 1) = Some r /\ a = edge_angle at2 q r.
Proof.
  revert p. induction l as [|q l IH]; intros p; cbn [edge_angles]; [intros []|]. intros [<-|H].
  - exists 0%Z, p, q. split; [lia|]. split; [reflexivity|]. split; reflexivity.
  - destruct (IH q H) as (i & u & v & Hi & E1 & E2 & E). exists (i + 1)%Z, u, v. split; [lia|].
    rewrite (znth_cons_S p (q :: l) (i + 1)) by lia. rewrite (znth_cons_S p (q :: l) (i + 1 + 1)) by lia.
    replace (i + 1 - 1)%Z with i by lia. replace (i + 1 + 1 - 1)%Z with (i + 1)%Z by lia. auto.
Qed.
Lemma edge_angles_all at2 p l i q r : (0 <= i)%Z -> znth (p :: l) i = Some q -> znth (p :: l) (i + 1) = Some r ->
  In (edge_angle at2 q r) (edge_angles at2 p l).
Proof.
  revert p i. induction l as [|c l IH]; intros p i Hi E1 E2; cbn [edge_angles].
  - rewrite znth_cons_S in E2 by lia. replace (i + 1 - 1)%Z with i in E2 by lia. rewrite znth_none in E2 by (cbn; lia). discriminate E2.
  - destruct (Z.eq_dec i 0) as [->|N].
    + left. change (Some p = Some q) in E1. change (Some c = Some r) in E2. congruence.
    + right. rewrite (znth_cons_S p (c :: l) i) in E1 by lia. rewrite (znth_cons_S p (c :: l) (i + 1)) in E2 by lia.
      apply (IH c (i - 1)%Z); [lia|exact E1|]. replace (i - 1 + 1)%Z with (i + 1 - 1)%Z by lia. exact E2.
Qed.

(** ** sorting by x, rounding *)
Lemma insert_ok p l : is_finite (fst p) = true -> (forall q, In q l -> is_finite (fst q) = true) ->
  StronglySorted (fun a b : fpt => B2R (fst a) <= B2R (fst b)) l ->
  exists r, insert_x p l = Ok r /\ Permutation (p :: l) r /\ StronglySorted (fun a b : fpt => B2R (fst a) <= B2R (fst b)) r.
Proof.
  intros Fp. induction l as [|q l IH]; intros Fl S; cbn [insert_x].
  - exists [p]. split; [reflexivity|]. split; [apply Permutation_refl|]. constructor; [constructor|constructor].
  - assert (Fq : is_finite (fst q) = true) by (apply Fl; left; reflexivity).
    assert (N : fis_nan (fst p) = false /\ fis_nan (fst q) = false).
    { unfold fis_nan. split; [destruct (fst p)|destruct (fst q)]; try discriminate; reflexivity. }
    destruct N as (-> & ->). cbn [negb andb Base.assert bind].
    unfold flt. rewrite (Bltb_correct _ _ _ _ Fp Fq). inversion S as [|? ? S1 S2 Eq]. subst.
    destruct (Rlt_bool_spec (B2R (fst p)) (B2R (fst q))) as [L|L].
    + exists (p :: q :: l). split; [reflexivity|]. split; [apply Permutation_refl|]. constructor; [exact S|].
      constructor; [lra|]. eapply Forall_impl; [|exact S2]. cbv beta. intros a Ha. lra.
    + destruct IH as (r & E & P & Sr); [intros x Hx; apply Fl; right; exact Hx|exact S1|].
      rewrite E. cbn [bind]. exists (q :: r). split; [reflexivity|]. split; [eapply perm_trans; [apply perm_swap|apply perm_skip; exact P]|].
      constructor; [exact Sr|]. apply (Permutation_Forall P). constructor; [exact L|exact S2].
Qed.
Lemma sort_ok l : (forall q, In q l -> is_finite (fst q) = true) ->
  exists r, sort_x l = Ok r /\ Permutation l r /\ StronglySorted (fun a b : fpt => B2R (fst a) <= B2R (fst b)) r.
Proof.
  intros F. unfold sort_x.
  assert (G : forall acc, (forall q, In q acc -> is_finite (fst q) = true) -> StronglySorted (fun a b : fpt => B2R (fst a) <= B2R (fst b)) acc ->
    exists r, for_each l (fun p acc => insert_x p acc) acc = Ok r /\ Permutation (acc ++ l) r /\ StronglySorted (fun a b : fpt => B2R (fst a) <= B2R (fst b)) r).
  { revert F. induction l as [|p l IH]; intros F acc Fa S; cbn [for_each].
    - exists acc. rewrite app_nil_r. split; [reflexivity|]. split; [apply Permutation_refl|exact S].
    - destruct (insert_ok p acc) as (r & E & P & Sr); [apply F; left; reflexivity|exact Fa|exact S|].
      rewrite E. cbn [bind]. destruct (IH (fun q Hq => F q (or_intror Hq)) r) as (s & Es & Ps & Ss); [|exact Sr|].
      + intros q Hq. apply (Permutation_in q (Permutation_sym P)) in Hq. destruct Hq as [<-|Hq]; [apply F; left; reflexivity|apply Fa, Hq].
      + exists s. split; [exact Es|]. split; [|exact Ss]. eapply perm_trans; [|exact Ps].
        eapply perm_trans; [apply Permutation_sym, Permutation_middle|]. change (p :: acc ++ l) with ((p :: acc) ++ l). apply Permutation_app_tail, P. }
  destruct (G []) as (r & H); [intros q []|constructor|]. exists r. exact H.
Qed.
Lemma cast_ok lo hi (x : f64) z : is_finite x = true -> B2R x = IZR z ->
  cast_unwrap lo hi x = if ((lo <=? z) && (z <=? hi))%Z then Ok z else Panic.
Proof.
  intros F E. assert (T : Btrunc x = z). { pose proof (Btrunc_correct 53 1024 emax64 x) as C. rewrite E in C.
    apply eq_IZR. rewrite C. rewrite round_generic; [reflexivity|apply valid_rnd_ZR|].
    rewrite <- (Rmult_1_r (IZR z)). apply generic_format_FIX. exists (Defs.Float radix2 z 0); [unfold F2R; cbn [Fnum Fexp]; change (bpow radix2 0) with 1; reflexivity|reflexivity]. }
  unfold cast_unwrap. rewrite T. destruct x; try discriminate F; reflexivity.
Qed.
Lemma floor_cast lo hi (x : f64) : is_finite x = true ->
  cast_unwrap lo hi (ffloor x) = if ((lo <=? Zfloor (B2R x)) && (Zfloor (B2R x) <=? hi))%Z then Ok (Zfloor (B2R x)) else Panic.
Proof. intros F. destruct (nearby_R 53 1024 mode_DN x F) as (A & B). apply cast_ok; [exact A|]. unfold ffloor. rewrite B. reflexivity. Qed.
Lemma ceil_cast lo hi (x : f64) : is_finite x = true ->
  cast_unwrap lo hi (fceil x) = if ((lo <=? Zceil (B2R x)) && (Zceil (B2R x) <=? hi))%Z then Ok (Zceil (B2R x)) else Panic.
Proof. intros F. destruct (nearby_R 53 1024 mode_UP x F) as (A & B). apply cast_ok; [exact A|]. unfold fceil. rewrite B. reflexivity. Qed.
Lemma floor_down (x : f64) V : ap x V 4194304 e2 -> down (Zfloor (B2R x)) V.
Proof.
  intros (_ & E & _). unfold e2 in E. apply Rabs_le_inv in E. pose proof (Zfloor_lb (B2R x)). pose proof (Zfloor_ub (B2R x)). unfold down. lra.
Qed.
Lemma ceil_up (x : f64) V : ap x V 4194304 e2 -> up (Zceil (B2R x)) V.
Proof.
  intros (_ & E & _). unfold e2 in E. apply Rabs_le_inv in E. pose proof (Zceil_ub (B2R x)). pose proof (Zceil_lb (B2R x)). unfold up. lra.
Qed.

(** ** the end of rotating_calipers: order and rounding *)
Definition finish_rect (lo hi : Z) (l : list fpt) : res (list (Z * Z)) :=
    rs <- sort_x l ;;
    r0 <- vget rs 0 ;; r1 <- vget rs 1 ;; r2 <- vget rs 2 ;; r3 <- vget rs 3 ;;
    i1 <- vget rs (if flt (snd r0) (snd r1) then 0 else 1)%Z ;;
    i2 <- vget rs (if flt (snd r2) (snd r3) then 2 else 3)%Z ;;
    i3 <- vget rs (if flt (snd r2) (snd r3) then 3 else 2)%Z ;;
    i4 <- vget rs (if flt (snd r0) (snd r1) then 1 else 0)%Z ;;
    x1 <- cast_unwrap lo hi (ffloor (fst i1)) ;; y1 <- cast_unwrap lo hi (ffloor (snd i1)) ;;
    x2 <- cast_unwrap lo hi (fceil (fst i2)) ;; y2 <- cast_unwrap lo hi (ffloor (snd i2)) ;;
    x3 <- cast_unwrap lo hi (fceil (fst i3)) ;; y3 <- cast_unwrap lo hi (fceil (snd i3)) ;;
    x4 <- cast_unwrap lo hi (ffloor (fst i4)) ;; y4 <- cast_unwrap lo hi (fceil (snd i4)) ;;
    Ok [(x1, y1); (x2, y2); (x3, y3); (x4, y4)].
(** the four corners after the choice of i1 .. i4 *)
Lemma casts_ok lo hi (a b c d : fpt) :
  is_finite (fst a) = true -> is_finite (snd a) = true -> is_finite (fst b) = true -> is_finite (snd b) = true ->
  is_finite (fst c) = true -> is_finite (snd c) = true -> is_finite (fst d) = true -> is_finite (snd d) = true ->
  (x1 <- cast_unwrap lo hi (ffloor (fst a)) ;; y1 <- cast_unwrap lo hi (ffloor (snd a)) ;;
   x2 <- cast_unwrap lo hi (fceil (fst b)) ;; y2 <- cast_unwrap lo hi (ffloor (snd b)) ;;
   x3 <- cast_unwrap lo hi (fceil (fst c)) ;; y3 <- cast_unwrap lo hi (fceil (snd c)) ;;
   x4 <- cast_unwrap lo hi (ffloor (fst d)) ;; y4 <- cast_unwrap lo hi (fceil (snd d)) ;;
   Ok [(x1, y1); (x2, y2); (x3, y3); (x4, y4)]) =
  let o := [(Zfloor (B2R (fst a)), Zfloor (B2R (snd a))); (Zceil (B2R (fst b)), Zfloor (B2R (snd b)));
            (Zceil (B2R (fst c)), Zceil (B2R (snd c))); (Zfloor (B2R (fst d)), Zceil (B2R (snd d)))] in
  if fits lo hi o then Ok o else Panic.
Proof.
  intros F1 F2 F3 F4 F5 F6 F7 F8. rewrite !floor_cast, !ceil_cast by assumption.
  unfold fits. cbn [forallb fst snd].
  generalize (Zfloor (B2R (fst a))) (Zfloor (B2R (snd a))) (Zceil (B2R (fst b))) (Zfloor (B2R (snd b))) (Zceil (B2R (fst c))) (Zceil (B2R (snd c))) (Zfloor (B2R (fst d))) (Zceil (B2R (snd d))).
  intros z1 z2 z3 z4 z5 z6 z7 z8.
  assert (K : forall z (k : Z -> res (list (Z * Z))), bind (if ((lo <=? z) && (z <=? hi))%Z then Ok z else Panic) k = if ((lo <=? z) && (z <=? hi))%Z then k z else Panic).
  { intros z k. destruct ((lo <=? z) && (z <=? hi))%Z; reflexivity. }
  rewrite K.
  repeat match goal with |- context [bind (if ((lo <=? ?z) && (?z <=? hi))%Z then Ok ?z else Panic) ?k] => rewrite (K z k) end.
  rewrite <- !andb_assoc.
  repeat match goal with |- context [(?u <=? ?w)%Z] => destruct (u <=? w)%Z; cbn [andb]; try reflexivity end.
Qed.
Lemma Zfloor_mono x y : x <= y -> (Zfloor x <= Zfloor y)%Z.
Proof. apply Zfloor_le. Qed.
Lemma floor_ceil x y : x <= y -> (Zfloor x <= Zceil y)%Z.
Proof. intros H. apply le_IZR. pose proof (Zfloor_lb x). pose proof (Zceil_ub y). lra. Qed.
Lemma finish_ok lo hi r (f : bool * bool -> fpt) : (forall k, near_corner (f k) (corner r k)) ->
  exists o, lists_corners r o /\ finish_rect lo hi (map f labels) = if fits lo hi o then Ok o else Panic.
Proof.
  intros H. destruct (sort_ok (map f labels)) as (rs & E & P & S).
  { intros q Hq. apply in_map_iff in Hq. destruct Hq as (k & <- & _). apply (H k). }
  unfold finish_rect. rewrite E. cbn [bind].
  destruct (Permutation_map_inv f labels (Permutation_sym P)) as (ks & -> & Pk).
  pose proof (Permutation_length Pk) as L. cbn in L.
  destruct ks as [|u0 [|u1 [|u2 [|u3 [|? ?]]]]]; try discriminate L. clear L.
  assert (ND : NoDup [u0; u1; u2; u3]).
  { apply (Permutation_NoDup Pk). unfold labels. repeat constructor; cbn; intuition discriminate. }
  cbn [map] in *.
  inversion S as [|? ? S0 T0 Q]. subst. inversion S0 as [|? ? S1 T1 Q]. subst. 
  inversion T0 as [|? ? A01 T02]. subst. inversion T02 as [|? ? A02 T03]. subst. inversion T03 as [|? ? A03 _]. subst.
  inversion T1 as [|? ? A12 T12]. subst. inversion T12 as [|? ? A13 _]. subst. clear S S0 S1 T0 T1 T02 T03 T12.
  change (vget [f u0; f u1; f u2; f u3] 0) with (Ok (f u0)). change (vget [f u0; f u1; f u2; f u3] 1) with (Ok (f u1)).
  change (vget [f u0; f u1; f u2; f u3] 2) with (Ok (f u2)). change (vget [f u0; f u1; f u2; f u3] 3) with (Ok (f u3)). cbn [bind].
  assert (FF : forall k, is_finite (fst (f k)) = true /\ is_finite (snd (f k)) = true) by (intros k; destruct (H k) as (A & B); split; [apply A|apply B]).
  assert (HD : forall k, down (Zfloor (B2R (fst (f k)))) (fst (corner r k)) /\ down (Zfloor (B2R (snd (f k)))) (snd (corner r k))).
  { intros k. destruct (H k) as (A & B). split; apply floor_down; assumption. }
  assert (HU : forall k, up (Zceil (B2R (fst (f k)))) (fst (corner r k)) /\ up (Zceil (B2R (snd (f k)))) (snd (corner r k))).
  { intros k. destruct (H k) as (A & B). split; apply ceil_up; assumption. }
  assert (G : forall k1 k2 k3 k4, NoDup [k1; k2; k3; k4] ->
    B2R (fst (f k1)) <= B2R (fst (f k2)) -> B2R (fst (f k1)) <= B2R (fst (f k3)) -> B2R (fst (f k4)) <= B2R (fst (f k2)) -> B2R (fst (f k4)) <= B2R (fst (f k3)) ->
    B2R (snd (f k1)) <= B2R (snd (f k4)) -> B2R (snd (f k2)) <= B2R (snd (f k3)) ->
    lists_corners r [(Zfloor (B2R (fst (f k1))), Zfloor (B2R (snd (f k1)))); (Zceil (B2R (fst (f k2))), Zfloor (B2R (snd (f k2))));
            (Zceil (B2R (fst (f k3))), Zceil (B2R (snd (f k3)))); (Zfloor (B2R (fst (f k4))), Zceil (B2R (snd (f k4))))]).
  { intros k1 k2 k3 k4 N B1 B2 B3 B4 B5 B6. do 4 eexists. exists k1, k2, k3, k4. split; [reflexivity|]. split; [exact N|]. cbn [fst snd].
    repeat (split; [first [apply HD|apply HU|repeat split; apply floor_ceil; assumption]|]). apply floor_ceil; assumption. }
  unfold flt.
  rewrite (Bltb_correct _ _ _ _ (proj2 (FF u0)) (proj2 (FF u1))), (Bltb_correct _ _ _ _ (proj2 (FF u2)) (proj2 (FF u3))).
  assert (SW : forall a b c d : bool * bool, NoDup [a; b; c; d] -> NoDup [b; a; c; d] /\ NoDup [a; b; d; c]).
  { intros a b c d N. split; (eapply Permutation_NoDup; [|exact N]); [apply perm_swap|do 2 apply perm_skip; apply perm_swap]. }
  assert (RO : forall a b c d : bool * bool, NoDup [a; b; c; d] -> NoDup [a; c; d; b]).
  { intros a b c d N. eapply Permutation_NoDup; [|exact N]. apply perm_skip. change [c; d; b] with ([c; d] ++ [b]). apply Permutation_cons_append. }
  destruct (Rlt_bool_spec (B2R (snd (f u0))) (B2R (snd (f u1)))) as [Y1|Y1]; destruct (Rlt_bool_spec (B2R (snd (f u2))) (B2R (snd (f u3)))) as [Y2|Y2];
    change (vget [f u0; f u1; f u2; f u3] 0) with (Ok (f u0)); change (vget [f u0; f u1; f u2; f u3] 1) with (Ok (f u1));
    change (vget [f u0; f u1; f u2; f u3] 2) with (Ok (f u2)); change (vget [f u0; f u1; f u2; f u3] 3) with (Ok (f u3)); cbn [bind];
    rewrite casts_ok by (apply FF); eexists; (split; [|reflexivity]); apply G; try lra.
  - apply RO. exact ND.
  - apply RO. apply SW. exact ND.
  - apply RO. apply (proj1 (SW _ _ _ _ ND)).
  - apply RO. apply SW. apply (proj1 (SW _ _ _ _ ND)).
Qed.

(** ** all together *)
Lemma area_par_across hull s t p q : p <> q -> across s p = across s q -> across t p = across t q -> area (bound hull s) = area (bound hull t).
Proof.
  intros N Es Et. unfold across in Es, Et.
  set (h := IZR (fst p) - IZR (fst q)). set (v := IZR (snd p) - IZR (snd q)).
  assert (Es' : v * cos s = h * sin s) by (unfold h, v; lra). assert (Et' : v * cos t = h * sin t) by (unfold h, v; lra).
  assert (Sd : sin (t - s) = 0).
  { assert (H0 : h * sin (t - s) = 0). { rewrite sin_minus. transitivity (h * sin t * cos s - h * sin s * cos t); [ring|]. rewrite <- Et', <- Es'. ring. }
    assert (V0 : v * sin (t - s) = 0). { rewrite sin_minus. transitivity (sin t * (v * cos s) - sin s * (v * cos t)); [ring|]. rewrite Et', Es'. ring. }
    apply Rmult_integral in H0, V0. destruct H0 as [H0|H0]; [|exact H0]. destruct V0 as [V0|V0]; [|exact V0].
    exfalso. apply N. destruct p, q. unfold h, v in *. cbn [fst snd] in *. f_equal; apply eq_IZR; lra. }
  assert (Cd : cos (t - s) = 1 \/ cos (t - s) = -1).
  { pose proof (trig (t - s)) as T. rewrite Sd in T. assert (Z0 : (cos (t - s) - 1) * (cos (t - s) + 1) = 0) by lra. apply Rmult_integral in Z0. lra. }
  assert (Ra : forall p, along t p = along s p * cos (t - s)).
  { intros r. replace t with (s + (t - s)) at 1 by ring. unfold along. rewrite cos_plus, sin_plus, Sd. ring. }
  assert (Rc : forall p, across t p = across s p * cos (t - s)).
  { intros r. replace t with (s + (t - s)) at 1 by ring. unfold across. rewrite cos_plus, sin_plus, Sd. ring. }
  unfold area, bound. cbn [x0 x1 y0 y1]. destruct Cd as [C|C]; rewrite C in Ra, Rc.
  - rewrite (lmax_ext (along t) (along s)) by (intros r; rewrite Ra; ring). rewrite (lmax_ext (across t) (across s)) by (intros r; rewrite Rc; ring).
    rewrite (lmax_ext (fun p => - along t p) (fun p => - along s p)) by (intros r; rewrite Ra; ring).
    rewrite (lmax_ext (fun p => - across t p) (fun p => - across s p)) by (intros r; rewrite Rc; ring). reflexivity.
  - rewrite (lmax_ext (along t) (fun p => - along s p)) by (intros r; rewrite Ra; ring). rewrite (lmax_ext (across t) (fun p => - across s p)) by (intros r; rewrite Rc; ring).
    rewrite (lmax_ext (fun p => - along t p) (along s)) by (intros r; rewrite Ra; ring).
    rewrite (lmax_ext (fun p => - across t p) (across s)) by (intros r; rewrite Rc; ring). ring.
Qed.
Lemma area_par hull s t p q : p <> q -> par s p q -> par t p q -> area (bound hull s) = area (bound hull t).
Proof.
  intros N.
  assert (A : forall s, par s p q -> exists s', across s' p = across s' q /\ area (bound hull s) = area (bound hull s')).
  { intros u [H|H]; [|exists u; auto]. exists (u - PI / 2). rewrite !across_along. replace (u - PI / 2 + PI / 2) with u by lra. split; [exact H|].
    rewrite <- (area_quarter hull (u - PI / 2)). f_equal. f_equal. lra. }
  intros Hs Ht. destruct (A s Hs) as (s' & Es & ->). destruct (A t Ht) as (t' & Et & ->). apply (area_par_across hull s' t' p q N Es Et).
Qed.

Section Calipers.
  Context (atan2 : f64 -> f64 -> f64) (sincos : f64 -> f64 * f64).
  Context (Ha : accurate_atan2 atan2) (Hs : accurate_sincos sincos).
  Context (pts hull : list (Z * Z)) (HH : hull_of pts hull).
  Context (Hin : forall p, In p hull -> inb20 p) (Hsp : spread 32767 hull).

  Lemma rot_good a p q : good a p q -> exists t, par t p q /\ near_rot (sincos a) t.
  Proof.
    intros (F & B & t & P & E). exists t. split; [exact P|]. destruct (Hs a F B) as ((F1 & E1) & (F2 & E2)).
    pose proof (sin_lip (B2R a) t) as L1. pose proof (cos_lip (B2R a) t) as L2.
    assert (S1 : Rabs (sin t) <= 1) by (pose proof (SIN_bound t); apply Rabs_le; lra).
    assert (C1 : Rabs (cos t) <= 1) by (pose proof (COS_bound t); apply Rabs_le; lra).
    split; (split; [assumption|]; split; [|assumption]).
    - apply Rabs_le_inv in E1. assert (L : Rabs (sin (B2R a) - sin t) <= / 50000000000000) by lra. apply Rabs_le_inv in L. apply Rabs_le. lra.
    - apply Rabs_le_inv in E2. assert (L : Rabs (cos (B2R a) - cos t) <= / 50000000000000) by lra. apply Rabs_le_inv in L. apply Rabs_le. lra.
  Qed.
  Lemma edge_ne i : (0 <= i < zlen hull)%Z -> cyc hull i <> cyc hull (i + 1).
  Proof. intros Hi E. destruct HH as (_ & _ & T & _). specialize (T i Hi). rewrite E in T. unfold turn in T. lia. Qed.

  Definition hull_angles : list f64 := match hull with [] => [] | p :: l => edge_angles atan2 p l end.
  Lemma angle_edge a : In a hull_angles -> exists i, (0 <= i < zlen hull - 1)%Z /\ good a (cyc hull i) (cyc hull (i + 1)).
  Proof.
    intros H. unfold hull_angles in H. destruct hull as [|p l] eqn:Eh; [destruct H|]. destruct (edge_angles_in _ _ _ _ H) as (i & q & r & Hi & E1 & E2 & ->).
    rewrite <- Eh in *. pose proof (znth_range _ _ _ E2) as R2. exists i. split; [lia|].
    assert (C1 : cyc hull i = q) by (unfold cyc; rewrite Z.mod_small by lia; rewrite E1; reflexivity).
    assert (C2 : cyc hull (i + 1) = r) by (unfold cyc; rewrite Z.mod_small by lia; rewrite E2; reflexivity).
    rewrite C1, C2. pose proof (znth_In _ _ _ E1) as I1. pose proof (znth_In _ _ _ E2) as I2.
    destruct (Hin q I1) as (B1 & B2). destruct (Hin r I2) as (B3 & B4). destruct (Hsp r q I2 I1) as (S1 & S2).
    apply edge_angle_ok; [exact Ha| |lia|lia]. rewrite <- C1, <- C2. apply edge_ne. lia.
  Qed.
  Lemma edge_has_angle i : (0 <= i < zlen hull - 1)%Z -> exists a, In a (dedup hull_angles) /\ good a (cyc hull i) (cyc hull (i + 1)).
  Proof.
    intros Hi.
    assert (K : exists a, In a hull_angles /\ good a (cyc hull i) (cyc hull (i + 1))).
    { unfold hull_angles. destruct (znth_some hull i) as (q & E1); [lia|]. destruct (znth_some hull (i + 1)) as (r & E2); [lia|].
      assert (C1 : cyc hull i = q) by (unfold cyc; rewrite Z.mod_small by lia; rewrite E1; reflexivity).
      assert (C2 : cyc hull (i + 1) = r) by (unfold cyc; rewrite Z.mod_small by lia; rewrite E2; reflexivity).
      exists (edge_angle atan2 q r). split.
      - destruct hull as [|p l]; [cbn in Hi; lia|]. apply edge_angles_all with (i := i); [lia|exact E1|exact E2].
      - rewrite C1, C2. pose proof (znth_In _ _ _ E1) as I1. pose proof (znth_In _ _ _ E2) as I2.
        destruct (Hin q I1) as (B1 & B2). destruct (Hin r I2) as (B3 & B4). destruct (Hsp r q I2 I1) as (S1 & S2).
        apply edge_angle_ok; [exact Ha| |lia|lia]. rewrite <- C1, <- C2. apply edge_ne. lia. }
    destruct K as (a & Ia & Ga). destruct (dedup_all hull_angles a) as (c & Ic & Ec); [|exact Ia|].
    - intros c Hc. destruct (angle_edge c Hc) as (j & _ & G). apply G.
    - exists c. split; [exact Ic|]. destruct (angle_edge c (dedup_in _ _ Ic)) as (j & _ & (Fc & _)).
      destruct Ga as (_ & B & t & P & E). split; [exact Fc|]. rewrite Ec. split; [exact B|]. exists t. auto.
  Qed.

  Lemma calipers_ok lo hi : exists r o,
    (exists i t, (0 <= i < zlen hull - 1)%Z /\ r = bound hull t /\ par t (cyc hull i) (cyc hull (i + 1))) /\
    (forall i t, (0 <= i < zlen hull - 1)%Z -> par t (cyc hull i) (cyc hull (i + 1)) -> area r <= area (bound hull t) + / 8) /\
    lists_corners r o /\
    rotating_calipers atan2 sincos lo hi hull = if fits lo hi o then Ok o else Panic.
  Proof.
    assert (Fc : forall a, In a (dedup hull_angles) -> exists i t, (0 <= i < zlen hull - 1)%Z /\ par t (cyc hull i) (cyc hull (i + 1)) /\ near_rot (sincos a) t).
    { intros a Ia. destruct (angle_edge a (dedup_in _ _ Ia)) as (i & Hi & G). destruct (rot_good _ _ _ G) as (t & P & N). exists i, t. auto. }
    destruct max64_R as (Fm & Bm).
    set (st := (max_f64, [(of_int 0, of_int 0); (of_int 0, of_int 0); (of_int 0, of_int 0); (of_int 0, of_int 0)] : list fpt)).
    destruct (loop_ok sincos hull (dedup hull_angles) st) as (_ & At & _ & Le).
    { exact Fm. }
    { intros a Ia. destruct (Fc a Ia) as (i & t & _ & _ & N). destruct (candidate_ok pts hull HH Hin Hsp _ _ N) as ((F & _) & _). exact F. }
    set (res := fold_left (try_angle sincos hull) (dedup hull_angles) st) in *. cbv zeta in *.
    assert (Ex : exists a, In a (dedup hull_angles) /\ res = (fst (candidate hull (sincos a)), map (snd (candidate hull (sincos a))) labels)).
    { destruct At as [At|At]; [|exact At]. exfalso.
      assert (L : (3 <= zlen hull)%Z) by (destruct HH as (L & _); exact L).
      destruct (edge_has_angle 0) as (a & Ia & _); [lia|]. pose proof (Le a Ia) as Q. rewrite At in Q.
      destruct (Fc a Ia) as (i & t & _ & _ & N). destruct (candidate_ok pts hull HH Hin Hsp _ _ N) as (A & _). apply ap_abs in A. apply Rabs_le_inv in A. cbn [fst] in Q. unfold st in Q. cbn [fst] in Q. lra. }
    destruct Ex as (a & Ia & Er). destruct (Fc a Ia) as (i & t & Hi & P & N).
    destruct (candidate_ok pts hull HH Hin Hsp _ _ N) as (Aa & Ac).
    destruct (finish_ok lo hi (bound hull t) _ Ac) as (o & Lo & Eo).
    exists (bound hull t), o. split; [exists i, t; auto|]. split; [|split; [exact Lo|]].
    - intros j s Hj Ps. destruct (edge_has_angle j Hj) as (b & Ib & Gb). destruct (rot_good _ _ _ Gb) as (s' & Ps' & Ns).
      rewrite (area_par hull s s' _ _ (edge_ne j ltac:(lia)) Ps Ps').
      destruct (candidate_ok pts hull HH Hin Hsp _ _ Ns) as (Ab & _). pose proof (Le b Ib) as Q. rewrite Er in Q. cbn [fst] in Q.
      destruct Aa as (_ & Ea & _). destruct Ab as (_ & Eb & _). apply Rabs_le_inv in Ea, Eb. lra.
    - unfold rotating_calipers. fold hull_angles. cbv zeta.
      change (fold_left (try_angle sincos hull) (dedup hull_angles) (max_f64, [(of_int 0, of_int 0); (of_int 0, of_int 0); (of_int 0, of_int 0); (of_int 0, of_int 0)])) with res.
      rewrite Er. cbn [snd]. exact Eo.
  Qed.
End Calipers.
