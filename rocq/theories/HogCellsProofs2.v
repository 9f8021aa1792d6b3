(** Proofs about orientation histograms: interpolation weights and one pixel. *)
From Flocq Require Import Core BinarySingleNaN Sterbenz.
From Coq Require Import Reals Lra Psatz.
From Verif Require Import Base BaseProofs Float FloatProofs FloatErr TemplateProofs WuProofs WarpProofs HogModel HogProofs HogCellsModel HogCellsSpec HogCellsProofs.
Local Ltac Zify.zify_post_hook ::= idtac.
Local Open Scope R_scope.
Local Notation rn := (rnd 24 128).

(** ** hat functions *)
Lemma hat_bounds t : 0 <= hat t <= 1.
Proof. unfold hat. pose proof (Rabs_pos t). split; [apply Rmax_l|apply Rmax_lub; lra]. Qed.
Lemma hat_zero t : 1 <= Rabs t -> hat t = 0.
Proof. intros H. unfold hat. apply Rmax_left. lra. Qed.
Lemma hat_lipschitz a b : Rabs (hat a - hat b) <= Rabs (a - b).
Proof.
  unfold hat, Rmax. pose proof (Rabs_triang_inv a b) as T1. pose proof (Rabs_triang_inv b a) as T2. rewrite (Rabs_minus_sym b a) in T2.
  destruct (Rle_dec 0 (1 - Rabs a)), (Rle_dec 0 (1 - Rabs b)); apply Rabs_le; lra.
Qed.
Lemma chat_bounds n p o : (1 <= n)%Z -> 0 <= circular_hat n p o <= 1.
Proof.
  intros Hn. unfold circular_hat. pose proof (hat_bounds (p - IZR o)). pose proof (hat_bounds (p - IZR n - IZR o)). split; [lra|].
  assert (N : 1 <= IZR n) by (apply IZR_le; lia).
  unfold hat, Rmax. pose proof (Rabs_triang_inv (p - IZR o) (p - IZR n - IZR o)) as T.
  pose proof (Rabs_triang (p - IZR o) (- (p - IZR n - IZR o))) as T3. rewrite Rabs_Ropp in T3.
  replace (p - IZR o + - (p - IZR n - IZR o)) with (IZR n) in T3 by ring. rewrite (Rabs_pos_eq (IZR n)) in T3 by lra.
  pose proof (Rabs_pos (p - IZR o)). pose proof (Rabs_pos (p - IZR n - IZR o)).
  destruct (Rle_dec 0 (1 - Rabs (p - IZR o))), (Rle_dec 0 (1 - Rabs (p - IZR n - IZR o))); lra.
Qed.
Lemma chat_lipschitz n p q o : Rabs (circular_hat n p o - circular_hat n q o) <= 2 * Rabs (p - q).
Proof.
  unfold circular_hat. pose proof (hat_lipschitz (p - IZR o) (q - IZR o)) as A. pose proof (hat_lipschitz (p - IZR n - IZR o) (q - IZR n - IZR o)) as B.
  replace (p - IZR o - (q - IZR o)) with (p - q) in A by ring. replace (p - IZR n - IZR o - (q - IZR n - IZR o)) with (p - q) in B by ring.
  apply Rabs_le_inv in A. apply Rabs_le_inv in B. apply Rabs_le. lra.
Qed.

(** an indicator *)
Definition ind (b : bool) : R := if b then 1 else 0.
Lemma hat_floor p c : hat (p - IZR c) =
  ind (Zfloor p =? c)%Z * (1 - (p - IZR (Zfloor p))) + ind (Zfloor p + 1 =? c)%Z * (p - IZR (Zfloor p)).
Proof.
  pose proof (Zfloor_lb p) as L. pose proof (Zfloor_ub p) as U. set (k := Zfloor p) in *.
  destruct (Z.eqb_spec k c) as [E|E]; [|destruct (Z.eqb_spec (k + 1) c) as [E'|E']]; unfold ind.
  - replace (k + 1 =? c)%Z with false by lia. subst c. unfold hat. rewrite Rabs_pos_eq by lra. rewrite Rmax_right by lra. ring.
  - subst c. rewrite plus_IZR. unfold hat. rewrite Rabs_left1 by lra. rewrite Rmax_right by lra. ring.
  - rewrite hat_zero; [ring|]. destruct (Z_lt_dec c k).
    + assert (IZR c + 1 <= IZR k) by (rewrite <- plus_IZR; apply IZR_le; lia). rewrite Rabs_pos_eq by lra. lra.
    + assert (IZR k + 2 <= IZR c) by (rewrite <- plus_IZR; apply IZR_le; lia). rewrite Rabs_left1 by lra. lra.
Qed.
Lemma floor_lt p n : 0 <= p < IZR n -> (0 <= Zfloor p < n)%Z.
Proof.
  intros H. split; [apply Zfloor_lub; simpl; lra|]. apply lt_IZR. pose proof (Zfloor_lb p). lra.
Qed.
Lemma chat_floor n p o : 0 <= p < IZR n -> (0 <= o < n)%Z -> circular_hat n p o =
  ind (Zfloor p =? o)%Z * (1 - (p - IZR (Zfloor p))) + ind ((if n <=? Zfloor p + 1 then 0 else Zfloor p + 1) =? o)%Z * (p - IZR (Zfloor p)).
Proof.
  intros Hp Ho. pose proof (floor_lt p n Hp) as K. unfold circular_hat. rewrite hat_floor.
  replace (p - IZR n - IZR o) with (p - IZR (n + o)) by (rewrite plus_IZR; ring). rewrite hat_floor. set (k := Zfloor p) in *.
  replace (k =? n + o)%Z with false by lia.
  destruct (Z.leb_spec n (k + 1)) as [N|N].
  - replace (k + 1 =? o)%Z with false by lia. replace (k + 1 =? n + o)%Z with (0 =? o)%Z by lia. unfold ind at 2 3. ring.
  - replace (k + 1 =? n + o)%Z with false by lia. unfold ind at 3 4. ring.
Qed.

(** ** floor and fraction of a float *)
Lemma floor_parts (p : f32) : is_finite p = true -> 0 <= B2R p <= 16777216 ->
  let k := Zfloor (B2R p) in let fr := fsub p (ffloor p) in
  usize_of p = k /\ (0 <= k <= 16777216)%Z /\ is_finite fr = true /\ B2R fr = B2R p - IZR k /\
  is_finite (fsub (of_int 1) fr) = true /\ 0 <= B2R (fsub (of_int 1) fr) <= 1 /\
  Rabs (B2R (fsub (of_int 1) fr) - (1 - (B2R p - IZR k))) <= / 16000000.
Proof.
  intros F B. cbv zeta. set (k := Zfloor (B2R p)). pose proof (Zfloor_lb (B2R p)) as L. pose proof (Zfloor_ub (B2R p)) as U. fold k in L, U.
  assert (K : (0 <= k <= 16777216)%Z).
  { split; [apply Zfloor_lub; simpl; lra|]. apply le_IZR. lra. }
  assert (T : usize_of p = k).
  { unfold usize_of. rewrite (to_int_R 24 128) by first [assumption|exact emax32]. rewrite Ztrunc_floor by lra. fold k. unfold zclamp. lia. }
  destruct (nearby_R 24 128 mode_DN p F) as (Ff & Rf). change (Bnearbyint mode_DN p) with (ffloor p) in Ff, Rf. cbn [round_mode] in Rf. fold k in Rf.
  destruct (fsub_R 24 128 p (ffloor p) F Ff) as (Fs & Rs).
  { rewrite Rf. rewrite Rabs_pos_eq by lra. pose proof f32_big. lra. }
  assert (Rs' : B2R (fsub p (ffloor p)) = B2R p - IZR k).
  { rewrite Rs, Rf. apply rnd_id. destruct (Z.eq_dec k 0) as [E|E].
    - rewrite E. rewrite Rminus_0_r. apply generic_format_B2R.
    - apply sterbenz; [apply fexp_correct; reflexivity|exact _|apply generic_format_B2R| |].
      + rewrite <- Rf. apply generic_format_B2R.
      + assert (1 <= IZR k) by (apply IZR_le; lia). lra. }
  destruct (int32_R 1) as (F1 & R1); [lia|].
  destruct (fsub_R 24 128 (of_int 1) (fsub p (ffloor p)) F1 Fs) as (Fw & Rw).
  { rewrite R1, Rs'. rewrite Rabs_pos_eq by lra. pose proof f32_big. lra. }
  rewrite R1, Rs' in Rw. split; [exact T|]. split; [exact K|]. split; [exact Fs|]. split; [exact Rs'|]. split; [exact Fw|].
  rewrite Rw. split.
  - split; [rewrite <- (rnd_0 24 128); apply (rnd_le 24 128); lra|].
    replace 1 with (rn 1) at 2 by (apply (rnd_int 24 128 1); lia). apply (rnd_le 24 128). lra.
  - eapply Rle_trans; [apply f32_err|]. rewrite Rabs_pos_eq by lra. lra.
Qed.

(** ** effective weights *)
(** what the two entries of an interpolation give to index c *)
Definition given (it : interpolation) (c : Z) : R :=
  ind (index0 it =? c)%Z * B2R (weight0 it) + ind (index1 it =? c)%Z * B2R (weight1 it).
(** the number of entries for index c, not counting those with weight 0 *)
Definition nonzero (r : R) : R := if Req_EM_T r 0 then 0 else 1.
Definition entries (it : interpolation) (c : Z) : R :=
  ind (index0 it =? c)%Z * nonzero (B2R (weight0 it)) + ind (index1 it =? c)%Z * nonzero (B2R (weight1 it)).
(** finite weights in [0, 1] *)
Definition good (it : interpolation) : Prop :=
  is_finite (weight0 it) = true /\ is_finite (weight1 it) = true /\ 0 <= B2R (weight0 it) <= 1 /\ 0 <= B2R (weight1 it) <= 1 /\
  (0 <= index0 it)%Z /\ (0 <= index1 it)%Z.

Lemma ind_b b : ind b = 0 \/ ind b = 1. Proof. destruct b; auto. Qed.
Lemma nonzero_b r : nonzero r = 0 \/ nonzero r = 1. Proof. unfold nonzero. destruct (Req_EM_T r 0); auto. Qed.

Lemma cell_position x side : (0 <= x <= 2 ^ 18)%Z -> (1 <= side <= 256)%Z ->
  let p := fdiv (of_int x : f32) (of_int side) in
  is_finite p = true /\ 0 <= B2R p <= 262144 /\ Rabs (B2R p - IZR x / IZR side) <= IZR x / IZR side / 16777216 + / 1000000000 /\
  (forall c, ((c + 1) * side <= x)%Z -> IZR (c + 1) <= B2R p) /\ (forall c, (x <= (c - 1) * side)%Z -> B2R p <= IZR (c - 1)).
Proof.
  intros Hx Hs. cbv zeta. destruct (small_int x) as (Fx & Rx); [lia|]. destruct (small_int side) as (Fs & Rs); [lia|].
  assert (S : 1 <= IZR side <= 256) by (split; apply IZR_le; lia). assert (X : 0 <= IZR x <= 262144) by (split; apply IZR_le; lia).
  assert (I : 0 < / IZR side <= 1). { split; [apply Rinv_0_lt_compat; lra|]. rewrite <- Rinv_1. apply Rinv_le; lra. }
  assert (Q : 0 <= IZR x / IZR side <= 262144) by (unfold Rdiv; nra).
  destruct (fdiv_R 24 128 (of_int x) (of_int side) Fx) as (Fp & Rp); [rewrite Rs; lra| |].
  { rewrite Rx, Rs, Rabs_pos_eq by lra. pose proof f32_big. lra. }
  rewrite Rx, Rs in Rp. split; [exact Fp|]. rewrite Rp. split; [|split; [|split]].
  - split; [rewrite <- (rnd_0 24 128); apply (rnd_le 24 128); lra|].
    change 262144 with (IZR 262144). rewrite <- (rnd_int 24 128 262144) by lia. apply (rnd_le 24 128). lra.
  - eapply Rle_trans; [apply f32_err|]. rewrite Rabs_pos_eq by lra. lra.
  - intros c Hc. assert (L : IZR (c + 1) <= IZR x / IZR side).
    { apply Rmult_le_reg_r with (IZR side); [lra|]. unfold Rdiv. rewrite Rmult_assoc, Rinv_l, Rmult_1_r by lra. rewrite <- mult_IZR. apply IZR_le. exact Hc. }
    destruct (Z_lt_dec (c + 1) 0).
    + apply Rle_trans with 0; [apply IZR_le; lia|]. rewrite <- (rnd_0 24 128). apply (rnd_le 24 128). lra.
    + assert (c + 1 <= 262144)%Z by (apply le_IZR; lra). rewrite <- (rnd_int 24 128 (c + 1)) by lia. apply (rnd_le 24 128). exact L.
  - intros c Hc. assert (L : IZR x / IZR side <= IZR (c - 1)).
    { apply Rmult_le_reg_r with (IZR side); [lra|]. unfold Rdiv. rewrite Rmult_assoc, Rinv_l, Rmult_1_r by lra. rewrite <- mult_IZR. apply IZR_le. exact Hc. }
    destruct (Z_lt_dec 262144 (c - 1)).
    + apply Rle_trans with 262144; [|apply IZR_le; lia]. change 262144 with (IZR 262144). rewrite <- (rnd_int 24 128 262144) by lia. apply (rnd_le 24 128). lra.
    + assert (0 <= c - 1)%Z by (apply le_IZR; lra). rewrite <- (rnd_int 24 128 (c - 1)) by lia. apply (rnd_le 24 128). exact L.
Qed.

(** pixel column x touches the cells whose column is less than a cell away *)
Definition touches (side x c : Z) : bool := (Z.abs (x - c * side) <? side)%Z.

Lemma cell_inter x side : (0 <= x <= 2 ^ 18)%Z -> (1 <= side <= 256)%Z ->
  exists it, from_position (fdiv (of_int x) (of_int side)) = Ok it /\ good it /\
  forall c, Rabs (given it c - hat (IZR x / IZR side - IZR c)) <= IZR x / IZR side / 16777216 + / 8000000 /\
    0 <= given it c <= 1 /\ 0 <= entries it c <= ind (touches side x c) /\ (entries it c = 0 -> given it c = 0).
Proof.
  intros Hx Hs. destruct (cell_position x side Hx Hs) as (F & B & E & Up & Dn). cbv zeta in *.
  set (p := fdiv (of_int x : f32) (of_int side)) in *. destruct (floor_parts p F) as (T & K & Fr & Rr & Fw & Bw & Ew); [lra|]. cbv zeta in *.
  pose proof (Zfloor_lb (B2R p)) as L. pose proof (Zfloor_ub (B2R p)) as U. set (k := Zfloor (B2R p)) in *.
  unfold from_position. rewrite T, usz_ok by lia. cbn [bind]. eexists. split; [reflexivity|].
  assert (G : good {| index0 := k; index1 := k + 1; weight0 := fsub (of_int 1) (fsub p (ffloor p)); weight1 := fsub p (ffloor p) |}).
  { unfold good. cbn [index0 index1 weight0 weight1]. rewrite Rr. split; [assumption|]. split; [assumption|]. split; [assumption|]. split; [lra|]. lia. }
  split; [exact G|]. intros c. unfold given, entries. cbn [index0 index1 weight0 weight1].
  set (w0 := B2R (fsub (of_int 1) (fsub p (ffloor p)))) in *. set (w1 := B2R (fsub p (ffloor p))) in *.
  assert (W1 : 0 <= w1 <= 1) by lra.
  split; [|split; [|split]].
  - pose proof (hat_floor (B2R p) c) as H. fold k in H. pose proof (hat_lipschitz (B2R p - IZR c) (IZR x / IZR side - IZR c)) as Li.
    replace (B2R p - IZR c - (IZR x / IZR side - IZR c)) with (B2R p - IZR x / IZR side) in Li by ring.
    rewrite <- Rr in H, Ew. apply Rabs_le_inv in Ew. apply Rabs_le_inv in Li. apply Rabs_le_inv in E.
    assert (Rabs (B2R p - IZR x / IZR side) <= IZR x / IZR side / 16777216 + / 1000000000) as A by (apply Rabs_le; lra).
    apply Rabs_le. destruct (ind_b (k =? c)%Z) as [I1|I1], (ind_b (k + 1 =? c)%Z) as [I2|I2]; rewrite I1, I2 in *; lra.
  - unfold ind. destruct (Z.eqb_spec k c), (Z.eqb_spec (k + 1) c); try lia; lra.
  - assert (N0 : 0 <= nonzero w0 <= 1) by (destruct (nonzero_b w0) as [-> | ->]; lra).
    assert (N1 : 0 <= nonzero w1 <= 1) by (destruct (nonzero_b w1) as [-> | ->]; lra).
    split; [unfold ind; destruct (Z.eqb_spec k c), (Z.eqb_spec (k + 1) c); try lia; lra|].
    unfold touches. destruct (Z.ltb_spec (Z.abs (x - c * side)) side) as [C|C].
    + unfold ind at 3. unfold ind. destruct (Z.eqb_spec k c), (Z.eqb_spec (k + 1) c); try lia; lra.
    + unfold ind at 3. destruct (Z_le_dec ((c + 1) * side) x) as [D|D].
      * specialize (Up c D). assert (c + 1 <= k)%Z by (apply Zfloor_lub; exact Up).
        replace (k =? c)%Z with false by lia. replace (k + 1 =? c)%Z with false by lia. unfold ind. lra.
      * assert (D' : (x <= (c - 1) * side)%Z) by lia. specialize (Dn c D').
        assert (k <= c - 1)%Z by (apply le_IZR; lra). replace (k =? c)%Z with false by lia.
        destruct (Z.eqb_spec (k + 1) c) as [Q|Q]; unfold ind; [|lra].
        assert (w1 = 0). { rewrite Rr. replace k with (c - 1)%Z in * by lia. lra. }
        unfold nonzero at 2. destruct (Req_EM_T w1 0); [lra|contradiction].
  - unfold ind, nonzero. destruct (Z.eqb_spec k c), (Z.eqb_spec (k + 1) c), (Req_EM_T w0 0), (Req_EM_T w1 0); try lia; lra.
Qed.

Section Bins.
  Context (atan2 : f32 -> f32 -> f32) (HA : atan2_ok atan2) (o : hog_options).
  Lemma bin_inter h v : (Z.abs h <= 1020)%Z -> (Z.abs v <= 1020)%Z -> (1 <= orientations o <= 4096)%Z ->
    let n := orientations o in
    exists it, from_position_wrapping (fdiv (gradient_direction atan2 o (of_int h) (of_int v)) (orientation_bin_width o)) n = Ok it /\ good it /\
    (index0 it < n)%Z /\ (index1 it < n)%Z /\
    forall c, (0 <= c < n)%Z -> Rabs (given it c - circular_hat n (IZR n * direction (signed o) h v / full_range (signed o)) c) <= IZR n / 131072 + / 8000000.
  Proof.
    intros Hh Hv Hn. cbv zeta. destruct (bin_position atan2 HA o h v Hh Hv Hn) as (F & B & E). cbv zeta in *.
    set (p := fdiv (gradient_direction atan2 o (of_int h) (of_int v)) (orientation_bin_width o)) in *. set (n := orientations o) in *.
    set (q := IZR n * direction (signed o) h v / full_range (signed o)) in *.
    assert (N : 1 <= IZR n <= 4096) by (split; apply IZR_le; lia).
    destruct (floor_parts p F) as (T & K & Fr & Rr & Fw & Bw & Ew); [lra|]. cbv zeta in *.
    pose proof (Zfloor_lb (B2R p)) as L. pose proof (Zfloor_ub (B2R p)) as U. pose proof (floor_lt (B2R p) n B) as KN.
    unfold from_position_wrapping. set (k := Zfloor (B2R p)) in *. rewrite T, usz_ok by lia. cbn [bind]. eexists. split; [reflexivity|].
    split.
    { unfold good. cbn [index0 index1 weight0 weight1]. rewrite Rr. split; [assumption|]. split; [assumption|]. split; [assumption|]. split; [lra|]. split; [lia|]. destruct (Z.leb_spec n (k + 1)); lia. }
    cbn [index0 index1]. split; [lia|]. split; [destruct (Z.leb_spec n (k + 1)); lia|].
    intros c Hc. unfold given. cbn [index0 index1 weight0 weight1]. pose proof (chat_floor n (B2R p) c B Hc) as H. fold k in H.
    rewrite <- Rr in H, Ew. pose proof (chat_lipschitz n (B2R p) q c) as Li.
    set (w0 := B2R (fsub (of_int 1) (fsub p (ffloor p)))) in *. set (w1 := B2R (fsub p (ffloor p))) in *.
    apply Rabs_le_inv in Ew. apply Rabs_le_inv in Li. apply Rabs_le.
    destruct (ind_b (k =? c)%Z) as [I1|I1]; rewrite I1 in *; lra.
  Qed.
End Bins.
