(** C102: the perceptual hash. *)
From Flocq Require Import Core BinarySingleNaN.
From Coq Require Import Reals Lra Psatz.
From Verif Require Import Base BaseProofs Float FloatProofs FloatErr WuProofs TemplateProofs SignalsModel ComposeModel ComposeSpec Props_Compose BriefModel BriefSpec BriefProofs Props_Brief PhashModel PhashSpec PhashProofs.
Local Ltac Zify.zify_post_hook ::= idtac.
Local Open Scope Z_scope.

(** ** Full property: the hash of a picture does not depend on its brightness and
    contrast.  [r] and [r'] are the 32 x 32 reductions made by the external resize. *)
Definition c102_statement : Prop := forall e dct resize im im' r r' a b B,
  dct_ok e dct -> (0 <= e <= 1)%R -> (1 <= B <= 1000000)%R ->
  resize im 32 32 = Ok r -> resize im' 32 32 = Ok r' -> reduction B r -> reduction B r' -> (0 < a)%R ->
  (forall x y, 0 <= x < 32 -> 0 <= y < 32 -> shade r' x y = (a * shade r x y + b)%R) ->
  exists h, phash resize dct im = Ok h /\ phash resize dct im' = Ok h.

(** how far a coefficient is from the mean *)
Definition excess (r : image f32) (k l : Z) : R := (coef (shade r) k l - mean_coef (shade r))%R.
(** the rounding errors: of the transform and of the mean *)
Definition tol (e B : R) : R := ((130 * e + / 170) * B)%R.

Lemma total_sum l : total l = sum_to (length l) (val l).
Proof.
  induction l as [|a l IH] using rev_ind; [reflexivity|]. rewrite app_length. cbn [length]. rewrite Nat.add_1_r. cbn [sum_to].
  assert (T : forall l', (total (l' ++ [a]) = total l' + B2R a)%R). { unfold total. induction l' as [|c l' IH']; cbn [app fold_right]; [ring|]. rewrite IH'. ring. }
  rewrite T, IH. f_equal.
  - apply sum_ext. intros i Hi. unfold val. rewrite znth_app_l by (unfold zlen; lia). reflexivity.
  - unfold val. rewrite znth_app_r by (unfold zlen; lia). replace (Z.of_nat (length l) - zlen l) with 0 by (unfold zlen; lia). reflexivity.
Qed.
Lemma sum_64 (g : Z -> Z -> R) : sum_to 64 (fun n => g (n mod 8) (n / 8)) = sum_to 8 (fun j => sum_to 8 (fun i => g i j)).
Proof.
  cbn [sum_to]. repeat match goal with |- context [?a mod 8] => let v := eval vm_compute in (a mod 8) in change (a mod 8) with v end.
  repeat match goal with |- context [?a / 8] => match type of a with Z => let v := eval vm_compute in (a / 8) in change (a / 8) with v end end.
  cbn [Z.of_nat Pos.of_succ_nat Pos.succ]. ring.
Qed.

(** The code: for every image with a 32 x 32 reduction, bit 8 (l - 1) + (k - 1) of the
    hash says whether the coefficient (k, l) is above the mean, unless the two are closer
    than the rounding errors. *)
Theorem c102_phash_partial : forall e dct resize im r B,
  dct_ok e dct -> (0 <= e <= 1)%R -> (1 <= B <= 1000000)%R -> resize im 32 32 = Ok r -> reduction B r ->
  exists h, phash resize dct im = Ok h /\ 0 <= h < 2 ^ 64 /\ forall k l, 1 <= k <= 8 -> 1 <= l <= 8 ->
    ((tol e B < excess r k l)%R -> Z.testbit h (8 * (l - 1) + (k - 1)) = true) /\
    ((excess r k l < - tol e B)%R -> Z.testbit h (8 * (l - 1) + (k - 1)) = false).
Proof.
  intros e dct resize im r B D He HB Er Hr. destruct (transform_ok e dct r B D He HB Hr) as (d & Ed & Wd & Dw & Dh & DC).
  destruct (proj1 (c04_crop_window f32 d 1 1 8 8 Wd ltac:(unfold u32_dims; lia) ltac:(lia) ltac:(lia) ltac:(lia) ltac:(lia))) as (t & Et & Wt & Tw & Th & TG); [lia|].
  set (L := idata t) in *. assert (ZL : zlen L = 64) by (destruct Wt as (_ & _ & Z0); fold L in Z0; lia).
  assert (LL : length L = 64%nat) by (unfold zlen in ZL; lia).
  assert (LG : forall n, 0 <= n < 64 -> exists c, znth L n = Some c /\ is_finite c = true /\ (Rabs (B2R c - coef (shade r) (n mod 8 + 1) (n / 8 + 1)) <= 65 * e * B)%R).
  { intros n Hn. pose proof (Z.mod_pos_bound n 8 ltac:(lia)) as M. pose proof (Z.div_mod n 8 ltac:(lia)) as DM. assert (Q : 0 <= n / 8 < 8) by lia.
    destruct (DC (1 + n mod 8) (1 + n / 8)) as (c & Gc & Fc & Ec); [lia|lia|]. exists c. split; [|split; [exact Fc|]].
    - rewrite <- TG in Gc by assumption. unfold get in Gc. destruct (inb t (n mod 8) (n / 8)); [|discriminate Gc]. rewrite Tw in Gc. fold L in Gc.
      rewrite <- Gc. f_equal. lia.
    - rewrite (Z.add_comm (n mod 8)), (Z.add_comm (n / 8)). exact Ec. }
  assert (CB : forall k l, (Rabs (coef (shade r) k l) <= 1024 * B)%R).
  { intros k l. unfold coef. replace (1024 * B)%R with (INR 32 * (INR 32 * B))%R by (replace (INR 32) with 32%R by (cbn; lra); ring).
    apply sum_le. intros x _. apply sum_le. intros y _. rewrite !Rabs_mult. pose proof (wave_1 k x). pose proof (wave_1 l y).
    assert (Rabs (shade r x y) <= B)%R. { unfold shade. destruct Hr as (_ & _ & _ & Bd). destruct (get r x y) eqn:G; [apply (Bd _ _ _ G)|rewrite Rabs_R0; lra]. }
    pose proof (Rabs_pos (shade r x y)). pose proof (Rabs_pos (wave l y)). pose proof (Rabs_pos (wave k x)).
    assert (Rabs (shade r x y) * Rabs (wave k x) <= B)%R by nra. assert (0 <= Rabs (shade r x y) * Rabs (wave k x))%R by nra. nra. }
  set (M := (1089 * B)%R).
  assert (eB : (0 <= e * B <= B)%R) by nra.
  assert (BL : forall a, In a L -> bounded M a).
  { intros a Ia. destruct (In_znth _ _ Ia) as (n & Rn & Nn). destruct (LG n) as (c & Gc & Fc & Ec); [lia|]. rewrite Nn in Gc. injection Gc as <-.
    split; [exact Fc|]. specialize (CB (n mod 8 + 1) (n / 8 + 1)). apply Rabs_le_inv in CB, Ec. apply Rabs_le. unfold M. lra. }
  unfold phash. change (4 * 8) with 32. rewrite Er. cbn [bind]. rewrite Ed. cbn [bind]. rewrite Et. cbn [bind]. rewrite Tw, Th. fold L. rewrite ZL.
  change (8 * 8) with 64. cbn [Z.eqb Pos.eqb andb assert bind].
  destruct (bits64_new_ok (map (fun x => flt (fdiv (match L with [] => of_int 0 | a :: l => fold_left fadd l a end) (of_int 64)) x) L)) as (h & Eh & Rh & Bh).
  { rewrite zlen_map. exact ZL. }
  exists h. split. { rewrite <- Eh. destruct L; [discriminate LL|]. reflexivity. } split; [exact Rh|].
  set (s := match L with [] => of_int 0 | a :: l => fold_left fadd l a end) in *.
  assert (SM : is_finite s = true /\ (Rabs (B2R s - total L) <= 64 * (M / 200000))%R /\ (Rabs (total L) <= 64 * M)%R).
  { subst s. destruct L as [|a L'] eqn:QL; [discriminate LL|]. cbn [length] in LL. injection LL as LL.
    assert (Ba : bounded M a) by (apply BL; left; reflexivity).
    destruct (fold_err M L' ltac:(unfold M; lra) (fun b Ib => BL b (or_intror Ib)) 1 a (B2R a)) as (F & E & T).
    - lra.
    - rewrite LL. cbn. lra.
    - apply Ba.
    - rewrite Rminus_diag_eq, Rabs_R0 by reflexivity. unfold M. lra.
    - destruct Ba. lra.
    - rewrite LL in E, T. replace (1 + INR 63)%R with 64%R in E, T by (cbn; lra). auto. }
  destruct SM as (Fs & Es & Ts).
  assert (TC : (Rabs (total L - 64 * mean_coef (shade r)) <= 64 * (65 * e * B))%R).
  { rewrite total_sum, LL. unfold mean_coef. rewrite <- (sum_64 (fun i j => coef (shade r) (i + 1) (j + 1))).
    replace (64 * (sum_to 64 (fun n => coef (shade r) (n mod 8 + 1) (n / 8 + 1)) / 64))%R with (sum_to 64 (fun n => coef (shade r) (n mod 8 + 1) (n / 8 + 1)))%R by field.
    replace (64 * (65 * e * B))%R with (INR 64 * (65 * e * B))%R by (replace (INR 64) with 64%R by (cbn; lra); reflexivity).
    apply sum_near. intros n Hn. destruct (LG n) as (c & Gc & _ & Ec); [cbn in Hn; lia|]. unfold val. rewrite Gc. exact Ec. }
  destruct (WuProofs.int32_R 64) as (F64 & R64); [lia|].
  set (m := fdiv s (of_int 64)) in *.
  assert (Bs : (Rabs (B2R s / IZR 64) <= 65 / 64 * M)%R).
  { apply Rabs_le_inv in Es, Ts. change (IZR 64) with 64%R. unfold M in *. apply Rabs_le. lra. }
  assert (FM : is_finite m = true /\ B2R m = rnd 24 128 (B2R s / IZR 64)).
  { subst m. rewrite <- R64. apply (fdiv_R 24 128); [exact Fs| |]; rewrite R64; [apply IZR_neq; lia|]. pose proof f32_big. unfold M in Bs. lra. }
  destruct FM as (Fm & Rm). pose proof (f32_err (B2R s / IZR 64)) as Em. rewrite <- Rm in Em.
  assert (MM : (Rabs (B2R m - mean_coef (shade r)) <= 65 * e * B + B / 170)%R).
  { assert (Em' : (Rabs (B2R m - B2R s / IZR 64) <= B / 14000)%R) by (unfold M in *; lra). clear Em. apply Rabs_le_inv in Em', Es, TC. change (IZR 64) with 64%R in Em'.
    apply Rabs_le. unfold M in *. lra. }
  intros k l Hk Hl. set (n := 8 * (l - 1) + (k - 1)). assert (Hn : 0 <= n < 64) by lia.
  destruct (LG n Hn) as (c & Gc & Fc & Ec).
  assert (N8 : n / 8 = l - 1) by (symmetry; apply (Z.div_unique _ _ _ (k - 1)); lia). assert (M8 : n mod 8 = k - 1) by (symmetry; apply (Z.mod_unique _ _ (l - 1)); lia).
  rewrite N8, M8 in Ec. replace (k - 1 + 1) with k in Ec by lia. replace (l - 1 + 1) with l in Ec by lia.
  rewrite (Bh n (flt m c)) by (rewrite znth_map, Gc; reflexivity). rewrite (flt32_R m c Fm Fc).
  apply Rabs_le_inv in Ec, MM. unfold excess, tol. split; intros X.
  - apply Rlt_bool_true. lra.
  - apply Rlt_bool_false. lra.
Qed.
Print Assumptions c102_phash_partial.

Lemma differing_all n f g : 0 <= n -> (forall i, 0 <= i < n -> f i <> g i) -> differing n f g = n.
Proof.
  intros Hn H. unfold differing. rewrite (zsum_ext _ _ _ (fun _ => 1)).
  - rewrite zsum_const by lia. lia.
  - intros i Hi. specialize (H i Hi). destruct (f i), (g i); cbn; congruence.
Qed.

(** ** Brightness and contrast.  Wherever the coefficient is clear of the mean, before
    and after, the bits agree; a negative [a] (a negative picture) inverts them. *)
Lemma excess_affine r r' a b k l : 1 <= k <= 8 -> (forall x y, 0 <= x < 32 -> 0 <= y < 32 -> shade r' x y = (a * shade r x y + b)%R) ->
  (excess r' k l = a * excess r k l)%R.
Proof.
  intros Hk H. unfold excess. rewrite (coef_ext _ (fun x y => a * shade r x y + b)%R) by exact H.
  assert (Q : mean_coef (shade r') = mean_coef (fun x y => a * shade r x y + b)%R).
  { unfold mean_coef. f_equal. apply sum_ext. intros j _. apply sum_ext. intros i _. apply coef_ext. exact H. }
  rewrite Q, coef_affine, mean_affine by lia. ring.
Qed.
Theorem c102_brightness_partial : forall e dct resize im im' r r' a b B,
  dct_ok e dct -> (0 <= e <= 1)%R -> (1 <= B <= 1000000)%R ->
  resize im 32 32 = Ok r -> resize im' 32 32 = Ok r' -> reduction B r -> reduction B r' ->
  (forall x y, 0 <= x < 32 -> 0 <= y < 32 -> shade r' x y = (a * shade r x y + b)%R) ->
  exists h h', phash resize dct im = Ok h /\ phash resize dct im' = Ok h' /\
    (forall k l, 1 <= k <= 8 -> 1 <= l <= 8 -> (tol e B < Rabs (excess r k l))%R -> (tol e B < Rabs (a * excess r k l))%R ->
      ((0 < a)%R -> Z.testbit h' (8 * (l - 1) + (k - 1)) = Z.testbit h (8 * (l - 1) + (k - 1))) /\
      ((a < 0)%R -> Z.testbit h' (8 * (l - 1) + (k - 1)) = negb (Z.testbit h (8 * (l - 1) + (k - 1))))) /\
    ((forall k l, 1 <= k <= 8 -> 1 <= l <= 8 -> (tol e B < Rabs (excess r k l) /\ tol e B < Rabs (a * excess r k l))%R) ->
      ((0 < a)%R -> h' = h /\ phash_distance h h' = 0) /\ ((a < 0)%R -> phash_distance h h' = 64)).
Proof.
  intros e dct resize im im' r r' a b B D He HB Er Er' Hr Hr' A.
  destruct (c102_phash_partial e dct resize im r B D He HB Er Hr) as (h & Eh & Rh & Bh).
  destruct (c102_phash_partial e dct resize im' r' B D He HB Er' Hr') as (h' & Eh' & Rh' & Bh').
  exists h, h'. split; [exact Eh|]. split; [exact Eh'|].
  assert (T0 : (0 <= tol e B)%R) by (unfold tol; nra).
  assert (BITS : forall k l, 1 <= k <= 8 -> 1 <= l <= 8 -> (tol e B < Rabs (excess r k l))%R -> (tol e B < Rabs (a * excess r k l))%R ->
      ((0 < a)%R -> Z.testbit h' (8 * (l - 1) + (k - 1)) = Z.testbit h (8 * (l - 1) + (k - 1))) /\
      ((a < 0)%R -> Z.testbit h' (8 * (l - 1) + (k - 1)) = negb (Z.testbit h (8 * (l - 1) + (k - 1))))).
  { intros k l Hk Hl T1 T2. destruct (Bh k l Hk Hl) as (P1 & P2). destruct (Bh' k l Hk Hl) as (Q1 & Q2).
    rewrite (excess_affine r r' a b k l Hk A) in Q1, Q2. set (x := excess r k l) in *.
    destruct (Rle_lt_dec 0 x) as [X|X].
    - rewrite (Rabs_pos_eq x X) in T1. rewrite (P1 T1). split; intros Ha.
      + apply Q1. rewrite Rabs_pos_eq in T2; [exact T2|nra].
      + cbn [negb]. apply Q2. rewrite Rabs_left in T2; [lra|nra].
    - rewrite (Rabs_left x X) in T1. rewrite P2 by lra. split; intros Ha.
      + apply Q2. rewrite Rabs_left in T2; [lra|nra].
      + cbn [negb]. apply Q1. rewrite Rabs_pos_eq in T2; [exact T2|nra]. }
  split; [exact BITS|]. intros ALL.
  assert (IDX : forall n, 0 <= n < 64 -> exists k l, 1 <= k <= 8 /\ 1 <= l <= 8 /\ n = 8 * (l - 1) + (k - 1)).
  { intros n Hn. exists (n mod 8 + 1), (n / 8 + 1). pose proof (Z.mod_pos_bound n 8 ltac:(lia)). pose proof (Z.div_mod n 8 ltac:(lia)). lia. }
  destruct (c57_hash_distance h h' h Rh Rh' Rh) as (DD & _ & DZ & _). unfold phash_distance. split; intros Ha.
  - assert (E : h' = h).
    { symmetry. apply DZ. rewrite DD. apply differing_0. intros n Hn. destruct (IDX n Hn) as (k & l & Hk & Hl & ->).
      destruct (ALL k l Hk Hl) as (T1 & T2). symmetry. apply (BITS k l Hk Hl T1 T2). exact Ha. }
    split; [exact E|]. apply DZ. symmetry. exact E.
  - rewrite DD. apply differing_all; [lia|]. intros n Hn. destruct (IDX n Hn) as (k & l & Hk & Hl & ->).
    destruct (ALL k l Hk Hl) as (T1 & T2). destruct (BITS k l Hk Hl T1 T2) as (_ & N). rewrite (N Ha). destruct (Z.testbit h _); discriminate.
Qed.
Print Assumptions c102_brightness_partial.

(** ** A transform as required exists: every sum correctly rounded. *)
Definition nearest_f32 (r : R) : f32 :=
  of_dyadic (Ztrunc (scaled_mantissa radix2 (SpecFloat.fexp 24 128) (rnd 24 128 r))) (cexp radix2 (SpecFloat.fexp 24 128) (rnd 24 128 r)).
Lemma nearest_f32_R r : (Rabs r <= 1000000000000)%R -> is_finite (nearest_f32 r) = true /\ B2R (nearest_f32 r) = rnd 24 128 r.
Proof.
  intros H. unfold nearest_f32, of_dyadic. set (x := rnd 24 128 r).
  assert (G : generic_format radix2 (SpecFloat.fexp 24 128) x) by (apply generic_format_round; [apply fexp_correct; reflexivity|apply valid_rnd_N]).
  pose proof (binary_normalize_correct 24 128 eq_refl eq_refl mode_NE (Ztrunc (scaled_mantissa radix2 (SpecFloat.fexp 24 128) x)) (cexp radix2 (SpecFloat.fexp 24 128) x) false) as C.
  cbv zeta in C. replace (F2R _) with x in C by exact G.
  rewrite round_generic in C by (try exact G; apply valid_rnd_round_mode). rewrite Rlt_bool_true in C.
  - destruct C as (C1 & C2 & _). split; [exact C2|exact C1].
  - apply Rle_lt_trans with (bpow radix2 127); [|apply bpow_lt; lia]. unfold x, rnd. apply abs_round_le_generic; [apply fexp_correct; reflexivity|apply valid_rnd_N|apply generic_format_bpow; cbn; lia|].
    pose proof f32_big as Bg. change (128 - 1) with 127 in Bg. lra.
Qed.
Definition exact_dct (n : Z) (l : list f32) : list f32 := map (fun k => nearest_f32 (sum_to 32 (fun i => (val l i * wave k i)%R))) (zrange 0 n).
Theorem c102_dct_exists : dct_ok (/ 262144) exact_dct.
Proof.
  split.
  - intros n l H. unfold exact_dct. pose proof (zlen_nonneg l). rewrite zlen_map, zlen_zrange by lia. lia.
  - intros l B HL HB Hl k c Gc. unfold exact_dct in Gc. rewrite znth_map in Gc. destruct (znth (zrange 0 32) k) as [k'|] eqn:K; [|discriminate Gc].
    pose proof (znth_range _ _ _ K) as KR. rewrite zlen_zrange in KR by lia. rewrite znth_zrange in K by lia. injection K as <-. cbn [option_map] in Gc. assert (Q : c = nearest_f32 (sum_to 32 (fun i => (val l i * wave k i)%R))) by congruence. rewrite Q. clear Gc Q.
    set (s := sum_to 32 (fun i => (val l i * wave k i)%R)).
    assert (Bs : (Rabs s <= 32 * B)%R).
    { unfold s. replace (32 * B)%R with (INR 32 * B)%R by (replace (INR 32) with 32%R by (cbn; lra); reflexivity). apply sum_le. intros i _. rewrite Rabs_mult.
      assert (Rabs (val l i) <= B)%R. { unfold val. destruct (znth l i) eqn:Q; [apply Hl; apply (znth_In _ _ _ Q)|rewrite Rabs_R0; lra]. }
      pose proof (wave_1 k i). pose proof (Rabs_pos (val l i)). pose proof (Rabs_pos (wave k i)). nra. }
    destruct (nearest_f32_R s) as (F & R); [lra|]. split; [exact F|]. rewrite R. pose proof (f32_err s). lra.
Qed.
Print Assumptions c102_dct_exists.

(** ** Refuted: with a transform that leaves an error of a millionth of the brightness
    in one coefficient of a flat line, a black and a white flat picture have different
    hashes. *)
Definition noisy_dct (n : Z) (l : list f32) : list f32 :=
  match l with
  | a :: _ => if (n =? 32) && forallb (fun b => feq b a) l
              then fmul a (of_int 32) :: fmul a (of_dyadic 1 (-20)) :: repeat (of_int 0) 30
              else exact_dct n l
  | [] => exact_dct n l
  end.
Lemma noisy_ok : dct_ok (/ 262144) noisy_dct.
Proof.
  destruct c102_dct_exists as (L & A). split.
  - intros n [|a l] H; [apply L; exact H|]. cbn [noisy_dct]. destruct ((n =? 32) && _) eqn:Q; [|apply L; exact H].
    apply andb_prop in Q. destruct Q as (Q & _). apply Z.eqb_eq in Q. subst n. rewrite Q. reflexivity.
  - intros [|a l] B HL HB Hl k c Gc; [discriminate HL|]. cbn [noisy_dct] in Gc. destruct ((32 =? 32) && _) eqn:Q; [|exact (A _ B HL HB Hl k c Gc)].
    apply andb_prop in Q. destruct Q as (_ & Q). rewrite forallb_forall in Q.
    destruct (Hl a (or_introl eq_refl)) as (Fa & Ba).
    assert (V : forall i, 0 <= i < 32 -> val (a :: l) i = B2R a).
    { intros i Hi. unfold val. destruct (znth_some (a :: l) i) as (b & Eb); [lia|]. rewrite Eb. apply znth_In in Eb. specialize (Q b Eb).
      destruct (Hl b Eb) as (Fb & _). unfold feq in Q. rewrite (Beqb_correct _ _ b a Fb Fa) in Q. destruct (Req_bool_spec (B2R b) (B2R a)); [assumption|discriminate Q]. }
    assert (SW : sum_to 32 (fun n => val (a :: l) n * wave k n)%R = (B2R a * sum_to 32 (wave k))%R).
    { rewrite Rmult_comm, <- sum_scale. apply sum_ext. intros i Hi. rewrite V by (cbn in Hi; lia). ring. }
    rewrite SW. pose proof (znth_range _ _ _ Gc) as KR. change (zlen _) with 32 in KR.
    destruct (int32_R 32) as (F32 & R32); [lia|]. destruct (int32_R 0) as (F0 & R0); [lia|].
    assert (S : k = 0 \/ k = 1 \/ 2 <= k) by lia. destruct S as [-> | [-> | K]].
    + assert (Qc : c = fmul a (of_int 32)) by (change (Some (fmul a (of_int 32)) = Some c) in Gc; congruence). rewrite Qc.
      assert (BB : (Rabs (B2R a * B2R (of_int 32 : f32)) <= 32 * B)%R). { rewrite R32, Rabs_mult. change (IZR 32) with 32%R. rewrite (Rabs_pos_eq 32) by lra. lra. }
      destruct (fmul_R 24 128 a (of_int 32) Fa F32) as (Fm & Rm); [pose proof f32_big; lra|].
      split; [exact Fm|]. rewrite Rm. pose proof (f32_err (B2R a * B2R (of_int 32 : f32))) as Er.
      replace (sum_to 32 (wave 0)) with 32%R; [rewrite R32 in *; change (IZR 32) with 32%R in *; lra|].
      rewrite (sum_ext 32 _ (fun _ => 1)%R); [cbn; lra|]. intros i _. unfold wave. rewrite Z.mul_0_r. replace (PI * 0 / 64)%R with 0%R by field. apply cos_0.
    + assert (Qc : c = fmul a (of_dyadic 1 (-20))) by (change (Some (fmul a (of_dyadic 1 (-20))) = Some c) in Gc; congruence). rewrite Qc.
      assert (D : is_finite (of_dyadic 1 (-20) : f32) = true /\ B2R (of_dyadic 1 (-20) : f32) = (/ 1048576)%R).
      { pose proof (dy_dyadic 24 128 (-20) 1 ltac:(unfold dyk; lia) ltac:(cbn; lia)) as (D1 & D2). split; [exact D1|]. rewrite D2. unfold F2R. cbn [Fnum Fexp]. change (bpow radix2 (-20)) with (/ 1048576)%R. lra. }
      destruct D as (FD & RD).
      assert (BB : (Rabs (B2R a * B2R (of_dyadic 1 (-20) : f32)) <= B / 1048576)%R). { rewrite RD, Rabs_mult, (Rabs_pos_eq (/ 1048576)) by lra. lra. }
      destruct (fmul_R 24 128 a (of_dyadic 1 (-20)) Fa FD) as (Fm & Rm); [pose proof f32_big; lra|].
      split; [exact Fm|]. rewrite Rm, wave_sum, Rmult_0_r, Rminus_0_r by lia. pose proof (f32_err (B2R a * B2R (of_dyadic 1 (-20) : f32))) as Er.
      set (q := (B2R a * B2R (of_dyadic 1 (-20)))%R) in *. replace (rnd 24 128 q) with ((rnd 24 128 q - q) + q)%R by ring. eapply Rle_trans; [apply Rabs_triang|]. lra.
    + assert (Qc : c = of_int 0). { apply (repeat_spec 30). apply (znth_In _ (k - 2)). rewrite <- Gc. unfold znth. rewrite !(proj2 (Z.leb_le 0 _)) by lia. replace (Z.to_nat k) with (S (S (Z.to_nat (k - 2)))) by lia. reflexivity. }
      rewrite Qc. split; [exact F0|]. rewrite R0, wave_sum by lia. rewrite Rmult_0_r, Rminus_0_r, Rabs_R0. lra.
Qed.
Definition flat (a : f32) : image f32 := new_image 32 32 a.
Lemma flat_reduction a B : is_finite a = true -> (Rabs (B2R a) <= B)%R -> reduction B (flat a).
Proof.
  intros F H. split; [apply wf_gen; lia|]. split; [reflexivity|]. split; [reflexivity|]. intros x y b G. pose proof (get_inb _ _ _ _ G) as I. cbn in I.
  unfold flat, new_image in G. rewrite get_gen_in in G by lia. assert (Q : b = a) by congruence. subst b. split; assumption.
Qed.
Theorem c102_refuted : ~ c102_statement.
Proof.
  intros H. destruct (int32_R 1) as (F1 & R1); [lia|]. destruct (int32_R 0) as (F0 & R0); [lia|].
  destruct (H _ _ (fun im _ _ => Ok im) (flat (of_int 0)) (flat (of_int 1)) (flat (of_int 0)) (flat (of_int 1)) 1%R 1%R 1%R noisy_ok) as (h & E0 & E1).
  - lra.
  - lra.
  - reflexivity.
  - reflexivity.
  - apply flat_reduction; [exact F0|rewrite R0, Rabs_R0; lra].
  - apply flat_reduction; [exact F1|rewrite R1; apply Rabs_le; lra].
  - lra.
  - intros x y Hx Hy. unfold shade, flat, new_image. rewrite !get_gen_in by assumption. rewrite R0, R1. ring.
  - assert (P0 : phash (fun im _ _ => Ok im) noisy_dct (flat (of_int 0)) = Ok 0) by (vm_compute; reflexivity).
    assert (P1 : phash (fun im _ _ => Ok im) noisy_dct (flat (of_int 1)) = Ok 1) by (vm_compute; reflexivity).
    rewrite P0 in E0. rewrite P1 in E1. congruence.
Qed.
Print Assumptions c102_refuted.

(** The hypotheses are met, and bits are clear: a single bright pixel. *)
Definition dot : image f32 := gen 32 32 (fun x y => if (x =? 0) && (y =? 0) then of_int 1 else of_int 0).
Lemma dot_shade x y : 0 <= x < 32 -> 0 <= y < 32 -> shade dot x y = if (x =? 0) && (y =? 0) then 1%R else 0%R.
Proof.
  intros Hx Hy. unfold shade, dot. rewrite get_gen_in by assumption.
  destruct ((x =? 0) && (y =? 0)); [apply (int32_R 1)|apply (int32_R 0)]; lia.
Qed.
Lemma sum_first n f : (forall i, 1 <= i -> f i = 0%R) -> sum_to (S n) f = f 0.
Proof. intros H. induction n; [cbn; ring|]. change (sum_to (S (S n)) f) with (sum_to (S n) f + f (Z.of_nat (S n)))%R. rewrite IHn, (H (Z.of_nat (S n))) by lia. ring. Qed.
Lemma dot_coef k l : coef (shade dot) k l = (wave k 0 * wave l 0)%R.
Proof.
  rewrite (coef_ext _ (fun x y => if (x =? 0) && (y =? 0) then 1%R else 0%R)) by exact dot_shade. unfold coef.
  rewrite (sum_first 31).
  - rewrite (sum_first 31); [cbn [Z.eqb andb]; ring|]. intros i Hi. rewrite (proj2 (Z.eqb_neq i 0)) by lia. cbn [Z.eqb andb]. ring.
  - intros i Hi. rewrite (sum_ext 32 _ (fun _ => 0)%R); [cbn [sum_to]; ring|]. intros y _. rewrite (proj2 (Z.eqb_neq i 0)) by lia. cbn [andb]. ring.
Qed.
Example c102_nontrivial : exists h, phash (fun im _ _ => Ok im) exact_dct dot = Ok h /\ Z.testbit h 0 = true.
Proof.
  destruct (c102_phash_partial _ _ (fun im _ _ => Ok im) dot dot 1 c102_dct_exists) as (h & Eh & _ & Bh); [lra|lra|reflexivity| |].
  { split; [apply wf_gen; lia|]. split; [reflexivity|]. split; [reflexivity|]. intros x y a G. pose proof (get_inb _ _ _ _ G) as I. cbn in I. unfold dot in G. rewrite get_gen_in in G by lia.
    destruct (int32_R 1) as (F1 & R1); [lia|]. destruct (int32_R 0) as (F0 & R0); [lia|].
    assert (Q : a = of_int 1 \/ a = of_int 0) by (destruct ((x =? 0) && (y =? 0)); [left|right]; congruence).
    destruct Q as [-> | ->]; [split; [exact F1|rewrite R1]|split; [exact F0|rewrite R0]]; apply Rabs_le; lra. }
  exists h. split; [exact Eh|]. apply (Bh 1 1); [lia|lia|]. unfold excess, tol, mean_coef.
  assert (PB : (3.1 <= PI <= 3.15)%R) by (pose proof PI_2_3_7_ineq 1%nat as (A & B); unfold PI_2_3_7_tg, tg_alt, Ratan_seq in A, B; cbn in A, B; lra).
  assert (W : forall k, wave k 0 = cos (PI * IZR k / 64)) by (intros k; unfold wave; f_equal; rewrite mult_IZR; cbn [Z.mul Z.add]; change (IZR 1) with 1%R; field).
  set (c1 := wave 1 0). set (c8 := wave 8 0).
  assert (C1 : (0.998 <= c1)%R).
  { unfold c1. rewrite W. pose proof (cos_bound (PI * IZR 1 / 64) 0) as CB. cbn in CB. change (IZR 1) with 1%R in *. specialize (CB ltac:(lra) ltac:(lra)).
    unfold cos_approx, cos_term in CB. cbn in CB. nra. }
  assert (C8 : (c8 <= 0.925)%R).
  { unfold c8. rewrite W. replace (PI * IZR 8 / 64)%R with (PI / 8)%R by (change (IZR 8) with 8%R; field). apply Rnot_lt_le. intros L.
    assert (Q : (cos (PI / 4) = 2 * cos (PI / 8) * cos (PI / 8) - 1)%R) by (replace (PI / 4)%R with (2 * (PI / 8))%R by field; apply cos_2a_cos).
    rewrite cos_PI4 in Q. assert (S2 : (1.414 <= sqrt 2)%R) by (apply Rsqr_incr_0_var; [unfold Rsqr; rewrite sqrt_def by lra; lra|apply sqrt_pos]).
    assert (I : (1 / sqrt 2 <= 0.7073)%R) by (apply (Rmult_le_reg_r (sqrt 2)); [lra|]; unfold Rdiv; rewrite Rmult_assoc, Rinv_l by lra; lra). nra. }
  assert (CK : forall k, 1 <= k <= 8 -> (0 <= wave k 0 <= c1)%R).
  { intros k Hk. assert (B : (1 <= IZR k <= 8)%R) by (split; apply IZR_le; lia). unfold c1. rewrite !W. split; [apply cos_ge_0; nra|].
    apply cos_decr_1; change (IZR 1) with 1%R; nra. }
  assert (CC : forall i j, 0 <= i < 8 -> 0 <= j < 8 -> (coef (shade dot) (i + 1) (j + 1) <= c1 * wave (j + 1) 0)%R).
  { intros i j Hi Hj. rewrite dot_coef. pose proof (CK (i + 1) ltac:(lia)). pose proof (CK (j + 1) ltac:(lia)). nra. }
  rewrite dot_coef. fold c1. set (S := sum_to 8 _).
  assert (SB : (S <= 56 * (c1 * c1) + 8 * (c1 * c8))%R).
  { assert (RW : forall j, 0 <= j < 8 -> (sum_to 8 (fun i => coef (shade dot) (i + 1) (j + 1)) <= 8 * (c1 * wave (j + 1) 0))%R).
    { intros j Hj. cbn [sum_to Z.of_nat Pos.of_succ_nat Pos.succ]. pose proof (fun i Hi => CC i j Hi Hj) as Q.
      pose proof (Q 0 ltac:(lia)). pose proof (Q 1 ltac:(lia)). pose proof (Q 2 ltac:(lia)). pose proof (Q 3 ltac:(lia)). pose proof (Q 4 ltac:(lia)). pose proof (Q 5 ltac:(lia)). pose proof (Q 6 ltac:(lia)). pose proof (Q 7 ltac:(lia)). lra. }
    assert (RW1 : forall j, 0 <= j < 8 -> (sum_to 8 (fun i => coef (shade dot) (i + 1) (j + 1)) <= 8 * (c1 * c1))%R).
    { intros j Hj. pose proof (RW j Hj). pose proof (CK (j + 1) ltac:(lia)). nra. }
    unfold S.
    set (G := fun j => sum_to 8 (fun i => coef (shade dot) (i + 1) (j + 1))).
    assert (RW2 : forall j, 0 <= j < 8 -> (G j <= 8 * (c1 * c1))%R) by exact RW1. assert (R7' : (G 7%Z <= 8 * (c1 * c8))%R) by (change c8 with (wave (7 + 1) 0); apply RW; lia). clearbody G. cbn [sum_to Z.of_nat Pos.of_succ_nat Pos.succ].
    pose proof (RW2 0 ltac:(lia)). pose proof (RW2 1 ltac:(lia)). pose proof (RW2 2 ltac:(lia)). pose proof (RW2 3 ltac:(lia)). pose proof (RW2 4 ltac:(lia)). pose proof (RW2 5 ltac:(lia)). pose proof (RW2 6 ltac:(lia)). lra. }
  assert (c1 * (c1 - c8) >= 0.998 * 0.073)%R by nra. lra.
Qed.
