(** C105: norms, and the normalisation of HoG blocks. *)
From Flocq Require Import Core BinarySingleNaN.
From Coq Require Import Reals Lra.
From Verif Require Import Base BaseProofs Float FloatProofs FloatErr LineProofs HogModel HogSpec HogProofs Props_Hog RenderModel UnitSpec UnitProofs.
Local Ltac Zify.zify_post_hook ::= idtac.
Open Scope Z_scope.

(** The full property: whatever the finite histograms, every block with an entry
    that is not zero becomes a vector of length 1. *)
Definition c105_statement : Prop :=
  forall width height o s grid, 0 <= width < 2 ^ 32 -> 0 <= height < 2 ^ 32 -> option_values o -> 1 <= orientations o -> 0 < block_side o -> 0 < block_stride o ->
  from_options width height o = Ok (Some s) ->
  zlen grid = orientations o * cells_wide s * cells_high s ->
  orientations o * (block_side o * block_side o) * (blocks_wide s * blocks_high s) <= 2 ^ 20 ->
  Forall (fun x : f32 => is_finite x = true) grid ->
  exists d, hog_descriptor_from_hist_grid grid s = Ok d /\
  forall bx by_, 0 <= bx < blocks_wide s -> 0 <= by_ < blocks_high s -> (0 < norm (block_entries grid s bx by_))%R ->
    let n := orientations o * (block_side o * block_side o) in
    (Rabs (sum_squares (block_at d n (by_ * blocks_wide s + bx)) - 1) <= 3 * rho n)%R.

Theorem c105_l1_partial : forall l, vector_ok l ->
  is_finite (l1_norm l) = true /\ (Rabs (B2R (l1_norm l) - sum_abs l) <= rho (zlen l) * sum_abs l + IZR (zlen l) * / IZR (2 ^ 148))%R.
Proof. exact l1_ok. Qed.
Print Assumptions c105_l1_partial.

Theorem c105_l2_partial : forall l, vector_ok l -> large_enough l ->
  is_finite (l2_norm l) = true /\ (Rabs (B2R (l2_norm l) - norm l) <= rho (zlen l) * norm l)%R.
Proof.
  intros l HV HL. destruct (l2_ok l HV HL) as (F & E). split; [exact F|]. eapply Rle_trans; [exact E|]. apply Rmult_le_compat_r; [apply sqrt_pos|].
  assert (0 <= IZR (zlen l))%R by (apply IZR_le; apply zlen_nonneg). unfold rho. change (IZR (2 ^ 22)) with 4194304%R. lra.
Qed.
Print Assumptions c105_l2_partial.

(** ** blocks of the descriptor *)
Lemma flat_pick {T} (f : Z -> list T) m n k : (forall i, zlen (f i) = m) -> 0 <= k < n ->
  exists pre post, flat_map f (zrange 0 n) = pre ++ f k ++ post /\ zlen pre = k * m.
Proof.
  intros HL Hk. rewrite (zrange_split 0 k n) by lia. rewrite (zrange_cons k n) by lia. rewrite flat_map_app. cbn [flat_map].
  eexists _, _. split; [reflexivity|]. apply flat_len; [lia|]. intros; apply HL.
Qed.
Lemma block_of_spec grid s bx by_ : sized grid s -> 0 <= bx < blocks_wide s -> 0 <= by_ < blocks_high s ->
  block_at (descriptor_spec grid s) (block_len s) (by_ * blocks_wide s + bx) = normalised (block_entries grid s bx by_).
Proof.
  intros HS Hx Hy. unfold descriptor_spec. set (g := fun by_ bx => normalised (block_entries grid s bx by_)).
  assert (LG : forall i j, zlen (g i j) = block_len s) by (intros i j; unfold g; rewrite len_norm; apply len_block; exact HS).
  set (F := fun i => flat_map (g i) (zrange 0 (blocks_wide s))).
  assert (LF : forall i, zlen (F i) = blocks_wide s * block_len s) by (intros i; apply flat_len; [lia|intros; apply LG]).
  destruct (flat_pick F _ (blocks_high s) by_ LF Hy) as (p1 & q1 & E1 & L1). destruct (flat_pick (g by_) _ (blocks_wide s) bx (LG by_) Hx) as (p2 & q2 & E2 & L2).
  change (flat_map (fun by_0 => flat_map (fun bx0 => normalised (block_entries grid s bx0 by_0)) (zrange 0 (blocks_wide s))) (zrange 0 (blocks_high s))) with (flat_map F (zrange 0 (blocks_high s))).
  rewrite E1. change (F by_) with (flat_map (g by_) (zrange 0 (blocks_wide s))). rewrite E2. change (g by_ bx) with (normalised (block_entries grid s bx by_)) in *.
  pose proof (LG by_ bx) as LB. change (g by_ bx) with (normalised (block_entries grid s bx by_)) in LB. set (B := normalised (block_entries grid s bx by_)) in *.
  unfold block_at. replace (p1 ++ (p2 ++ B ++ q2) ++ q1) with ((p1 ++ p2) ++ B ++ (q2 ++ q1)) by (rewrite <- !app_assoc; reflexivity).
  assert (LP : length (p1 ++ p2) = Z.to_nat ((by_ * blocks_wide s + bx) * block_len s)).
  { rewrite app_length. unfold zlen in L1, L2. replace ((by_ * blocks_wide s + bx) * block_len s) with (by_ * (blocks_wide s * block_len s) + bx * block_len s) by ring. lia. }
  rewrite <- LP. rewrite skipn_app, skipn_all, Nat.sub_diag. cbn [skipn app]. unfold zlen in LB.
  replace (Z.to_nat (block_len s)) with (length B) by lia. rewrite firstn_app, firstn_all, Nat.sub_diag. cbn [firstn]. apply app_nil_r.
Qed.

Definition entry_ok (x : f32) : Prop := is_finite x = true /\ (Rabs (B2R x) <= IZR (2 ^ 50))%R.
Lemma entries_ok grid s bx by_ : sized grid s -> block_len s <= 2 ^ 20 -> Forall entry_ok grid -> vector_ok (block_entries grid s bx by_).
Proof.
  intros HS Hn HG. split; [rewrite len_block by exact HS; exact Hn|]. unfold block_entries.
  apply Forall_forall. intros x I. apply in_flat_map in I. destruct I as (iy & _ & I). apply in_flat_map in I. destruct I as (ix & _ & I). apply in_map_iff in I. destruct I as (k & <- & _).
  unfold hist. destruct (znth grid _) as [v|] eqn:E; [|].
  - apply znth_In in E. rewrite Forall_forall in HG. exact (HG v E).
  - destruct f32_zero as (F0 & R0). rewrite Rmult_0_l in R0. split; [exact F0|]. rewrite R0, Rabs_R0. apply IZR_le. lia.
Qed.

(** Proved: histograms of finite values up to 2^50 and blocks of up to 2^20
    entries with norm at least 2^-40: each block is its histograms divided by
    their norm, and has length 1, to the relative accuracy (n + 3) / 2^22.
    Missing: smaller norms and larger values, where squares leave the range of f32. *)
Theorem c105_unit_partial : forall width height o s grid, 0 <= width < 2 ^ 32 -> 0 <= height < 2 ^ 32 -> option_values o -> 1 <= orientations o -> 0 < block_side o -> 0 < block_stride o ->
  from_options width height o = Ok (Some s) ->
  zlen grid = orientations o * cells_wide s * cells_high s -> zlen grid < 2 ^ 64 ->
  orientations o * (block_side o * block_side o) * (blocks_wide s * blocks_high s) < 2 ^ 64 ->
  let n := orientations o * (block_side o * block_side o) in
  n <= 2 ^ 20 -> Forall entry_ok grid ->
  exists d, hog_descriptor_from_hist_grid grid s = Ok d /\
  forall bx by_, 0 <= bx < blocks_wide s -> 0 <= by_ < blocks_high s -> large_enough (block_entries grid s bx by_) ->
    let block := block_at d n (by_ * blocks_wide s + bx) in
    is_scaled (block_entries grid s bx by_) block /\ (Rabs (sum_squares block - 1) <= 3 * rho n)%R.
Proof.
  intros width height o s grid Hw Hh Vo HO Hb Hs E G1 G2 G3 n Hn HG.
  destruct (c59_accepted_fits _ _ _ _ Hw Hh Vo E) as (<- & _ & _ & T1 & T2).
  assert (Z : sized grid s) by (unfold sized, vector_len, block_len; repeat (split; [assumption|]); assumption).
  destruct (descriptor_ok grid s Z) as [D1 _]. exists (descriptor_spec grid s). split; [exact D1|]. intros bx by_ Hx Hy HL block.
  unfold block. change n with (block_len s). rewrite block_of_spec by assumption.
  pose proof (entries_ok grid s bx by_ Z Hn HG) as VO. destruct (scaled_ok _ VO HL) as (P & SC).
  assert (NE : normalised (block_entries grid s bx by_) = map (fun v => fdiv v (l2_norm (block_entries grid s bx by_))) (block_entries grid s bx by_)) by (unfold normalised; rewrite P; reflexivity).
  rewrite NE. split; [exact SC|]. rewrite <- (len_block grid s Z bx by_). apply unit_ok; assumption.
Qed.
Print Assumptions c105_unit_partial.

(** A block of zeros stays as it is. *)
Theorem c105_zero_block : forall l : list f32, vector_ok l -> norm l = 0%R -> normalised l = l.
Proof.
  intros l (Hn & HF) HZ. assert (S0 : sum_squares l = 0%R). { unfold norm in HZ. apply sqrt_eq_0 in HZ; [exact HZ|apply squares_pos]. }
  assert (AZ : Forall (fun x : f32 => is_finite x = true /\ B2R x = 0%R) l).
  { clear -HF S0. induction HF as [|x l (F & B) _ IH]; [constructor|]. cbn in S0. fold (sum_squares l) in S0. pose proof (squares_pos l) as P. pose proof (Rle_0_sqr (B2R x)) as Q. unfold Rsqr in Q.
    constructor; [|apply IH; lra]. split; [exact F|]. assert (K : (B2R x * B2R x = 0)%R) by lra. apply Rmult_integral in K. tauto. }
  unfold normalised. assert (K : flt (of_int 0) (l2_norm l) = false); [|rewrite K; reflexivity]. unfold l2_norm.
  assert (R : forall acc : f32, is_finite acc = true -> B2R acc = 0%R ->
    is_finite (fold_left (fun a x => fadd a (fmul x x)) l acc) = true /\ B2R (fold_left (fun a x => fadd a (fmul x x)) l acc) = 0%R).
  { clear -AZ. induction AZ as [|x l (F & B) _ IH]; intros acc Fa Ra; [auto|]. cbn [fold_left].
    destruct (fmul_R 24 128 x x F F) as (F1 & R1). { rewrite B, Rmult_0_l, Rabs_R0. apply bpow_ge_0. } rewrite B, Rmult_0_l, rnd_0 in R1.
    destruct (fadd_R 24 128 acc (fmul x x) Fa F1) as (F2 & R2). { rewrite Ra, R1, Rplus_0_l, Rabs_R0. apply bpow_ge_0. } rewrite Ra, R1, Rplus_0_l, rnd_0 in R2. apply IH; assumption. }
  destruct f32_zero as (F0 & R0). rewrite Rmult_0_l in R0. destruct (R (of_int 0) F0 R0) as (F & Z).
  destruct (fsqrt_R 24 128 _ F) as (F1 & R1). { rewrite Z. lra. } rewrite Z, sqrt_0, rnd_0 in R1.
  rewrite flt_R by assumption. rewrite R0, R1. apply Rlt_bool_false. lra.
Qed.
Print Assumptions c105_zero_block.

(** Multiplying all histograms by a positive factor changes no entry of the
    descriptor by more than 2 (n + 3) / 2^22 and twice the least float. *)
Lemma norm_scale c l l' : (0 < c)%R -> Forall2 (fun x y : f32 => B2R y = (c * B2R x)%R) l l' -> norm l' = (c * norm l)%R.
Proof.
  intros Hc H. assert (K : sum_squares l' = (c * c * sum_squares l)%R).
  { induction H as [|x y l l' E _ IH]; cbn; [ring|]. fold (sum_squares l) (sum_squares l'). rewrite IH, E. ring. }
  unfold norm. rewrite K. rewrite sqrt_mult; [|apply Rle_0_sqr|apply squares_pos]. rewrite sqrt_square by lra. reflexivity.
Qed.
Theorem c105_contrast_partial : forall c l l', (0 < c)%R -> vector_ok l -> vector_ok l' -> large_enough l -> large_enough l' ->
  Forall2 (fun x y : f32 => B2R y = (c * B2R x)%R) l l' ->
  Forall2 (fun x y : f32 => is_finite x = true /\ is_finite y = true /\ (Rabs (B2R x - B2R y) <= 2 * rho (zlen l) + / IZR (2 ^ 149))%R) (normalised l) (normalised l').
Proof.
  intros c l l' Hc V V' L L' H. destruct (scaled_ok l V L) as (P & S). destruct (scaled_ok l' V' L') as (P' & S').
  assert (NL : normalised l = map (fun v => fdiv v (l2_norm l)) l) by (unfold normalised; rewrite P; reflexivity).
  assert (NL' : normalised l' = map (fun v => fdiv v (l2_norm l')) l') by (unfold normalised; rewrite P'; reflexivity). rewrite NL, NL'. clear NL NL' P P'.
  pose proof (norm_scale c l l' Hc H) as NS. assert (LEN : zlen l' = zlen l). { clear -H. induction H; [reflexivity|]. rewrite !zlen_cons. lia. }
  unfold is_scaled in S, S'. rewrite LEN, NS in S'. unfold large_enough in L. assert (T40 : (0 < / IZR (2 ^ 40))%R) by (apply Rinv_0_lt_compat, IZR_lt; reflexivity).
  assert (B : Forall (fun x => (Rabs (B2R x) <= norm l)%R) l) by (apply Forall_forall; intros x I; apply norm_bound; exact I).
  assert (RH : (0 <= rho (zlen l))%R). { unfold rho. change (IZR (2 ^ 22)) with 4194304%R. assert (0 <= IZR (zlen l))%R by (apply IZR_le; apply zlen_nonneg). lra. }
  set (r := rho (zlen l)) in *. set (N := norm l) in *. set (v := l2_norm l) in *. set (v' := l2_norm l') in *. clearbody r N v v'. clear V V' L' NS LEN.
  assert (PN : (0 < N)%R) by lra. assert (E49 : (/ IZR (2 ^ 149) = 2 * / IZR (2 ^ 150))%R).
  { change (2 ^ 150) with (2 * 2 ^ 149). rewrite mult_IZR. field. apply not_0_IZR. discriminate. }
  clear L T40. revert S S' B. induction H as [|x y l l' E _ IH]; intros S S' B; [constructor|]. cbn [map] in *.
  inversion S as [|? ? ? ? (F1 & D1) S1]; subst. inversion S' as [|? ? ? ? (F2 & D2) S2]; subst. inversion B as [|? ? B1 B2]; subst.
  constructor; [|apply IH; assumption]. split; [exact F1|]. split; [exact F2|].
  assert (Q : (B2R y / (c * N) = B2R x / N)%R) by (rewrite E; field; lra).
  assert (QA : (Rabs (B2R y) / (c * N) = Rabs (B2R x) / N)%R) by (rewrite E, Rabs_mult, (Rabs_pos_eq c) by lra; field; lra). rewrite Q, QA in D2.
  assert (Z1 : (Rabs (B2R x) / N <= 1)%R). { apply (Rmult_le_reg_r N); [lra|]. unfold Rdiv. rewrite Rmult_assoc, Rinv_l by lra. lra. }
  assert (RZ : (r * (Rabs (B2R x) / N) <= r * 1)%R) by (apply Rmult_le_compat_l; lra). rewrite E49.
  apply Rabs_le_inv in D1, D2. apply Rabs_le. lra.
Qed.
Print Assumptions c105_contrast_partial.

(** One cell with the value 2^-80: its square vanishes, so the block is not
    scaled.  And 2^65: its square is infinite, so the block is set to zero. *)
Definition one_cell : hog_spec := mkSpec (mkOptions 1 true 1 1 1) 1 1 1 1.
Lemma one_cell_descriptor (x : f32) : hog_descriptor_from_hist_grid [x] one_cell = Ok (normalised [x]).
Proof.
  assert (Z : sized [x] one_cell) by (unfold sized, tiles, vector_len, block_len; cbn; lia). destruct (descriptor_ok _ _ Z) as (E & _). rewrite E. f_equal.
  unfold descriptor_spec. change (zrange 0 (blocks_high one_cell)) with [0]. change (zrange 0 (blocks_wide one_cell)) with [0]. cbn [flat_map]. rewrite !app_nil_r. reflexivity.
Qed.
Theorem c105_tiny : hog_descriptor_from_hist_grid [of_dyadic 1 (-80)] one_cell = Ok [of_dyadic 1 (-80)].
Proof.
  rewrite one_cell_descriptor. unfold normalised. assert (K : flt (of_int 0) (l2_norm [of_dyadic 1 (-80)]) = false) by (vm_compute; reflexivity). rewrite K. reflexivity.
Qed.
Print Assumptions c105_tiny.
Theorem c105_huge : exists d, hog_descriptor_from_hist_grid [of_dyadic 1 65] one_cell = Ok [d] /\ feq d (of_int 0) = true.
Proof.
  rewrite one_cell_descriptor. unfold normalised. assert (K : flt (of_int 0) (l2_norm [of_dyadic 1 65]) = true) by (vm_compute; reflexivity). rewrite K. cbn [map].
  eexists. split; [reflexivity|]. vm_compute. reflexivity.
Qed.
Print Assumptions c105_huge.
Theorem c105_refuted : ~ c105_statement.
Proof.
  intros H.
  destruct (H 1 1 (mkOptions 1 true 1 1 1) one_cell [of_dyadic 1 (-80)]) as (d & E & K); try (cbn; lia).
  - unfold option_values. cbn. lia.
  - reflexivity.
  - constructor; [vm_compute; reflexivity|constructor].
  - rewrite c105_tiny in E. assert (d = [of_dyadic 1 (-80)]) as -> by congruence.
    assert (D : dy (-80) 1 (of_dyadic 1 (-80) : f32)) by (apply (dy_dyadic 24 128); [unfold dyk; lia|cbn; lia]). destruct D as (_ & R). rewrite Rmult_1_l in R.
    set (x := of_dyadic 1 (-80) : f32) in *. clearbody x.
    assert (B80 : (0 < bpow radix2 (-80) <= / 4)%R). { split; [apply bpow_gt_0|]. change (/ 4)%R with (bpow radix2 (-2)). apply bpow_le. lia. }
    specialize (K 0 0 ltac:(cbn; lia) ltac:(cbn; lia)). change (block_entries [x] one_cell 0 0) with [x] in K. cbv zeta in K.
    change (block_at [x] _ _) with [x] in K.
    assert (SQ : (sum_squares [x] = bpow radix2 (-80) * bpow radix2 (-80))%R) by (unfold sum_squares; cbn [fold_right]; rewrite R; ring).
    assert (P : (0 < bpow radix2 (-80) * bpow radix2 (-80) <= / 4)%R).
    { split; [apply Rmult_lt_0_compat; lra|]. apply Rle_trans with (/ 4 * 1)%R; [apply Rmult_le_compat; lra|lra]. }
    unfold norm in K. rewrite SQ in K. specialize (K ltac:(apply sqrt_lt_R0; lra)). unfold rho in K. cbn [orientations block_side] in K.
    change (IZR (2 ^ 22)) with 4194304%R in K. change (1 * (1 * 1)) with 1 in K. apply Rabs_le_inv in K. lra.
Qed.
Print Assumptions c105_refuted.

(** The hypotheses are met: histograms 3 and 4 give 0.6 and 0.8. *)
Example c105_nontrivial : let l := [of_int 3; of_int 4 : f32] in
  vector_ok l /\ norm l = 5%R /\ large_enough l /\
  match normalised l with [a; b] => feq a (fdiv (of_int 3) (of_int 5)) = true /\ feq b (fdiv (of_int 4) (of_int 5)) = true | _ => False end.
Proof.
  cbv zeta. assert (R3 : is_finite (of_int 3 : f32) = true /\ B2R (of_int 3 : f32) = 3%R).
  { destruct (dy_int 24 128 3) as (F & R); [split; lia|lia|]. split; [exact F|]. rewrite R. change (bpow radix2 0) with 1%R. ring. }
  assert (R4 : is_finite (of_int 4 : f32) = true /\ B2R (of_int 4 : f32) = 4%R).
  { destruct (dy_int 24 128 4) as (F & R); [split; lia|lia|]. split; [exact F|]. rewrite R. change (bpow radix2 0) with 1%R. ring. }
  destruct R3 as (F3 & R3), R4 as (F4 & R4).
  assert (N : norm [of_int 3; of_int 4 : f32] = 5%R).
  { unfold norm, sum_squares. cbn [fold_right]. rewrite R3, R4. replace (3 * 3 + (4 * 4 + 0))%R with (5 * 5)%R by ring. apply sqrt_square. lra. }
  split; [|split; [exact N|split]].
  - split; [cbn; lia|]. assert (10 <= IZR (2 ^ 50))%R by (apply IZR_le; lia). constructor; [split; [exact F3|rewrite R3, Rabs_pos_eq by lra; lra]|]. constructor; [split; [exact F4|rewrite R4, Rabs_pos_eq by lra; lra]|constructor].
  - unfold large_enough. rewrite N. apply Rle_trans with (/ 1)%R; [apply Rinv_le_contravar; [lra|apply IZR_le; lia]|lra].
  - vm_compute. split; reflexivity.
Qed.
