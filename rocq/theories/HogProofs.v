(** Proofs about HoG options and descriptors. *)
From Verif Require Import Base BaseProofs Float SuppressProofs HogModel HogSpec.
Local Ltac Zify.zify_post_hook ::= idtac.

Lemma usz_ok z : 0 <= z < 2 ^ 64 -> usz z = Ok z.
Proof. apply chk_u_ok. Qed.
Lemma usz_neg z : z < 0 -> usz z = Panic.
Proof. intros H. unfold usz, chk_u, u_fits. rewrite (proj2 (Z.leb_gt 0 z)) by lia. reflexivity. Qed.

(** * Options *)
Lemma num_blocks_ok cells side stride n : 0 <= side -> 0 < stride -> cells + stride < 2 ^ 64 -> 0 <= cells ->
  tiles cells side stride n -> num_blocks cells side stride = Ok n.
Proof.
  intros H1 H2 H3 H4 (H5 & H6). unfold num_blocks. rewrite usz_ok by lia. cbn [bind].
  rewrite usz_ok by nia. cbn [bind]. unfold quo. rewrite (proj2 (Z.eqb_neq stride 0)) by lia. cbn [negb assert bind].
  f_equal. replace (cells + stride - side) with (n * stride) by lia. apply Z.div_mul. lia.
Qed.
Lemma tiles_div cells side stride : 0 < stride -> side <= cells -> (cells - side) mod stride = 0 ->
  tiles cells side stride ((cells - side) / stride + 1).
Proof.
  intros H1 H2 H3. assert (0 <= (cells - side) / stride) by (apply Z.div_pos; lia).
  split; [lia|]. pose proof (Z.div_mod (cells - side) stride ltac:(lia)). lia.
Qed.
Lemma tiles_mod cells side stride n : 0 < stride -> tiles cells side stride n -> (cells - side) mod stride = 0 /\ side <= cells.
Proof.
  intros H1 (H2 & H3). split; [|nia]. replace (cells - side) with ((n - 1) * stride) by lia. apply Z.mod_mul. lia.
Qed.

Definition roomy (width height : Z) (o : hog_options) : Prop :=
  0 < cell_side o /\ 0 < block_stride o /\
  block_side o <= width / cell_side o /\ block_side o <= height / cell_side o /\
  width + block_stride o < 2 ^ 64 /\ height + block_stride o < 2 ^ 64.

Lemma from_options_ok width height o : 0 <= width < 2 ^ 32 -> 0 <= height < 2 ^ 32 -> option_values o -> roomy width height o ->
  (exists s, from_options width height o = Ok (Some s) /\ compatible width height o s) \/
  (from_options width height o = Ok None /\ ~ exists s, compatible width height o s).
Proof.
  intros Hw Hh (V1 & V2 & V3 & V4) (C & T & B1 & B2 & O1 & O2).
  unfold from_options, checked_cell_dimensions, rem, quo.
  rewrite (proj2 (Z.eqb_neq (cell_side o) 0)) by lia. cbn [negb assert bind].
  destruct (Z.eqb_spec (width mod cell_side o) 0) as [Mw|Mw]; cbn [negb orb].
  2:{ right. split; [reflexivity|]. intros (s & _ & E & _). apply Mw. rewrite <- E. apply Z.mod_mul. lia. }
  destruct (Z.eqb_spec (height mod cell_side o) 0) as [Mh|Mh]; cbn [negb bind].
  2:{ right. split; [reflexivity|]. intros (s & _ & _ & E & _). apply Mh. rewrite <- E. apply Z.mod_mul. lia. }
  pose proof (Z.div_mod width (cell_side o) ltac:(lia)) as Dw. pose proof (Z.div_mod height (cell_side o) ltac:(lia)) as Dh.
  rewrite Mw in Dw. rewrite Mh in Dh.
  assert (Qw : 0 <= width / cell_side o) by (apply Z.div_pos; lia).
  assert (Qh : 0 <= height / cell_side o) by (apply Z.div_pos; lia).
  set (cw := width / cell_side o) in *. set (ch := height / cell_side o) in *.
  assert (Lw : cw <= width) by nia. assert (Lh : ch <= height) by nia.
  assert (UN : forall s, compatible width height o s -> cells_wide s = cw /\ cells_high s = ch).
  { intros s (_ & E1 & E2 & _). split; nia. }
  unfold checked_block_dimensions, rem. rewrite (proj2 (Z.eqb_neq (block_stride o) 0)) by lia. cbn [negb assert].
  rewrite (usz_ok (cw - block_side o)) by lia. cbn [bind].
  rewrite (usz_ok (ch - block_side o)) by lia. cbn [bind].
  destruct (Z.eqb_spec ((cw - block_side o) mod block_stride o) 0) as [Bw|Bw]; cbn [negb orb].
  2:{ right. split; [reflexivity|]. intros (s & K). pose proof (UN s K) as [E1 E2]. destruct K as (_ & _ & _ & K & _).
      rewrite E1 in K. apply tiles_mod in K; [|lia]. tauto. }
  destruct (Z.eqb_spec ((ch - block_side o) mod block_stride o) 0) as [Bh|Bh]; cbn [negb].
  2:{ right. split; [reflexivity|]. intros (s & K). pose proof (UN s K) as [E1 E2]. destruct K as (_ & _ & _ & _ & K).
      rewrite E2 in K. apply tiles_mod in K; [|lia]. tauto. }
  apply tiles_div in Bw; [|lia|lia]. apply tiles_div in Bh; [|lia|lia].
  rewrite (num_blocks_ok cw _ _ _ (proj1 V3) T ltac:(lia) Qw Bw). cbn [bind].
  rewrite (num_blocks_ok ch _ _ _ (proj1 V3) T ltac:(lia) Qh Bh). cbn [bind].
  left. eexists. split; [reflexivity|]. unfold compatible. cbn [options cells_wide cells_high blocks_wide blocks_high].
  split; [reflexivity|]. split; [lia|]. split; [lia|]. split; assumption.
Qed.

(** * Lists *)
Lemma blit_app {T} (a b l c : list T) : length b = length l -> blit (a ++ b ++ c) (zlen a) l = a ++ l ++ c.
Proof.
  intros H. unfold blit, zlen. rewrite Nat2Z.id. rewrite firstn_app, Nat.sub_diag, firstn_all. cbn [firstn]. rewrite app_nil_r.
  f_equal. f_equal. rewrite app_assoc. rewrite skipn_app, skipn_all2; [|rewrite app_length; lia].
  rewrite app_length, H, Nat.sub_diag. reflexivity.
Qed.
Lemma slice_app {T} (a b c : list T) : slice (a ++ b ++ c) (zlen a) (zlen b) = b.
Proof.
  unfold slice, zlen. rewrite !Nat2Z.id. rewrite skipn_app, skipn_all, Nat.sub_diag. cbn [app skipn].
  rewrite firstn_app, firstn_all, Nat.sub_diag. cbn [firstn]. apply app_nil_r.
Qed.
Lemma flat_len {T} (f : Z -> list T) c k : 0 <= k -> (forall i, 0 <= i < k -> zlen (f i) = c) -> zlen (flat_map f (zrange 0 k)) = k * c.
Proof.
  intros Hk. revert k Hk. refine (natlike_ind _ _ _).
  - intros _. rewrite zrange_empty by lia. cbn [flat_map]. change (zlen (@nil T)) with 0. lia.
  - intros x Hx IH H. unfold Z.succ. rewrite zrange_snoc by lia. rewrite flat_map_app, zlen_app. cbn [flat_map]. rewrite app_nil_r.
    rewrite IH by (intros; apply H; lia). rewrite (H x) by lia. lia.
Qed.
Lemma flat_snoc {T} (f : Z -> list T) k : 0 <= k -> flat_map f (zrange 0 (k + 1)) = flat_map f (zrange 0 k) ++ f k.
Proof. intros H. rewrite zrange_snoc by lia. rewrite flat_map_app. cbn [flat_map]. rewrite app_nil_r. reflexivity. Qed.
Lemma split_at {T} (l : list T) k : 0 <= k <= zlen l -> exists a b, l = a ++ b /\ zlen a = k.
Proof.
  intros H. exists (firstn (Z.to_nat k) l), (skipn (Z.to_nat k) l). rewrite firstn_skipn. split; [reflexivity|].
  unfold zlen in *. rewrite firstn_length. lia.
Qed.
Lemma slice_map {T} (d : T) (l : list T) pos len : 0 <= pos -> 0 <= len -> pos + len <= zlen l ->
  slice l pos len = map (fun j => match znth l (pos + j) with Some v => v | None => d end) (zrange 0 len).
Proof.
  intros H1 H2 H3. destruct (split_at l pos ltac:(lia)) as (a & b & -> & La).
  rewrite zlen_app in H3. destruct (split_at b len ltac:(lia)) as (b1 & c & -> & Lb).
  rewrite <- La, <- Lb. rewrite slice_app. symmetry. apply znth_ext.
  - rewrite map_length, zrange_length. unfold zlen. lia.
  - intros i Hi. rewrite zlen_map, zlen_zrange in Hi. rewrite znth_map, znth_zrange by lia. cbn [option_map]. rewrite Z.add_0_l.
    pose proof (zlen_nonneg a). rewrite znth_app_r by lia. replace (zlen a + i - zlen a) with i by lia. rewrite znth_app_l by lia.
    destruct (znth_some b1 i ltac:(lia)) as (v & ->). reflexivity.
Qed.
Lemma loop_map {T} (a b c : list T) (g : T -> T) :
  for_range 0 (zlen b) (fun i data => v <- vget data (zlen a + i) ;; vset data (zlen a + i) (g v)) (a ++ b ++ c) = Ok (a ++ map g b ++ c).
Proof.
  pose proof (zlen_nonneg a) as Na. pose proof (zlen_nonneg b) as Nb.
  destruct (for_range_ind (fun i data => exists b1 b2, b = b1 ++ b2 /\ zlen b1 = i /\ data = a ++ map g b1 ++ b2 ++ c) 0 (zlen b)
    (fun i data => v <- vget data (zlen a + i) ;; vset data (zlen a + i) (g v)) (a ++ b ++ c)) as (s & E & b1 & b2 & Eb & Lb & Es).
  - lia.
  - exists [], b. auto.
  - intros i s Hi (b1 & b2 & Eb & Lb & Es). destruct b2 as [|v b2].
    { exfalso. rewrite app_nil_r in Eb. subst b1. lia. }
    exists (a ++ map g (b1 ++ [v]) ++ b2 ++ c). split.
    + assert (G : znth s (zlen a + i) = Some v).
      { subst s. rewrite znth_app_r by lia. replace (zlen a + i - zlen a) with i by lia.
        rewrite znth_app_r by (rewrite zlen_map; lia). rewrite zlen_map. replace (i - zlen b1) with 0 by lia. reflexivity. }
      rewrite (proj2 (vget_ok _ _ _) G). cbn [bind]. pose proof (znth_range _ _ _ G). rewrite vset_ok by lia. f_equal.
      subst s. apply znth_ext.
      * rewrite zupd_length, !app_length, !map_length, !app_length. cbn [length]. lia.
      * intros j Hj. rewrite zupd_zlen in Hj. rewrite znth_zupd by lia.
        rewrite map_app. cbn [map]. rewrite <- !app_assoc. cbn [app].
        destruct (Z.eqb_spec j (zlen a + i)) as [->|N].
        -- rewrite ?Z.eqb_refl. rewrite znth_app_r by lia. replace (zlen a + i - zlen a) with i by lia.
           rewrite znth_app_r by (rewrite zlen_map; lia). rewrite zlen_map. replace (i - zlen b1) with 0 by lia. symmetry. apply znth_cons_0.
        -- destruct (Z.lt_ge_cases j (zlen a)); [rewrite !znth_app_l by lia; reflexivity|].
           rewrite !(znth_app_r a) by lia.
           destruct (Z.lt_ge_cases (j - zlen a) (zlen b1)); [rewrite !znth_app_l by (rewrite zlen_map; lia); reflexivity|].
           rewrite !(znth_app_r (map g b1)) by (rewrite zlen_map; lia). rewrite zlen_map.
           rewrite !znth_cons_S by lia. reflexivity.
    + exists (b1 ++ [v]), b2. rewrite <- app_assoc. split; [exact Eb|]. split; [|reflexivity].
      rewrite zlen_app. change (zlen [v]) with 1. lia.
  - rewrite E. f_equal. subst s. assert (b2 = []).
    { assert (L : zlen b = zlen b1 + zlen b2) by (rewrite Eb at 1; apply zlen_app). destruct b2; [reflexivity|].
      rewrite zlen_cons in L. pose proof (zlen_nonneg b2). lia. }
    subst b2. rewrite app_nil_r in Eb. subst b1. reflexivity.
Qed.

(** a loop whose iterations fill in consecutive stretches of a vector *)
Lemma fill_loop {T} (f : Z -> list T) c n L base body : 0 <= n -> 0 <= c ->
  (forall i, 0 <= i < n -> zlen (f i) = c) ->
  (forall i done rest, 0 <= i < n -> zlen done = base + i * c -> zlen (done ++ rest) = L -> c <= zlen rest ->
     exists rest', body i (done ++ rest) = Ok (done ++ f i ++ rest') /\ zlen rest' = zlen rest - c) ->
  forall done rest, zlen done = base -> zlen (done ++ rest) = L -> n * c <= zlen rest ->
  exists rest', for_range 0 n body (done ++ rest) = Ok (done ++ flat_map f (zrange 0 n) ++ rest') /\ zlen rest' = zlen rest - n * c.
Proof.
  intros Hn Hc Hf Hb done rest Hd HL Hr.
  destruct (for_range_ind (fun i data => exists rest', data = done ++ flat_map f (zrange 0 i) ++ rest' /\ zlen rest' = zlen rest - i * c)
    0 n body (done ++ rest)) as (s & E & rest' & Es & Er).
  - lia.
  - exists rest. rewrite zrange_empty by lia. split; [reflexivity|lia].
  - intros i s Hi (rest' & Es & Er). assert (Lf : zlen (flat_map f (zrange 0 i)) = i * c) by (apply flat_len; [lia|intros; apply Hf; lia]).
    destruct (Hb i (done ++ flat_map f (zrange 0 i)) rest' Hi) as (r2 & E2 & L2).
    + rewrite zlen_app. lia.
    + rewrite <- app_assoc, !zlen_app. rewrite zlen_app in HL. lia.
    + nia.
    + rewrite <- app_assoc in E2. subst s. exists (done ++ flat_map f (zrange 0 (i + 1)) ++ r2). split.
      * rewrite E2. f_equal. rewrite flat_snoc by lia. rewrite <- !app_assoc. reflexivity.
      * exists r2. split; [reflexivity|]. lia.
  - exists rest'. split; [rewrite E, Es; reflexivity|exact Er].
Qed.

Definition block_len (s : hog_spec) : Z := orientations (options s) * (block_side (options s) * block_side (options s)).
Definition vector_len (s : hog_spec) : Z := block_len s * (blocks_wide s * blocks_high s).
(** the sizes of the grid and of the descriptor fit the address space *)
Definition sized (grid : list f32) (s : hog_spec) : Prop :=
  zlen grid = orientations (options s) * cells_wide s * cells_high s /\ zlen grid < 2 ^ 64 /\
  1 <= orientations (options s) /\ 0 < block_side (options s) /\ 0 < block_stride (options s) /\
  tiles (cells_wide s) (block_side (options s)) (block_stride (options s)) (blocks_wide s) /\
  tiles (cells_high s) (block_side (options s)) (block_stride (options s)) (blocks_high s) /\
  vector_len s < 2 ^ 64.

Section Fill.
Variables (grid : list f32) (s : hog_spec).
Hypothesis H : sized grid s.
Let O := orientations (options s).
Let bs := block_side (options s).
Let st := block_stride (options s).
Let bw := blocks_wide s.
Let bh := blocks_high s.
Let cw := cells_wide s.
Let ch := cells_high s.
Let bl := block_len s.

Lemma basics : 1 <= O /\ 1 <= bs /\ 1 <= st /\ 1 <= bw /\ 1 <= bh /\ (bw - 1) * st + bs = cw /\ (bh - 1) * st + bs = ch /\
  zlen grid = O * cw * ch /\ zlen grid < 2 ^ 64 /\ bl * (bw * bh) < 2 ^ 64 /\ bl = O * (bs * bs).
Proof. destruct H as (A & B & C & D & E & (F1 & F2) & (G1 & G2) & I). unfold vector_len in I.
  unfold O, bs, st, bw, bh, cw, ch, bl. repeat split; try lia; try reflexivity. Qed.
Lemma bl_pos : 1 <= bl.
Proof. destruct basics as (B1 & B2 & B3 & B4 & B5 & B6 & B7 & B8 & B9 & B10 & B11). rewrite B11. nia. Qed.
Lemma bl_ok : block_descriptor_length s = Ok bl.
Proof.
  destruct basics as (B1 & B2 & B3 & B4 & B5 & B6 & B7 & B8 & B9 & B10 & B11). unfold block_descriptor_length. fold bs O.
  assert (0 < bs * bs) by nia. assert (bs * bs <= bl) by (rewrite B11; nia). assert (1 <= bw * bh) by nia. assert (bl <= bl * (bw * bh)) by nia.
  rewrite usz_ok by lia. cbn [bind]. rewrite <- B11. apply usz_ok. lia.
Qed.

Lemma row_end l0 l1 l2 x1 x2 : 1 <= l0 -> 0 <= x1 < l1 -> 0 <= x2 < l2 -> (x2 * l1 + x1) * l0 + l0 <= l0 * l1 * l2.
Proof. clear. intros H0 H1 H2. assert (x2 * l1 + x1 + 1 <= l1 * l2) by nia. nia. Qed.
(** a row of a view lies inside it *)
Lemma inner_slice_ok len l0 l1 l2 x1 x2 : 1 <= l0 -> 0 <= x1 < l1 -> 0 <= x2 < l2 -> len = l0 * l1 * l2 -> len < 2 ^ 64 ->
  inner_slice len l0 l1 x1 x2 = Ok ((x2 * l1 + x1) * l0).
Proof.
  intros H0 H1 H2 HL HB. unfold inner_slice, offset.
  assert (K : (x2 * l1 + x1) * l0 + l0 <= len).
  { assert (x2 * l1 + x1 + 1 <= l1 * l2) by nia. nia. }
  assert (P1 : 0 <= x2 * l1) by nia. assert (P2 : 0 <= x2 * l1 * l0) by nia. assert (P3 : 0 <= x1 * l0) by nia.
  assert (P4 : x2 * l1 <= x2 * l1 * l0) by nia.
  assert (P5 : (x2 * l1 + x1) * l0 = x2 * l1 * l0 + x1 * l0) by ring.
  rewrite usz_ok by lia. cbn [bind]. rewrite usz_ok by lia. cbn [bind]. rewrite usz_ok by lia. cbn [bind].
  rewrite usz_ok by lia. cbn [bind]. rewrite usz_ok by lia. cbn [bind]. rewrite usz_ok by lia. cbn [bind].
  rewrite (proj2 (Z.leb_le _ len)) by lia. cbn [assert bind]. f_equal. lia.
Qed.

Let cellf bx by_ iy ix := map (fun o => hist grid s o (bx * st + ix) (by_ * st + iy)) (zrange 0 O).
Let rowf bx by_ iy := flat_map (cellf bx by_ iy) (zrange 0 bs).
Let L := bl * (bw * bh).

Lemma len_cell bx by_ iy ix : zlen (cellf bx by_ iy ix) = O.
Proof. pose proof basics as (B1 & _). unfold cellf. rewrite zlen_map, zlen_zrange; lia. Qed.
Lemma len_row bx by_ iy : zlen (rowf bx by_ iy) = bs * O.
Proof. pose proof basics as (B1 & B2 & _). apply flat_len; [lia|]. intros. apply len_cell. Qed.
Lemma len_block bx by_ : zlen (block_entries grid s bx by_) = bl.
Proof.
  destruct basics as (B1 & B2 & B3 & B4 & B5 & B6 & B7 & B8 & B9 & B10 & B11).
  change (zlen (flat_map (rowf bx by_) (zrange 0 bs)) = bl). rewrite (flat_len _ (bs * O)); [|lia|intros; apply len_row].
  rewrite B11. ring.
Qed.

Lemma copy_ok data : zlen data = L ->
  copy_blocks grid s data = Ok (flat_map (fun by_ => flat_map (fun bx => block_entries grid s bx by_) (zrange 0 bw)) (zrange 0 bh)).
Proof.
  destruct basics as (B1 & B2 & B3 & B4 & B5 & B6 & B7 & B8 & B9 & B10 & B11). pose proof bl_pos as Bp.
  intros HL. unfold copy_blocks. rewrite bl_ok. cbn [bind]. fold O bs st bw bh cw ch.
  assert (Crow : forall by_, zlen (flat_map (fun bx => block_entries grid s bx by_) (zrange 0 bw)) = bw * bl).
  { intros. apply flat_len; [lia|]. intros. apply len_block. }
  assert (SZ : bs <= cw /\ bs <= ch /\ 1 <= cw /\ 1 <= ch) by nia.
  assert (SG : cw <= O * cw * ch /\ ch <= O * cw * ch).
  { assert (1 <= O * ch) by nia. assert (1 <= O * cw) by nia. replace (O * cw * ch) with (O * ch * cw) at 1 by ring. split; nia. }
  match goal with |- for_range 0 bh ?body data = _ =>
    destruct (fill_loop (fun by_ => flat_map (fun bx => block_entries grid s bx by_) (zrange 0 bw)) (bw * bl) bh L 0 body) with (done := @nil f32) (rest := data) as (r & E & Er) end.
  - lia.
  - nia.
  - intros. apply Crow.
  - intros by_ done rest Hy Hd HLL Hr.
    apply (fill_loop (fun bx => block_entries grid s bx by_) bl bw L (0 + by_ * (bw * bl))); try assumption; try lia.
    + intros. apply len_block.
    + clear done rest Hd HLL Hr. intros bx done rest Hx Hd HLL Hr.
      rewrite HLL. rewrite (inner_slice_ok L bl bw bh bx by_); [|lia|lia|lia|unfold L; ring|exact B10]. cbn [bind].
      set (bpos := (by_ * bw + bx) * bl). assert (Ebp : zlen done = bpos) by (unfold bpos; rewrite Hd; ring).
      assert (X : block_entries grid s bx by_ = flat_map (rowf bx by_) (zrange 0 bs)) by reflexivity. rewrite X.
      assert (BB : bl = bs * (bs * O)) by (rewrite B11; ring). rewrite BB.
      assert (Hbs : by_ * st + bs <= ch) by nia. assert (Hxs : bx * st + bs <= cw) by nia.
      assert (Py : 0 <= by_ * st) by nia. assert (Px : 0 <= bx * st) by nia.
      apply (fill_loop (rowf bx by_) (bs * O) bs L bpos); try lia; try assumption.
      * intros. apply len_row.
      * clear done rest Hd HLL Hr Ebp. intros iy done rest Hiy Hd HLL Hr.
        rewrite usz_ok by lia. cbn [bind]. rewrite usz_ok by lia. cbn [bind].
        apply (fill_loop (cellf bx by_ iy) O bs L (bpos + iy * (bs * O))); try lia; try assumption.
        -- intros. apply len_cell.
        -- clear done rest Hd HLL Hr. intros ix done rest Hix Hd HLL Hr.
           rewrite usz_ok by lia. cbn [bind]. rewrite usz_ok by lia. cbn [bind].
           rewrite <- BB. rewrite (inner_slice_ok bl O bs bs ix iy); [|lia|lia|lia|rewrite B11; ring|nia]. cbn [bind].
           rewrite (inner_slice_ok (zlen grid) O cw ch); [|lia|lia|lia|exact B8|exact B9]. cbn [bind].
           destruct (split_at rest O ltac:(lia)) as (r1 & r2 & -> & Lr1).
           assert (SL : slice grid (((by_ * st + iy) * cw + (bx * st + ix)) * O) O = cellf bx by_ iy ix).
           { rewrite (slice_map (of_int 0)).
             - apply map_ext_in. intros j _. unfold hist. fold cw O. reflexivity.
             - apply Z.mul_nonneg_nonneg; [|lia]. apply Z.add_nonneg_nonneg; [|lia]. apply Z.mul_nonneg_nonneg; lia.
             - lia.
             - rewrite B8. apply row_end; lia. }
           rewrite SL. exists r2. split.
           ++ f_equal. replace (bpos + (iy * bs + ix) * O) with (zlen done) by (rewrite Hd; ring).
              apply blit_app. pose proof (len_cell bx by_ iy ix). unfold zlen in *. lia.
           ++ rewrite zlen_app. lia.
  - reflexivity.
  - exact HL.
  - unfold L in HL. cbn [app]. nia.
  - cbn [app] in E. rewrite E. f_equal.
    assert (zlen r = 0) by (rewrite Er, HL; unfold L; ring). destruct r as [|z r]; [apply app_nil_r|].
    exfalso. rewrite zlen_cons in *. pose proof (zlen_nonneg r). lia.
Qed.

Lemma len_norm l : zlen (normalised l) = zlen l.
Proof. unfold normalised. destruct (flt _ _); [apply zlen_map|reflexivity]. Qed.

Let rawrow by_ := flat_map (fun bx => block_entries grid s bx by_) (zrange 0 bw).
Let normrow by_ := flat_map (fun bx => normalised (block_entries grid s bx by_)) (zrange 0 bw).

Lemma len_raw by_ k : 0 <= k -> zlen (flat_map (fun bx => block_entries grid s bx by_) (zrange k (Z.max k bw))) = (Z.max k bw - k) * bl.
Proof.
  intros Hk. assert (G : forall n, 0 <= n -> forall k, zlen (flat_map (fun bx => block_entries grid s bx by_) (zrange k (k + n))) = n * bl).
  { refine (natlike_ind _ _ _).
    - intros k0. rewrite zrange_empty by lia. reflexivity.
    - intros n Hn IH k0. rewrite zrange_cons by lia. cbn [flat_map]. rewrite zlen_app, len_block.
      replace (k0 + Z.succ n) with (k0 + 1 + n) by lia. rewrite IH. lia. }
  replace (Z.max k bw) with (k + (Z.max k bw - k)) at 1 by lia. rewrite G by lia. reflexivity.
Qed.

Lemma normalise_ok :
  normalise_blocks s (flat_map rawrow (zrange 0 bh)) = Ok (flat_map normrow (zrange 0 bh)).
Proof.
  destruct basics as (B1 & B2 & B3 & B4 & B5 & B6 & B7 & B8 & B9 & B10 & B11). pose proof bl_pos as Bp.
  unfold normalise_blocks. rewrite bl_ok. cbn [bind]. fold bw bh.
  assert (Lraw : forall y, zlen (rawrow y) = bw * bl) by (intros; apply flat_len; [lia|intros; apply len_block]).
  assert (Lnorm : forall y, zlen (normrow y) = bw * bl).
  { intros. apply flat_len; [lia|]. intros. rewrite len_norm. apply len_block. }
  match goal with |- for_range 0 bh ?body ?d = _ =>
    destruct (for_range_ind (fun i data => data = flat_map normrow (zrange 0 i) ++ flat_map rawrow (zrange i bh) /\ zlen data = L) 0 bh body d) as (r & E & Er & _) end.
  - lia.
  - rewrite (zrange_empty 0 0) by lia. cbn [flat_map app]. split; [reflexivity|].
    rewrite (flat_len _ (bw * bl)); [unfold L; ring|lia|intros; apply Lraw].
  - intros y data Hy (Ed & Ld).
    assert (Ln : zlen (flat_map normrow (zrange 0 y)) = y * (bw * bl)) by (apply flat_len; [lia|intros; apply Lnorm]).
    set (tailrows := flat_map rawrow (zrange (y + 1) bh)).
    assert (Ed0 : data = flat_map normrow (zrange 0 y) ++ rawrow y ++ tailrows).
    { rewrite Ed. rewrite (zrange_cons y bh) by lia. reflexivity. }
    match goal with |- exists _, for_range 0 bw ?body data = _ /\ _ =>
      destruct (for_range_ind (fun x d => d = flat_map normrow (zrange 0 y) ++ flat_map (fun bx => normalised (block_entries grid s bx y)) (zrange 0 x) ++
          flat_map (fun bx => block_entries grid s bx y) (zrange x bw) ++ tailrows /\ zlen d = L) 0 bw body data) as (r & E & Er & Lr) end.
    + lia.
    + rewrite (zrange_empty 0 0) by lia. cbn [flat_map app]. split; [exact Ed0|exact Ld].
    + clear Ed Ed0 Ld data. intros x d Hx (Ed & Ld). rewrite Ld.
      rewrite (inner_slice_ok L bl bw bh x y); [|lia|lia|lia|unfold L; ring|exact B10]. cbn [bind].
      rewrite (zrange_cons x bw) in Ed by lia. cbn [flat_map] in Ed. rewrite <- app_assoc in Ed.
      set (a := flat_map normrow (zrange 0 y) ++ flat_map (fun bx => normalised (block_entries grid s bx y)) (zrange 0 x)).
      set (b := block_entries grid s x y) in *.
      set (c := flat_map (fun bx => block_entries grid s bx y) (zrange (x + 1) bw) ++ tailrows) in *.
      assert (Ed' : d = a ++ b ++ c) by (rewrite Ed; unfold a; rewrite <- app_assoc; reflexivity).
      assert (La : zlen a = (y * bw + x) * bl).
      { unfold a. rewrite zlen_app, Ln. rewrite (flat_len _ bl); [ring|lia|]. intros. rewrite len_norm. apply len_block. }
      assert (Lb : zlen b = bl) by apply len_block.
      rewrite <- La. replace (slice d (zlen a) bl) with b by (rewrite Ed', <- Lb; symmetry; apply slice_app).
      exists (a ++ normalised b ++ c). split; [|split].
      * unfold normalised. destruct (flt (of_int 0) (l2_norm b)).
        -- rewrite Ed', <- Lb at 1. apply (loop_map a b c (fun v => fdiv v (l2_norm b))).
        -- rewrite Ed'. reflexivity.
      * rewrite flat_snoc by lia. unfold a, c, b. rewrite <- !app_assoc. reflexivity.
      * rewrite !zlen_app, len_norm. rewrite Ed', !zlen_app in Ld. exact Ld.
    + exists r. split; [exact E|]. split; [|exact Lr]. rewrite Er. rewrite (zrange_empty bw bw) by lia. cbn [flat_map app].
      rewrite flat_snoc by lia. rewrite <- app_assoc. reflexivity.
  - rewrite E, Er. rewrite (zrange_empty bh bh) by lia. cbn [flat_map]. rewrite app_nil_r. reflexivity.
Qed.

Lemma descriptor_ok : hog_descriptor_from_hist_grid grid s = Ok (descriptor_spec grid s) /\ zlen (descriptor_spec grid s) = vector_len s.
Proof.
  destruct basics as (B1 & B2 & B3 & B4 & B5 & B6 & B7 & B8 & B9 & B10 & B11). pose proof bl_pos as Bp.
  split.
  - unfold hog_descriptor_from_hist_grid. rewrite bl_ok. cbn [bind]. fold bw bh.
    assert (bl * bw <= bl * (bw * bh)) by nia.
    rewrite usz_ok by nia. cbn [bind]. rewrite usz_ok by nia. cbn [bind].
    rewrite copy_ok; [|rewrite zlen_map, zlen_zrange; unfold L; nia]. cbn [bind].
    apply normalise_ok.
  - unfold descriptor_spec. fold bw bh. rewrite (flat_len _ (bw * bl)); [unfold vector_len; fold bl bw bh; ring|lia|].
    intros. apply flat_len; [lia|]. intros. rewrite len_norm. apply len_block.
Qed.
End Fill.
