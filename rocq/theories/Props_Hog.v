(** C59: HoG options are validated, and the descriptor has the promised layout. *)
From Verif Require Import Base BaseProofs Float HogModel HogSpec HogProofs.
Local Ltac Zify.zify_post_hook ::= idtac.

(** the full property: every combination of a u32 image size and option values
    is accepted when the cells tile the image and the blocks tile the cells, and
    rejected with an error otherwise *)
Definition c59_statement : Prop := forall width height o,
  0 <= width < 2 ^ 32 -> 0 <= height < 2 ^ 32 -> option_values o ->
  (exists s, from_options width height o = Ok (Some s) /\ compatible width height o s) \/
  (from_options width height o = Ok None /\ ~ exists s, compatible width height o s).

(** it does not hold: a cell side of 0, a stride of 0, or blocks larger than the
    cell grid panic instead of giving an error *)
Theorem c59_refuted : ~ c59_statement.
Proof.
  intros S. destruct (S 40 40 (mkOptions 8 true 5 9 1)) as [(s & E & _)|(E & _)]; [lia|lia|unfold option_values; cbn; lia|discriminate E|discriminate E].
Qed.
Print Assumptions c59_refuted.

(** the combinations that panic *)
Theorem c59_panics : forall width height o, 0 <= width < 2 ^ 32 -> 0 <= height < 2 ^ 32 -> option_values o ->
  cell_side o = 0 \/
  (0 < cell_side o /\ width mod cell_side o = 0 /\ height mod cell_side o = 0 /\
   (block_stride o = 0 \/ width / cell_side o < block_side o \/ height / cell_side o < block_side o)) ->
  from_options width height o = Panic.
Proof.
  intros width height o Hw Hh (V1 & V2 & V3 & V4) H. unfold from_options, checked_cell_dimensions, rem, quo.
  destruct (Z.eqb_spec (cell_side o) 0) as [E|E]; [reflexivity|]. destruct H as [H|(C & Mw & Mh & H)]; [contradiction|].
  cbn [negb assert bind]. rewrite Mw, Mh. cbn [Z.eqb negb orb bind].
  assert (0 <= width / cell_side o <= width) by (split; [apply Z.div_pos; lia|apply Z.div_le_upper_bound; nia]).
  assert (0 <= height / cell_side o <= height) by (split; [apply Z.div_pos; lia|apply Z.div_le_upper_bound; nia]).
  set (cw := width / cell_side o) in *. set (ch := height / cell_side o) in *.
  unfold checked_block_dimensions, rem.
  destruct (Z.lt_ge_cases cw (block_side o)); [rewrite usz_neg by lia; reflexivity|].
  rewrite (usz_ok (cw - block_side o)) by lia. cbn [bind].
  destruct (Z.eqb_spec (block_stride o) 0) as [E0|E0]; [reflexivity|]. cbn [negb assert bind].
  destruct (Z.lt_ge_cases ch (block_side o)); [rewrite usz_neg by lia; reflexivity|].
  exfalso. destruct H as [?|[?|?]]; lia.
Qed.
Print Assumptions c59_panics.
Example c59_panics_nontrivial :
  from_options 40 40 (mkOptions 8 true 0 2 1) = Panic /\ from_options 40 40 (mkOptions 8 true 5 2 0) = Panic /\
  from_options 40 40 (mkOptions 8 true 5 9 1) = Panic.
Proof. repeat split; vm_compute; reflexivity. Qed.

(** Missing from the full property: option values with a zero cell side or
    stride, blocks larger than the cell grid, and strides near 2^64 (c59_panics).
    For all others, options are accepted exactly when they fit. *)
Theorem c59_from_options_partial : forall width height o,
  0 <= width < 2 ^ 32 -> 0 <= height < 2 ^ 32 -> option_values o -> roomy width height o ->
  (exists s, from_options width height o = Ok (Some s) /\ compatible width height o s) \/
  (from_options width height o = Ok None /\ ~ exists s, compatible width height o s).
Proof. exact from_options_ok. Qed.
Print Assumptions c59_from_options_partial.
Example c59_nontrivial :
  (option_values (mkOptions 8 true 5 2 1) /\ roomy 40 35 (mkOptions 8 true 5 2 1)) /\
  from_options 40 35 (mkOptions 8 true 5 2 1) = Ok (Some (mkSpec (mkOptions 8 true 5 2 1) 8 7 7 6)) /\
  from_options 40 36 (mkOptions 8 true 5 2 1) = Ok None /\ from_options 40 40 (mkOptions 8 true 5 3 2) = Ok None.
Proof.
  split; [unfold option_values, roomy; cbn [orientations cell_side block_side block_stride]; cbv; repeat split; intros; discriminate|].
  repeat split; vm_compute; reflexivity.
Qed.

(** whatever is accepted fits (no side conditions beyond the types' ranges) *)
Theorem c59_accepted_fits : forall width height o s,
  0 <= width < 2 ^ 32 -> 0 <= height < 2 ^ 32 -> option_values o ->
  from_options width height o = Ok (Some s) -> compatible width height o s.
Proof.
  intros width height o s Hw Hh (V1 & V2 & V3 & V4) E.
  unfold from_options, checked_cell_dimensions, rem, quo in E.
  destruct (Z.eqb_spec (cell_side o) 0) as [C|C]; [discriminate E|]. cbn [negb assert bind] in E.
  destruct (Z.eqb_spec (width mod cell_side o) 0) as [Mw|Mw]; [|discriminate E].
  destruct (Z.eqb_spec (height mod cell_side o) 0) as [Mh|Mh]; [|discriminate E].
  cbn [negb orb bind] in E.
  pose proof (Z.div_mod width (cell_side o) C) as Dw. pose proof (Z.div_mod height (cell_side o) C) as Dh.
  set (cw := width / cell_side o) in *. set (ch := height / cell_side o) in *.
  unfold checked_block_dimensions, rem in E.
  destruct (Z.lt_ge_cases cw (block_side o)); [rewrite usz_neg in E by lia; discriminate E|].
  assert (0 <= cw <= width) by nia. assert (0 <= ch <= height) by nia.
  rewrite (usz_ok (cw - block_side o)) in E by lia. cbn [bind] in E.
  destruct (Z.eqb_spec (block_stride o) 0) as [E0|E0]; [discriminate E|]. cbn [negb assert bind] in E.
  destruct (Z.lt_ge_cases ch (block_side o)); [rewrite usz_neg in E by lia; discriminate E|].
  rewrite (usz_ok (ch - block_side o)) in E by lia. cbn [bind] in E.
  destruct (Z.eqb_spec ((cw - block_side o) mod block_stride o) 0) as [Bw|Bw]; [|discriminate E].
  destruct (Z.eqb_spec ((ch - block_side o) mod block_stride o) 0) as [Bh|Bh]; [|discriminate E].
  cbn [negb orb] in E. apply tiles_div in Bw; [|lia|lia]. apply tiles_div in Bh; [|lia|lia].
  assert (NB : forall c n, 0 <= c -> tiles c (block_side o) (block_stride o) n ->
    num_blocks c (block_side o) (block_stride o) = Ok n \/ num_blocks c (block_side o) (block_stride o) = Panic).
  { intros c n Hc T. destruct (Z.lt_ge_cases (c + block_stride o) (2 ^ 64)); [left; apply num_blocks_ok; try assumption; lia|].
    right. unfold num_blocks, usz at 1, chk_u, u_fits. rewrite (proj2 (Z.ltb_ge _ (2 ^ 64))) by lia. rewrite Bool.andb_false_r. reflexivity. }
  destruct (NB cw _ ltac:(lia) Bw) as [E1|E1]; rewrite E1 in E; [|discriminate E]. cbn [bind] in E.
  destruct (NB ch _ ltac:(lia) Bh) as [E2|E2]; rewrite E2 in E; [|discriminate E]. cbn [bind] in E.
  injection E as <-. unfold compatible. cbn [options cells_wide cells_high blocks_wide blocks_high].
  split; [reflexivity|]. split; [lia|]. split; [lia|]. split; assumption.
Qed.
Print Assumptions c59_accepted_fits.

(** every cell of every block is a cell of the grid *)
Theorem c59_blocks_inside : forall width height o s bx by_ ix iy,
  0 <= block_stride o -> compatible width height o s ->
  0 <= bx < blocks_wide s -> 0 <= by_ < blocks_high s -> 0 <= ix < block_side o -> 0 <= iy < block_side o ->
  0 <= bx * block_stride o + ix < cells_wide s /\ 0 <= by_ * block_stride o + iy < cells_high s.
Proof.
  intros width height o s bx by_ ix iy Hs (_ & _ & _ & (T1 & T2) & (T3 & T4)) Hx Hy Hix Hiy. split; nia.
Qed.
Print Assumptions c59_blocks_inside.

(** the descriptor length, when it fits a usize *)
Theorem c59_descriptor_length : forall s,
  0 <= orientations (options s) < 2 ^ 64 -> 0 <= block_side (options s) -> 1 <= blocks_wide s -> 1 <= blocks_high s ->
  block_side (options s) * block_side (options s) < 2 ^ 64 -> blocks_wide s * blocks_high s < 2 ^ 64 ->
  blocks_wide s * blocks_high s * (orientations (options s) * block_side (options s) ^ 2) < 2 ^ 64 ->
  descriptor_length s = Ok (blocks_wide s * blocks_high s * (orientations (options s) * block_side (options s) ^ 2)).
Proof.
  intros s HO Hb Hw Hh H1 H2 H3. unfold descriptor_length, block_descriptor_length.
  rewrite Z.pow_2_r in *. set (O := orientations (options s)) in *. set (b := block_side (options s)) in *.
  assert (0 <= b * b) by nia. assert (0 <= O * (b * b)) by nia. assert (1 <= blocks_wide s * blocks_high s) by nia.
  set (n := blocks_wide s * blocks_high s) in *. assert (O * (b * b) <= n * (O * (b * b))) by nia.
  rewrite usz_ok by lia. cbn [bind]. rewrite usz_ok by lia. cbn [bind]. rewrite usz_ok by lia. cbn [bind]. apply usz_ok. nia.
Qed.
Print Assumptions c59_descriptor_length.

(** the descriptor computed from any grid of cell histograms of the right size
    lists the blocks row by row, each block the histograms of its cells row by
    row, scaled to unit norm; it has the promised length and nothing is read or
    written out of bounds *)
Theorem c59_descriptor : forall width height o s grid,
  0 <= width < 2 ^ 32 -> 0 <= height < 2 ^ 32 -> option_values o -> 1 <= orientations o -> 0 < block_side o -> 0 < block_stride o ->
  from_options width height o = Ok (Some s) ->
  zlen grid = orientations o * cells_wide s * cells_high s -> zlen grid < 2 ^ 64 ->
  orientations o * (block_side o * block_side o) * (blocks_wide s * blocks_high s) < 2 ^ 64 ->
  hog_descriptor_from_hist_grid grid s = Ok (descriptor_spec grid s) /\
  zlen (descriptor_spec grid s) = blocks_wide s * blocks_high s * (orientations o * block_side o ^ 2).
Proof.
  intros width height o s grid Hw Hh Vo HO Hb Hs E G1 G2 G3.
  destruct (c59_accepted_fits _ _ _ _ Hw Hh Vo E) as (<- & _ & _ & T1 & T2).
  assert (Z : sized grid s) by (unfold sized, vector_len, block_len; repeat (split; [assumption|]); assumption).
  destruct (descriptor_ok grid s Z) as [D1 D2]. split; [exact D1|]. rewrite D2. unfold vector_len, block_len. ring.
Qed.
Print Assumptions c59_descriptor.
Example c59_descriptor_nontrivial :
  let o := mkOptions 2 true 1 2 1 in let s := mkSpec o 3 2 2 1 in
  let grid := map of_int [3; 0; 0; 0; 1; 1;  0; 4; 0; 0; 1; 1] in
  from_options 3 2 o = Ok (Some s) /\ zlen grid = orientations o * cells_wide s * cells_high s /\
  match hog_descriptor_from_hist_grid grid s with
  | Ok (d0 :: d1 :: d2 :: d3 :: d4 :: d5 :: d6 :: d7 :: rest) => (* norm 5, then norm 2 *)
    feq d0 (fdiv (of_int 3) (of_int 5)) = true /\ feq d1 (of_int 0) = true /\ feq d5 (fdiv (of_int 4) (of_int 5)) = true /\ zlen rest = 8
  | _ => False
  end.
Proof. vm_compute. repeat split. Qed.
