(** HoG descriptors, independently of the program. *)
From Verif Require Import Base Float HogModel.

(** n blocks of [side] cells, each starting [stride] cells after the previous
    one, cover a row of [total] cells exactly *)
Definition tiles (total side stride n : Z) : Prop := 1 <= n /\ (n - 1) * stride + side = total.

(** the options fit the image: cells tile it, blocks tile the cells *)
Definition compatible (width height : Z) (o : hog_options) (s : hog_spec) : Prop :=
  options s = o /\
  cells_wide s * cell_side o = width /\ cells_high s * cell_side o = height /\
  tiles (cells_wide s) (block_side o) (block_stride o) (blocks_wide s) /\
  tiles (cells_high s) (block_side o) (block_stride o) (blocks_high s).

(** values the types can hold *)
Definition option_values (o : hog_options) : Prop :=
  0 <= orientations o < 2 ^ 64 /\ 0 <= cell_side o < 2 ^ 64 /\ 0 <= block_side o < 2 ^ 64 /\ 0 <= block_stride o < 2 ^ 64.

(** bin o of the histogram of cell (cx, cy) *)
Definition hist (grid : list f32) (s : hog_spec) (o cx cy : Z) : f32 :=
  match znth grid ((cy * cells_wide s + cx) * orientations (options s) + o) with Some v => v | None => of_int 0 end.
(** the unnormalised entries of block (bx, by): bins of its cells, row by row *)
Definition block_entries (grid : list f32) (s : hog_spec) (bx by_ : Z) : list f32 :=
  flat_map (fun iy => flat_map (fun ix => map (fun o =>
    hist grid s o (bx * block_stride (options s) + ix) (by_ * block_stride (options s) + iy))
    (zrange 0 (orientations (options s)))) (zrange 0 (block_side (options s)))) (zrange 0 (block_side (options s))).
(** a block scaled to unit norm, unless its norm is 0 *)
Definition normalised (l : list f32) : list f32 :=
  if flt (of_int 0) (l2_norm l) then map (fun v => fdiv v (l2_norm l)) l else l.
(** all blocks, row by row *)
Definition descriptor_spec (grid : list f32) (s : hog_spec) : list f32 :=
  flat_map (fun by_ => flat_map (fun bx => normalised (block_entries grid s bx by_)) (zrange 0 (blocks_wide s))) (zrange 0 (blocks_high s)).
