(** Model of src/hog.rs: option validation and the assembly of the descriptor
    from a grid of cell histograms.  The histograms themselves (atan2 and
    interpolation) are an arbitrary grid of f32. *)
From Verif Require Import Base Float.

(** hog.rs 13-26 *)
Record hog_options := mkOptions { orientations : Z; signed : bool; cell_side : Z; block_side : Z; block_stride : Z }.
(** hog.rs 49-61 *)
Record hog_spec := mkSpec { options : hog_options; cells_wide : Z; cells_high : Z; blocks_wide : Z; blocks_high : Z }.

(** [usize] subtraction, addition and multiplication (64 bits) and remainder
    and division, which panic on zero *)
Definition usz (z : Z) : res Z := chk_u 64 z.
Definition rem (a b : Z) : res Z := assert (negb (b =? 0)) ;;; Ok (a mod b).
Definition quo (a b : Z) : res Z := assert (negb (b =? 0)) ;;; Ok (a / b).

(** hog.rs 84-107 checked_cell_dimensions; [None] is Err *)
Definition checked_cell_dimensions (width height : Z) (o : hog_options) : res (option (Z * Z)) :=
  rw <- rem width (cell_side o) ;;
  rh <- rem height (cell_side o) ;;
  if negb (rw =? 0) || negb (rh =? 0) then Ok None
  else
    cw <- quo width (cell_side o) ;; ch <- quo height (cell_side o) ;; Ok (Some (cw, ch)).

(** hog.rs 185-187 num_blocks *)
Definition num_blocks (num_cells side stride : Z) : res Z :=
  t <- usz (num_cells + stride) ;; t <- usz (t - side) ;; quo t stride.

(** hog.rs 110-137 checked_block_dimensions *)
Definition checked_block_dimensions (cw ch : Z) (o : hog_options) : res (option (Z * Z)) :=
  dw <- usz (cw - block_side o) ;; rw <- rem dw (block_stride o) ;;
  dh <- usz (ch - block_side o) ;; rh <- rem dh (block_stride o) ;;
  if negb (rw =? 0) || negb (rh =? 0) then Ok None
  else
    bw <- num_blocks cw (block_side o) (block_stride o) ;;
    bh <- num_blocks ch (block_side o) (block_stride o) ;;
    Ok (Some (bw, bh)).

(** hog.rs 65-77 from_options *)
Definition from_options (width height : Z) (o : hog_options) : res (option hog_spec) :=
  c <- checked_cell_dimensions width height o ;;
  match c with
  | None => Ok None
  | Some (cw, ch) =>
    b <- checked_block_dimensions cw ch o ;;
    match b with
    | None => Ok None
    | Some (bw, bh) => Ok (Some (mkSpec o cw ch bw bh))
    end
  end.

(** hog.rs 145-147, 140-142: block_descriptor_length, descriptor_length *)
Definition block_descriptor_length (s : hog_spec) : res Z :=
  sq <- usz (block_side (options s) * block_side (options s)) ;; usz (orientations (options s) * sq).
Definition descriptor_length (s : hog_spec) : res Z :=
  t <- usz (blocks_wide s * blocks_high s) ;; l <- block_descriptor_length s ;; usz (t * l).

(** hog.rs 489-491 View3d::offset *)
Definition offset (l0 l1 i0 i1 i2 : Z) : res Z :=
  a <- usz (i2 * l1) ;; a <- usz (a * l0) ;; b <- usz (i1 * l0) ;; c <- usz (a + b) ;; usz (c + i0).
(** hog.rs 473-487 inner_slice(_mut): the position of the slice [offset..offset+l0]
    of a view of [len] entries; panics when it does not fit *)
Definition inner_slice (len l0 l1 x1 x2 : Z) : res Z :=
  o <- offset l0 l1 0 x1 x2 ;; e <- usz (o + l0) ;; assert (e <=? len) ;;; Ok o.

(** write a list into a vector at a position *)
Definition blit {T} (data : list T) (pos : Z) (l : list T) : list T :=
  firstn (Z.to_nat pos) data ++ l ++ skipn (Z.to_nat pos + length l) data.
Definition slice {T} (data : list T) (pos len : Z) : list T := firstn (Z.to_nat len) (skipn (Z.to_nat pos) data).

(** hog.rs 206-241 hog_descriptor_from_hist_grid, first pair of loops: copy the
    histograms of the cells of every block.  [grid] has lengths
    [orientations, cells_wide, cells_high]. *)
Definition copy_blocks (grid : list f32) (s : hog_spec) (data : list f32) : res (list f32) :=
  let o := options s in
  bl <- block_descriptor_length s ;;
  for_range 0 (blocks_high s) (fun by_ data =>
    for_range 0 (blocks_wide s) (fun bx data =>
      bpos <- inner_slice (zlen data) bl (blocks_wide s) bx by_ ;;
      for_range 0 (block_side o) (fun iy data =>
        cy <- usz (by_ * block_stride o) ;; cy <- usz (cy + iy) ;;
        for_range 0 (block_side o) (fun ix data =>
          cx <- usz (bx * block_stride o) ;; cx <- usz (cx + ix) ;;
          spos <- inner_slice bl (orientations o) (block_side o) ix iy ;;
          hpos <- inner_slice (zlen grid) (orientations o) (cells_wide s) cx cy ;;
          Ok (blit data (bpos + spos) (slice grid hpos (orientations o)))) data) data) data) data.

(** math.rs 9-11 l2_norm *)
Definition l2_norm (xs : list f32) : f32 := fsqrt (fold_left (fun acc x => fadd acc (fmul x x)) xs (of_int 0)).

(** hog.rs 228-238: normalise every block *)
Definition normalise_blocks (s : hog_spec) (data : list f32) : res (list f32) :=
  bl <- block_descriptor_length s ;;
  for_range 0 (blocks_high s) (fun by_ data =>
    for_range 0 (blocks_wide s) (fun bx data =>
      bpos <- inner_slice (zlen data) bl (blocks_wide s) bx by_ ;;
      let norm := l2_norm (slice data bpos bl) in
      if flt (of_int 0) norm then
        for_range 0 bl (fun i data => v <- vget data (bpos + i) ;; vset data (bpos + i) (fdiv v norm)) data
      else Ok data) data) data.

(** hog.rs 206-241; Array3d::new allocates zeros *)
Definition hog_descriptor_from_hist_grid (grid : list f32) (s : hog_spec) : res (list f32) :=
  bl <- block_descriptor_length s ;;
  t <- usz (bl * blocks_wide s) ;; n <- usz (t * blocks_high s) ;;
  data <- copy_blocks grid s (map (fun _ => of_int 0) (zrange 0 n)) ;;
  normalise_blocks s data.
