(** Model of src/hog.rs: orientation histograms of cells, and the whole [hog]. *)
From Verif Require Import Base Float FilterModel GradientModel HogModel.

(** std::f32::consts::PI *)
Definition pi32 : f32 := of_dyadic 13176795 (-22).

(** hog.rs 323-330 direction_range *)
Definition direction_range (o : hog_options) : f32 :=
  if signed o then fmul (of_int 2) pi32 else pi32.
(** hog.rs 318-320 orientation_bin_width *)
Definition orientation_bin_width (o : hog_options) : f32 := fdiv (direction_range o) (of_int (orientations o)).

(** hog.rs 334-337 Interpolation: two indices and two weights *)
Record interpolation := mkInter { index0 : Z; index1 : Z; weight0 : f32; weight1 : f32 }.
(** [pos as usize] *)
Definition usize_of (pos : f32) : Z := to_int 0 (2 ^ 64 - 1) pos.
(** hog.rs 346-352 from_position *)
Definition from_position (pos : f32) : res interpolation :=
  let fraction := fsub pos (ffloor pos) in
  right <- usz (usize_of pos + 1) ;;
  Ok (mkInter (usize_of pos) right (fsub (of_int 1) fraction) fraction).
(** hog.rs 356-363 from_position_wrapping *)
Definition from_position_wrapping (pos : f32) (length : Z) : res interpolation :=
  right <- usz (usize_of pos + 1) ;;
  let right := if length <=? right then 0 else right in
  let fraction := fsub pos (ffloor pos) in
  Ok (mkInter (usize_of pos) right (fsub (of_int 1) fraction) fraction).

(** the entry of an array of two, [indices[i]] and [weights[i]] for i in 0..2 *)
Definition index_at (it : interpolation) (i : Z) : Z := if i =? 0 then index0 it else index1 it.
Definition weight_at (it : interpolation) (i : Z) : f32 := if i =? 0 then weight0 it else weight1 it.

(** filter/mod.rs filter_clamped::<_, _, i32> with an i32 kernel: clamping an i32
    to i32 changes nothing; the i32 accumulation is exact here (no overflow with u8
    pixels and the Sobel kernels) *)
Definition filter_clamped_i32 (im : image (list Z)) (k : list Z) : res (image (list Z)) :=
  kk <- kernel_new k 3 3 ;;
  filter2d Z Z Z 0 Z.add Z.mul (fun v => v) (fun v => zclamp (- 2 ^ 31) (2 ^ 31 - 1) v) 1 1 0 im kk.

(** hog.rs 258-310 cell_histograms.  [atan2 v h] is the library function v.atan2(h). *)
Section Cells.
  Context (atan2 : f32 -> f32 -> f32).

  (** hog.rs 276-286: the direction of a gradient, brought to 0..range *)
  Definition gradient_direction (o : hog_options) (h v : f32) : f32 :=
    let d := atan2 v h in
    let d := if flt d (of_int 0) then fadd d (direction_range o) else d in
    if negb (signed o) && fle pi32 d then fsub d pi32 else d.

  (** hog.rs 291-305: add one pixel to its cells; [grid] has lengths
      [orientations, cells_wide, cells_high] *)
  Definition add_pixel (s : hog_spec) (cell_area m : f32) (y_inter x_inter o_inter : interpolation) (grid : list f32) : res (list f32) :=
    let n := orientations (options s) in
    for_range 0 2 (fun iy grid =>
      let py := index_at y_inter iy in
      for_range 0 2 (fun ix grid =>
        let px := index_at x_inter ix in
        for_range 0 2 (fun io grid =>
          let po := index_at o_inter io in
          if (px <? cells_wide s) && (py <? cells_high s) then
            let wy := weight_at y_inter iy in
            let wx := weight_at x_inter ix in
            let wo := weight_at o_inter io in
            let up := fdiv (fmul (fmul (fmul wy wx) wo) m) cell_area in
            pos <- offset n (cells_wide s) po px py ;;
            current <- vget grid pos ;;
            vset grid pos (fadd current up)
          else Ok grid) grid) grid) grid.

  Definition cell_histograms (im : image (list Z)) (s : hog_spec) : res (list f32) :=
    let o := options s in
    t <- usz (orientations o * cells_wide s) ;; len <- usz (t * cells_high s) ;;
    area <- usz (cell_side o * cell_side o) ;;
    let cell_area : f32 := of_int area in
    let side : f32 := of_int (cell_side o) in
    horizontal <- filter_clamped_i32 im sobel_h ;;
    vertical <- filter_clamped_i32 im sobel_v ;;
    let interval := orientation_bin_width o in
    for_range 0 (ih im) (fun y grid =>
      y_inter <- from_position (fdiv (of_int y) side) ;;
      for_range 0 (iw im) (fun x grid =>
        x_inter <- from_position (fdiv (of_int x) side) ;;
        hp <- get_pixel horizontal x y ;; hz <- vget hp 0 ;;
        vp <- get_pixel vertical x y ;; vz <- vget vp 0 ;;
        let h : f32 := of_int hz in
        let v : f32 := of_int vz in
        let m := fsqrt (fadd (fmul h h) (fmul v v)) in
        let d := gradient_direction o h v in
        o_inter <- from_position_wrapping (fdiv d interval) (orientations o) ;;
        add_pixel s cell_area m y_inter x_inter o_inter grid) grid)
      (map (fun _ => of_int 0) (zrange 0 len)).

  (** hog.rs 191-202 hog; [None] is Err *)
  Definition hog (im : image (list Z)) (o : hog_options) : res (option (list f32)) :=
    spec <- from_options (iw im) (ih im) o ;;
    match spec with
    | None => Ok None
    | Some s => grid <- cell_histograms im s ;; d <- hog_descriptor_from_hist_grid grid s ;; Ok (Some d)
    end.
End Cells.
