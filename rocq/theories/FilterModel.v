(** Model of src/filter/mod.rs (filter, filter_parallel, filter_clamped,
    horizontal_filter, vertical_filter, separable_filter,
    separable_filter_equal), src/kernel.rs (Kernel) and
    src/filter/box_filter.rs.

    The subpixel types, the kernel type K and its operations [zero], [add],
    [mul] are parameters: nothing is assumed about them, so the model covers
    integer and floating point kernels.  An overflow of K's own arithmetic is
    outside this part of the model (it is part of [add]/[mul]). *)
From Verif Require Import Base IntegralModel.

(** src/kernel.rs:8-15 *)
Record kernel (K : Type) := mkKernel { kdata : list K; kwidth : Z; kheight : Z }.
Arguments mkKernel {K} _ _ _.
Arguments kdata {K} _.
Arguments kwidth {K} _.
Arguments kheight {K} _.

(** src/kernel.rs:27-35 *)
Definition kernel_new {K} (data : list K) (w h : Z) : res (kernel K) :=
  assert ((0 <? w) && (0 <? h)) ;;;
  p <- chk_u 32 (w * h) ;;
  assert (p =? zlen data mod 2 ^ 32) ;;;
  Ok (mkKernel data w h).

(** src/kernel.rs:40-45 get and 54-60 get_unchecked: the unchecked variant has the same debug
    assertions; an out-of-bounds read shows as Panic *)
Definition kernel_get {K} (k : kernel K) (x y : Z) : res K :=
  assert (x <? kwidth k) ;;;
  assert (y <? kheight k) ;;;
  row <- chk_u 32 (y * kwidth k) ;;
  at_ <- chk_u 32 (row + x) ;;
  vget (kdata k) at_.

Section Filter.
  Variables (S K T : Type).
  Variables (zero : K) (add mul : K -> K -> K) (into : S -> K).
  Variable f : K -> T.     (* the conversion to the output subpixel *)

  (** src/filter/mod.rs:409-418 accumulate *)
  Definition accumulate (acc : list K) (pixel : list S) (weight : K) : list K :=
    map (fun '(a, c) => add a (mul (into c) weight)) (combine acc pixel).
  (** src/filter/mod.rs:59-62 and 420-431 clamp_and_reset: store the converted accumulators
      into the pixel and reset them *)
  Definition store (acc : list K) (out_channels : list T) : list T :=
    map (fun '(a, _) => f a) (combine acc out_channels).
  Definition reset (acc : list K) (out_channels : list T) : list K :=
    map (fun '(a, _) => zero) (combine acc out_channels).

  (** the common tail of every pixel loop: write out(x, y), reset acc *)
  Definition finish (x y : Z) (st : image (list T) * list K) : res (image (list T) * list K) :=
    let '(out, acc) := st in
    p <- get_pixel out x y ;;
    out <- put_pixel out x y (store acc p) ;;
    Ok (out, reset acc p).

  (** src/filter/mod.rs:47-58: the kernel loops of one pixel *)
  Definition correlate_at (im : image (list S)) (k : kernel K) (x y : Z) (acc : list K) : res (list K) :=
    for_range 0 (kheight k) (fun k_y acc =>
      let y_p := Z.min (ih im - 1) (Z.max 0 (y + k_y - kheight k / 2)) in
      for_range 0 (kwidth k) (fun k_x acc =>
        let x_p := Z.min (iw im - 1) (Z.max 0 (x + k_x - kwidth k / 2)) in
        p <- get_pixel im x_p y_p ;;
        w <- kernel_get k k_x k_y ;;
        Ok (accumulate acc p w)) acc) acc.

  (** src/filter/mod.rs:28-68.  [ch_p], [ch_q] are the channel counts of the
      pixel types; [zt] is the zero of the output subpixel.  The closure [f]
      (FnMut in Rust) is taken to be a function. *)
  Definition filter2d (ch_p ch_q : Z) (zt : T) (im : image (list S)) (k : kernel K) : res (image (list T)) :=
    assert (ch_p =? ch_q) ;;;
    let out := new_image (iw im) (ih im) (map (fun _ => zt) (zrange 0 ch_q)) in
    let acc := map (fun _ => zero) (zrange 0 ch_p) in
    '(out, _) <- for_range 0 (ih im) (fun y st =>
      for_range 0 (iw im) (fun x st =>
        let '(out, acc) := st in
        acc <- correlate_at im k x y acc ;;
        finish x y (out, acc)) st) (out, acc) ;;
    Ok out.

  (** src/filter/mod.rs:92-112: one row of the parallel version; [out_pixel]
      is overwritten channel by channel *)
  Definition filter_row (ch_p : Z) (zt : T) (im : image (list S)) (k : kernel K) (y : Z) : res (list (list T)) :=
    '(row, _, _) <- for_range 0 (iw im) (fun x '(row, out_pixel, acc) =>
        acc <- correlate_at im k x y acc ;;
        let out_pixel' := store acc out_pixel in
        Ok (row ++ [out_pixel'], out_pixel', reset acc out_pixel))
      ([], map (fun _ => zt) (zrange 0 ch_p), map (fun _ => zero) (zrange 0 ch_p)) ;;
    Ok row.
  (** src/filter/mod.rs:74-119.  Rows are computed independently and collected
      by index, so the schedule does not matter (see Props_Map for the
      treatment of indexed parallel collect); rows in order here. *)
  Definition filter2d_parallel (ch_p ch_q : Z) (zt : T) (im : image (list S)) (k : kernel K) : res (image (list T)) :=
    assert (ch_p =? ch_q) ;;;
    rows <- mapM (fun y => filter_row ch_p zt im k y) (zrange 0 (ih im)) ;;
    gen_res (iw im) (ih im) (fun x y => row <- vget rows y ;; vget row x).

  (** the loop [for (i, k) in kernel.iter().enumerate()] of the 1-D filters,
      reading pixel [pos i] *)
  Definition correlate1 (im : image (list S)) (ker : list K) (pos : Z -> Z * Z) (acc : list K) : res (list K) :=
    for_each (combine (zrange 0 (zlen ker)) ker) (fun '(i, k) acc =>
      let '(px, py) := pos i in
      p <- get_pixel im px py ;;
      Ok (accumulate acc p k)) acc.

  (** src/filter/mod.rs:234-316 horizontal_filter; i32 arithmetic on positions is in range for
      images and kernels shorter than 2^30 and is not checked here *)
  Definition horizontal_filter (ch : Z) (zt : T) (im : image (list S)) (ker : list K) : res (image (list T)) :=
    let width := iw im in
    let out := new_image width (ih im) (map (fun _ => zt) (zrange 0 ch)) in
    let acc := map (fun _ => zero) (zrange 0 ch) in
    let k_width := zlen ker in
    let half_k := k_width / 2 in
    if k_width >=? width then
      '(out, _) <- for_range 0 (ih im) (fun y st =>
        for_range 0 width (fun x st =>
          let '(out, acc) := st in
          acc <- correlate1 im ker (fun i => (Z.max 0 (Z.min (x + i - half_k) (width - 1)), y)) acc ;;
          finish x y (out, acc)) st) (out, acc) ;;
      Ok out
    else
      '(out, _) <- for_range 0 (ih im) (fun y st =>
        st <- for_range 0 half_k (fun x st =>
          let '(out, acc) := st in
          acc <- correlate1 im ker (fun i => (Z.max 0 (x + i - half_k), y)) acc ;;
          finish x y (out, acc)) st ;;
        st <- for_range half_k (width - half_k) (fun x st =>
          let '(out, acc) := st in
          acc <- correlate1 im ker (fun i => (x + i - half_k, y)) acc ;;
          finish x y (out, acc)) st ;;
        for_range (width - half_k) width (fun x st =>
          let '(out, acc) := st in
          acc <- correlate1 im ker (fun i => (Z.min (x + i - half_k) (width - 1), y)) acc ;;
          finish x y (out, acc)) st) (out, acc) ;;
      Ok out.

  (** src/filter/mod.rs:321-407 vertical_filter *)
  Definition vertical_filter (ch : Z) (zt : T) (im : image (list S)) (ker : list K) : res (image (list T)) :=
    let width := iw im in
    let height := ih im in
    let out := new_image width height (map (fun _ => zt) (zrange 0 ch)) in
    let acc := map (fun _ => zero) (zrange 0 ch) in
    let k_height := zlen ker in
    let half_k := k_height / 2 in
    if k_height >=? height then
      '(out, _) <- for_range 0 height (fun y st =>
        for_range 0 width (fun x st =>
          let '(out, acc) := st in
          acc <- correlate1 im ker (fun i => (x, Z.max 0 (Z.min (y + i - half_k) (height - 1)))) acc ;;
          finish x y (out, acc)) st) (out, acc) ;;
      Ok out
    else
      st <- for_range 0 half_k (fun y st =>
        for_range 0 width (fun x st =>
          let '(out, acc) := st in
          acc <- correlate1 im ker (fun i => (x, Z.max 0 (y + i - half_k))) acc ;;
          finish x y (out, acc)) st) (out, acc) ;;
      st <- for_range half_k (height - half_k) (fun y st =>
        for_range 0 width (fun x st =>
          let '(out, acc) := st in
          acc <- correlate1 im ker (fun i => (x, y + i - half_k)) acc ;;
          finish x y (out, acc)) st) st ;;
      '(out, _) <- for_range (height - half_k) height (fun y st =>
        for_range 0 width (fun x st =>
          let '(out, acc) := st in
          acc <- correlate1 im ker (fun i => (x, Z.min (y + i - half_k) (height - 1))) acc ;;
          finish x y (out, acc)) st) st ;;
      Ok out.
End Filter.

(** src/filter/mod.rs:171-185 separable_filter: input and output have the same pixel type *)
Definition separable_filter {S K} (zero : K) (add mul : K -> K -> K) (into : S -> K) (clamp : K -> S)
  (ch : Z) (zs : S) (im : image (list S)) (hk vk : list K) : res (image (list S)) :=
  assert (zlen hk =? zlen vk) ;;;
  h <- horizontal_filter S K S zero add mul into clamp ch zs im hk ;;
  vertical_filter S K S zero add mul into clamp ch zs h vk.
(** src/filter/mod.rs:190-197 separable_filter_equal *)
Definition separable_filter_equal {S K} (zero : K) (add mul : K -> K -> K) (into : S -> K) (clamp : K -> S)
  (ch : Z) (zs : S) (im : image (list S)) (k : list K) : res (image (list S)) :=
  separable_filter zero add mul into clamp ch zs im k k.

(** src/definitions.rs: <u8 as Clamp<i32>>::clamp *)
Definition clamp_u8 (z : Z) : Z := zclamp 0 255 z.

(** src/filter/box_filter.rs:19-70, u32 arithmetic checked; [val as u8] of a
    mean of u8 values is that value (val mod 256 here) *)
Definition box_filter (im : image Z) (x_radius y_radius : Z) : res (image Z) :=
  let width := iw im in
  let height := ih im in
  let out := new_image width height 0 in
  if (width =? 0) || (height =? 0) then Ok out
  else
    kernel_width <- (t <- chk_u 32 (2 * x_radius) ;; chk_u 32 (t + 1)) ;;
    kernel_height <- (t <- chk_u 32 (2 * y_radius) ;; chk_u 32 (t + 1)) ;;
    row_len <- chk_u 32 (width + 2 * x_radius) ;;
    '(out, _) <- for_range 0 height (fun y '(out, row_buffer) =>
      row_buffer <- row_running_sum im y row_buffer x_radius ;;
      v <- vget row_buffer (2 * x_radius) ;;
      out <- put_pixel out 0 y ((v / kernel_width) mod 256) ;;
      out <- for_range 1 width (fun x out =>
        u <- vget row_buffer (x + 2 * x_radius) ;;
        l <- vget row_buffer (x - 1) ;;
        d <- chk_u 32 (u - l) ;;
        put_pixel out x y ((d / kernel_width) mod 256)) out ;;
      Ok (out, row_buffer)) (out, map (fun _ => 0) (zrange 0 row_len)) ;;
    col_len <- chk_u 32 (height + 2 * y_radius) ;;
    '(out, _) <- for_range 0 width (fun x '(out, col_buffer) =>
      col_buffer <- column_running_sum out x col_buffer y_radius ;;
      v <- vget col_buffer (2 * y_radius) ;;
      out <- put_pixel out x 0 ((v / kernel_height) mod 256) ;;
      out <- for_range 1 height (fun y out =>
        u <- vget col_buffer (y + 2 * y_radius) ;;
        l <- vget col_buffer (y - 1) ;;
        d <- chk_u 32 (u - l) ;;
        put_pixel out x y ((d / kernel_height) mod 256)) out ;;
      Ok (out, col_buffer)) (out, map (fun _ => 0) (zrange 0 col_len)) ;;
    Ok out.
