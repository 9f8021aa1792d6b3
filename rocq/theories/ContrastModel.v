(** Model of src/contrast.rs (integer part): adaptive_threshold, threshold,
    stretch_contrast.  Histogram equalisation and matching are in
    FContrastModel.v because they use f32. *)
From Verif Require Import Base IntegralModel StatsSpec.

(** Rust's [z as i32] for an integer value *)
Definition as_i32 (z : Z) : Z := (z + 2 ^ 31) mod 2 ^ 32 - 2 ^ 31.

(** src/contrast.rs:25-45: the body of the two loops at (x, y); returns the
    block sum's mean and writes white when the pixel is bright enough. *)
Definition adaptive_px (im : image Z) (integral : image (list Z)) (r delta x y : Z) (out : image Z) : res (image Z) :=
  cur <- get_pixel im x y ;;
  yl <- chk_i 32 (as_i32 y - as_i32 r) ;;
  yh <- chk_u 32 (y + r) ;;
  xl <- chk_i 32 (as_i32 x - as_i32 r) ;;
  xh <- chk_u 32 (x + r) ;;
  let y_low := Z.max 0 yl in
  let y_high := Z.min (ih im - 1) yh in
  let x_low := Z.max 0 xl in
  let x_high := Z.min (iw im - 1) xh in
  dy <- chk_u 32 (y_high - y_low) ;;
  dx <- chk_u 32 (x_high - x_low) ;;
  w <- chk_u 32 ((dy + 1) * (dx + 1)) ;;
  s <- sum_image_pixels Debug 32 integral x_low y_low x_high y_high ;;
  s0 <- vget s 0 ;;
  assert (negb (w =? 0)) ;;;
  t <- chk_i 32 (as_i32 (s0 / w) - delta) ;;
  if t <=? cur then put_pixel out x y 255 else Ok out.

(** src/contrast.rs:19-47 *)
Definition adaptive_threshold (im : image Z) (r delta : Z) : res (image Z) :=
  assert (0 <? r) ;;;
  integral <- integral_image Debug 32 1 (luma im) ;;
  let out := new_image (iw im) (ih im) 0 in
  for_range 0 (ih im) (fun y out =>
    for_range 0 (iw im) (fun x out => adaptive_px im integral r delta x y out) out) out.

(** src/contrast.rs:174-185 *)
Inductive threshold_type := Binary | BinaryInverted | Truncate | ToZero | ToZeroInverted.

(** src/contrast.rs:253-281: [for p in image.iter_mut()], in place *)
Definition threshold_px (t : Z) (k : threshold_type) (p : Z) : Z :=
  match k with
  | Binary => if t <? p then 255 else 0
  | BinaryInverted => if t <? p then 0 else 255
  | Truncate => if t <? p then t else p
  | ToZero => if t <? p then 0 else p
  | ToZeroInverted => if t <? p then p else 0
  end.
Definition threshold_mut (im : image Z) (t : Z) (k : threshold_type) : image Z :=
  mkImage (iw im) (ih im) (map (threshold_px t k) (idata im)).
(** src/contrast.rs:247-251 *)
Definition threshold (im : image Z) (t : Z) (k : threshold_type) : image Z := threshold_mut im t k.

(** src/contrast.rs:391-403: the closure, in u16 arithmetic; [as u8] truncates *)
Definition stretch_level (imin imax omin omax c : Z) : res Z :=
  input_width <- chk_u 16 (imax - imin) ;;
  output_width <- chk_u 16 (omax - omin) ;;
  if c <=? imin then Ok (omin mod 256)
  else if imax <=? c then Ok (omax mod 256)
  else
    d <- chk_u 16 (c - imin) ;;
    m <- chk_u 16 (d * output_width) ;;
    assert (negb (input_width =? 0)) ;;;
    v <- chk_u 16 (m / input_width + omin) ;;
    Ok (v mod 256).

(** [Pixel::map_without_alpha]: the first [nc] channels are mapped, the rest kept *)
Definition map_without_alpha (nc : Z) (f : Z -> res Z) (p : list Z) : res (list Z) :=
  mapM (fun '(i, c) => if i <? nc then f c else Ok c) (combine (zrange 0 (zlen p)) p).

(** src/contrast.rs:361-407 stretch_contrast and stretch_contrast_mut; [map_pixels_mut] visits every pixel (MapModel) *)
Definition stretch_contrast (nc : Z) (im : image (list Z)) (imin imax omin omax : Z) : res (image (list Z)) :=
  assert (imin <? imax) ;;;
  assert (omin <=? omax) ;;;
  d <- mapM (map_without_alpha nc (stretch_level imin imax omin omax)) (idata im) ;;
  Ok (mkImage (iw im) (ih im) d).
