(** Model of the pixel-moving functions of src/geometric_transformations.rs:
    rotate90, rotate180, rotate270 and translate. *)
From Verif Require Import Base ComposeModel.

(** src/geometric_transformations.rs:341-356 [rotate90]; [zero] is the pixel
    [Image::new] fills with. *)
Definition rotate90 {A} (zero : A) (im : image A) : res (image A) :=
  let width := iw im in
  let height := ih im in
  let rotated := new_image height width zero in
  for_range 0 height (fun y s =>
    for_range 0 width (fun x s =>
      p <- get_pixel im x y ;;
      put_pixel s (height - y - 1) x p) s) rotated.

(** src/geometric_transformations.rs:379-394 [rotate270] *)
Definition rotate270 {A} (zero : A) (im : image A) : res (image A) :=
  let width := iw im in
  let height := ih im in
  let rotated := new_image height width zero in
  for_range 0 height (fun y s =>
    for_range 0 width (fun x s =>
      p <- get_pixel im x y ;;
      put_pixel s y (width - x - 1) p) s) rotated.

(** src/geometric_transformations.rs:426-458 [rotate180_mut] *)
Definition rotate180_mut {A} (im : image A) : res (image A) :=
  let width := iw im in
  let height := ih im in
  im1 <- for_range 0 (height / 2) (fun y s =>
    for_range 0 width (fun x s =>
      swap_px s x y (width - x - 1) (height - y - 1)) s) im ;;
  if negb (height mod 2 =? 0) then
    let y_middle := height / 2 in
    for_range 0 (width / 2) (fun x s =>
      swap_px s x y_middle (width - x - 1) y_middle) im1
  else Ok im1.

(** src/geometric_transformations.rs:417-424 [rotate180] *)
Definition rotate180 {A} (im : image A) : res (image A) := rotate180_mut im.

(** [(dst)[doff..][..len].copy_from_slice(&(src)[soff..][..len])]; panics when
    a range is out of bounds. *)
Definition copy_slice {A} (dst : list A) (doff : Z) (src : list A) (soff len : Z)
  : res (list A) :=
  if (0 <=? doff) && (0 <=? soff) && (0 <=? len) && (doff + len <=? zlen dst)
     && (soff + len <=? zlen src)
  then Ok (firstn (Z.to_nat doff) dst
           ++ firstn (Z.to_nat len) (skipn (Z.to_nat soff) src)
           ++ skipn (Z.to_nat (doff + len)) dst)
  else Panic.

(** [u32 as i32]: wraps *)
Definition as_i32 (z : Z) : Z := (z + 2 ^ 31) mod 2 ^ 32 - 2 ^ 31.

(** src/geometric_transformations.rs:465-507 [translate].  Simplification: the
    buffer is a list of whole pixels instead of interleaved subpixels, so the
    [num_channels] factors of the slice offsets are 1.  i32 arithmetic is
    checked. *)
Definition translate {A} (zero : A) (im : image A) (tx ty : Z) : res (image A) :=
  let width := iw im in
  let height := ih im in
  let w := as_i32 width in
  let h := as_i32 height in
  for_range 0 height (fun y out =>
    yt <- chk_i 32 (as_i32 y - ty) ;;
    h1 <- chk_i 32 (h - 1) ;;
    let y_in := Z.max 0 (Z.min yt h1) in
    if 0 <? tx then
      p_min <- get_pixel im 0 y_in ;;
      out1 <- for_range 0 (Z.min tx w) (fun x s => put_pixel s x y p_min) out ;;
      if tx <? w then
        let in_base := y_in * width in
        let out_base := y * width + tx in
        d <- copy_slice (idata out1) out_base (idata im) in_base (w - tx) ;;
        Ok (mkImage (iw out1) (ih out1) d)
      else Ok out1
    else
      wm1 <- chk_u 32 (width - 1) ;;
      p_max <- get_pixel im wm1 y_in ;;
      wt <- chk_i 32 (w + tx) ;;
      out1 <- for_range (Z.max wt 0) w (fun x s => put_pixel s x y p_max) out ;;
      if 0 <? wt then
        let in_base := y_in * width + Z.abs tx in
        let out_base := y * width in
        d <- copy_slice (idata out1) out_base (idata im) in_base wt ;;
        Ok (mkImage (iw out1) (ih out1) d)
      else Ok out1) (new_image width height zero).
