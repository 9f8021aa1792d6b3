(** Model of src/compose.rs.  Pixels are an arbitrary type [A]: the functions
    only move pixels, except [overlay], which is parametric in the blend. *)
From Verif Require Import Base.

(** src/compose.rs:38-49 [crop].  [image::math::Rect] is the four numbers
    [rx ry rw rh] (all u32).  The u32 additions in the asserts are checked
    (debug-build overflow = panic). *)
Definition crop {A} (im : image A) (rx ry rw rh : Z) : res (image A) :=
  xe <- chk_u 32 (rx + rw) ;;
  assert (xe <=? iw im) ;;;
  ye <- chk_u 32 (ry + rh) ;;
  assert (ye <=? ih im) ;;;
  gen_res rw rh (fun x y => get_pixel im (rx + x) (ry + y)).

(** the loop body shared by the two flips and by rotate180: swap two pixels
    (read both, then write both) *)
Definition swap_px {A} (im : image A) (x y x' y' : Z) : res (image A) :=
  p <- get_pixel im x y ;;
  q <- get_pixel im x' y' ;;
  im1 <- put_pixel im x y q ;;
  put_pixel im1 x' y' p.

(** src/compose.rs:98-113 [flip_horizontal_mut]; the returned image is the
    final content of the [&mut] argument. *)
Definition flip_horizontal_mut {A} (im : image A) : res (image A) :=
  for_range 0 (ih im) (fun y s =>
    for_range 0 (iw s / 2) (fun x s =>
      let flipped_x := iw s - x - 1 in
      swap_px s x y flipped_x y) s) im.

(** src/compose.rs:89-96 [flip_horizontal] (clone, then in place) *)
Definition flip_horizontal {A} (im : image A) : res (image A) :=
  flip_horizontal_mut im.

(** src/compose.rs:149-164 [flip_vertical_mut] *)
Definition flip_vertical_mut {A} (im : image A) : res (image A) :=
  for_range 0 (ih im / 2) (fun y s =>
    for_range 0 (iw s) (fun x s =>
      let flipped_y := ih s - y - 1 in
      swap_px s x y x flipped_y) s) im.

(** src/compose.rs:140-147 [flip_vertical] *)
Definition flip_vertical {A} (im : image A) : res (image A) :=
  flip_vertical_mut im.

(** src/compose.rs:211-226 [replace_mut].  [x + top.width()] is a checked u32
    addition. *)
Definition replace_mut {A} (bottom top : image A) (x y : Z) : res (image A) :=
  assert (x <? iw bottom) ;;;
  assert (y <? ih bottom) ;;;
  xs <- chk_u 32 (x + iw top) ;;
  let x_end := Z.min (iw bottom - 1) xs in
  ys <- chk_u 32 (y + ih top) ;;
  let y_end := Z.min (ih bottom - 1) ys in
  for_range y y_end (fun y_bot s =>
    for_range x x_end (fun x_bot s =>
      p <- get_pixel top (x_bot - x) (y_bot - y) ;;
      put_pixel s x_bot y_bot p) s) bottom.

(** src/compose.rs:202-209 [replace] *)
Definition replace {A} (bottom top : image A) (x y : Z) : res (image A) :=
  replace_mut bottom top x y.

(** src/compose.rs:258-278 [overlay_mut].  [blend a b] stands for the pixel
    after [a.blend(&b)]. *)
Definition overlay_mut {A} (blend : A -> A -> A) (bottom top : image A) (x y : Z)
  : res (image A) :=
  assert (x <? iw bottom) ;;;
  assert (y <? ih bottom) ;;;
  xs <- chk_u 32 (x + iw top) ;;
  let x_end := Z.min (iw bottom - 1) xs in
  ys <- chk_u 32 (y + ih top) ;;
  let y_end := Z.min (ih bottom - 1) ys in
  for_range y y_end (fun y_bot s =>
    for_range x x_end (fun x_bot s =>
      bottom_pixel <- get_pixel s x_bot y_bot ;;
      top_pixel <- get_pixel s (x_bot - x) (y_bot - y) ;;
      put_pixel s x_bot y_bot (blend bottom_pixel top_pixel)) s) bottom.

(** src/compose.rs:249-256 [overlay] *)
Definition overlay {A} (blend : A -> A -> A) (bottom top : image A) (x y : Z)
  : res (image A) :=
  overlay_mut blend bottom top x y.
