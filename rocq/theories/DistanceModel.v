(** Model of src/distance_transform.rs, norms L1 and LInf, and of
    dilate/erode/open/close from src/morphology.rs for these norms.
    The squared Euclidean transform is in EuclidModel.v.

    [unsafe_get_pixel]/[unsafe_put_pixel] are modelled as checked accesses: a
    result [Ok] therefore also says that no unsafe access leaves the image. *)
From Verif Require Import Base.

(** src/distance_transform.rs:101-105 *)
Inductive distance_from := Foreground | Background.

(** src/distance_transform.rs:205-217; the arithmetic is in u16, the stored value [as u8] *)
Definition check (im : image Z) (cx cy x y : Z) : res (image Z) :=
  current <- get_pixel im cx cy ;;
  cand <- get_pixel im x y ;;
  cand <- chk_u 16 (cand + 1) ;;
  if cand <? current then put_pixel im cx cy (cand mod 256) else Ok im.

Definition when (b : bool) (f : image Z -> res (image Z)) (im : image Z) : res (image Z) :=
  if b then f im else Ok im.

(** src/distance_transform.rs:140-173 *)
Definition dt_forward (linf : bool) (from : distance_from) (maxd : Z) (y x : Z) (im : image Z) : res (image Z) :=
  p <- get_pixel im x y ;;
  if (match from with Foreground => 0 <? p | Background => p =? 0 end) then put_pixel im x y 0
  else
    im <- put_pixel im x y maxd ;;
    im <- when (0 <? x) (fun im => check im x y (x - 1) y) im ;;
    when (0 <? y) (fun im =>
      im <- check im x y x (y - 1) ;;
      when linf (fun im =>
        im <- when (0 <? x) (fun im => check im x y (x - 1) (y - 1)) im ;;
        when (x <? iw im - 1) (fun im => check im x y (x + 1) (y - 1)) im) im) im.

(** src/distance_transform.rs:176-196 *)
Definition dt_backward (linf : bool) (y x : Z) (im : image Z) : res (image Z) :=
  im <- when (x <? iw im - 1) (fun im => check im x y (x + 1) y) im ;;
  when (y <? ih im - 1) (fun im =>
    im <- check im x y x (y + 1) ;;
    when linf (fun im =>
      im <- when (x <? iw im - 1) (fun im => check im x y (x + 1) (y + 1)) im ;;
      when (0 <? x) (fun im => check im x y (x - 1) (y + 1)) im) im) im.

(** src/distance_transform.rs:107-125 distance_transform_impl for these norms and
    127-199 distance_transform_impl_linf_or_l1 *)
Definition dt_impl (linf : bool) (from : distance_from) (im : image Z) : res (image Z) :=
  s <- chk_u 32 (iw im + ih im) ;;
  let maxd := Z.min s 255 in
  im <- for_range 0 (ih im) (fun y im =>
          for_range 0 (iw im) (fun x im => dt_forward linf from maxd y x im) im) im ;;
  for_range_rev 0 (ih im) (fun y im =>
    for_range_rev 0 (iw im) (fun x im => dt_backward linf y x im) im) im.

(** src/distance_transform.rs:91-99 distance_transform and distance_transform_mut *)
Definition distance_transform (linf : bool) (im : image Z) : res (image Z) := dt_impl linf Foreground im.

(** [for p in image.iter_mut()] with a pure update *)
Definition map_data (f : Z -> Z) (im : image Z) : image Z := mkImage (iw im) (ih im) (map f (idata im)).

(** src/morphology.rs:71-82 dilate, dilate_mut *)
Definition dilate (linf : bool) (im : image Z) (k : Z) : res (image Z) :=
  im <- dt_impl linf Foreground im ;;
  Ok (map_data (fun p => if p <=? k then 255 else 0) im).
(** src/morphology.rs:162-173 erode, erode_mut *)
Definition erode (linf : bool) (im : image Z) (k : Z) : res (image Z) :=
  im <- dt_impl linf Background im ;;
  Ok (map_data (fun p => if p <=? k then 0 else 255) im).
(** src/morphology.rs:226-235 open, open_mut *)
Definition open (linf : bool) (im : image Z) (k : Z) : res (image Z) :=
  im <- erode linf im k ;; dilate linf im k.
(** src/morphology.rs:326-335 close, close_mut *)
Definition close (linf : bool) (im : image Z) (k : Z) : res (image Z) :=
  im <- dilate linf im k ;; erode linf im k.
