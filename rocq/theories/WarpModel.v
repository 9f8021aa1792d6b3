(** Model of warping and interpolation (src/geometric_transformations.rs 278-317,
    516-658 and 738-880).  Pixels are lists of integer channels with largest value [hi]
    (u8: 255, u16: 65535). *)
From Verif Require Import Base Float ClampModel ProjModel.

(** [x as u32] *)
Definition u32_of (x : f32) : Z := to_int 0 (2 ^ 32 - 1) x.
Definition half : f32 := of_dyadic 1 (-1).
Definition pixel := list Z.

(** 851-867 interpolate_nearest *)
Definition interpolate_nearest {A} (im : image A) (x y : f32) (default : A) : res A :=
  if flt x (fneg half) || flt y (fneg half) then Ok default
  else
    let rx := u32_of (fadd x half) in
    let ry := u32_of (fadd y half) in
    if (iw im <=? rx) || (ih im <=? ry) then Ok default
    else get_pixel im rx ry.

(** the closure [|u, v| clamp((1 - w) * u + w * v)] of 807-817 *)
Definition lerp (hi : Z) (w : f32) (u v : Z) : Z :=
  clamp_float 0 hi (fadd (fmul (fsub (of_int 1) w) (of_int u)) (fmul w (of_int v))).
(** [Pixel::map2] *)
Definition map2 (f : Z -> Z -> Z) (p q : pixel) : pixel := map (fun '(u, v) => f u v) (combine p q).
(** 795-818 blend_bilinear *)
Definition blend_bilinear (hi : Z) (tl tr bl br : pixel) (rw bw : f32) : pixel :=
  let top := map2 (lerp hi rw) tl tr in
  let bottom := map2 (lerp hi rw) bl br in
  map2 (lerp hi bw) top bottom.
(** 820-848 interpolate_bilinear; the unsafe reads are [get_pixel], which
    panics where they would be undefined behaviour *)
Definition interpolate_bilinear (hi : Z) (im : image pixel) (x y : f32) (default : pixel) : res pixel :=
  let left := ffloor x in
  let right := fadd left (of_int 1) in
  let top := ffloor y in
  let bottom := fadd top (of_int 1) in
  let right_weight := fsub x left in
  let bottom_weight := fsub y top in
  if flt left (of_int 0) || fle (of_int (iw im)) right || flt top (of_int 0) || fle (of_int (ih im)) bottom
  then Ok default
  else
    tl <- get_pixel im (u32_of left) (u32_of top) ;;
    tr <- get_pixel im (u32_of right) (u32_of top) ;;
    bl <- get_pixel im (u32_of left) (u32_of bottom) ;;
    br <- get_pixel im (u32_of right) (u32_of bottom) ;;
    Ok (blend_bilinear hi tl tr bl br right_weight bottom_weight).

(** one channel of blend_cubic (751): p1 + 0.5 * x * (p2 - p0 + x * (2 * p0 - 5 * p1 + 4 * p2 - p3
    + x * (3 * (p1 - p2) + p3 - p0))), with the program's association *)
Definition cubic (x : f32) (p0 p1 p2 p3 : f32) : f32 :=
  fadd p1 (fmul (fmul half x)
    (fadd (fsub p2 p0)
       (fmul x (fadd (fsub (fadd (fsub (fmul (of_int 2) p0) (fmul (of_int 5) p1)) (fmul (of_int 4) p2)) p3)
          (fmul x (fsub (fadd (fmul (of_int 3) (fsub p1 p2)) p3) p0)))))).
(** 738-756 blend_cubic: channel [i] of each pixel ([outp] starts as a copy of
    px0, so it has its channels) *)
Fixpoint blend_cubic (hi : Z) (x : f32) (px0 px1 px2 px3 : pixel) : pixel :=
  match px0, px1, px2, px3 with
  | p0 :: r0, p1 :: r1, p2 :: r2, p3 :: r3 =>
    clamp_float 0 hi (cubic x (of_int p0) (of_int p1) (of_int p2) (of_int p3)) :: blend_cubic hi x r0 r1 r2 r3
  | _, _, _, _ => []
  end.
(** 758-793 interpolate_bicubic *)
Definition interpolate_bicubic (hi : Z) (im : image pixel) (x y : f32) (default : pixel) : res pixel :=
  let left := fsub (ffloor x) (of_int 1) in
  let right := fadd left (of_int 4) in
  let top := fsub (ffloor y) (of_int 1) in
  let bottom := fadd top (of_int 4) in
  let x_weight := fsub x (fadd left (of_int 1)) in
  let y_weight := fsub y (fadd top (of_int 1)) in
  if flt left (of_int 0) || fle (of_int (iw im)) right || flt top (of_int 0) || fle (of_int (ih im)) bottom
  then Ok default
  else
    col <- for_range (u32_of top) (u32_of bottom) (fun row col =>
      p0 <- get_pixel im (u32_of left) row ;;
      p1 <- get_pixel im (u32_of left + 1) row ;;
      p2 <- get_pixel im (u32_of left + 2) row ;;
      p3 <- get_pixel im (u32_of left + 3) row ;;
      vset col (row - u32_of top) (blend_cubic hi x_weight p0 p1 p2 p3)) [default; default; default; default] ;;
    c0 <- vget col 0 ;;
    c1 <- vget col 1 ;;
    c2 <- vget col 2 ;;
    c3 <- vget col 3 ;;
    Ok (blend_cubic hi y_weight c0 c1 c2 c3).

(** 870-880 Interpolation *)
Inductive interpolation := Nearest | Bilinear | Bicubic.
Definition interpolate (hi : Z) (i : interpolation) (im : image pixel) (x y : f32) (default : pixel) : res pixel :=
  match i with
  | Nearest => interpolate_nearest im x y default
  | Bilinear => interpolate_bilinear hi im x y default
  | Bicubic => interpolate_bicubic hi im x y default
  end.

(** 635-658 warp_inner: [chunks_mut(0)] panics, so an output of width 0 does;
    the rows and pixels are disjoint chunks, each written once *)
Definition warp_inner {A} (out : image A) (mapping : f32 -> f32 -> f32 * f32) (pixel_at : f32 -> f32 -> res A) : res (image A) :=
  if iw out =? 0 then Panic
  else gen_res (iw out) (ih out) (fun x y => let '(px, py) := mapping (of_int x) (of_int y) in pixel_at px py).

(** 609-631 warp_into_with; 587-602 warp_with: into an image of the same size *)
Definition warp_into_with (hi : Z) (im : image pixel) mapping (i : interpolation) (default : pixel) (out : image pixel) : res (image pixel) :=
  warp_inner out mapping (fun x y => interpolate hi i im x y default).
Definition warp_with (hi : Z) (im : image pixel) mapping (i : interpolation) (default : pixel) : res (image pixel) :=
  warp_into_with hi im mapping i default (new_image (iw im) (ih im) default).
(** 536-569 warp_into; 516-531 warp: the pre-image of a pixel is its image under the inverse *)
Definition warp_into (hi : Z) (im : image pixel) (p : projection f32) (i : interpolation) (default : pixel) (out : image pixel) : res (image pixel) :=
  let q := invert p in
  warp_inner out
    (match pclass q with
     | Translation => map_translation num_f32 q
     | Affine => map_affine num_f32 q
     | Projective => map_projective num_f32 q
     end) (fun x y => interpolate hi i im x y default).
Definition warp (hi : Z) (im : image pixel) (p : projection f32) (i : interpolation) (default : pixel) : res (image pixel) :=
  warp_into hi im p i default (new_image (iw im) (ih im) default).

(** 302-317 rotate (about a point); 278-296 rotate_about_center; [s] and [c]
    are the results of [theta.sin_cos()] *)
Definition rotate_image (hi : Z) (im : image pixel) (center : f32 * f32) (s c : f32) (i : interpolation) (default : pixel) : res (image pixel) :=
  let '(cx, cy) := center in
  warp hi im (compose num_f32 (compose num_f32 (translate num_f32 cx cy) (rotate num_f32 s c)) (translate num_f32 (fneg cx) (fneg cy))) i default.
Definition rotate_about_center (hi : Z) (im : image pixel) (s c : f32) (i : interpolation) (default : pixel) : res (image pixel) :=
  rotate_image hi im (fdiv (of_int (iw im)) (of_int 2), fdiv (of_int (ih im)) (of_int 2)) s c i default.
