(** Model of src/gradients.rs and of the 3 x 3 kernels of src/kernel.rs. *)
From Verif Require Import Base Float FilterModel.

(** kernel.rs 64-84 *)
Definition sobel_h : list Z := [-1; 0; 1; -2; 0; 2; -1; 0; 1].
Definition sobel_v : list Z := [-1; -2; -1; 0; 0; 0; 1; 2; 1].
Definition scharr_h : list Z := [-3; 0; 3; -10; 0; 10; -3; 0; 3].
Definition scharr_v : list Z := [-3; -10; -3; 0; 0; 0; 3; 10; 3].
Definition prewitt_h : list Z := [-1; 0; 1; -1; 0; 1; -1; 0; 1].
Definition prewitt_v : list Z := [-1; -1; -1; 0; 0; 0; 1; 1; 1].

(** definitions.rs: <i16 as Clamp<i32>>::clamp *)
Definition clamp_i16 (z : Z) : Z := zclamp (- 2 ^ 15) (2 ^ 15 - 1) z.

(** gradients.rs 157-159 gradient_magnitude(dx as f32, dy as f32) for i16 dx,
    dy.  powi(2) is one f32 multiplication. *)
Definition gradient_magnitude (dx dy : Z) : Z :=
  let fx : f32 := of_int dx in let fy : f32 := of_int dy in
  to_int 0 (2 ^ 16 - 1) (fsqrt (fadd (fmul fx fx) (fmul fy fy))).

(** filter/mod.rs 204-212 filter_clamped::<_, _, i16> with an i32 kernel (the i32
    accumulation is exact here: no overflow with u8 pixels and these kernels) *)
Definition filter_clamped_i16 (ch : Z) (im : image (list Z)) (k : kernel Z) : res (image (list Z)) :=
  filter2d Z Z Z 0 Z.add Z.mul (fun v => v) clamp_i16 ch ch 0 im k.

(** gradients.rs 99-154 gradients; [f] may panic; [zq] fills Image::new.
    Unsafe accesses are checked accesses. *)
Definition gradients {Q} (ch : Z) (im : image (list Z)) (hk vk : kernel Z) (zq : Q)
    (f : list Z -> res Q) : res (image Q) :=
  horizontal <- filter_clamped_i16 ch im hk ;;
  vertical <- filter_clamped_i16 ch im vk ;;
  for_range 0 (ih im) (fun y out =>
    for_range 0 (iw im) (fun x out =>
      h <- get_pixel horizontal x y ;;
      v <- get_pixel vertical x y ;;
      q <- f (map (fun '(h, v) => gradient_magnitude h v) (combine h v)) ;;
      put_pixel out x y q) out) (new_image (iw im) (ih im) zq).

(** gradients.rs 15-21 gradients_grayscale, 198-204 sobel_gradients and
    207-213 prewitt_gradients; a Luma pixel is a one-element list *)
Definition gradients_grayscale (im : image (list Z)) (hk vk : kernel Z) : res (image (list Z)) :=
  gradients 1 im hk vk [0] (fun p => Ok p).
Definition sobel_gradients (im : image (list Z)) : res (image (list Z)) :=
  hk <- kernel_new sobel_h 3 3 ;; vk <- kernel_new sobel_v 3 3 ;; gradients_grayscale im hk vk.
Definition prewitt_gradients (im : image (list Z)) : res (image (list Z)) :=
  hk <- kernel_new prewitt_h 3 3 ;; vk <- kernel_new prewitt_v 3 3 ;; gradients_grayscale im hk vk.

(** gradients.rs 163-195: horizontal_sobel, vertical_sobel, horizontal_scharr,
    vertical_scharr, horizontal_prewitt and vertical_prewitt, [k] being the
    named kernel *)
Definition directional (im : image (list Z)) (k : list Z) : res (image (list Z)) :=
  kk <- kernel_new k 3 3 ;; filter_clamped_i16 1 im kk.

(** gradients.rs 281-294 sobel_gradient_map *)
Definition sobel_gradient_map {Q} (ch : Z) (im : image (list Z)) (zq : Q) (f : list Z -> res Q) : res (image Q) :=
  hk <- kernel_new sobel_h 3 3 ;; vk <- kernel_new sobel_v 3 3 ;; gradients ch im hk vk zq f.
