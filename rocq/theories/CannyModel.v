(** Model of [canny] (src/edges.rs) from the input image to the edge map. *)
From Flocq Require Import Core BinarySingleNaN.
From Verif Require Import Base Float FilterModel GradientModel GaussModel EdgesModel.

Section Canny.
  (** the library functions f32::exp, h.hypot(v) and v.atan2(h) *)
  Context (fexp : f32 -> f32) (hypot atan2 : f32 -> f32 -> f32).

  (** edges.rs 34: 1.4, the nearest f32 *)
  Definition canny_sigma : f32 := of_dyadic 11744051 (-23).
  (** edges.rs 60: 180 / PI in f32 *)
  Definition radians_to_degrees : f32 := fdiv (of_int 180) pi_f32.

  (** the only channel of a Luma pixel *)
  Definition luma (p : list Z) : res Z := vget p 0.

  (** edges.rs 64-82: the rounded direction at a pixel.  [gx] and [gy] have the
      size of the image, so the accesses never fail; outside, any direction. *)
  Definition direction_at (gx gy : image (list Z)) (x y : Z) : direction :=
    match get gx x y, get gy x y with
    | Some (h :: _), Some (v :: _) => dir_of_angle (fmul (atan2 (of_int v) (of_int h)) radians_to_degrees)
    | _, _ => D0
    end.

  (** edges.rs 40-46: the strengths, in the order of the buffers; from_raw fails
      when there are too few *)
  Definition strengths (w h : Z) (gx gy : image (list Z)) : res (image f32) :=
    d <- mapM (fun '(p, q) => a <- luma p ;; b <- luma q ;; Ok (hypot (of_int a) (of_int b))) (combine (idata gx) (idata gy)) ;;
    assert (w * h <=? zlen d) ;;;
    Ok (mkImage w h d).

  (** edges.rs 30-52 canny *)
  Definition canny (im : image (list Z)) (low high : f32) : res (image Z) :=
    assert (fle low high) ;;;
    blurred <- gaussian_blur_u8 fexp 1 im canny_sigma ;;
    hk <- kernel_new sobel_h 3 3 ;;
    vk <- kernel_new sobel_v 3 3 ;;
    gx <- filter_clamped_i16 1 blurred hk ;;
    gy <- filter_clamped_i16 1 blurred vk ;;
    g <- strengths (iw im) (ih im) gx gy ;;
    thinned <- non_maximum_suppression g (direction_at gx gy) ;;
    hysteresis thinned low high.
End Canny.
