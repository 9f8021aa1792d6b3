(** Model of gaussian_blur_f32 (src/filter/mod.rs) and sharpen_gaussian
    (src/filter/sharpen.rs). *)
From Flocq Require Import Core BinarySingleNaN.
From Verif Require Import Base Float FilterModel ClampModel.

(** std::f32::consts::PI *)
Definition pi_f32 : f32 := of_dyadic 13176795 (-22).

Section Gauss.
  (** [f32::exp] of the platform *)
  Context (fexp : f32 -> f32).

  (** filter/mod.rs:128-131; [powi(2)] is one multiplication, [recip] is 1/x *)
  Definition gaussian_pdf (x sigma : f32) : f32 :=
    fmul (fdiv (of_int 1) (fmul sigma (fsqrt (fmul (of_int 2) pi_f32))))
         (fexp (fdiv (fneg (fmul x x)) (fmul (of_int 2) (fmul sigma sigma)))).

  (** filter/mod.rs:135-147 gaussian_kernel_f32; usize has 64 bits, and [vec!] panics when its size
      in bytes exceeds isize::MAX (exhausted memory is not modelled).
      [Iterator::sum] adds from the left; whether it starts at 0.0 or -0.0
      makes no difference to a sum of non-negative numbers *)
  Definition gaussian_kernel (sigma : f32) : res (list f32) :=
    let radius := to_int 0 (2 ^ 64 - 1) (fceil (fmul (of_int 2) sigma)) in
    r2 <- chk_u 64 (2 * radius) ;;
    len <- chk_u 64 (r2 + 1) ;;
    assert (4 * len <=? 2 ^ 63 - 1) ;;;
    data <- for_range 0 (radius + 1) (fun i d =>
      let value := gaussian_pdf (of_int i) sigma in
      d <- vset d (radius + i) value ;;
      vset d (radius - i) value) (map (fun _ => of_int 0) (zrange 0 len)) ;;
    let sum := fold_left fadd data (of_int 0) in
    Ok (map (fun x => fdiv x sum) data).

  (** filter/mod.rs:157-166 gaussian_blur_f32, for any subpixel type *)
  Definition gaussian_blur {S} (into : S -> f32) (clamp : f32 -> S) (ch : Z) (zs : S) (im : image (list S)) (sigma : f32)
    : res (image (list S)) :=
    assert (flt (of_int 0) sigma) ;;;
    kernel <- gaussian_kernel sigma ;;
    separable_filter_equal (of_int 0) fadd fmul into clamp ch zs im kernel.

  (** on u8 and on f32 images *)
  Definition gaussian_blur_u8 (ch : Z) (im : image (list Z)) (sigma : f32) : res (image (list Z)) :=
    gaussian_blur of_int clamp_f32_u8 ch 0 im sigma.
  Definition gaussian_blur_f (ch : Z) (im : image (list f32)) (sigma : f32) : res (image (list f32)) :=
    gaussian_blur (fun v => v) clamp_same ch (of_int 0) im sigma.

  (** sharpen.rs:29-37 sharpen_gaussian; a Luma pixel is a one-element list.
      map_subpixels and map_pixels2 apply a function pixel by pixel (C07); the
      pixels are in the same order in both buffers *)
  Definition sharpen_gaussian (im : image (list Z)) (sigma amount : f32) : res (image (list Z)) :=
    let image : image (list f32) := mkImage (iw im) (ih im) (map (map of_int) (idata im)) in
    smooth <- gaussian_blur_f 1 image sigma ;;
    d <- mapM (fun '(p, q) =>
      p0 <- vget p 0 ;; q0 <- vget q 0 ;;
      Ok [clamp_f32_u8 (fsub (fmul (fadd (of_int 1) amount) p0) (fmul amount q0))])
      (combine (idata image) (idata smooth)) ;;
    Ok (mkImage (iw im) (ih im) d).
End Gauss.
