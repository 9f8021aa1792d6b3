(** C62: gradient magnitudes. *)
From Verif Require Import Base BaseProofs RasterProofs Float FilterModel FilterSpec FilterProofs
  GradientModel GradientSpec GradientProofs.
Local Ltac Zify.zify_post_hook ::= idtac.

(** [deriv_x a b], [deriv_y a b] (GradientSpec.v): central differences of the
    border-replicated image, smoothed with weights (a, b, a).  [Z.sqrt] is the
    exact integer square root. *)
Theorem c62_sobel_gradients : forall im : image (list Z),
  channels 1 im -> u8_image im ->
  sobel_gradients im = Ok (gen (iw im) (ih im) (fun x y =>
    [Z.sqrt (deriv_x 1 2 im 0 x y ^ 2 + deriv_y 1 2 im 0 x y ^ 2)])).
Proof.
  intros im C U. pose proof C as (W & _). unfold sobel_gradients, gradients_grayscale.
  change (kernel_new sobel_h 3 3) with (Ok (mkKernel sobel_h 3 3)).
  change (kernel_new sobel_v 3 3) with (Ok (mkKernel sobel_v 3 3)). cbn [bind].
  apply (gradients_ok 1 im sobel_h sobel_v); auto; try lia; try reflexivity.
  intros x y Hx Hy. change (zrange 0 1) with [0]. cbn [map].
  rewrite (corr_dx im 1 2), (corr_dy im 1 2). rewrite mag_deriv by (auto; lia). reflexivity.
Qed.

Theorem c62_prewitt_gradients : forall im : image (list Z),
  channels 1 im -> u8_image im ->
  prewitt_gradients im = Ok (gen (iw im) (ih im) (fun x y =>
    [Z.sqrt (deriv_x 1 1 im 0 x y ^ 2 + deriv_y 1 1 im 0 x y ^ 2)])).
Proof.
  intros im C U. pose proof C as (W & _). unfold prewitt_gradients, gradients_grayscale.
  change (kernel_new prewitt_h 3 3) with (Ok (mkKernel prewitt_h 3 3)).
  change (kernel_new prewitt_v 3 3) with (Ok (mkKernel prewitt_v 3 3)). cbn [bind].
  apply (gradients_ok 1 im prewitt_h prewitt_v); auto; try lia; try reflexivity.
  intros x y Hx Hy. change (zrange 0 1) with [0]. cbn [map].
  rewrite (corr_dx im 1 1), (corr_dy im 1 1). rewrite mag_deriv by (auto; lia). reflexivity.
Qed.

(** sobel_gradient_map: the closure [g] receives, at every pixel, the gradient
    magnitude of each of the [ch] channels. *)
Theorem c62_sobel_gradient_map : forall (Q : Type) (zq : Q) (g : list Z -> Q) (ch : Z) (im : image (list Z)),
  0 <= ch -> channels ch im -> u8_image im ->
  sobel_gradient_map ch im zq (fun p => Ok (g p)) = Ok (gen (iw im) (ih im) (fun x y =>
    g (map (fun c => Z.sqrt (deriv_x 1 2 im c x y ^ 2 + deriv_y 1 2 im c x y ^ 2)) (zrange 0 ch)))).
Proof.
  intros Q zq g ch im Hch C U. pose proof C as (W & _). unfold sobel_gradient_map.
  change (kernel_new sobel_h 3 3) with (Ok (mkKernel sobel_h 3 3)).
  change (kernel_new sobel_v 3 3) with (Ok (mkKernel sobel_v 3 3)). cbn [bind].
  apply (gradients_ok ch im sobel_h sobel_v); auto; try lia; try reflexivity.
  intros x y Hx Hy. f_equal. f_equal. apply map_ext_in. intros c Hc.
  rewrite (corr_dx im 1 2), (corr_dy im 1 2). rewrite mag_deriv by (auto; lia). reflexivity.
Qed.

(** The magnitude alone, for any pair of derivatives. *)
Theorem c62_magnitude : forall dx dy, dx ^ 2 + dy ^ 2 <= 2 ^ 22 ->
  gradient_magnitude dx dy = Z.sqrt (dx ^ 2 + dy ^ 2).
Proof. intros dx dy H. rewrite magnitude_ok by (rewrite !Z.pow_2_r in H; lia). f_equal. ring. Qed.

(** The single-direction derivatives (horizontal_sobel, vertical_scharr, ...). *)
Theorem c62_directional : forall (im : image (list Z)) k,
  channels 1 im -> u8_image im ->
  In k [(sobel_h, deriv_x 1 2 im 0); (sobel_v, deriv_y 1 2 im 0);
        (scharr_h, deriv_x 3 10 im 0); (scharr_v, deriv_y 3 10 im 0);
        (prewitt_h, deriv_x 1 1 im 0); (prewitt_v, deriv_y 1 1 im 0)] ->
  exists out, directional im (fst k) = Ok out /\
    image_of 1 (iw im) (ih im) out (fun _ x y => snd k x y).
Proof.
  assert (G : forall (im : image (list Z)) k d, channels 1 im -> u8_image im -> zlen k = 9 ->
    (forall x y, corr3 im k 0 x y = d x y) -> (forall x y, Z.abs (d x y) <= 2 ^ 14) ->
    exists out, directional im k = Ok out /\ image_of 1 (iw im) (ih im) out (fun _ x y => d x y)).
  { intros im k d C U L E B. unfold directional, kernel_new, filter_clamped_i16.
    change (chk_u 32 (3 * 3)) with (Ok 9). rewrite L. cbn [assert bind].
    change (assert ((0 <? 3) && (0 <? 3))) with (Ok tt). change (assert (9 =? 9 mod 2 ^ 32)) with (Ok tt). cbn [bind].
    destruct (Props_Filter.c27_filter_integer clamp_i16 1 im k 3 3 (mkKernel k 3 3)) as (out & Eo & (A1 & A2 & A3 & A4)); auto; try lia.
    { unfold kernel_new. change (chk_u 32 (3 * 3)) with (Ok 9). rewrite L. reflexivity. }
    exists out. split; [exact Eo|]. unfold image_of. splits; auto.
    intros x y Hx Hy. destruct (A4 x y Hx Hy) as (p & Gp & Hp). exists p. split; auto.
    intros c Hc. rewrite Hp by auto. f_equal. replace c with 0 by lia.
    fold (corr3 im k 0 x y). rewrite E. apply clamp_i16_id. specialize (B x y). lia. }
  intros im k C U Hk. pose proof C as (W & _).
  pose proof (fun a b x y Ha Hb => deriv_x_bound im a b 0 x y W U Ha Hb) as BX.
  pose proof (fun a b x y Ha Hb => deriv_y_bound im a b 0 x y W U Ha Hb) as BY.
  destruct Hk as [<-|[<-|[<-|[<-|[<-|[<-|[]]]]]]]; cbn [fst snd]; apply G; auto; intros.
  - apply (corr_dx im 1 2).
  - specialize (BX 1 2 x y ltac:(lia) ltac:(lia)). lia.
  - apply (corr_dy im 1 2).
  - specialize (BY 1 2 x y ltac:(lia) ltac:(lia)). lia.
  - apply (corr_dx im 3 10).
  - specialize (BX 3 10 x y ltac:(lia) ltac:(lia)). lia.
  - apply (corr_dy im 3 10).
  - specialize (BY 3 10 x y ltac:(lia) ltac:(lia)). lia.
  - apply (corr_dx im 1 1).
  - specialize (BX 1 1 x y ltac:(lia) ltac:(lia)). lia.
  - apply (corr_dy im 1 1).
  - specialize (BY 1 1 x y ltac:(lia) ltac:(lia)). lia.
Qed.

Definition c62_image : image (list Z) := mkImage 3 2 [[10]; [20]; [255]; [0]; [200]; [3]].
Example c62_nontrivial :
  channels 1 c62_image /\ u8_image c62_image /\
  sobel_gradients c62_image = Ok (mkImage 3 2 [[274]; [744]; [768]; [628]; [272]; [677]]).
Proof.
  assert (forall x y p, get c62_image x y = Some p -> In p [[10]; [20]; [255]; [0]; [200]; [3]]).
  { intros x y p G. apply get_In in G. exact G. }
  split; [split|split].
  - unfold wf, zlen; cbn; lia.
  - intros x y p G. specialize (H x y p G). cbn in H. intuition (subst; reflexivity).
  - intros x y p v G I. specialize (H x y p G). cbn in H. intuition (subst; cbn in I; intuition lia).
  - vm_compute. reflexivity.
Qed.

Example c62_map_nontrivial : sobel_gradient_map 1 c62_image 0 (fun p => Ok (fold_right Z.max 0 p))
  = Ok (mkImage 3 2 [274; 744; 768; 628; 272; 677]).
Proof. vm_compute. reflexivity. Qed.

Print Assumptions c62_sobel_gradients.
Print Assumptions c62_prewitt_gradients.
Print Assumptions c62_magnitude.
Print Assumptions c62_directional.
Print Assumptions c62_sobel_gradient_map.
