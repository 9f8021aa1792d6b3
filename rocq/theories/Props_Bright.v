(** C106: what a change of brightness, contrast or polarity leaves alone. *)
From Verif Require Import Base BaseProofs FilterModel FilterSpec GradientModel GradientSpec GradientProofs Props_Filter Props_Gradient.
From Verif Require Import CornerModel CornerSpec Props_Corner LbpModel HogModel HogCellsModel BrightSpec BrightProofs.
Local Ltac Zify.zify_post_hook ::= idtac.

(** ** Gradients *)
Theorem c106_gradients : forall d (im im' : image (list Z)),
  channels 1 im -> u8_image im -> u8_image im' -> lit_by_channels d im im' ->
  sobel_gradients im' = sobel_gradients im /\ prewitt_gradients im' = prewitt_gradients im /\
  forall k, In k [sobel_h; sobel_v; scharr_h; scharr_v; prewitt_h; prewitt_v] -> directional im' k = directional im k.
Proof.
  intros d im im' C U U' P. pose proof P as (W & _ & Ew & Eh & _). pose proof (pointwise_channels 1 _ im im' P C) as C'.
  assert (W0 : 0 <= iw im /\ 0 <= ih im) by (destruct W as (? & ? & _); lia).
  split; [|split].
  - rewrite !c62_sobel_gradients by auto. rewrite Ew, Eh. f_equal. apply gen_ext; try lia. intros x y Hx Hy.
    destruct (deriv_lit 1 im im' C d 1 2 0 x y P) as (E1 & E2); try lia. now rewrite E1, E2.
  - rewrite !c62_prewitt_gradients by auto. rewrite Ew, Eh. f_equal. apply gen_ext; try lia. intros x y Hx Hy.
    destruct (deriv_lit 1 im im' C d 1 1 0 x y P) as (E1 & E2); try lia. now rewrite E1, E2.
  - assert (G : forall k f f', (exists out, directional im k = Ok out /\ image_of 1 (iw im) (ih im) out (fun _ x y => f x y)) ->
      (exists out, directional im' k = Ok out /\ image_of 1 (iw im') (ih im') out (fun _ x y => f' x y)) ->
      (forall x y, 0 <= x < iw im -> 0 <= y < ih im -> f x y = f' x y) -> directional im' k = directional im k).
    { intros k f f' (o & E & I) (o' & E' & I') H. rewrite Ew, Eh in I'. rewrite E, E'. f_equal. symmetry.
      exact (image_of_unique o o' _ _ I I' H). }
    intros k Hk. cbn [In] in Hk. destruct Hk as [<-|[<-|[<-|[<-|[<-|[<-|[]]]]]]].
    + apply (G _ _ _ (c62_directional im (sobel_h, deriv_x 1 2 im 0) C U ltac:(cbn; auto 10)) (c62_directional im' (sobel_h, deriv_x 1 2 im' 0) C' U' ltac:(cbn; auto 10))).
      intros x y Hx Hy. cbn [snd]. symmetry. apply (deriv_lit 1 im im' C d); auto; lia.
    + apply (G _ _ _ (c62_directional im (sobel_v, deriv_y 1 2 im 0) C U ltac:(cbn; auto 10)) (c62_directional im' (sobel_v, deriv_y 1 2 im' 0) C' U' ltac:(cbn; auto 10))).
      intros x y Hx Hy. cbn [snd]. symmetry. apply (deriv_lit 1 im im' C d); auto; lia.
    + apply (G _ _ _ (c62_directional im (scharr_h, deriv_x 3 10 im 0) C U ltac:(cbn; auto 10)) (c62_directional im' (scharr_h, deriv_x 3 10 im' 0) C' U' ltac:(cbn; auto 10))).
      intros x y Hx Hy. cbn [snd]. symmetry. apply (deriv_lit 1 im im' C d); auto; lia.
    + apply (G _ _ _ (c62_directional im (scharr_v, deriv_y 3 10 im 0) C U ltac:(cbn; auto 10)) (c62_directional im' (scharr_v, deriv_y 3 10 im' 0) C' U' ltac:(cbn; auto 10))).
      intros x y Hx Hy. cbn [snd]. symmetry. apply (deriv_lit 1 im im' C d); auto; lia.
    + apply (G _ _ _ (c62_directional im (prewitt_h, deriv_x 1 1 im 0) C U ltac:(cbn; auto 10)) (c62_directional im' (prewitt_h, deriv_x 1 1 im' 0) C' U' ltac:(cbn; auto 10))).
      intros x y Hx Hy. cbn [snd]. symmetry. apply (deriv_lit 1 im im' C d); auto; lia.
    + apply (G _ _ _ (c62_directional im (prewitt_v, deriv_y 1 1 im 0) C U ltac:(cbn; auto 10)) (c62_directional im' (prewitt_v, deriv_y 1 1 im' 0) C' U' ltac:(cbn; auto 10))).
      intros x y Hx Hy. cbn [snd]. symmetry. apply (deriv_lit 1 im im' C d); auto; lia.
Qed.

(** any number of channels, any later mapping of the magnitudes *)
Theorem c106_gradient_map : forall (Q : Type) (zq : Q) (g : list Z -> Q) ch d (im im' : image (list Z)),
  0 <= ch -> channels ch im -> u8_image im -> u8_image im' -> lit_by_channels d im im' ->
  sobel_gradient_map ch im' zq (fun p => Ok (g p)) = sobel_gradient_map ch im zq (fun p => Ok (g p)).
Proof.
  intros Q zq g ch d im im' Hch C U U' P. pose proof P as (W & _ & Ew & Eh & _). pose proof (pointwise_channels ch _ im im' P C) as C'.
  assert (W0 : 0 <= iw im /\ 0 <= ih im) by (destruct W as (? & ? & _); lia).
  rewrite !c62_sobel_gradient_map by auto. rewrite Ew, Eh. f_equal. apply gen_ext; try lia. intros x y Hx Hy. f_equal.
  apply map_ext_in. intros c Hc. apply in_zrange in Hc.
  destruct (deriv_lit ch im im' C d 1 2 c x y P) as (E1 & E2); try lia. now rewrite E1, E2.
Qed.

(** the gradient of the negative is the same *)
Theorem c106_negative_gradients : forall (im im' : image (list Z)),
  channels 1 im -> u8_image im -> negative_channels im im' ->
  sobel_gradients im' = sobel_gradients im /\ prewitt_gradients im' = prewitt_gradients im.
Proof.
  intros im im' C U P. pose proof P as (W & _ & Ew & Eh & _). pose proof (pointwise_channels 1 _ im im' P C) as C'.
  assert (W0 : 0 <= iw im /\ 0 <= ih im) by (destruct W as (? & ? & _); lia).
  assert (U' : u8_image im').
  { intros x y p v E I. rewrite (pointwise_get _ _ _ x y P) in E. destruct (get im x y) as [q|] eqn:Eq; [|discriminate].
    assert (Ep : p = map (fun v => 255 - v) q) by congruence. rewrite Ep in I. apply in_map_iff in I. destruct I as (w & Ewv & Iw). pose proof (U x y q w Eq Iw). lia. }
  split.
  - rewrite !c62_sobel_gradients by auto. rewrite Ew, Eh. f_equal. apply gen_ext; try lia. intros x y Hx Hy.
    destruct (deriv_neg 1 im im' C 1 2 0 x y P) as (E1 & E2); try lia. rewrite E1, E2. do 2 f_equal. ring.
  - rewrite !c62_prewitt_gradients by auto. rewrite Ew, Eh. f_equal. apply gen_ext; try lia. intros x y Hx Hy.
    destruct (deriv_neg 1 im im' C 1 1 0 x y P) as (E1 & E2); try lia. rewrite E1, E2. do 2 f_equal. ring.
Qed.

(** ** Histograms of oriented gradients: every bit of the descriptor, whatever
    the library's arc tangent, and the same errors *)
Theorem c106_hog : forall atan2 d (im im' : image (list Z)) o,
  channels 1 im -> lit_by_channels d im im' -> hog atan2 im' o = hog atan2 im o.
Proof.
  intros atan2 d im im' o C P. pose proof P as (W & _ & Ew & Eh & _). pose proof (pointwise_channels 1 _ im im' P C) as C'.
  assert (F : forall a b k, (k = [-a; 0; a; -b; 0; b; -a; 0; a] \/ k = [-a; -b; -a; 0; 0; 0; a; b; a]) ->
    filter_clamped_i32 im' k = filter_clamped_i32 im k).
  { intros a b k Hk. unfold filter_clamped_i32. destruct (kernel_new k 3 3) as [kk| |] eqn:K; cbn [bind]; try reflexivity.
    assert (Lk : zlen k < 2 ^ 32) by (destruct Hk as [-> | ->]; reflexivity).
    destruct (c27_filter_integer (fun v => zclamp (- 2 ^ 31) (2 ^ 31 - 1) v) 1 im k 3 3 kk ltac:(lia) C Lk ltac:(lia) ltac:(lia) K) as (r & E & I).
    destruct (c27_filter_integer (fun v => zclamp (- 2 ^ 31) (2 ^ 31 - 1) v) 1 im' k 3 3 kk ltac:(lia) C' Lk ltac:(lia) ltac:(lia) K) as (r' & E' & I').
    rewrite Ew, Eh in I'. rewrite E, E'. f_equal. symmetry. apply (image_of_unique r r' _ _ I I').
    intros x y Hx Hy. cbv beta. f_equal. fold (corr3 im k 0 x y). fold (corr3 im' k 0 x y).
    destruct (deriv_lit 1 im im' C d a b 0 x y P) as (E1 & E2); try lia.
    destruct Hk as [-> | ->]; rewrite ?corr_dx, ?corr_dy; congruence. }
  unfold hog. rewrite Ew, Eh. destruct (from_options (iw im) (ih im) o) as [[s|]| |]; cbn [bind]; try reflexivity.
  f_equal. unfold cell_histograms. rewrite Ew, Eh.
  rewrite (F 1 2 sobel_h (or_introl eq_refl)), (F 1 2 sobel_v (or_intror eq_refl)). reflexivity.
Qed.

(** ** FAST corners and their scores *)
Theorem c106_fast : forall v d (im im' : image Z) t, lit_by d im im' -> 0 <= t <= 255 ->
  (forall x y, is_corner v im' t x y = is_corner v im t x y) /\
  (forall x y, fast_corner_score im' t x y v = fast_corner_score im t x y v) /\
  corners_fast v im' t = corners_fast v im t.
Proof.
  intros v d im im' t P Ht. pose proof P as (_ & _ & Ew & Eh & _).
  split; [intros; now apply (is_corner_lit v d)|].
  apply (detector_same v im im' Ew Eh); [|exact Ht]. intros. now apply (is_corner_lit v d).
Qed.
Theorem c106_negative_fast9 : forall (im im' : image Z) t, valid im -> negative im im' -> 0 <= t <= 255 ->
  (forall x y, is_corner Nine im' t x y = is_corner Nine im t x y) /\
  (forall x y, fast_corner_score im' t x y Nine = fast_corner_score im t x y Nine) /\
  corners_fast Nine im' t = corners_fast Nine im t.
Proof.
  intros im im' t V P Ht. pose proof P as (_ & _ & Ew & Eh & _).
  split; [intros; now apply is_corner9_neg|].
  apply (detector_same Nine im im' Ew Eh); [|exact Ht]. intros. now apply is_corner9_neg.
Qed.

(** ** Local binary patterns: any change of intensities that keeps their order *)
Theorem c106_lbp : forall f (im im' : image Z) x y, pointwise f im im' -> increasing f ->
  (forall a b p, get im a b = Some p -> 0 <= p <= 255) ->
  local_binary_pattern im' x y = local_binary_pattern im x y.
Proof. intros f im im' x y. apply lbp_same. Qed.

(** ** Concrete cases *)
Definition room : image Z := sample.
Definition bright_room : image Z := gen 7 7 (fun x y => if (x <=? 2) || (y <=? 1) then 110 else 100).
Example c106_nontrivial :
  lit_by 100 room bright_room /\ corners_fast Nine bright_room 8 = Ok [(3, 3, 9)] /\ corners_fast Nine room 8 = Ok [(3, 3, 9)] /\
  local_binary_pattern bright_room 2 2 = Ok (Some 12) /\ increasing (fun v => 2 * v + 1).
Proof.
  split; [|split; [vm_compute; reflexivity|]; split; [vm_compute; reflexivity|]; split; [vm_compute; reflexivity|intros a b Ha Hb L; lia]].
  split; [apply wf_gen; lia|]. split; [apply wf_gen; lia|]. split; [reflexivity|]. split; [reflexivity|].
  intros x y p. unfold room, sample, bright_room. rewrite !get_gen.
  destruct ((0 <=? x) && (x <? 7) && (0 <=? y) && (y <? 7)); [|discriminate].
  intros [= <-]. destruct ((x <=? 2) || (y <=? 1)); [reflexivity|]. now destruct ((x =? 3) && (y =? 3)).
Qed.

Print Assumptions c106_gradients.
Print Assumptions c106_gradient_map.
Print Assumptions c106_negative_gradients.
Print Assumptions c106_hog.
Print Assumptions c106_fast.
Print Assumptions c106_negative_fast9.
Print Assumptions c106_lbp.
