(** C67: warping. *)
From Coq Require Import Reals Lra.
From Flocq Require Import Core BinarySingleNaN.
From Verif Require Import Base BaseProofs Float FloatErr ProjModel WarpModel WarpSpec WarpProofs WarpProofs4.
Local Ltac Zify.zify_post_hook ::= idtac.
Local Open Scope Z_scope.

(** every pixel of [out] is the value of its pre-image under [mapping] *)
Definition shows_pre_images (hi : Z) (i : interpolation) (im : image pixel) (mapping : f32 -> f32 -> f32 * f32)
    (default : pixel) (out : image pixel) : Prop :=
  forall x y, 0 <= x < iw out -> 0 <= y < ih out ->
    exists o, get out x y = Some o /\
      value_at hi i im (fst (mapping (of_int x) (of_int y))) (snd (mapping (of_int x) (of_int y))) default o.

(** The full statement: every image, mapping and mode. *)
Definition c67_statement : Prop := forall hi n im mapping i default,
  hi = 255 \/ hi = 65535 -> channels_ok hi n im -> iw im < 2 ^ 32 -> ih im < 2 ^ 32 ->
  exists out, warp_with hi im mapping i default = Ok out /\ iw out = iw im /\ ih out = ih im /\
    shows_pre_images hi i im mapping default out.

Lemma gray_ok w h v : 0 <= w -> 0 <= h -> 0 <= v <= 255 -> channels_ok 255 1 (new_image w h [v]).
Proof.
  intros Hw Hh Hv. split; [apply wf_gen; assumption|]. intros x y a G. pose proof (get_inb _ _ _ _ G) as I. cbn in I.
  unfold new_image in G. rewrite get_gen_in in G by lia. injection G as <-. split; [reflexivity|]. intros u [<-|[]]. exact Hv.
Qed.
Definition nan_map (x y : f32) : f32 * f32 := (B754_nan, y).
Definition nan_map2 (x y : f32) : f32 * f32 := (B754_nan, of_int 2).

(** It is false: a NaN pre-image shows a pixel of column 0 in nearest mode ... *)
Theorem c67_refuted : ~ c67_statement.
Proof.
  intros S. destruct (S 255 1 (new_image 2 1 [7]) nan_map Nearest [0] (or_introl eq_refl) (gray_ok 2 1 7 ltac:(lia) ltac:(lia) ltac:(lia)))
    as (out & E & W & H & P); [cbn; lia|cbn; lia|].
  assert (E' : warp_with 255 (new_image 2 1 [7]) nan_map Nearest [0] = Ok (new_image 2 1 [7])) by (vm_compute; reflexivity).
  rewrite E' in E. injection E as <-. destruct (P 1 0 ltac:(cbn; lia) ltac:(cbn; lia)) as (o & G & V).
  vm_compute in G. injection G as <-. unfold value_at, nan_map in V. cbn [fst snd is_finite andb] in V. discriminate.
Qed.
(** ... in bicubic mode the window is not checked and is read outside a narrow image ... *)
Theorem c67_nan_reads_outside : forall w, w = 1 \/ w = 2 \/ w = 3 ->
  channels_ok 255 1 (new_image w 6 [7]) /\ warp_with 255 (new_image w 6 [7]) nan_map2 Bicubic [0] = Panic.
Proof. intros w [->|[->| ->]]; (split; [apply gray_ok; lia|vm_compute; reflexivity]). Qed.
(** ... and an output image of width 0 panics, whatever the mapping. *)
Theorem c67_empty_panics : forall hi h mapping i default, warp_with hi (new_image 0 h [7]) mapping i default = Panic.
Proof. intros. reflexivity. Qed.

(** What holds: u8 and u16 channels, at least one column, at most 2^24 rows and columns and
    no NaN among the pre-images.  The unsafe reads never leave the image and every pixel is the
    value of its pre-image; [warp_into_with] writes any size of output. *)
Theorem c67_warp_with_partial : forall hi n im mapping i default out,
  hi = 255 \/ hi = 65535 -> channels_ok hi n im -> iw im <= 2 ^ 24 -> ih im <= 2 ^ 24 -> 0 < iw out -> 0 <= ih out ->
  (forall x y, 0 <= x < iw out -> 0 <= y < ih out ->
     fis_nan (fst (mapping (of_int x) (of_int y))) = false /\ fis_nan (snd (mapping (of_int x) (of_int y))) = false) ->
  exists r, warp_into_with hi im mapping i default out = Ok r /\ wf r /\ iw r = iw out /\ ih r = ih out /\
    shows_pre_images hi i im mapping default r.
Proof.
  intros hi n im mapping i default out Hhi HI Hw Hh Ow Oh N. destruct HI as (W & A). pose proof W as (W1 & W2 & _).
  destruct (warp_inner_ok default out mapping (fun x y => interpolate hi i im x y default)
    (fun x y o => value_at hi i im (fst (mapping (of_int x) (of_int y))) (snd (mapping (of_int x) (of_int y))) default o) Ow Oh) as (r & E & Wr & Ew & Eh & P).
  - intros x y Hx Hy. destruct (N x y Hx Hy) as (N1 & N2).
    destruct (interpolate_ok hi n i im _ _ default Hhi (conj W A) (conj W1 Hw) (conj W2 Hh) N1 N2) as (o & E & V & _). eauto.
  - exists r. repeat (split; [assumption|]). intros x y Hx Hy. rewrite Ew in Hx. rewrite Eh in Hy. apply P; assumption.
Qed.
(** An infinite pre-image has the default value even if its other coordinate is NaN. *)
Theorem c67_infinite : forall hi i im x y default, 0 <= iw im <= 2 ^ 24 -> 0 <= ih im <= 2 ^ 24 ->
  (exists s, x = B754_infinity s) \/ (exists s, y = B754_infinity s) -> interpolate hi i im x y default = Ok default.
Proof. exact infinite_ok. Qed.

(** [warp] and [warp_into]: the pre-images are the points' images under the inverse projection. *)
Theorem c67_warp_partial : forall hi n im p i default out,
  hi = 255 \/ hi = 65535 -> channels_ok hi n im -> iw im <= 2 ^ 24 -> ih im <= 2 ^ 24 -> 0 < iw out -> 0 <= ih out ->
  (forall x y, 0 <= x < iw out -> 0 <= y < ih out ->
     fis_nan (fst (apply num_f32 (invert p) (of_int x) (of_int y))) = false /\
     fis_nan (snd (apply num_f32 (invert p) (of_int x) (of_int y))) = false) ->
  exists r, warp_into hi im p i default out = Ok r /\ wf r /\ iw r = iw out /\ ih r = ih out /\
    shows_pre_images hi i im (apply num_f32 (invert p)) default r.
Proof.
  intros hi n im p i default out Hhi HI Hw Hh Ow Oh N.
  destruct (c67_warp_with_partial hi n im _ i default out Hhi HI Hw Hh Ow Oh N) as (r & E & R). exists r. split; [|exact R].
  rewrite <- E. unfold warp_into, warp_into_with, apply. destruct (pclass (invert p)); reflexivity.
Qed.

(** Shifting by whole pixels: nearest mode moves every pixel exactly; bilinear mode also loses the last
    row and column of the source, and bicubic mode its first and its last three. *)
Theorem c67_shift : forall hi n im tx ty i default,
  hi = 255 \/ hi = 65535 -> channels_ok hi n im -> 0 < iw im <= 2 ^ 22 -> 0 <= ih im <= 2 ^ 22 ->
  Z.abs tx < 2 ^ 22 -> Z.abs ty < 2 ^ 22 ->
  exists out, warp hi im (translate num_f32 (of_int tx) (of_int ty)) i default = Ok out /\ wf out /\ iw out = iw im /\ ih out = ih im /\
    forall x y, 0 <= x < iw im -> 0 <= y < ih im ->
      get out x y = if covered i (iw im) (ih im) (x - tx) (y - ty) then get im (x - tx) (y - ty) else Some default.
Proof.
  intros hi n im tx ty i default Hhi HI Hw Hh Bx By.
  destruct (warp_inner_ok default (new_image (iw im) (ih im) default) (map_translation num_f32 (invert (translate num_f32 (of_int tx) (of_int ty))))
    (fun x y => interpolate hi i im x y default)
    (fun x y o => o = if covered i (iw im) (ih im) (x - tx) (y - ty) then match get im (x - tx) (y - ty) with Some p => p | None => default end else default))
    as (r & E & Wr & Ew & Eh & P).
  - cbn. lia.
  - cbn. lia.
  - intros x y Hx Hy. change (0 <= x < iw im) in Hx. change (0 <= y < ih im) in Hy.
    cbn [map_translation invert transform inverse translate t02 t12 fst snd num_f32 nadd nneg].
    destruct (add_int x tx ltac:(lia) ltac:(lia)) as (F1 & R1). destruct (add_int y ty ltac:(lia) ltac:(lia)) as (F2 & R2).
    destruct (interpolate_ok hi n i im (fadd (of_int x) (fneg (of_int tx))) (fadd (of_int y) (fneg (of_int ty))) default Hhi HI) as (o & E & _ & I);
      try lia; try (apply finite_not_nan; assumption).
    exists o. split; [exact E|]. apply I; try assumption; lia.
  - exists r. split; [exact E|]. split; [exact Wr|]. split; [exact Ew|]. split; [exact Eh|]. intros x y Hx Hy.
    destruct (P x y Hx Hy) as (o & G & ->). rewrite G. destruct (covered i (iw im) (ih im) (x - tx) (y - ty)) eqn:C; [|reflexivity].
    assert (I : inb im (x - tx) (y - ty) = true) by (apply inb_spec; destruct i; cbn [covered] in C; lia).
    destruct HI as (W & _). apply inb_spec in I. destruct (get_some im (x - tx) (y - ty) W) as (p & Gp); [lia|lia|]. rewrite Gp. reflexivity.
Qed.

Example c67_nontrivial :
  let im := gen 6 5 (fun x y => [10 * x + y]) in
  channels_ok 255 1 im /\
  (* a shift by half a pixel blends neighbours *)
  warp 255 im (translate num_f32 half (of_int 1)) Bilinear [0] =
    Ok (gen 6 5 (fun x y => if (1 <=? x) && (1 <=? y) then [10 * x - 5 + (y - 1)] else [0])).
Proof.
  cbv zeta. split.
  - split; [apply wf_gen; lia|]. intros x y a G. pose proof (get_inb _ _ _ _ G) as I. change (0 <= x < 6 /\ 0 <= y < 5) in I.
    rewrite get_gen_in in G by lia. assert (E : a = [10 * x + y]) by congruence. rewrite E. split; [reflexivity|]. intros u [<-|[]]. lia.
  - vm_compute. reflexivity.
Qed.
Print Assumptions c67_refuted.
Print Assumptions c67_nan_reads_outside.
Print Assumptions c67_empty_panics.
Print Assumptions c67_warp_with_partial.
Print Assumptions c67_infinite.
Print Assumptions c67_warp_partial.
Print Assumptions c67_shift.
