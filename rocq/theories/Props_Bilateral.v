(** C68: the size guard of bilateral_filter; C80: the radii it supports. *)
From Verif Require Import Base BaseProofs Float MapProofs TemplateProofs BilateralModel BilateralSpec BilateralProofs.
Local Ltac Zify.zify_post_hook ::= idtac.
Open Scope Z_scope.

(** The four assertions pass exactly for sides in 1 ..= i32::MAX. *)
Theorem c68_size_guard : forall im : image (list Z), 0 <= iw im < 2 ^ 32 -> 0 <= ih im < 2 ^ 32 ->
  (supported_size im -> size_guard im = Ok tt) /\ (~ supported_size im -> size_guard im = Panic).
Proof. intros. apply guard_ok; assumption. Qed.
Print Assumptions c68_size_guard.

Theorem c68_rejects : forall fexp color (im : image (list Z)) radius sigma,
  0 <= iw im < 2 ^ 32 -> 0 <= ih im < 2 ^ 32 -> ~ supported_size im ->
  bilateral_filter fexp color im radius sigma = Panic.
Proof. intros. unfold bilateral_filter. rewrite (proj2 (guard_ok im H H0) H1). reflexivity. Qed.
Print Assumptions c68_rejects.

(** The full promise: every u8 radius gives the windowed average. *)
Definition c80_statement : Prop :=
  forall fexp color (im : image (list Z)) radius sigma ch,
    wf im -> supported_size im -> all_px (fun p => zlen p = ch) im -> 0 <= radius <= 255 ->
    exists out, bilateral_filter fexp color im radius sigma = Ok out /\ bilateral_of fexp color im radius sigma out.

(** Every radius from 91 overflows the i16 index of the weight table, on every image. *)
Theorem c80_panics : forall fexp color (im : image (list Z)) radius sigma,
  wf im -> supported_size im -> 91 <= radius <= 255 ->
  bilateral_filter fexp color im radius sigma = Panic.
Proof.
  intros fexp color im radius sigma W S HR. unfold bilateral_filter.
  rewrite (proj1 (guard_ok im ltac:(destruct S; lia) ltac:(destruct S; lia)) S). cbn [bind].
  set (lookup := map _ (window radius)). clearbody lookup.
  assert (K : bilateral_pixel color im radius lookup 0 0 = Panic).
  { destruct S as (S1 & S2). unfold bilateral_pixel.
    destruct (get_some im 0 0 W) as (c & G); [lia|lia|]. rewrite (proj2 (get_pixel_ok im 0 0 c) G). cbn [bind].
    unfold chk_i at 1, i_fits. change (2 ^ (16 - 1)) with 32768.
    replace ((- (32768) <=? 2 * radius) && (2 * radius <? 32768)) with true by lia. cbn [bind].
    unfold chk_i at 1, i_fits. change (2 ^ (16 - 1)) with 32768.
    replace ((- (32768) <=? 2 * radius + 1) && (2 * radius + 1 <? 32768)) with true by lia. cbn [bind].
    rewrite (mapM_panic _ (window radius) (radius, radius)); [reflexivity| | |].
    - intros [wy wx] _. cbv beta iota.
      repeat match goal with
      | |- bind (chk_i ?n ?z) _ <> Timeout => unfold chk_i at 1; destruct (i_fits n z); cbn [bind]; [|discriminate]
      | |- bind (get_pixel ?a ?b ?c) _ <> Timeout => unfold get_pixel at 1; destruct (get a b c); cbn [bind unwrap]; [|discriminate]
      | |- bind (vget ?a ?b) _ <> Timeout => unfold vget at 1; destruct (znth a b); cbn [bind unwrap]; [|discriminate]
      end. discriminate.
    - apply window_in. lia.
    - cbv beta iota.
      repeat match goal with
      | |- bind (chk_i 32 ?z) _ = Panic => unfold chk_i at 1; destruct (i_fits 32 z); cbn [bind]; [|reflexivity]
      | |- bind (get_pixel ?a ?b ?c) _ = Panic => unfold get_pixel at 1; destruct (get a b c); cbn [bind unwrap]; [|reflexivity]
      end.
      unfold chk_i at 1. destruct (i_fits 16 (radius + radius)); cbn [bind]; [|reflexivity].
      unfold chk_i at 1, i_fits at 1. change (2 ^ (16 - 1)) with 32768.
      assert (33306 <= (2 * radius + 1) * (radius + radius)) by nia.
      replace ((- (32768) <=? (2 * radius + 1) * (radius + radius)) && ((2 * radius + 1) * (radius + radius) <? 32768)) with false by lia.
      reflexivity. }
  unfold gen_res. destruct S as (S1 & S2). rewrite (zrange_cons 0 (ih im)), (zrange_cons 0 (iw im)) by lia.
  cbn [mapM]. rewrite K. reflexivity.
Qed.
Print Assumptions c80_panics.

Theorem c80_refuted : ~ c80_statement.
Proof.
  intros H. destruct (H (fun x => x) (fun _ _ => of_int 1) (mkImage 1 1 [[7]]) 91 (of_int 3) 1) as (out & E & _).
  - unfold wf. cbn. unfold zlen. cbn. lia.
  - unfold supported_size. cbn. lia.
  - intros x y p G. unfold get in G. destruct (inb _ x y) eqn:B; [|discriminate]. apply inb_spec in B. cbn in B.
    assert (x = 0) by lia. assert (y = 0) by lia. subst. inversion G. reflexivity.
  - lia.
  - rewrite c80_panics in E; [discriminate| | |lia].
    + unfold wf. cbn. unfold zlen. cbn. lia.
    + unfold supported_size. cbn. lia.
Qed.
Print Assumptions c80_refuted.

(** Up to radius 90, and when side + radius does not exceed 2^31, every pixel is
    the weighted average of its clamped window: no overflow and no read outside
    the image. *)
Theorem c80_bilateral_partial : forall fexp color (im : image (list Z)) radius sigma ch,
  wf im -> supported_size im -> all_px (fun p => zlen p = ch) im -> 0 <= radius <= 90 ->
  iw im + radius <= 2 ^ 31 -> ih im + radius <= 2 ^ 31 ->
  exists out, bilateral_filter fexp color im radius sigma = Ok out /\ bilateral_of fexp color im radius sigma out.
Proof.
  intros fexp color im radius sigma ch W S HC HR Bw Bh. unfold bilateral_filter.
  rewrite (proj1 (guard_ok im ltac:(destruct S; lia) ltac:(destruct S; lia)) S). cbn [bind].
  pose proof W as (W1 & W2 & _).
  destruct (gen_res_total (iw im) (ih im)
    (bilateral_pixel color im radius (map (fun '(w_y, w_x) => gaussian_weight fexp (fadd (sq (of_int w_x)) (sq (of_int w_y))) (sq sigma)) (window radius)))
    _ [] W1 W2 (fun x y Hx Hy => pixel_ok fexp color im radius sigma ch W S HR Bw Bh HC x y Hx Hy)) as (out & E & Wo & Ow & Oh & K).
  exists out. split; [exact E|]. unfold bilateral_of. split; [assumption|]. split; [assumption|]. split; [assumption|].
  intros x y center G. pose proof (get_inb _ _ _ _ G) as (Hx & Hy).
  destruct (K x y Hx Hy) as (q & Gq & _ & c & entries & Gc & L1 & L2 & L3 & L4).
  rewrite G in Gc. inversion Gc; subst c. exists entries, q. auto.
Qed.
Print Assumptions c80_bilateral_partial.

(** With constant weights this is the truncated mean: 3x3 window on a 3x2 image. *)
Example c80_nontrivial :
  bilateral_filter (fun _ => of_int 1) (fun _ _ => of_int 1) (mkImage 3 2 [[9]; [18]; [27]; [36]; [45]; [54]]) 1 (of_int 3)
    = Ok (mkImage 3 2 [[21]; [27]; [33]; [30]; [36]; [42]]) /\
  size_guard (mkImage 2147483647 1 []) = Ok tt /\ size_guard (mkImage 2147483648 1 []) = Panic.
Proof. split; [|split]; vm_compute; reflexivity. Qed.
