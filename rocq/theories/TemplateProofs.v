From Coq Require Import Reals Lra Psatz.
From Flocq Require Import Core BinarySingleNaN Relative.
From Verif Require Import Base BaseProofs RasterProofs Float FloatProofs FloatErr TemplateModel TemplateSpec.
Local Ltac Zify.zify_post_hook ::= idtac.

(** ** Relative rounding error of f32 away from the subnormals *)
Local Open Scope R_scope.
Definition u24 : R := / 16777216.
Lemma rnd_rel r : / 1000000000000000000000 <= Rabs r -> Rabs (rnd 24 128 r - r) <= u24 * Rabs r.
Proof.
  intros H. unfold rnd.
  pose proof (relative_error_N_FLT radix2 (-149) 24 eq_refl (fun x => negb (Z.even x)) r) as E.
  assert (L : bpow radix2 (-149 + 24 - 1) <= Rabs r).
  { eapply Rle_trans; [|exact H]. change (bpow radix2 (-149 + 24 - 1)) with (/ IZR (2 ^ 126)).
    apply Rinv_le; [lra|]. apply IZR_le. vm_compute. discriminate. }
  specialize (E L). change (FLT_exp (-149) 24) with (SpecFloat.fexp 24 128) in E.
  eapply Rle_trans; [exact E|]. unfold u24. change (bpow radix2 (- (24) + 1)) with (/ IZR (2 ^ 23)).
  apply Rmult_le_compat_r; [apply Rabs_pos|]. change (2 ^ 23)%Z with 8388608%Z. lra.
Qed.
Lemma rnd_rel0 r : 0 <= r -> r = 0 \/ / 1000000000000000000000 <= r -> (1 - u24) * r <= rnd 24 128 r <= (1 + u24) * r.
Proof.
  intros P [->|H]; [rewrite rnd_0; lra|]. pose proof (rnd_rel r) as E. rewrite (Rabs_pos_eq r) in E by lra. specialize (E H).
  revert E. unfold Rabs. destruct (Rcase_abs _); lra.
Qed.
Lemma big32 : IZR (2 ^ 120) <= bpow radix2 (128 - 1).
Proof. rewrite <- (IZR_Zpower radix2) by lia. apply IZR_le. vm_compute. discriminate. Qed.

(** ** One accumulation *)
Definition cc (k : Z) : R := 2 * (IZR k + 1) * u24.
(** [v] approximates the sum [S] of [k] terms; always exact up to 2^24, with a bounded error if [n] is moderate *)
Definition approx (n k S : Z) (v : f32) : Prop :=
  (0 <= S <= k * 2 ^ 32)%Z /\ ((n <= 2 ^ 22)%Z -> is_finite v = true /\ Rabs (B2R v - IZR S) <= cc k * IZR S) /\
  ((S <= 2 ^ 24)%Z -> is_finite v = true /\ B2R v = IZR S).
(** [w] approximates one term [a] *)
Definition term (a : Z) (w : f32) : Prop :=
  (0 <= a <= 2 ^ 32)%Z /\ is_finite w = true /\ Rabs (B2R w - IZR a) <= u24 * IZR a /\ ((a <= 2 ^ 24)%Z -> B2R w = IZR a).

Lemma abs_le r b : Rabs r <= b <-> - b <= r <= b.
Proof. split; [intros H; now apply Rabs_le_inv|intros H; now apply Rabs_le]. Qed.

Lemma approx_zero n : approx n 0 0 zero.
Proof.
  destruct (dy_int 24 128 0 ltac:(split; lia) ltac:(lia)) as [F R]. unfold zero. split; [lia|].
  assert (E : B2R (of_int 0 : f32) = 0). { rewrite R. ring. } split; [intros _; split; [exact F|rewrite E; apply abs_le; lra]|auto].
Qed.

Lemma izr_small a : (0 <= a)%Z -> IZR a = 0 \/ 1 <= IZR a.
Proof. intros H. destruct (Z.eq_dec a 0) as [->|]; [now left|]. right. apply IZR_le. lia. Qed.

Lemma approx_step n k S v a w : (0 <= k < n)%Z -> approx n k S v -> term a w -> approx n (k + 1) (S + a) (fadd v w).
Proof.
  intros Hk (RS & FE & X) (RA & FA & EA & XA). split; [split; lia|]. split.
  2:{ intros L. destruct X as [F X]; [lia|]. specialize (XA ltac:(lia)).
    destruct (fadd_R 24 128 v w F FA) as (FR & VR).
    { rewrite X, XA, <- plus_IZR. rewrite <- abs_IZR. eapply Rle_trans; [|apply big32]. apply IZR_le.
      change (2 ^ 24)%Z with 16777216%Z in *. apply Z.le_trans with 16777216%Z; [lia|]. vm_compute. discriminate. }
    split; [exact FR|]. rewrite VR, X, XA, <- plus_IZR. apply rnd_int; [reflexivity..|]. change (2 ^ 24)%Z with 16777216%Z in *. lia. }
  intros Hn. destruct (FE Hn) as [F E]. clear X XA FE. assert (Hk' : (0 <= k < 2 ^ 22)%Z) by lia. clear Hk. rename Hk' into Hk.
  assert (KR : 0 <= IZR k <= 4194303). { split; [apply IZR_le; lia|apply IZR_le; lia]. }
  assert (SR : 0 <= IZR S <= IZR (2 ^ 55)). { split; apply IZR_le; lia. }
  assert (AR : 0 <= IZR a <= IZR (2 ^ 32)). { split; apply IZR_le; lia. }
  assert (C : 0 <= cc k <= 1 / 2). { unfold cc, u24. lra. }
  assert (CU : u24 <= cc k). { unfold cc, u24. lra. }
  apply abs_le in E. apply abs_le in EA.
  set (s := IZR S) in *. set (t := IZR a) in *. set (p := B2R v) in *. set (q := B2R w) in *.
  assert (D : Rabs (p + q - (s + t)) <= cc k * (s + t)). { apply abs_le. nra. }
  apply abs_le in D.
  assert (Z : s + t = 0 \/ 1 <= s + t).
  { unfold s, t. rewrite <- plus_IZR. apply izr_small. lia. }
  assert (P : 0 <= p + q). { nra. }
  assert (Q : p + q = 0 \/ / 1000000000000000000000 <= p + q). { destruct Z as [Z|Z]; [left; nra|right; nra]. }
  destruct (fadd_R 24 128 v w F FA) as (FR & VR).
  { rewrite Rabs_pos_eq by (fold p q; lra). fold p q. eapply Rle_trans; [|apply big32].
    assert (IZR (2 ^ 55) + IZR (2 ^ 32) <= IZR (2 ^ 119)) by (rewrite <- plus_IZR; apply IZR_le; vm_compute; discriminate).
    assert (2 * IZR (2 ^ 119) = IZR (2 ^ 120)) by (rewrite <- mult_IZR; reflexivity). nra. }
  fold p q in VR. split; [exact FR|].
  rewrite VR, plus_IZR. fold s t. pose proof (rnd_rel0 (p + q) P Q) as RR. apply abs_le.
    assert (CC : cc (k + 1) = cc k + 2 * u24). { unfold cc. rewrite plus_IZR. lra. } rewrite CC.
    assert (U : 0 < u24 <= / 16777216) by (unfold u24; lra).
    set (c := cc k) in *. set (m := s + t) in *. set (z := p + q) in *. clearbody c m z.
    assert (0 <= u24 * c) by nra. assert (u24 * c <= u24 / 2) by nra. assert (0 <= m) by lra.
    assert (u24 * z <= u24 * ((1 + c) * m)) by (apply Rmult_le_compat_l; lra).
    assert (u24 * c * m <= u24 / 2 * m) by (apply Rmult_le_compat_r; lra).
    split; nra.
Qed.

(** ** The terms *)
Local Open Scope Z_scope.
Lemma d0 : dyk 24 128 0. Proof. split; lia. Qed.
Lemma dyi z : Z.abs z <= 2 ^ 24 -> dy 0 z (of_int z : f32).
Proof. intros. apply dy_int; [apply d0|exact H]. Qed.
Lemma dy_exact a w : dy 0 a (w : f32) -> is_finite w = true /\ B2R w = IZR a.
Proof. intros [F R]. split; [exact F|]. rewrite R. cbn. ring. Qed.

Lemma term_mul a b (x y : f32) : dy 0 a x -> dy 0 b y -> 0 <= a * b <= 2 ^ 32 -> term (a * b) (fmul x y).
Proof.
  intros Hx Hy Hab. apply dy_exact in Hx. apply dy_exact in Hy. destruct Hx as [Fx Rx], Hy as [Fy Ry].
  assert (AR : (0 <= IZR (a * b) <= IZR (2 ^ 32))%R) by (split; apply IZR_le; lia).
  destruct (fmul_R 24 128 x y Fx Fy) as (F & R).
  { rewrite Rx, Ry, <- mult_IZR. rewrite Rabs_pos_eq by lra. eapply Rle_trans; [|apply big32].
    eapply Rle_trans; [apply AR|]. apply IZR_le. vm_compute. discriminate. }
  rewrite Rx, Ry, <- mult_IZR in R. split; [exact Hab|]. split; [exact F|]. rewrite R. split.
  - pose proof (rnd_rel0 (IZR (a * b))) as E. specialize (E ltac:(lra)). destruct (izr_small (a * b)) as [Z|Z]; [lia| |].
    + specialize (E (or_introl Z)). apply abs_le. lra.
    + specialize (E ltac:(right; lra)). apply abs_le. lra.
  - intros L. apply rnd_int; [reflexivity..|]. change (2 ^ 24) with 16777216 in *. lia.
Qed.

Section Terms.
  Context (i t m : Z) (Hi : is_u8 i) (Ht : is_u8 t) (Hm : is_u8 m).
  Notation fi := (of_int i : f32). Notation ft := (of_int t : f32). Notation fm := (of_int m : f32).
  Lemma ui z : is_u8 z -> dy 0 z (of_int z : f32).
  Proof. unfold is_u8. intros. apply dyi. lia. Qed.
  Lemma dmul a b (x y : f32) : dy 0 a x -> dy 0 b y -> Z.abs (a * b) <= 2 ^ 24 -> dy 0 (a * b) (fmul x y).
  Proof. intros. change 0 with (0 + 0) at 1. apply dy_mul; auto. apply d0. Qed.
  Lemma sq_bound a B : Z.abs a <= B -> 0 <= a * a <= B * B.
  Proof. intros. rewrite <- Z.abs_square. split; [apply Z.square_nonneg|]. apply Z.mul_le_mono_nonneg; lia. Qed.
  Lemma mul_bound a b A B : Z.abs a <= A -> Z.abs b <= B -> Z.abs (a * b) <= A * B.
  Proof. intros. rewrite Z.abs_mul. apply Z.mul_le_mono_nonneg; lia. Qed.

  Lemma t_sub : dy 0 (t - i) (fsub ft fi).
  Proof. unfold is_u8 in *. apply dy_sub; try apply ui; try apply d0; unfold is_u8; lia. Qed.
  Lemma t_sse1 : term (((t - i) * 1) ^ 2) (sqr (fsub ft fi)).
  Proof.
    unfold is_u8 in *. rewrite Z.mul_1_r, Z.pow_2_r. apply term_mul; try apply t_sub.
    pose proof (sq_bound (t - i) 255 ltac:(lia)). lia.
  Qed.
  Lemma t_sse : term (((t - i) * m) ^ 2) (sqr (fmul (fsub ft fi) fm)).
  Proof.
    unfold is_u8 in *. pose proof (mul_bound (t - i) m 255 255 ltac:(lia) ltac:(lia)).
    rewrite Z.pow_2_r. apply term_mul; try (apply dmul; [apply t_sub|apply ui; unfold is_u8; lia|lia]).
    pose proof (sq_bound ((t - i) * m) (255 * 255) ltac:(lia)). lia.
  Qed.
  Lemma t_ii1 : term ((i * 1) ^ 2) (fmul fi fi).
  Proof.
    rewrite Z.mul_1_r, Z.pow_2_r. apply term_mul; try (apply ui; auto). unfold is_u8 in *. pose proof (sq_bound i 255 ltac:(lia)). lia.
  Qed.
  Lemma t_ii : term ((i * m) ^ 2) (sqr (fmul fi fm)).
  Proof.
    unfold is_u8 in *. pose proof (mul_bound i m 255 255 ltac:(lia) ltac:(lia)).
    rewrite Z.pow_2_r. apply term_mul; try (apply dmul; [apply ui; unfold is_u8; lia..|lia]).
    pose proof (sq_bound (i * m) (255 * 255) ltac:(lia)). lia.
  Qed.
  Lemma t_cc1 : term (t * i * 1 ^ 2) (fmul fi ft).
  Proof.
    unfold is_u8 in *. rewrite Z.pow_1_l, Z.mul_1_r, (Z.mul_comm t i) by lia. apply term_mul; try (apply ui; auto).
    pose proof (mul_bound i t 255 255 ltac:(lia) ltac:(lia)). split; [apply Z.mul_nonneg_nonneg; lia|lia].
  Qed.
  Lemma t_cc : term (t * i * m ^ 2) (fmul (fmul (fmul ft fi) fm) fm).
  Proof.
    unfold is_u8 in *. rewrite Z.pow_2_r, Z.mul_assoc.
    pose proof (mul_bound t i 255 255 ltac:(lia) ltac:(lia)).
    pose proof (mul_bound (t * i) m (255 * 255) 255 ltac:(lia) ltac:(lia)).
    pose proof (mul_bound (t * i * m) m (255 * 255 * 255) 255 ltac:(lia) ltac:(lia)).
    apply term_mul; [|apply ui; unfold is_u8; lia|].
    - apply dmul; [|apply ui; unfold is_u8; lia|lia]. apply dmul; [apply ui; unfold is_u8; lia..|lia].
    - split; [|lia]. repeat apply Z.mul_nonneg_nonneg; lia.
  Qed.
End Terms.

(** ** Sums in raster order *)
Definition psum (w : Z) (f : Z -> Z -> Z) (x y : Z) : Z :=
  zsum 0 y (fun y' => zsum 0 w (fun x' => f x' y')) + zsum 0 x (fun x' => f x' y).
Lemma psum_0 w f : psum w f 0 0 = 0.
Proof. unfold psum. now rewrite !zsum_empty by lia. Qed.
Lemma psum_x w f x y : 0 <= x -> psum w f (x + 1) y = psum w f x y + f x y.
Proof. intros. unfold psum. rewrite (zsum_snoc 0 x) by lia. lia. Qed.
Lemma psum_row w f y : 0 <= y -> psum w f 0 (y + 1) = psum w f w y.
Proof. intros. unfold psum. rewrite (zsum_snoc 0 y) by lia. rewrite (zsum_empty 0 0) by lia. lia. Qed.
Lemma psum_end w f h : psum w f 0 h = zsum 0 h (fun y' => zsum 0 w (fun x' => f x' y')).
Proof. unfold psum. rewrite (zsum_empty 0 0) by lia. lia. Qed.
Lemma zsum_flat w h g : 0 <= w -> 0 <= h ->
  zsum 0 (w * h) g = zsum 0 h (fun y => zsum 0 w (fun x => g (y * w + x))).
Proof.
  intros Hw. revert h. apply natlike_ind; [|intros h Hh IH].
  - rewrite Z.mul_0_r, !zsum_empty by lia. reflexivity.
  - unfold Z.succ. rewrite zsum_snoc by lia. rewrite <- IH. rewrite (zsum_split 0 (w * h) (w * (h + 1))) by nia.
    f_equal. replace (w * h) with (0 + h * w) at 1 by lia. replace (w * (h + 1)) with (w + h * w) by lia.
    rewrite <- zsum_shift. apply zsum_ext. intros i Hi. f_equal. lia.
Qed.

(** ** The window loops *)
Lemma chk32 z : 0 <= z < 2 ^ 32 -> chk_u 32 z = Ok z.
Proof. intros H. unfold chk_u, u_fits. destruct (andb _ _) eqn:E; [reflexivity|]. lia. Qed.
Lemma px_u8 im x y : gray8 im -> is_u8 (px im x y).
Proof.
  intros [_ G]. unfold px. destruct (get im x y) as [v|] eqn:E; [|unfold is_u8; lia].
  exact (G x y v E).
Qed.
Lemma px_get im x y : wf im -> 0 <= x < iw im -> 0 <= y < ih im -> get_pixel im x y = Ok (px im x y).
Proof. intros W Hx Hy. apply get_pixel_ok. unfold px. destruct (get_some im x y W Hx Hy) as (v & ->). reflexivity. Qed.

Section Window.
  Context (im tpl : image Z) (Gi : gray8 im) (Gt : gray8 tpl)
    (Wi : iw im < 2 ^ 32) (Hi : ih im < 2 ^ 32) (W0 : 0 < iw tpl <= iw im) (H0 : 0 < ih tpl <= ih im)
    (x y : Z) (Hx : 0 <= x <= iw im - iw tpl) (Hy : 0 <= y <= ih im - ih tpl).

  Lemma window_ind {St} (P : Z -> Z -> St -> Prop) f s :
    P 0 0 s ->
    (forall dx dy s, 0 <= dx < iw tpl -> 0 <= dy < ih tpl -> P dx dy s ->
       P (dx + 1) dy (f (of_int (px im (x + dx) (y + dy))) (of_int (px tpl dx dy)) s)) ->
    (forall dy s, 0 <= dy < ih tpl -> P (iw tpl) dy s -> P 0 (dy + 1) s) ->
    exists s', slide_window im tpl x y f s = Ok s' /\ P 0 (ih tpl) s'.
  Proof.
    intros P0 PS PR. unfold slide_window.
    rewrite (chk32 (x + iw tpl)) by lia. cbn [bind]. rewrite chk32 by lia. cbn [bind].
    destruct (Z.ltb_spec (x + iw tpl - 1) (iw im)); [|lia]. cbn [assert bind].
    rewrite (chk32 (y + ih tpl)) by lia. cbn [bind]. rewrite chk32 by lia. cbn [bind].
    destruct (Z.ltb_spec (y + ih tpl - 1) (ih im)); [|lia]. cbn [assert bind].
    apply (raster_ind P 0 (ih tpl) 0 (fun _ => iw tpl) (iw tpl)); auto; try lia.
    intros dx dy s1 K1 K2 HP. rewrite px_get by (try apply Gi; lia). cbn [bind].
    rewrite px_get by (try apply Gt; lia). cbn [bind]. eexists. split; [reflexivity|]. now apply PS.
  Qed.
  Lemma window_mask_ind {St} mask (Gm : gray8 mask) (Wm : iw mask = iw tpl) (Hm : ih mask = ih tpl) (P : Z -> Z -> St -> Prop) f s :
    P 0 0 s ->
    (forall dx dy s, 0 <= dx < iw tpl -> 0 <= dy < ih tpl -> P dx dy s ->
       P (dx + 1) dy (f (of_int (px im (x + dx) (y + dy))) (of_int (px tpl dx dy)) (of_int (px mask dx dy)) s)) ->
    (forall dy s, 0 <= dy < ih tpl -> P (iw tpl) dy s -> P 0 (dy + 1) s) ->
    exists s', slide_window_mask im tpl mask x y f s = Ok s' /\ P 0 (ih tpl) s'.
  Proof.
    intros P0 PS PR. unfold slide_window_mask.
    rewrite (chk32 (x + iw tpl)) by lia. cbn [bind]. rewrite chk32 by lia. cbn [bind].
    destruct (Z.ltb_spec (x + iw tpl - 1) (iw im)); [|lia]. cbn [assert bind].
    rewrite (chk32 (y + ih tpl)) by lia. cbn [bind]. rewrite chk32 by lia. cbn [bind].
    destruct (Z.ltb_spec (y + ih tpl - 1) (ih im)); [|lia]. cbn [assert bind].
    apply (raster_ind P 0 (ih tpl) 0 (fun _ => iw tpl) (iw tpl)); auto; try lia.
    intros dx dy s1 K1 K2 HP. rewrite px_get by (try apply Gi; lia). cbn [bind].
    rewrite px_get by (try apply Gt; lia). cbn [bind]. rewrite px_get by (try apply Gm; lia). cbn [bind].
    eexists. split; [reflexivity|]. now apply PS.
  Qed.

End Window.

(** partial sums of the loops *)
Section Acc.
  Context (tpl : image Z).
  Definition acc (f : Z -> Z -> Z) (dx dy : Z) (v : f32) : Prop := approx (iw tpl * ih tpl) (dy * iw tpl + dx) (psum (iw tpl) f dx dy) v.
  Lemma acc_0 f : acc f 0 0 zero.
  Proof. unfold acc. rewrite psum_0. apply approx_zero. Qed.
  Lemma acc_step f dx dy v w : 0 <= dx < iw tpl -> 0 <= dy < ih tpl -> acc f dx dy v -> term (f dx dy) w ->
    acc f (dx + 1) dy (fadd v w).
  Proof.
    intros H1 H2 A T. unfold acc. rewrite psum_x by lia. rewrite Z.add_assoc. apply approx_step; auto. clear A T. nia.
  Qed.
  Lemma acc_row f dy v : 0 <= dy -> acc f (iw tpl) dy v -> acc f 0 (dy + 1) v.
  Proof. unfold acc. intros. rewrite psum_row by lia. now replace ((dy + 1) * iw tpl + 0) with (dy * iw tpl + iw tpl) by lia. Qed.
  Lemma acc_end f v : acc f 0 (ih tpl) v -> approx (iw tpl * ih tpl) (iw tpl * ih tpl) (over_template tpl f) v.
  Proof. unfold acc. rewrite psum_end. unfold over_template. now replace (ih tpl * iw tpl + 0) with (iw tpl * ih tpl) by lia. Qed.
End Acc.

(** ** Sums over the pixel lists *)
Lemma fold_approx {A} n (g : A -> Z) (h : A -> f32) l : forall k S v,
  (forall a, In a l -> term (g a) (h a)) -> 0 <= k -> k + zlen l <= n -> approx n k S v ->
  approx n (k + zlen l) (S + fold_right (fun a s => g a + s) 0 l) (fold_left (fun s a => fadd s (h a)) l v).
Proof.
  induction l as [|a l IH]; intros k S v Hl Hk HN HA; cbn [fold_left fold_right].
  - unfold zlen. cbn [length Z.of_nat]. now rewrite !Z.add_0_r.
  - rewrite zlen_cons in *. pose proof (zlen_nonneg l). rewrite !Z.add_assoc. apply IH; auto with datatypes; try lia.
    apply approx_step; [lia|exact HA|auto with datatypes].
Qed.
Lemma fold_zsum (l : list Z) g : fold_right (fun a s => g a + s) 0 l = zsum 0 (zlen l) (fun j => match znth l j with Some a => g a | None => 0 end).
Proof.
  induction l as [|a l IH]; [reflexivity|]. cbn [fold_right]. rewrite zlen_cons. pose proof (zlen_nonneg l).
  rewrite zsum_cons by lia. rewrite znth_cons_0. f_equal. rewrite IH.
  replace (0 + 1) with (0 + 1) by lia. replace (1 + zlen l) with (zlen l + 1) by lia. rewrite <- zsum_shift.
  apply zsum_ext. intros i Hi. rewrite znth_cons_S by lia. now replace (i + 1 - 1) with i by lia.
Qed.

Lemma square_sum_ok tpl : gray8 tpl ->
  approx (iw tpl * ih tpl) (iw tpl * ih tpl) (template_power tpl no_mask) (square_sum tpl).
Proof.
  intros [(W1 & W2 & W3) G]. unfold square_sum.
  pose proof (fold_approx (iw tpl * ih tpl) (fun x => (x * 1) ^ 2) (fun x => fmul (of_int x) (of_int x)) (idata tpl) 0 0 zero) as F.
  rewrite W3 in F. cbn [Z.add] in F.
  replace (template_power tpl no_mask) with (fold_right (fun a s => (a * 1) ^ 2 + s) 0 (idata tpl)).
  { apply F; try lia; [|apply approx_zero]. intros a Ha. apply t_ii1.
    destruct (In_get tpl a (conj W1 (conj W2 W3)) Ha) as (x & y & E). exact (G x y a E). }
  rewrite fold_zsum, W3, zsum_flat by lia. unfold template_power, over_template. apply zsum_ext. intros y Hy. apply zsum_ext. intros x Hx.
  unfold px, no_mask, get. rewrite (proj2 (inb_spec tpl x y)) by lia. now destruct (znth _ _).
Qed.
Lemma mult_square_sum_ok tpl mask : gray8 tpl -> gray8 mask -> iw mask = iw tpl -> ih mask = ih tpl ->
  approx (iw tpl * ih tpl) (iw tpl * ih tpl) (template_power tpl (px mask)) (mult_square_sum tpl mask).
Proof.
  intros [(W1 & W2 & W3) G] [(V1 & V2 & V3) Gm] Ew Eh. unfold mult_square_sum.
  assert (EQ : forall (l : list (Z * Z)) (s : f32), fold_left (fun s '(x, y) => fadd s (sqr (fmul (of_int x) (of_int y)))) l s =
    fold_left (fun s p => fadd s (sqr (fmul (of_int (fst p)) (of_int (snd p))))) l s).
  { induction l as [|[a b] l IH]; intros s; [reflexivity|]. cbn [fold_left fst snd]. apply IH. }
  rewrite EQ. clear EQ.
  pose proof (fold_approx (iw tpl * ih tpl) (fun p => (fst p * snd p) ^ 2) (fun p => sqr (fmul (of_int (fst p)) (of_int (snd p)))) (combine (idata tpl) (idata mask)) 0 0 zero) as F.
  assert (L : zlen (combine (idata tpl) (idata mask)) = iw tpl * ih tpl).
  { unfold zlen in *. rewrite combine_length. rewrite Ew, Eh in V3. lia. }
  rewrite L in F. cbn [Z.add] in F.
  replace (template_power tpl (px mask)) with (fold_right (fun a s => (fst a * snd a) ^ 2 + s) 0 (combine (idata tpl) (idata mask))).
  { apply F; try lia; [|apply approx_zero]. intros [a b] Hab. cbn [fst snd]. apply t_ii.
    - apply in_combine_l in Hab. destruct (In_get tpl a (conj W1 (conj W2 W3)) Hab) as (x & y & E). exact (G x y a E).
    - apply in_combine_r in Hab. destruct (In_get mask b (conj V1 (conj V2 V3)) Hab) as (x & y & E). exact (Gm x y b E). }
  assert (FZ : forall l1 l2, zlen l1 = zlen l2 -> fold_right (fun a s => (fst a * snd a) ^ 2 + s) 0 (combine l1 l2) =
     zsum 0 (zlen l1) (fun j => ((match znth l1 j with Some a => a | None => 0 end) * (match znth l2 j with Some a => a | None => 0 end)) ^ 2)).
  { clear. induction l1 as [|a l1 IH]; intros [|b l2] E; try (exfalso; unfold zlen in E; cbn [length] in E; lia).
    - reflexivity.
    - cbn [combine fold_right fst snd]. rewrite !zlen_cons in *. pose proof (zlen_nonneg l1).
      rewrite zsum_cons by lia. rewrite !znth_cons_0. f_equal. rewrite IH by lia.
      replace (1 + zlen l1) with (zlen l1 + 1) by lia. rewrite <- zsum_shift.
      apply zsum_ext. intros i Hi. rewrite !znth_cons_S by lia. now replace (i + 1 - 1) with i by lia. }
  rewrite FZ, W3, zsum_flat by (rewrite ?W3, ?V3; rewrite ?Ew, ?Eh; lia).
  unfold template_power, over_template. apply zsum_ext. intros y Hy. apply zsum_ext. intros x Hx.
  unfold px, get. rewrite (proj2 (inb_spec tpl x y)) by lia. rewrite (proj2 (inb_spec mask x y)) by lia. now rewrite Ew.
Qed.

(** ** Normalization *)
Local Open Scope R_scope.
Lemma flt32_R (x y : f32) : is_finite x = true -> is_finite y = true -> flt x y = Rlt_bool (B2R x) (B2R y).
Proof. intros. unfold flt. now apply Bltb_correct. Qed.

Lemma approx_within n S v : (0 <= n <= 2 ^ 22)%Z -> approx n n S v -> within (2 * (IZR n + 1)) v (IZR S).
Proof.
  intros Hn (R & FE & _). destruct FE as [F E]; [lia|]. split; [exact F|]. rewrite (Rabs_pos_eq (IZR S)) by (apply IZR_le; lia).
  unfold cc, u24 in E. eapply Rle_trans; [exact E|]. right. field.
Qed.
Lemma within_weaken e e' v r : e <= e' -> within e v r -> within e' v r.
Proof.
  intros L [F E]. split; [exact F|]. eapply Rle_trans; [exact E|]. apply Rmult_le_compat_r; [apply Rabs_pos|]. lra.
Qed.
Lemma approx_bounds n S v : (0 <= n < 2 ^ 20)%Z -> approx n n S v ->
  is_finite v = true /\ (1 - cc n) * IZR S <= B2R v <= (1 + cc n) * IZR S /\ 0 <= cc n <= / 8 /\ 4 * u24 <= cc (n + 1) /\ 0 <= IZR S <= IZR (2 ^ 52).
Proof.
  intros Hn (R & FE & _). destruct FE as [F E]; [lia|]. apply abs_le in E. split; [exact F|].
  assert (0 <= IZR n <= 1048575) by (split; apply IZR_le; lia).
  split; [lra|]. split; [unfold cc, u24; lra|]. split; [unfold cc, u24; rewrite plus_IZR; lra|]. split; apply IZR_le; lia.
Qed.

Lemma sqrt_between lo hi p n : 0 <= lo <= 1 -> 1 <= hi -> 0 <= n -> lo * lo * (n * n) <= p <= hi * hi * (n * n) -> lo * n <= sqrt p <= hi * n.
Proof.
  intros Hl Hh Hn [L U]. assert (0 <= p) by nra. split.
  - rewrite <- (sqrt_square (lo * n)) by nra. apply sqrt_le_1_alt. nra.
  - rewrite <- (sqrt_square (hi * n)) by nra. apply sqrt_le_1_alt. nra.
Qed.

Lemma normalize_ok n S A B v a b : (1 <= n < 2 ^ 20)%Z -> approx n n S v -> approx n n A a -> approx n n B b ->
  within (8 * (IZR n + 1)) (normalize v (fmul a b))
    (if (A * B =? 0)%Z then IZR S else IZR S / sqrt (IZR (A * B))).
Proof.
  intros Hn HS HA HB. unfold normalize. cbv zeta.
  assert (NR : 1 <= IZR n <= 1048575) by (split; apply IZR_le; lia).
  assert (EPS : cc n = 2 * (IZR n + 1) * u24) by reflexivity.
  destruct (approx_bounds n S v ltac:(lia) HS) as (Fv & BS & EC & _ & RS).
  destruct (approx_bounds n A a ltac:(lia) HA) as (Fa & BA & _ & _ & RA).
  destruct (approx_bounds n B b ltac:(lia) HB) as (Fb & BB & _ & _ & RB).
  assert (U4 : 4 * u24 <= cc n) by (rewrite EPS; unfold u24; lra).
  assert (U0 : 0 < u24) by (unfold u24; lra).
  assert (P52 : IZR (2 ^ 52) * IZR (2 ^ 52) = IZR (2 ^ 104)) by (rewrite <- mult_IZR; reflexivity).
  assert (P120 : IZR (2 ^ 120) = 65536 * IZR (2 ^ 104)) by (rewrite <- (mult_IZR 65536); reflexivity).
  assert (Pp : 0 < IZR (2 ^ 52)) by (apply IZR_lt; reflexivity).
  assert (AB : 0 <= IZR A * IZR B <= IZR (2 ^ 104)).
  { rewrite <- P52. split; [apply Rmult_le_pos; lra|]. apply Rmult_le_compat; lra. }
  assert (a0 : 0 <= B2R a) by nra. assert (b0 : 0 <= B2R b) by nra.
  assert (PL : B2R a * B2R b <= (1 + cc n) * IZR A * ((1 + cc n) * IZR B)) by (apply Rmult_le_compat; lra).
  assert (PG : (1 - cc n) * IZR A * ((1 - cc n) * IZR B) <= B2R a * B2R b).
  { apply Rmult_le_compat; try lra; apply Rmult_le_pos; lra. }
  set (e := cc n) in *. clearbody e.
  assert (PU : B2R a * B2R b <= 2 * (IZR A * IZR B)) by nra.
  destruct (fmul_R 24 128 a b Fa Fb) as (Fp & Ep).
  { rewrite Rabs_pos_eq by nra. eapply Rle_trans; [|apply big32]. rewrite P120. nra. }
  set (p := B2R a * B2R b) in *. assert (p0 : 0 <= p) by (unfold p; nra).
  destruct (fsqrt_R 24 128 (fmul a b) Fp) as (Fw & Ew).
  { rewrite Ep. rewrite <- (rnd_0 24 128). apply rnd_le; try reflexivity; try exact p0. }
  assert (Fz : is_finite zero = true) by (apply (approx_zero 0); lia).
  assert (Ez : B2R zero = 0) by (apply (approx_zero 0); lia).
  rewrite flt32_R, Ez by auto.
  destruct (Z.eqb_spec (A * B) 0) as [Z|NZ].
  - assert (Z' : p = 0). { assert (IZR A * IZR B = 0) by (rewrite <- mult_IZR, Z; reflexivity). nra. }
    rewrite Ew, Ep, Z', rnd_0, sqrt_0, rnd_0. rewrite Rlt_bool_false by lra.
    apply (within_weaken (2 * (IZR n + 1))); [lra|]. apply approx_within; [lia|exact HS].
  - assert (A1 : 1 <= IZR A * IZR B). { rewrite <- mult_IZR. apply IZR_le. destruct HA as (HA & _), HB as (HB & _). nia. }
    set (q := IZR A * IZR B) in *. rewrite mult_IZR. fold q.
    assert (QS : q = sqrt q * sqrt q) by (symmetry; apply sqrt_sqrt; lra).
    assert (N1 : 1 <= sqrt q). { rewrite <- sqrt_1. apply sqrt_le_1_alt. lra. }
    assert (NU : sqrt q <= IZR (2 ^ 52)). { rewrite <- (sqrt_square (IZR (2 ^ 52))) by lra. apply sqrt_le_1_alt. rewrite P52. lra. }
    set (m := sqrt q) in *. clearbody m.
    assert (PP : (1 - e) * (1 - e) * q <= p <= (1 + e) * (1 + e) * q) by (unfold q, p in *; lra).
    assert (E8 : / 2 <= (1 - e) * (1 - e)) by (clear - EC; nra).
    assert (P2 : / 2 <= p) by (clear - E8 PP A1; nra).
    destruct (rnd_rel0 p p0 ltac:(right; lra)) as [R1 R2]. rewrite <- Ep in R1, R2. set (p' := B2R (fmul a b)) in *.
    assert (SB : (1 - e) * (1 - u24) * m <= sqrt p' <= (1 + e) * (1 + u24) * m).
    { apply sqrt_between; [clear - EC U4 U0; split; nra|clear - EC U0; nra|lra|]. rewrite <- QS. split.
      - apply Rle_trans with ((1 - u24) * p); [|exact R1].
        apply Rle_trans with ((1 - u24) * ((1 - e) * (1 - e) * q)); [|apply Rmult_le_compat_l; lra].
        assert (Z1 : 0 <= (1 - e) * (1 - e) * q) by (clear - E8 A1; nra). assert (Z2 : 0 < u24 < 1) by lra. clear - Z1 Z2.
        set (z := (1 - e) * (1 - e) * q) in *. replace ((1 - e) * (1 - u24) * ((1 - e) * (1 - u24)) * q) with ((1 - u24) * ((1 - u24) * z)) by (unfold z; ring). clearbody z. apply Rmult_le_compat_l; [lra|nra].
      - apply Rle_trans with ((1 + u24) * p); [exact R2|].
        apply Rle_trans with ((1 + u24) * ((1 + e) * (1 + e) * q)); [apply Rmult_le_compat_l; lra|].
        assert (Z1 : 0 <= (1 + e) * (1 + e) * q) by (clear - EC A1; nra). clear - Z1 U0.
        set (z := (1 + e) * (1 + e) * q) in *. replace ((1 + e) * (1 + u24) * ((1 + e) * (1 + u24)) * q) with ((1 + u24) * ((1 + u24) * z)) by (unfold z; ring). clearbody z. apply Rmult_le_compat_l; [lra|nra]. }
    set (s := sqrt p') in *. clearbody s.
    assert (LU : / 2 <= (1 - e) * (1 - u24)) by (clear - EC U4 U0; nra).
    assert (s0 : / 2 <= s) by (clear - SB N1 LU; nra).
    destruct (rnd_rel0 s ltac:(lra) ltac:(right; lra)) as [W1 W2]. rewrite <- Ew in W1, W2. remember (B2R (fsqrt (fmul a b))) as w eqn:Hw in *.
    clear Ew R1 R2 Ep. clearbody p'.
    assert (WL : (1 - e) * (1 - u24) * (1 - u24) * m <= w).
    { eapply Rle_trans; [|exact W1]. replace ((1 - e) * (1 - u24) * (1 - u24) * m) with ((1 - u24) * ((1 - e) * (1 - u24) * m)) by ring. apply Rmult_le_compat_l; lra. }
    assert (WU : w <= (1 + e) * (1 + u24) * (1 + u24) * m).
    { eapply Rle_trans; [exact W2|]. replace ((1 + e) * (1 + u24) * (1 + u24) * m) with ((1 + u24) * ((1 + e) * (1 + u24) * m)) by ring. apply Rmult_le_compat_l; lra. }
    assert (w0 : / 4 <= w) by (clear - W1 s0 U0 U4 EC; nra).
    rewrite Rlt_bool_true by lra.
    assert (v0 : 0 <= B2R v) by (clear - BS RS EC; nra).
    assert (K : 0 <= B2R v / w). { apply Rmult_le_pos; [exact v0|]. left. apply Rinv_0_lt_compat. lra. }
    assert (VU : B2R v / w * w = B2R v) by (field; lra).
    set (d := B2R v / w) in *.
    assert (WM : w <= 2 * IZR (2 ^ 52)).
    { assert (H2 : (1 + e) * (1 + u24) * (1 + u24) <= 2) by (clear - EC U4 U0; nra). clear - WU H2 NU N1. nra. }
    assert (DZ : d = 0 \/ / 1000000000000000000000 <= d).
    { destruct (izr_small S) as [SZ|S1]; [apply HS| |].
      - left. assert (V0 : B2R v = 0) by (rewrite SZ in BS; lra). unfold d. rewrite V0. unfold Rdiv. ring.
      - right. assert (V1 : / 2 <= B2R v) by (clear - BS S1 EC; nra). change (IZR (2 ^ 52)) with 4503599627370496 in *.
        assert (H20 : w * (/ 1000000000000000000000) <= / 2) by lra.
        apply Rmult_le_reg_r with w; [lra|]. lra. }
    destruct (fdiv_R 24 128 v (fsqrt (fmul a b)) Fv) as (Fd & Ed); try rewrite <- Hw.
    { lra. }
    { fold d. rewrite Rabs_pos_eq by lra. eapply Rle_trans; [|apply big32].
      assert (d <= 4 * B2R v) by (clear - VU K w0; nra). assert (B2R v <= 2 * IZR (2 ^ 52)) by (clear - BS RS EC; nra).
      assert (8 * IZR (2 ^ 52) <= IZR (2 ^ 120)) by (rewrite <- mult_IZR; apply IZR_le; vm_compute; discriminate). lra. }
    split; [exact Fd|]. rewrite Ed, <- Hw. fold d.
    destruct (rnd_rel0 d K DZ) as [D1 D2]. set (r := rnd 24 128 d) in *. clearbody r. clear Ed DZ.
    set (t := IZR S / m). assert (TM : IZR S = t * m) by (unfold t; field; lra).
    assert (t0 : 0 <= t). { apply Rmult_le_pos; [lra|]. left. apply Rinv_0_lt_compat. lra. }
    clearbody t d. rewrite TM in BS. rewrite (Rabs_pos_eq t) by exact t0.
    replace (8 * (IZR n + 1) / 16777216 * t) with (4 * e * t) by (rewrite EPS; unfold u24; field).
    apply abs_le.
    (* d * w = v, v within (1 +- e) t m, w within ... m *)
    assert (E1 : d * ((1 - e) * (1 - u24) * (1 - u24)) <= (1 + e) * t).
    { apply Rmult_le_reg_r with m; [lra|]. apply Rle_trans with (d * w); [|lra].
      rewrite Rmult_assoc. apply Rmult_le_compat_l; [exact K|]. exact WL. }
    assert (E2 : (1 - e) * t <= d * ((1 + e) * (1 + u24) * (1 + u24))).
    { apply Rmult_le_reg_r with m; [lra|]. apply Rle_trans with (d * w); [lra|].
      rewrite (Rmult_assoc d). apply Rmult_le_compat_l; [exact K|]. exact WU. }
    clear - E1 E2 D1 D2 EC U4 U0 t0 K.
    assert (F1 : 1 - 3 / 2 * e <= (1 - e) * (1 - u24) * (1 - u24)) by nra.
    assert (F2 : (1 + e) * (1 + u24) * (1 + u24) <= 1 + 7 / 4 * e) by nra.
    assert (G1 : d * (1 - 3 / 2 * e) <= (1 + e) * t) by nra.
    assert (G2 : (1 - e) * t <= d * (1 + 7 / 4 * e)) by nra.
    assert (H1 : d <= (1 + 7 / 2 * e) * t).
    { apply Rmult_le_reg_r with (1 - 3 / 2 * e); [lra|]. eapply Rle_trans; [exact G1|].
      replace ((1 + 7 / 2 * e) * t * (1 - 3 / 2 * e)) with (t * ((1 + 7 / 2 * e) * (1 - 3 / 2 * e))) by ring.
      rewrite Rmult_comm. apply Rmult_le_compat_l; [exact t0|]. nra. }
    assert (H2 : (1 - 3 * e) * t <= d).
    { apply Rmult_le_reg_r with (1 + 7 / 4 * e); [lra|]. eapply Rle_trans; [|exact G2].
      replace ((1 - 3 * e) * t * (1 + 7 / 4 * e)) with (t * ((1 - 3 * e) * (1 + 7 / 4 * e))) by ring.
      rewrite (Rmult_comm (1 - e)). apply Rmult_le_compat_l; [exact t0|]. nra. }
    assert (T1 : u24 * d <= e / 4 * ((1 + 7 / 2 * e) * t)) by (apply Rmult_le_compat; lra).
    assert (T2 : e * (e * t) <= / 8 * (e * t)) by (apply Rmult_le_compat_r; nra).
    assert (T3 : 0 <= e * t) by nra.
    split; nra.
Qed.

(** ** score_at *)
Local Open Scope Z_scope.
Definition good_score (n : Z) (m : method) (im tpl : image Z) (M : Z -> Z -> Z) (x y : Z) (v : f32) : Prop :=
  (n < 2 ^ 20 -> within (8 * (IZR n + 1))%R v (documented_score im tpl M x y m)) /\
  (normalized m = false -> numerator im tpl M x y m <= 2 ^ 24 -> is_finite v = true /\ B2R v = IZR (numerator im tpl M x y m)).

Section Scores.
  Context (im tpl : image Z) (Gi : gray8 im) (Gt : gray8 tpl)
    (Wi : iw im < 2 ^ 32) (Hi : ih im < 2 ^ 32) (W0 : 0 < iw tpl <= iw im) (H0 : 0 < ih tpl <= ih im).
  Context (x y : Z) (Hx : 0 <= x <= iw im - iw tpl) (Hy : 0 <= y <= ih im - ih tpl).
  Let n := iw tpl * ih tpl.
  Lemma n1 : 1 <= n. Proof. unfold n. nia. Qed.

  Lemma plain_score m M v : normalized m = false -> approx n n (numerator im tpl M x y m) v -> good_score n m im tpl M x y v.
  Proof.
    intros Nm A. pose proof n1. split.
    - intros Hn. unfold documented_score. rewrite Nm. cbn [andb]. apply (within_weaken (2 * (IZR n + 1))); [|now apply approx_within; [lia|]].
      assert (0 <= IZR n)%R by (apply IZR_le; lia). lra.
    - intros _ L. now apply A.
  Qed.
  Lemma norm_score m M v a b : normalized m = true -> approx n n (numerator im tpl M x y m) v ->
    approx n n (template_power tpl M) a -> approx n n (image_power im tpl M x y) b ->
    good_score n m im tpl M x y (normalize v (fmul a b)).
  Proof.
    intros Nm A1 A2 A3. split; [|intros; congruence]. intros Hn. unfold documented_score. rewrite Nm. cbn [andb].
    pose proof (normalize_ok n _ _ _ v a b (conj n1 Hn) A1 A2 A3) as Q. now destruct (_ =? 0).
  Qed.
  Lemma norm_score' m M v a b : normalized m = true -> approx n n (numerator im tpl M x y m) v ->
    approx n n (template_power tpl M) a -> approx n n (image_power im tpl M x y) b ->
    good_score n m im tpl M x y (normalize v (fmul b a)).
  Proof.
    intros Nm A1 A2 A3. split; [|intros; congruence]. intros Hn. unfold documented_score. rewrite Nm. cbn [andb].
    pose proof (normalize_ok n _ _ _ v b a (conj n1 Hn) A1 A3 A2) as Q. rewrite (Z.mul_comm (template_power tpl M)). now destruct (_ =? 0).
  Qed.

  Notation accp f := (acc tpl f).
  Lemma score_ok m : exists v, score_at m (square_sum tpl) im tpl x y = Ok v /\ good_score n m im tpl no_mask x y v.
  Proof.
    pose proof (square_sum_ok tpl Gt) as TT. fold n in TT.
    destruct m; unfold score_at.
    - destruct (window_ind im tpl Gi Gt Wi Hi W0 H0 x y Hx Hy
        (accp (fun x' y' => ((px tpl x' y' - px im (x + x') (y + y')) * no_mask x' y') ^ 2))
        (fun i t s => fadd s (sqr (fsub t i))) zero) as (v & E & A).
      + apply acc_0.
      + intros dx dy s H1 H2 HP. apply acc_step; auto. apply t_sse1; now apply px_u8.
      + intros dy s H1. apply acc_row; lia.
      + exists v. split; [exact E|]. apply plain_score; [reflexivity|]. now apply acc_end in A.
    - destruct (window_ind im tpl Gi Gt Wi Hi W0 H0 x y Hx Hy
        (fun a b (s : f32 * f32) => accp (fun x' y' => ((px tpl x' y' - px im (x + x') (y + y')) * no_mask x' y') ^ 2) a b (fst s) /\
           accp (fun x' y' => (px im (x + x') (y + y') * no_mask x' y') ^ 2) a b (snd s))
        (fun i t '(s, ii) => (fadd s (sqr (fsub t i)), fadd ii (fmul i i))) (zero, zero)) as ([v w] & E & A & B).
      + split; apply acc_0.
      + intros dx dy [s s'] H1 H2 [HP HQ]. cbn [fst snd] in *. split; (apply acc_step; auto).
        * apply t_sse1; now apply px_u8.
        * apply t_ii1; now apply px_u8.
      + intros dy s H1 [HP HQ]. split; apply acc_row; auto; lia.
      + rewrite E. cbn [bind]. eexists. split; [reflexivity|]. cbn [fst snd] in *. apply acc_end in A, B.
        apply norm_score'; [reflexivity|exact A|exact TT|exact B].
    - destruct (window_ind im tpl Gi Gt Wi Hi W0 H0 x y Hx Hy
        (accp (fun x' y' => px tpl x' y' * px im (x + x') (y + y') * no_mask x' y' ^ 2))
        (fun i t s => fadd s (fmul i t)) zero) as (v & E & A).
      + apply acc_0.
      + intros dx dy s H1 H2 HP. apply acc_step; auto. apply t_cc1; now apply px_u8.
      + intros dy s H1. apply acc_row; lia.
      + exists v. split; [exact E|]. apply plain_score; [reflexivity|]. now apply acc_end in A.
    - destruct (window_ind im tpl Gi Gt Wi Hi W0 H0 x y Hx Hy
        (fun a b (s : f32 * f32) => accp (fun x' y' => px tpl x' y' * px im (x + x') (y + y') * no_mask x' y' ^ 2) a b (fst s) /\
           accp (fun x' y' => (px im (x + x') (y + y') * no_mask x' y') ^ 2) a b (snd s))
        (fun i t '(s, ii) => (fadd s (fmul i t), fadd ii (fmul i i))) (zero, zero)) as ([v w] & E & A & B).
      + split; apply acc_0.
      + intros dx dy [s s'] H1 H2 [HP HQ]. cbn [fst snd] in *. split; (apply acc_step; auto).
        * apply t_cc1; now apply px_u8.
        * apply t_ii1; now apply px_u8.
      + intros dy s H1 [HP HQ]. split; apply acc_row; auto; lia.
      + rewrite E. cbn [bind]. eexists. split; [reflexivity|]. cbn [fst snd] in *. apply acc_end in A, B.
        apply norm_score'; [reflexivity|exact A|exact TT|exact B].
  Qed.

  Lemma score_mask_ok m mask : gray8 mask -> iw mask = iw tpl -> ih mask = ih tpl ->
    exists v, score_at_mask m (mult_square_sum tpl mask) im tpl mask x y = Ok v /\ good_score n m im tpl (px mask) x y v.
  Proof.
    intros Gm Wm Hm. pose proof (mult_square_sum_ok tpl mask Gt Gm Wm Hm) as TT. fold n in TT.
    destruct m; unfold score_at_mask.
    - destruct (window_mask_ind im tpl Gi Gt Wi Hi W0 H0 x y Hx Hy mask Gm Wm Hm
        (accp (fun x' y' => ((px tpl x' y' - px im (x + x') (y + y')) * px mask x' y') ^ 2))
        (fun i t m s => fadd s (sqr (fmul (fsub t i) m))) zero) as (v & E & A).
      + apply acc_0.
      + intros dx dy s H1 H2 HP. apply acc_step; auto. apply t_sse; now apply px_u8.
      + intros dy s H1. apply acc_row; lia.
      + exists v. split; [exact E|]. apply plain_score; [reflexivity|]. now apply acc_end in A.
    - destruct (window_mask_ind im tpl Gi Gt Wi Hi W0 H0 x y Hx Hy mask Gm Wm Hm
        (fun a b (s : f32 * f32) => accp (fun x' y' => ((px tpl x' y' - px im (x + x') (y + y')) * px mask x' y') ^ 2) a b (fst s) /\
           accp (fun x' y' => (px im (x + x') (y + y') * px mask x' y') ^ 2) a b (snd s))
        (fun i t m '(s, ii) => (fadd s (sqr (fmul (fsub t i) m)), fadd ii (sqr (fmul i m)))) (zero, zero)) as ([v w] & E & A & B).
      + split; apply acc_0.
      + intros dx dy [s s'] H1 H2 [HP HQ]. cbn [fst snd] in *. split; (apply acc_step; auto).
        * apply t_sse; now apply px_u8.
        * apply t_ii; now apply px_u8.
      + intros dy s H1 [HP HQ]. split; apply acc_row; auto; lia.
      + rewrite E. cbn [bind]. eexists. split; [reflexivity|]. cbn [fst snd] in *. apply acc_end in A, B.
        apply norm_score; [reflexivity|exact A|exact TT|exact B].
    - destruct (window_mask_ind im tpl Gi Gt Wi Hi W0 H0 x y Hx Hy mask Gm Wm Hm
        (accp (fun x' y' => px tpl x' y' * px im (x + x') (y + y') * px mask x' y' ^ 2))
        (fun i t m s => fadd s (fmul (fmul (fmul t i) m) m)) zero) as (v & E & A).
      + apply acc_0.
      + intros dx dy s H1 H2 HP. apply acc_step; auto. apply t_cc; now apply px_u8.
      + intros dy s H1. apply acc_row; lia.
      + exists v. split; [exact E|]. apply plain_score; [reflexivity|]. now apply acc_end in A.
    - destruct (window_mask_ind im tpl Gi Gt Wi Hi W0 H0 x y Hx Hy mask Gm Wm Hm
        (fun a b (s : f32 * f32) => accp (fun x' y' => px tpl x' y' * px im (x + x') (y + y') * px mask x' y' ^ 2) a b (fst s) /\
           accp (fun x' y' => (px im (x + x') (y + y') * px mask x' y') ^ 2) a b (snd s))
        (fun i t m '(s, ii) => (fadd s (fmul (fmul (fmul t i) m) m), fadd ii (sqr (fmul i m)))) (zero, zero)) as ([v w] & E & A & B).
      + split; apply acc_0.
      + intros dx dy [s s'] H1 H2 [HP HQ]. cbn [fst snd] in *. split; (apply acc_step; auto).
        * apply t_cc; now apply px_u8.
        * apply t_ii; now apply px_u8.
      + intros dy s H1 [HP HQ]. split; apply acc_row; auto; lia.
      + rewrite E. cbn [bind]. eexists. split; [reflexivity|]. cbn [fst snd] in *. apply acc_end in A, B.
        apply norm_score; [reflexivity|exact A|exact TT|exact B].
  Qed.
End Scores.

(** an image built from a closure that succeeds everywhere *)
Lemma gen_res_total {A} w h (f : Z -> Z -> res A) (Q : Z -> Z -> A -> Prop) (d : A) : 0 <= w -> 0 <= h ->
  (forall x y, 0 <= x < w -> 0 <= y < h -> exists v, f x y = Ok v /\ Q x y v) ->
  exists out, gen_res w h f = Ok out /\ wf out /\ iw out = w /\ ih out = h /\
    forall x y, 0 <= x < w -> 0 <= y < h -> exists v, get out x y = Some v /\ f x y = Ok v /\ Q x y v.
Proof.
  intros Hw Hh H. set (g x y := match f x y with Ok v => v | _ => d end).
  assert (F : forall x y, 0 <= x < w -> 0 <= y < h -> f x y = Ok (g x y)).
  { intros x y Hx Hy. unfold g. destruct (H x y Hx Hy) as (v & -> & _). reflexivity. }
  exists (gen w h g). split; [now apply gen_res_ok|]. split; [now apply wf_gen|]. split; [reflexivity|]. split; [reflexivity|].
  intros x y Hx Hy. exists (g x y). split; [now apply get_gen_in|]. split; [now apply F|].
  destruct (H x y Hx Hy) as (v & E & Hv). rewrite F in E by auto. injection E as ->. exact Hv.
Qed.

Lemma dims_ok im tpl : iw im < 2 ^ 32 -> ih im < 2 ^ 32 -> 0 < iw tpl <= iw im -> 0 < ih tpl <= ih im ->
  output_dims im tpl = Ok (iw im - iw tpl + 1, ih im - ih tpl + 1).
Proof. intros. unfold output_dims. rewrite chk32 by lia. cbn [bind]. rewrite chk32 by lia. cbn [bind]. rewrite chk32 by lia. cbn [bind]. now rewrite chk32 by lia. Qed.
Lemma new_ok im tpl : iw tpl <= iw im -> ih tpl <= ih im -> image_template_new im tpl = Ok tt.
Proof. intros. unfold image_template_new. rewrite (proj2 (Z.leb_le _ _)) by lia. cbn [assert bind]. now rewrite (proj2 (Z.leb_le _ _)) by lia. Qed.

(** ** find_extremes *)
Section Extremes.
  Context {T : Type} (lt : T -> T -> bool) (D : T -> Prop).
  Hypothesis irr : forall a, D a -> lt a a = false.
  Hypothesis trans : forall a b c, D a -> D b -> D c -> lt a b = true -> lt b c = true -> lt a c = true.
  Hypothesis weak : forall a b c, D a -> D b -> D c -> lt a c = true -> lt b c = false -> lt a b = true.

  Lemma extremes_ok (im : image T) : wf im -> 0 < iw im -> 0 < ih im -> all_px D im ->
    exists e, find_extremes lt im = Ok e /\
      first_largest reads_before lt im (max_value e) (max_value_location e) /\
      first_largest reads_before (fun a b => lt b a) im (min_value e) (min_value_location e).
  Proof.
    intros W Hw Hh A. unfold find_extremes. rewrite (proj2 (Z.ltb_lt 0 (iw im))), (proj2 (Z.ltb_lt 0 (ih im))) by lia. cbn [andb assert bind].
    destruct (get_some im 0 0 W ltac:(lia) ltac:(lia)) as (p0 & E0). rewrite (proj2 (get_pixel_ok im 0 0 p0) E0). cbn [bind].
    pose (seen x0 y0 x y := y < y0 \/ y = y0 /\ x < x0 \/ x = 0 /\ y = 0).
    pose (Q (ltb : T -> T -> bool) x0 y0 v (p : Z * Z) := get im (fst p) (snd p) = Some v /\ 
      (p = (0, 0) \/ snd p < y0 \/ snd p = y0 /\ fst p < x0) /\
      forall x y v', seen x0 y0 x y -> get im x y = Some v' -> ltb v v' = false /\ (ltb v' v = false -> (x, y) = p \/ reads_before p (x, y))).
    assert (RG : forall x y v, get im x y = Some v -> 0 <= x < iw im /\ 0 <= y < ih im /\ D v).
    { intros x y v E. pose proof (A x y v E). apply get_inb in E. tauto. }
    assert (STEP : forall ltb x0 y0 v loc p, (forall a, D a -> ltb a a = false) ->
       (forall a b c, D a -> D b -> D c -> ltb a b = true -> ltb b c = true -> ltb a c = true) ->
       (forall a b c, D a -> D b -> D c -> ltb a c = true -> ltb b c = false -> ltb a b = true) ->
       get im x0 y0 = Some p -> Q ltb x0 y0 v loc ->
       if ltb v p then Q ltb (x0 + 1) y0 p (x0, y0) else Q ltb (x0 + 1) y0 v loc).
    { clear irr trans weak. intros ltb x0 y0 v loc p irr trans weak Ep (G & L & H).
      pose proof (RG _ _ _ Ep) as (Px & Py & Dp). pose proof (RG _ _ _ G) as (_ & _ & Dv).
      destruct (ltb v p) eqn:E.
      - split; [exact Ep|]. cbn [fst snd]. split; [right; lia|]. intros x y v' Hs G'. pose proof (RG _ _ _ G') as (_ & _ & Dv').
        assert (C : seen x0 y0 x y \/ (x = x0 /\ y = y0)) by (unfold seen in *; lia). destruct C as [C|(-> & ->)].
        + destruct (H x y v' C G') as [H1 H2].
          assert (LT : ltb v' p = true).
          { destruct (ltb v' p) eqn:E'; [reflexivity|]. pose proof (weak v v' p Dv Dv' Dp E E'). congruence. }
          split; [|congruence]. destruct (ltb p v') eqn:E2; [|reflexivity].
          pose proof (trans p v' p Dp Dv' Dp E2 LT) as TR. rewrite irr in TR by auto. discriminate.
        + assert (v' = p) by congruence. subst v'. split; [now apply irr|]. now left.
      - split; [exact G|]. split; [destruct L as [L|L]; [now left|right; lia]|]. intros x y v' Hs G'.
        assert (C : seen x0 y0 x y \/ (x = x0 /\ y = y0)) by (unfold seen in *; lia). destruct C as [C|(-> & ->)].
        + now apply H.
        + assert (v' = p) by congruence. subst v'. split; [exact E|]. intros _.
          destruct loc as [lx ly]. cbn [fst snd] in *. unfold reads_before. cbn [fst snd].
          destruct L as [L|L]; [|right; lia]. injection L as -> ->.
          destruct (Z.eq_dec x0 0); destruct (Z.eq_dec y0 0); [left; congruence|right; lia..]. }
    match goal with |- context [for_range 0 (ih im) ?bdy ?s] =>
      destruct (raster_ind (fun x0 y0 e => Q lt x0 y0 (max_value e) (max_value_location e) /\ Q (fun a b => lt b a) x0 y0 (min_value e) (min_value_location e))
        0 (ih im) 0 (fun _ => iw im) (iw im)
        (fun y x e =>
      p <- get_pixel im x y ;;
      let e := if lt p (min_value e) then mkExtremes (max_value e) p (max_value_location e) (x, y) else e in
      let e := if lt (max_value e) p then mkExtremes p (min_value e) (x, y) (min_value_location e) else e in
      Ok e) s) as (e & E & Q1 & Q2) end; try lia.
    - pose proof (RG _ _ _ E0) as (_ & _ & D0).
      assert (B : forall ltb : T -> T -> bool, ltb p0 p0 = false -> Q ltb 0 0 p0 (0, 0)).
      { intros ltb I. split; [exact E0|]. split; [now left|]. intros x y v' Hs G. pose proof (RG _ _ _ G).
        assert (x = 0 /\ y = 0) as [-> ->] by (unfold seen in Hs; lia). assert (v' = p0) by congruence. subst v'. split; [exact I|]. now left. }
      split; apply B; now apply irr.
    - intros x y e Hx Hy [Q1 Q2]. destruct (get_some im x y W Hx Hy) as (p & Ep). rewrite (proj2 (get_pixel_ok im x y p) Ep). cbn [bind].
      eexists. split; [reflexivity|]. pose proof (STEP lt x y _ _ p irr trans weak Ep Q1) as S1.
      assert (weak' : forall a b c : T, D a -> D b -> D c -> lt c a = true -> lt c b = false -> lt b a = true).
      { intros a b c Da Db Dc H1 H2. destruct (lt b a) eqn:H3; [reflexivity|].
        pose proof (weak c b a Dc Db Da H1 H3). congruence. }
      pose proof (STEP (fun a b => lt b a) x y _ _ p irr (fun a b c Da Db Dc H1 H2 => trans c b a Dc Db Da H2 H1) weak' Ep Q2) as S2. cbv beta in S2.
      cbv zeta. destruct (lt p (min_value e)); cbn [max_value max_value_location];
        destruct (lt (max_value e) p); cbn [max_value max_value_location min_value min_value_location]; split; auto.
    - intros y e Hy [Q1 Q2]. assert (R : forall ltb v p, Q ltb (iw im) y v p -> Q ltb 0 (y + 1) v p).
      { intros ltb v p (G & L & H). pose proof (RG _ _ _ G). split; [exact G|]. split; [destruct L as [L|L]; [now left|right; lia]|].
        intros x' y' v' Hs G'. apply H; auto. pose proof (RG _ _ _ G'). unfold seen in *. lia. }
      split; now apply R.
    - exists e. split; [exact E|]. assert (R : forall ltb v p, Q ltb 0 (ih im) v p -> first_largest reads_before ltb im v p).
      { intros ltb v p (G & L & H). split; [exact G|]. intros x y v' G'. apply H; auto. pose proof (RG _ _ _ G'). unfold seen. lia. }
      split; now apply R.
  Qed.
End Extremes.
