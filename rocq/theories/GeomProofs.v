From Verif Require Import Base BaseProofs ComposeModel ComposeProofs GeomModel GeomSpec.
Ltac Zify.zify_post_hook ::= Z.div_mod_to_equations.

Lemma wf_new {A} w h (a : A) : 0 <= w -> 0 <= h -> wf (new_image w h a).
Proof. intros; apply wf_gen; auto. Qed.
Lemma iw_new {A} w h (a : A) : iw (new_image w h a) = w.
Proof. reflexivity. Qed.
Lemma ih_new {A} w h (a : A) : ih (new_image w h a) = h.
Proof. reflexivity. Qed.

(** a raster loop that copies every input pixel to a target position, when the
    targets are pairwise distinct *)
Lemma scatter {A} (im : image A) (out0 : image A) (tx ty : Z -> Z -> Z) :
  wf im -> wf out0 ->
  (forall x y, 0 <= x < iw im -> 0 <= y < ih im ->
     0 <= tx x y < iw out0 /\ 0 <= ty x y < ih out0) ->
  (forall x y x' y', 0 <= x < iw im -> 0 <= y < ih im -> 0 <= x' < iw im -> 0 <= y' < ih im ->
     tx x y = tx x' y' -> ty x y = ty x' y' -> x = x' /\ y = y') ->
  exists out,
    for_range 0 (ih im) (fun y s =>
      for_range 0 (iw im) (fun x s =>
        p <- get_pixel im x y ;; put_pixel s (tx x y) (ty x y) p) s) out0 = Ok out /\
    wf out /\ iw out = iw out0 /\ ih out = ih out0 /\
    (forall x y, 0 <= x < iw im -> 0 <= y < ih im -> get out (tx x y) (ty x y) = get im x y).
Proof.
  intros Wi Wo Hb Hinj. pose proof Wi as (Hw & Hh & _).
  destruct (raster_ind (fun x y (s : image A) => wf s /\ iw s = iw out0 /\ ih s = ih out0 /\
     forall u v, 0 <= u < iw im -> 0 <= v < ih im -> (v < y \/ (v = y /\ u < x)) ->
       get s (tx u v) (ty u v) = get im u v)
     0 (ih im) 0 (fun _ => iw im) (iw im)
     (fun y x s => p <- get_pixel im x y ;; put_pixel s (tx x y) (ty x y) p) out0)
   as (out & Eo & (Hwo & Ewo & Eho & Ho)); auto.
  - splits; auto. intros; lia.
  - intros x y s Hx Hy (Ws & Ew & Eh & G).
    destruct (get_some im x y Wi) as (p & Ep); try lia.
    rewrite (proj2 (get_pixel_ok _ _ _ _) Ep). cbn [bind].
    destruct (Hb x y) as (B1 & B2); try lia.
    rewrite put_pixel_ok by lia. eexists; split; [reflexivity|].
    splits; auto using wf_put.
    intros u v Hu Hv Huv. rewrite get_put by (auto; lia).
    destruct ((tx u v =? tx x y) && (ty u v =? ty x y)) eqn:E.
    + destruct (Hinj u v x y) as (-> & ->); auto; lia.
    + apply G; auto. destruct (Z.eq_dec u x); destruct (Z.eq_dec v y); subst; lia.
  - intros y s Hy (Ws & Ew & Eh & G). splits; auto. intros; apply G; auto; lia.
  - exists out; splits; auto. intros; apply Ho; auto; lia.
Qed.

Lemma rotate90_correct {A} (zero : A) (im : image A) :
  wf im -> exists out, rotate90 zero im = Ok out /\ quarter_turn im out.
Proof.
  intros Wi. pose proof Wi as (Hw & Hh & _).
  destruct (scatter im (new_image (ih im) (iw im) zero) (fun x y => ih im - y - 1) (fun x y => x))
    as (out & E & W & Ew & Eh & G); auto using wf_new; rewrite ?iw_new, ?ih_new in *; try (intros; lia).
  exists out; split; [exact E|]. unfold quarter_turn; splits; auto.
  intros x y Hx Hy. rewrite <- (G x y) by auto. f_equal; lia.
Qed.

Lemma rotate270_correct {A} (zero : A) (im : image A) :
  wf im -> exists out, rotate270 zero im = Ok out /\ quarter_turn_ccw im out.
Proof.
  intros Wi. pose proof Wi as (Hw & Hh & _).
  destruct (scatter im (new_image (ih im) (iw im) zero) (fun x y => y) (fun x y => iw im - x - 1))
    as (out & E & W & Ew & Eh & G); auto using wf_new; rewrite ?iw_new, ?ih_new in *; try (intros; lia).
  exists out; split; [exact E|]. unfold quarter_turn_ccw; splits; auto.
  intros x y Hx Hy. rewrite <- (G x y) by auto. f_equal; lia.
Qed.

Lemma rotate180_correct {A} (im : image A) :
  wf im -> exists out, rotate180 im = Ok out /\ half_turn im out.
Proof.
  intros Wi. pose proof Wi as (Hw & Hh & _).
  unfold rotate180, rotate180_mut. cbv zeta.
  set (w := iw im) in *. set (h := ih im) in *.
  destruct (raster_ind (fun x y (s : image A) => wf s /\ iw s = w /\ ih s = h /\
     forall u v, 0 <= u < w -> 0 <= v < h ->
       get s u v = if (v <? y) || (h - y <=? v) || ((v =? y) && (u <? x)) || ((v =? h - y - 1) && (w - x <=? u))
                   then get im (w - 1 - u) (h - 1 - v) else get im u v)
     0 (h / 2) 0 (fun _ => w) w
     (fun y x s => swap_px s x y (w - x - 1) (h - y - 1)) im)
    as (s1 & E1 & (W1 & Ew1 & Eh1 & G1)); auto; try lia.
  - splits; auto. intros u v Hu Hv. ifs; get_eq.
  - intros x y s Hx Hy (Ws & Ew & Eh & G).
    destruct (swap_px_ok s x y (w - x - 1) (h - y - 1)) as (s' & E' & W' & Ew' & Eh' & G'); try lia; auto.
    exists s'; split; auto. splits; try lia; auto.
    intros u v Hu Hv. rewrite G'.
    destruct (((u =? w - x - 1) && (v =? h - y - 1))) eqn:F1.
    { rewrite G by lia. ifs; get_eq. }
    destruct (((u =? x) && (v =? y))) eqn:F2.
    { rewrite G by lia. ifs; get_eq. }
    rewrite G by lia. ifs; get_eq.
  - intros y s Hy (Ws & Ew & Eh & G). splits; auto.
    intros u v Hu Hv. rewrite G by auto. ifs; get_eq.
  - rewrite E1. cbn [bind].
    destruct (negb (h mod 2 =? 0)) eqn:Eodd.
    + destruct (for_range_ind (fun x (s : image A) => wf s /\ iw s = w /\ ih s = h /\
        forall u v, 0 <= u < w -> 0 <= v < h ->
          get s u v = if negb (v =? h / 2) || (u <? x) || (w - x <=? u)
                   then get im (w - 1 - u) (h - 1 - v) else get im u v) 0 (w / 2)
          (fun x s => swap_px s x (h / 2) (w - x - 1) (h / 2)) s1)
        as (s2 & E2 & (W2 & Ew2 & Eh2 & G2)); try lia.
      * splits; auto. intros u v Hu Hv. rewrite G1 by auto. ifs; get_eq.
      * intros x s Hx (Ws & Ew & Eh & G).
        destruct (swap_px_ok s x (h / 2) (w - x - 1) (h / 2)) as (s' & E' & W' & Ew' & Eh' & G'); try lia; auto.
        exists s'; split; auto. splits; try lia; auto.
        intros u v Hu Hv. rewrite G'.
        destruct (((u =? w - x - 1) && (v =? h / 2))) eqn:F1.
        { rewrite G by lia. ifs; get_eq. }
        destruct (((u =? x) && (v =? h / 2))) eqn:F2.
        { rewrite G by lia. ifs; get_eq. }
        rewrite G by lia. ifs; get_eq.
      * exists s2; split; [exact E2|]. unfold half_turn; splits; auto. fold w h.
        intros x y Hx Hy. rewrite G2 by lia. ifs; get_eq.
    + exists s1; split; [reflexivity|]. unfold half_turn; splits; auto. fold w h.
      intros x y Hx Hy. rewrite G1 by lia. ifs; get_eq.
Qed.

(** pixel characterisations in "output coordinate" form *)
Lemma quarter_turn_get {A} (im out : image A) x y :
  quarter_turn im out -> 0 <= x < iw out -> 0 <= y < ih out ->
  get out x y = get im y (ih im - 1 - x).
Proof.
  intros (W & Ew & Eh & G) Hx Hy. rewrite <- (G y (ih im - 1 - x)) by lia. f_equal; lia.
Qed.
Lemma quarter_turn_ccw_get {A} (im out : image A) x y :
  quarter_turn_ccw im out -> 0 <= x < iw out -> 0 <= y < ih out ->
  get out x y = get im (iw im - 1 - y) x.
Proof.
  intros (W & Ew & Eh & G) Hx Hy. rewrite <- (G (iw im - 1 - y) x) by lia. f_equal; lia.
Qed.
Lemma half_turn_get {A} (im out : image A) x y :
  half_turn im out -> 0 <= x < iw out -> 0 <= y < ih out ->
  get out x y = get im (iw im - 1 - x) (ih im - 1 - y).
Proof.
  intros (W & Ew & Eh & G) Hx Hy. rewrite <- (G (iw im - 1 - x) (ih im - 1 - y)) by lia. f_equal; lia.
Qed.

Ltac run90 H o := let E := fresh "E" in let Q := fresh "Q" in
  destruct (rotate90_correct _ _ H) as (o & E & Q); rewrite E; cbn [bind].

Lemma rotate90_twice {A} (zero : A) im :
  wf im -> bind (rotate90 zero im) (rotate90 zero) = rotate180 im.
Proof.
  intros W. destruct (rotate90_correct zero im W) as (o1 & E1 & Q1). rewrite E1; cbn [bind].
  pose proof Q1 as (W1 & Ew1 & Eh1 & _).
  destruct (rotate90_correct zero o1 W1) as (o2 & E2 & Q2). rewrite E2.
  pose proof Q2 as (W2 & Ew2 & Eh2 & _).
  destruct (rotate180_correct im W) as (o3 & E3 & Q3). rewrite E3.
  pose proof Q3 as (W3 & Ew3 & Eh3 & _).
  f_equal. apply image_ext; auto; try lia.
  intros x y Hx Hy. rewrite (quarter_turn_get o1 o2) by (auto; lia).
  rewrite (quarter_turn_get im o1) by (auto; lia). rewrite (half_turn_get im o3) by (auto; lia).
  f_equal; lia.
Qed.

Lemma rotate270_after_90 {A} (zero : A) im :
  wf im -> bind (rotate90 zero im) (rotate270 zero) = Ok im.
Proof.
  intros W. destruct (rotate90_correct zero im W) as (o1 & E1 & Q1). rewrite E1; cbn [bind].
  pose proof Q1 as (W1 & Ew1 & Eh1 & _).
  destruct (rotate270_correct zero o1 W1) as (o2 & E2 & Q2). rewrite E2.
  pose proof Q2 as (W2 & Ew2 & Eh2 & _).
  f_equal. apply image_ext; auto; try lia.
  intros x y Hx Hy. rewrite (quarter_turn_ccw_get o1 o2) by (auto; lia).
  rewrite (quarter_turn_get im o1) by (auto; lia). f_equal; lia.
Qed.

Lemma rotate90_after_270 {A} (zero : A) im :
  wf im -> bind (rotate270 zero im) (rotate90 zero) = Ok im.
Proof.
  intros W. destruct (rotate270_correct zero im W) as (o1 & E1 & Q1). rewrite E1; cbn [bind].
  pose proof Q1 as (W1 & Ew1 & Eh1 & _).
  destruct (rotate90_correct zero o1 W1) as (o2 & E2 & Q2). rewrite E2.
  pose proof Q2 as (W2 & Ew2 & Eh2 & _).
  f_equal. apply image_ext; auto; try lia.
  intros x y Hx Hy. rewrite (quarter_turn_get o1 o2) by (auto; lia).
  rewrite (quarter_turn_ccw_get im o1) by (auto; lia). f_equal; lia.
Qed.

Lemma rotate180_twice {A} (im : image A) :
  wf im -> bind (rotate180 im) rotate180 = Ok im.
Proof.
  intros W. destruct (rotate180_correct im W) as (o1 & E1 & Q1). rewrite E1; cbn [bind].
  pose proof Q1 as (W1 & Ew1 & Eh1 & _).
  destruct (rotate180_correct o1 W1) as (o2 & E2 & Q2). rewrite E2.
  pose proof Q2 as (W2 & Ew2 & Eh2 & _).
  f_equal. apply image_ext; auto; try lia.
  intros x y Hx Hy. rewrite (half_turn_get o1 o2) by (auto; lia).
  rewrite (half_turn_get im o1) by (auto; lia). f_equal; lia.
Qed.

Lemma rotate90_four {A} (zero : A) im :
  wf im ->
  (a <- rotate90 zero im ;; b <- rotate90 zero a ;; c <- rotate90 zero b ;; rotate90 zero c) = Ok im.
Proof.
  intros W.
  destruct (rotate90_correct zero im W) as (o1 & E1 & (W1 & _)).
  destruct (rotate90_correct zero o1 W1) as (o2 & E2 & (W2 & _)).
  rewrite E1; cbn [bind]; rewrite E2; cbn [bind].
  rewrite rotate90_twice by auto.
  pose proof (rotate90_twice zero im W) as H. rewrite E1 in H; cbn [bind] in H. rewrite E2 in H.
  pose proof (rotate180_twice im W) as H2. rewrite <- H in H2. exact H2.
Qed.

(** *** translate *)
Lemma znth_firstn {A} (l : list A) n i :
  i < Z.of_nat n -> znth (firstn n l) i = znth l i.
Proof.
  unfold znth. destruct (0 <=? i) eqn:E; auto. intros H.
  rewrite <- (firstn_skipn n l) at 2.
  destruct (Nat.lt_ge_cases (Z.to_nat i) (length (firstn n l))) as [Hl|Hl].
  - rewrite nth_error_app1; auto.
  - rewrite firstn_length in Hl.
    assert (nth_error (firstn n l) (Z.to_nat i) = None) as ->
      by (apply nth_error_None; rewrite firstn_length; lia).
    symmetry; apply nth_error_None. rewrite firstn_skipn. lia.
Qed.

Lemma znth_skipn {A} (l : list A) n i : 0 <= i -> znth (skipn n l) i = znth l (i + Z.of_nat n).
Proof.
  intros H. unfold znth. destruct (0 <=? i) eqn:E; [|lia]. destruct (0 <=? i + Z.of_nat n) eqn:E2; [|lia].
  replace (Z.to_nat (i + Z.of_nat n)) with (n + Z.to_nat i)%nat by lia.
  clear. revert l; induction n as [|n IH]; intros l; [reflexivity|].
  destruct l as [|a l]; [destruct (Z.to_nat i); reflexivity|]. simpl. apply IH.
Qed.

Lemma zlen_firstn {A} (l : list A) n : 0 <= n <= zlen l -> zlen (firstn (Z.to_nat n) l) = n.
Proof. unfold zlen; intros H. rewrite firstn_length. lia. Qed.
Lemma zlen_skipn {A} (l : list A) n : 0 <= n <= zlen l -> zlen (skipn (Z.to_nat n) l) = zlen l - n.
Proof. unfold zlen; intros H. rewrite skipn_length. lia. Qed.

Lemma copy_slice_ok {A} (dst src : list A) doff soff len :
  0 <= doff -> 0 <= soff -> 0 <= len -> doff + len <= zlen dst -> soff + len <= zlen src ->
  exists d, copy_slice dst doff src soff len = Ok d /\ zlen d = zlen dst /\
    forall i, znth d i = if (doff <=? i) && (i <? doff + len) then znth src (soff + (i - doff)) else znth dst i.
Proof.
  intros H1 H2 H3 H4 H5. unfold copy_slice.
  destruct ((0 <=? doff) && (0 <=? soff) && (0 <=? len) && (doff + len <=? zlen dst) && (soff + len <=? zlen src)) eqn:E; [|lia].
  eexists; split; [reflexivity|].
  assert (L1 : zlen (firstn (Z.to_nat doff) dst) = doff) by (apply zlen_firstn; lia).
  assert (L2 : zlen (firstn (Z.to_nat len) (skipn (Z.to_nat soff) src)) = len)
    by (apply zlen_firstn; rewrite zlen_skipn; lia).
  split.
  - rewrite !zlen_app, L1, L2, zlen_skipn by lia. lia.
  - intros i. destruct (Z_lt_dec i doff) as [Hi|Hi].
    + rewrite znth_app_l by lia. rewrite znth_firstn by lia.
      destruct ((doff <=? i) && (i <? doff + len)) eqn:F; auto; lia.
    + rewrite znth_app_r by lia. rewrite L1.
      destruct (Z_lt_dec i (doff + len)) as [Hi2|Hi2].
      * rewrite znth_app_l by lia. rewrite znth_firstn by lia. rewrite znth_skipn by lia.
        destruct ((doff <=? i) && (i <? doff + len)) eqn:F; [f_equal; lia|lia].
      * rewrite znth_app_r by lia. rewrite L2. rewrite znth_skipn by lia.
        destruct ((doff <=? i) && (i <? doff + len)) eqn:F; [lia|f_equal; lia].
Qed.

Lemma as_i32_small z : 0 <= z < 2 ^ 31 -> as_i32 z = z.
Proof. intros H; unfold as_i32. rewrite Z.mod_small; lia. Qed.

Lemma get_wf_nth {A} (im : image A) x y :
  0 <= x < iw im -> 0 <= y < ih im -> get im x y = znth (idata im) (y * iw im + x).
Proof. intros Hx Hy; unfold get. rewrite (proj2 (inb_spec im x y)); auto. Qed.

(** writing one pixel value to a horizontal run *)
Lemma fill_run {A} (s0 : image A) y lo hi p :
  wf s0 -> 0 <= y < ih s0 -> 0 <= lo -> lo <= hi <= iw s0 ->
  exists s, for_range lo hi (fun x s => put_pixel s x y p) s0 = Ok s /\
    wf s /\ iw s = iw s0 /\ ih s = ih s0 /\
    forall u v, get s u v = if (lo <=? u) && (u <? hi) && (v =? y) then Some p else get s0 u v.
Proof.
  intros W Hy Hlo Hhi.
  destruct (for_range_ind (fun x (s : image A) => wf s /\ iw s = iw s0 /\ ih s = ih s0 /\
    forall u v, get s u v = if (lo <=? u) && (u <? x) && (v =? y) then Some p else get s0 u v)
    lo hi (fun x s => put_pixel s x y p) s0) as (s & E & Hs); try lia.
  - splits; auto. intros; ifs; get_eq.
  - intros x s Hx (Ws & Ew & Eh & G). rewrite put_pixel_ok by lia. eexists; split; [reflexivity|].
    splits; auto using wf_put. intros u v. rewrite get_put by (auto; lia). rewrite G. ifs; get_eq.
  - exists s; auto.
Qed.

(** copying a horizontal run of pixels of [im] into row y of [s0] *)
Lemma copy_run {A} (s0 im : image A) y x0 yi xi len :
  wf s0 -> wf im -> 0 <= y < ih s0 -> 0 <= x0 -> 0 <= len -> x0 + len <= iw s0 ->
  0 <= yi < ih im -> 0 <= xi -> xi + len <= iw im ->
  exists d, copy_slice (idata s0) (y * iw s0 + x0) (idata im) (yi * iw im + xi) len = Ok d /\
    wf (mkImage (iw s0) (ih s0) d) /\
    forall u v, get (mkImage (iw s0) (ih s0) d) u v =
      if (x0 <=? u) && (u <? x0 + len) && (v =? y) then get im (xi + (u - x0)) yi else get s0 u v.
Proof.
  intros (W1 & W2 & W3) (V1 & V2 & V3) Hy Hx0 Hl Hxl Hyi Hxi Hxil.
  destruct (copy_slice_ok (idata s0) (idata im) (y * iw s0 + x0) (yi * iw im + xi) len)
    as (d & E & L & N); try nia.
  exists d; split; auto. split; [unfold wf; simpl; lia|].
  intros u v. unfold get at 1. unfold inb; simpl. fold (inb s0 u v).
  destruct (inb s0 u v) eqn:Eb.
  - apply inb_spec in Eb. rewrite N.
    destruct ((x0 <=? u) && (u <? x0 + len) && (v =? y)) eqn:F.
    + assert (v = y) by lia; subst v.
      destruct ((y * iw s0 + x0 <=? y * iw s0 + u) && (y * iw s0 + u <? y * iw s0 + x0 + len)) eqn:F2; [|lia].
      rewrite get_wf_nth by lia. f_equal; lia.
    + destruct ((y * iw s0 + x0 <=? v * iw s0 + u) && (v * iw s0 + u <? y * iw s0 + x0 + len)) eqn:F2.
      * exfalso. assert (v = y) by nia. subst; lia.
      * rewrite get_wf_nth by lia. reflexivity.
  - apply inb_false in Eb.
    destruct ((x0 <=? u) && (u <? x0 + len) && (v =? y)) eqn:F; [lia|].
    symmetry; apply get_none; auto.
Qed.

Lemma translate_correct {A} (zero : A) (im : image A) tx ty :
  wf im -> 0 < iw im < 2 ^ 31 -> ih im < 2 ^ 31 ->
  is_i32 tx -> is_i32 ty -> ih im - 1 - ty < 2 ^ 31 ->
  exists out, translate zero im tx ty = Ok out /\ shifted im out tx ty.
Proof.
  intros Wi Hw Hh Htx Hty Hov. pose proof Wi as (_ & Hh0 & _).
  unfold translate. cbv zeta. rewrite (as_i32_small (iw im)) by lia. rewrite (as_i32_small (ih im)) by lia.
  set (w := iw im) in *. set (h := ih im) in *.
  match goal with |- context [for_range 0 h ?b ?st] =>
  destruct (for_range_ind (fun y (s : image A) => wf s /\ iw s = w /\ ih s = h /\
    forall u v, 0 <= u < w -> 0 <= v < y ->
      get s u v = get im (zclamp 0 (w - 1) (u - tx)) (zclamp 0 (h - 1) (v - ty))) 0 h b st)
    as (out & E & (Wo & Ew & Eh & G)) end; auto.
  - splits; auto using wf_new; try (apply wf_new; lia). intros; lia.
  - intros y s Hy (Ws & Ew & Eh & G).
    unfold is_i32 in *. rewrite as_i32_small by lia. unfold chk_i, i_fits.
    destruct ((- 2 ^ (32 - 1) <=? y - ty) && (y - ty <? 2 ^ (32 - 1))) eqn:F1; [|lia]. cbn [bind].
    destruct ((- 2 ^ (32 - 1) <=? h - 1) && (h - 1 <? 2 ^ (32 - 1))) eqn:F2; [|lia]. cbn [bind].
    set (yi := Z.max 0 (Z.min (y - ty) (h - 1))).
    assert (Hyi : 0 <= yi < h) by lia.
    assert (Eyi : zclamp 0 (h - 1) (y - ty) = yi) by (unfold zclamp; lia).
    destruct (0 <? tx) eqn:F3.
    + destruct (get_some im 0 yi Wi) as (p & Ep); try lia.
      rewrite (proj2 (get_pixel_ok _ _ _ _) Ep). cbn [bind].
      destruct (fill_run s y 0 (Z.min tx w) p) as (s1 & E1 & W1 & Ew1 & Eh1 & G1); auto; try lia.
      rewrite E1. cbn [bind].
      destruct (tx <? w) eqn:F4.
      * destruct (copy_run s1 im y tx yi 0 (w - tx)) as (d & Ed & Wd & Gd); auto; try (fold w h; lia).
        fold w in Ed. replace (yi * w + 0) with (yi * w) in Ed by lia.
        rewrite Ew1, Ew in Ed. rewrite Ed. cbn [bind].
        eexists; split; [reflexivity|]. splits; auto; simpl; try lia.
        intros u v Hu Hv. rewrite Gd.
        destruct (Z.eq_dec v y) as [->|Hvy].
        -- rewrite Eyi. destruct ((tx <=? u) && (u <? tx + (w - tx)) && (y =? y)) eqn:F5.
           ++ f_equal; unfold zclamp; lia.
           ++ rewrite G1. destruct ((0 <=? u) && (u <? Z.min tx w) && (y =? y)) eqn:F6; [|lia].
              rewrite <- Ep. f_equal; unfold zclamp; lia.
        -- destruct ((tx <=? u) && (u <? tx + (w - tx)) && (v =? y)) eqn:F5; [lia|].
           rewrite G1. destruct ((0 <=? u) && (u <? Z.min tx w) && (v =? y)) eqn:F6; [lia|].
           apply G; lia.
      * exists s1; split; auto. splits; auto; try lia.
        intros u v Hu Hv. rewrite G1.
        destruct (Z.eq_dec v y) as [->|Hvy].
        -- rewrite Eyi. destruct ((0 <=? u) && (u <? Z.min tx w) && (y =? y)) eqn:F6; [|lia].
           rewrite <- Ep. f_equal; unfold zclamp; lia.
        -- destruct ((0 <=? u) && (u <? Z.min tx w) && (v =? y)) eqn:F6; [lia|]. apply G; lia.
    + unfold chk_u, u_fits.
      destruct ((0 <=? w - 1) && (w - 1 <? 2 ^ 32)) eqn:F4; [|lia]. cbn [bind].
      destruct (get_some im (w - 1) yi Wi) as (p & Ep); try (fold w h; lia).
      rewrite (proj2 (get_pixel_ok _ _ _ _) Ep). cbn [bind].
      destruct ((- 2 ^ (32 - 1) <=? w + tx) && (w + tx <? 2 ^ (32 - 1))) eqn:F5; [|lia]. cbn [bind].
      destruct (fill_run s y (Z.max (w + tx) 0) w p) as (s1 & E1 & W1 & Ew1 & Eh1 & G1); auto; try lia.
      rewrite E1. cbn [bind].
      destruct (0 <? w + tx) eqn:F6.
      * destruct (copy_run s1 im y 0 yi (- tx) (w + tx)) as (d & Ed & Wd & Gd); auto; try (fold w h; lia).
        fold w in Ed. replace (Z.abs tx) with (- tx) by lia.
        rewrite Ew1, Ew in Ed. replace (y * w + 0) with (y * w) in Ed by lia. rewrite Ed. cbn [bind].
        eexists; split; [reflexivity|]. splits; auto; simpl; try lia.
        intros u v Hu Hv. rewrite Gd.
        destruct (Z.eq_dec v y) as [->|Hvy].
        -- rewrite Eyi. destruct ((0 <=? u) && (u <? 0 + (w + tx)) && (y =? y)) eqn:F7.
           ++ f_equal; unfold zclamp; lia.
           ++ rewrite G1. destruct ((Z.max (w + tx) 0 <=? u) && (u <? w) && (y =? y)) eqn:F8; [|lia].
              rewrite <- Ep. f_equal; unfold zclamp; lia.
        -- destruct ((0 <=? u) && (u <? 0 + (w + tx)) && (v =? y)) eqn:F7; [lia|].
           rewrite G1. destruct ((Z.max (w + tx) 0 <=? u) && (u <? w) && (v =? y)) eqn:F8; [lia|].
           apply G; lia.
      * exists s1; split; auto. splits; auto; try lia.
        intros u v Hu Hv. rewrite G1.
        destruct (Z.eq_dec v y) as [->|Hvy].
        -- rewrite Eyi. destruct ((Z.max (w + tx) 0 <=? u) && (u <? w) && (y =? y)) eqn:F8; [|lia].
           rewrite <- Ep. f_equal; unfold zclamp; lia.
        -- destruct ((Z.max (w + tx) 0 <=? u) && (u <? w) && (v =? y)) eqn:F8; [lia|]. apply G; lia.
  - exists out; split; [exact E|]. unfold shifted; splits; auto.
Qed.
