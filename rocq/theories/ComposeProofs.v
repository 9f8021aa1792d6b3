From Verif Require Import Base BaseProofs ComposeModel ComposeSpec.
Ltac Zify.zify_post_hook ::= Z.div_mod_to_equations.

Lemma swap_px_ok {A} (im : image A) x y x' y' :
  wf im -> 0 <= x < iw im -> 0 <= y < ih im -> 0 <= x' < iw im -> 0 <= y' < ih im ->
  exists im', swap_px im x y x' y' = Ok im' /\ wf im' /\ iw im' = iw im /\ ih im' = ih im /\
    forall u v, get im' u v =
      if (u =? x') && (v =? y') then get im x y
      else if (u =? x) && (v =? y) then get im x' y' else get im u v.
Proof.
  intros Hwf Hx Hy Hx' Hy'.
  destruct (get_some im x y Hwf Hx Hy) as (p & Ep).
  destruct (get_some im x' y' Hwf Hx' Hy') as (q & Eq).
  unfold swap_px. rewrite (proj2 (get_pixel_ok _ _ _ _) Ep). cbn [bind].
  rewrite (proj2 (get_pixel_ok _ _ _ _) Eq). cbn [bind].
  rewrite put_pixel_ok by auto. cbn [bind]. rewrite put_pixel_ok by auto.
  eexists; split; [reflexivity|].
  split; [apply wf_put, wf_put; auto|]. split; [reflexivity|]. split; [reflexivity|].
  intros u v. rewrite get_put by (auto using wf_put). rewrite get_put by auto.
  rewrite Ep, Eq. reflexivity.
Qed.

(** *** flips *)
Lemma flip_horizontal_correct {A} (im : image A) :
  wf im -> exists out, flip_horizontal im = Ok out /\ mirrored_h im out.
Proof.
  intros Hwf. pose proof Hwf as (Hw & Hh & _).
  unfold flip_horizontal, flip_horizontal_mut.
  destruct (raster_ind (fun x y (s : image A) => wf s /\ iw s = iw im /\ ih s = ih im /\
     forall u v, 0 <= u < iw im -> 0 <= v < ih im ->
       get s u v = if (v <? y) || ((v =? y) && ((u <? x) || (iw im - x <=? u)))
                   then get im (iw im - 1 - u) v else get im u v)
     0 (ih im) 0 (fun s => iw s / 2) (iw im / 2)
     (fun y x s => let flipped_x := iw s - x - 1 in swap_px s x y flipped_x y) im)
    as (out & Eo & (Hwo & Ewo & Eho & Ho)).
  - auto.
  - lia.
  - splits; auto. intros u v Hu Hv. ifs; get_eq.
  - intros x y s (_ & -> & _); reflexivity.
  - intros x y s Hx Hy (Hs & Ew & Eh & G). cbv zeta.
    destruct (swap_px_ok s x y (iw s - x - 1) y) as (s' & E' & W' & Ew' & Eh' & G'); try lia; auto.
    exists s'; split; auto. splits; try lia; auto.
    intros u v Hu Hv. rewrite G'.
    destruct (((u =? iw s - x - 1) && (v =? y))) eqn:E1.
    { rewrite G by lia. ifs; get_eq. }
    destruct (((u =? x) && (v =? y))) eqn:E2.
    { rewrite G by lia. ifs; get_eq. }
    rewrite G by lia. ifs; get_eq.
  - intros y s Hy (Hs & Ew & Eh & G). splits; auto.
    intros u v Hu Hv. rewrite G by auto. ifs; get_eq.
  - exists out; split; [exact Eo|]. split; [auto|]. split; [split; auto|].
    intros x y Hx Hy. rewrite Ho by auto. ifs; get_eq.
Qed.

Lemma flip_vertical_correct {A} (im : image A) :
  wf im -> exists out, flip_vertical im = Ok out /\ mirrored_v im out.
Proof.
  intros Hwf. pose proof Hwf as (Hw & Hh & _).
  unfold flip_vertical, flip_vertical_mut.
  destruct (raster_ind (fun x y (s : image A) => wf s /\ iw s = iw im /\ ih s = ih im /\
     forall u v, 0 <= u < iw im -> 0 <= v < ih im ->
       get s u v = if (v <? y) || (ih im - y <=? v) || (((v =? y) || (v =? ih im - y - 1)) && (u <? x))
                   then get im u (ih im - 1 - v) else get im u v)
     0 (ih im / 2) 0 (fun s => iw s) (iw im)
     (fun y x s => let flipped_y := ih s - y - 1 in swap_px s x y x flipped_y) im)
    as (out & Eo & (Hwo & Ewo & Eho & Ho)).
  - lia.
  - auto.
  - splits; auto. intros u v Hu Hv. ifs; get_eq.
  - intros x y s (_ & -> & _); reflexivity.
  - intros x y s Hx Hy (Hs & Ew & Eh & G). cbv zeta.
    destruct (swap_px_ok s x y x (ih s - y - 1)) as (s' & E' & W' & Ew' & Eh' & G'); try lia; auto.
    exists s'; split; auto. splits; try lia; auto.
    intros u v Hu Hv. rewrite G'.
    destruct (((u =? x) && (v =? ih s - y - 1))) eqn:E1.
    { rewrite G by lia. ifs; get_eq. }
    destruct (((u =? x) && (v =? y))) eqn:E2.
    { rewrite G by lia. ifs; get_eq. }
    rewrite G by lia. ifs; get_eq.
  - intros y s Hy (Hs & Ew & Eh & G). splits; auto.
    intros u v Hu Hv. rewrite G by auto. ifs; get_eq.
  - exists out; split; [exact Eo|]. split; [auto|]. split; [split; auto|].
    intros x y Hx Hy. rewrite Ho by auto. ifs; get_eq.
Qed.

Lemma flip_horizontal_involutive {A} (im : image A) :
  wf im -> bind (flip_horizontal im) flip_horizontal = Ok im.
Proof.
  intros Hwf. destruct (flip_horizontal_correct im Hwf) as (o1 & E1 & W1 & (Sw1 & Sh1) & G1).
  rewrite E1; cbn [bind].
  destruct (flip_horizontal_correct o1 W1) as (o2 & E2 & W2 & (Sw2 & Sh2) & G2).
  rewrite E2. f_equal. apply image_ext; auto; try congruence.
  intros x y Hx Hy. rewrite G2 by lia. rewrite G1 by lia. f_equal; lia.
Qed.

Lemma flip_vertical_involutive {A} (im : image A) :
  wf im -> bind (flip_vertical im) flip_vertical = Ok im.
Proof.
  intros Hwf. destruct (flip_vertical_correct im Hwf) as (o1 & E1 & W1 & (Sw1 & Sh1) & G1).
  rewrite E1; cbn [bind].
  destruct (flip_vertical_correct o1 W1) as (o2 & E2 & W2 & (Sw2 & Sh2) & G2).
  rewrite E2. f_equal. apply image_ext; auto; try congruence.
  intros x y Hx Hy. rewrite G2 by lia. rewrite G1 by lia. f_equal; lia.
Qed.

(** *** crop *)
Lemma crop_correct {A} (im : image A) rx ry rw rh :
  wf im -> u32_dims im -> 0 <= rx -> 0 <= ry -> 0 <= rw -> 0 <= rh ->
  (rx + rw <= iw im /\ ry + rh <= ih im ->
     exists out, crop im rx ry rw rh = Ok out /\ window im out rx ry rw rh) /\
  (~ (rx + rw <= iw im /\ ry + rh <= ih im) -> crop im rx ry rw rh = Panic).
Proof.
  intros Hwf (U1 & U2) H1 H2 H3 H4. unfold crop, chk_u, u_fits, assert. split.
  - intros (Hx & Hy).
    destruct ((0 <=? rx + rw) && (rx + rw <? 2 ^ 32)) eqn:E1; [|lia]. cbn [bind].
    destruct (rx + rw <=? iw im) eqn:E2; [|lia]. cbn [bind].
    destruct ((0 <=? ry + rh) && (ry + rh <? 2 ^ 32)) eqn:E3; [|lia]. cbn [bind].
    destruct (ry + rh <=? ih im) eqn:E4; [|lia]. cbn [bind].
    destruct (Z.eq_dec rw 0) as [->|Hrw].
    { exists (mkImage 0 rh []). split.
      - unfold gen_res. rewrite (mapM_ok _ (fun _ => [])) by (intros; reflexivity). cbn [bind].
        replace (concat (map (fun _ : Z => []) (zrange 0 rh))) with (@nil A); auto.
        induction (zrange 0 rh); simpl; auto.
      - split; [unfold wf, zlen; simpl; lia|]. splits; auto; intros; lia. }
    destruct (Z.eq_dec rh 0) as [->|Hrh].
    { exists (mkImage rw 0 []). split; [reflexivity|].
      split; [unfold wf, zlen; simpl; lia|]. splits; auto; intros; lia. }
    destruct (get_some im rx ry Hwf) as (a0 & _); try lia.
    set (g := fun x y => match get im (rx + x) (ry + y) with Some a => a | None => a0 end).
    exists (gen rw rh g). split.
    + apply gen_res_ok. intros x y Hx' Hy'. apply get_pixel_ok. unfold g.
      destruct (get_some im (rx + x) (ry + y) Hwf) as (a & ->); try lia. reflexivity.
    + split; [apply wf_gen; auto|]. splits; auto.
      intros x y Hx' Hy'. rewrite get_gen_in by auto. unfold g.
      destruct (get_some im (rx + x) (ry + y) Hwf) as (a & ->); try lia. reflexivity.
  - intros Hn.
    destruct ((0 <=? rx + rw) && (rx + rw <? 2 ^ 32)) eqn:E1; [|reflexivity]. cbn [bind].
    destruct (rx + rw <=? iw im) eqn:E2; [|reflexivity]. cbn [bind].
    destruct ((0 <=? ry + rh) && (ry + rh <? 2 ^ 32)) eqn:E3; [|reflexivity]. cbn [bind].
    destruct (ry + rh <=? ih im) eqn:E4; [lia|reflexivity].
Qed.

(** *** replace *)
Lemma replace_panics {A} (bottom top : image A) x y :
  ~ (x < iw bottom /\ y < ih bottom) -> replace bottom top x y = Panic.
Proof.
  intros H; unfold replace, replace_mut, assert.
  destruct (x <? iw bottom) eqn:E1; [|reflexivity]. cbn [bind].
  destruct (y <? ih bottom) eqn:E2; [lia|reflexivity].
Qed.

(** What the code does: as documented, except that the last row and the last
    column of [bottom] are never written. *)
Lemma replace_characterised {A} (bottom top : image A) x y :
  wf bottom -> wf top ->
  0 <= x < iw bottom -> 0 <= y < ih bottom ->
  x + iw top < 2 ^ 32 -> y + ih top < 2 ^ 32 ->
  exists out, replace bottom top x y = Ok out /\ wf out /\ same_size out bottom /\
  forall px py, 0 <= px < iw bottom -> 0 <= py < ih bottom ->
    (covered top x y px py /\ px < iw bottom - 1 /\ py < ih bottom - 1 ->
       get out px py = get top (px - x) (py - y)) /\
    (~ (covered top x y px py /\ px < iw bottom - 1 /\ py < ih bottom - 1) ->
       get out px py = get bottom px py).
Proof.
  intros Wb Wt Hx Hy Ux Uy. pose proof Wt as (Tw & Th & _).
  unfold replace, replace_mut, assert, chk_u, u_fits.
  destruct (x <? iw bottom) eqn:E1; [|lia]. cbn [bind].
  destruct (y <? ih bottom) eqn:E2; [|lia]. cbn [bind].
  destruct ((0 <=? x + iw top) && (x + iw top <? 2 ^ 32)) eqn:E3; [|lia]. cbn [bind].
  destruct ((0 <=? y + ih top) && (y + ih top <? 2 ^ 32)) eqn:E4; [|lia]. cbn [bind]. cbv zeta.
  set (xe := Z.min (iw bottom - 1) (x + iw top)).
  set (ye := Z.min (ih bottom - 1) (y + ih top)).
  assert (Hxe : x <= xe) by lia. assert (Hye : y <= ye) by lia.
  destruct (raster_ind (fun u v (s : image A) => wf s /\ iw s = iw bottom /\ ih s = ih bottom /\
     forall px py, 0 <= px < iw bottom -> 0 <= py < ih bottom ->
       get s px py = if (x <=? px) && (px <? xe) && (y <=? py) && ((py <? v) || ((py =? v) && (px <? u)))
                     then get top (px - x) (py - y) else get bottom px py)
     y ye x (fun _ => xe) xe
     (fun y_bot x_bot s => p <- get_pixel top (x_bot - x) (y_bot - y) ;; put_pixel s x_bot y_bot p) bottom)
    as (out & Eo & (Hwo & Ewo & Eho & Ho)); auto.
  - splits; auto. intros px py Hpx Hpy. ifs; get_eq.
  - intros u v s Hu Hv (Ws & Ew & Eh & G).
    destruct (get_some top (u - x) (v - y) Wt) as (p & Ep); try lia.
    rewrite (proj2 (get_pixel_ok _ _ _ _) Ep). cbn [bind].
    rewrite put_pixel_ok by lia. eexists; split; [reflexivity|].
    split; [apply wf_put; auto|]. split; [auto|]. split; [auto|].
    intros px py Hpx Hpy. rewrite get_put by (auto; lia). rewrite G by auto.
    destruct ((px =? u) && (py =? v)) eqn:E.
    + replace px with u by lia. replace py with v by lia. ifs; try lia. auto.
    + ifs; get_eq.
  - intros v s Hv (Ws & Ew & Eh & G). splits; auto.
    intros px py Hpx Hpy. rewrite G by auto. ifs; get_eq.
  - exists out; split; [exact Eo|]. split; [auto|]. split; [split; auto|].
    intros px py Hpx Hpy. unfold covered. rewrite Ho by auto.
    split; intros H; ifs; get_eq.
Qed.

(** *** overlay *)
Lemma overlay_panics {A} blend (bottom top : image A) x y :
  ~ (x < iw bottom /\ y < ih bottom) -> overlay blend bottom top x y = Panic.
Proof.
  intros H; unfold overlay, overlay_mut, assert.
  destruct (x <? iw bottom) eqn:E1; [|reflexivity]. cbn [bind].
  destruct (y <? ih bottom) eqn:E2; [lia|reflexivity].
Qed.

(** Only the covered pixels (minus last row/column) can change, and each gets
    blended exactly once with *some* pixel; the size is kept. *)
Lemma overlay_frame {A} blend (bottom top : image A) x y :
  wf bottom -> wf top ->
  0 <= x < iw bottom -> 0 <= y < ih bottom ->
  x + iw top < 2 ^ 32 -> y + ih top < 2 ^ 32 ->
  exists out, overlay blend bottom top x y = Ok out /\ wf out /\ same_size out bottom /\
  forall px py b, get bottom px py = Some b ->
    (covered top x y px py /\ px < iw bottom - 1 /\ py < ih bottom - 1 ->
       exists t, get out px py = Some (blend b t)) /\
    (~ (covered top x y px py /\ px < iw bottom - 1 /\ py < ih bottom - 1) ->
       get out px py = Some b).
Proof.
  intros Wb Wt Hx Hy Ux Uy. pose proof Wt as (Tw & Th & _).
  unfold overlay, overlay_mut, assert, chk_u, u_fits.
  destruct (x <? iw bottom) eqn:E1; [|lia]. cbn [bind].
  destruct (y <? ih bottom) eqn:E2; [|lia]. cbn [bind].
  destruct ((0 <=? x + iw top) && (x + iw top <? 2 ^ 32)) eqn:E3; [|lia]. cbn [bind].
  destruct ((0 <=? y + ih top) && (y + ih top <? 2 ^ 32)) eqn:E4; [|lia]. cbn [bind]. cbv zeta.
  set (xe := Z.min (iw bottom - 1) (x + iw top)).
  set (ye := Z.min (ih bottom - 1) (y + ih top)).
  destruct (raster_ind (fun u v (s : image A) => wf s /\ iw s = iw bottom /\ ih s = ih bottom /\
     forall px py b, get bottom px py = Some b ->
       if (x <=? px) && (px <? xe) && (y <=? py) && ((py <? v) || ((py =? v) && (px <? u)))
       then exists t, get s px py = Some (blend b t) else get s px py = Some b)
     y ye x (fun _ => xe) xe
     (fun y_bot x_bot s =>
      bottom_pixel <- get_pixel s x_bot y_bot ;;
      top_pixel <- get_pixel s (x_bot - x) (y_bot - y) ;;
      put_pixel s x_bot y_bot (blend bottom_pixel top_pixel)) bottom)
    as (out & Eo & (Hwo & Ewo & Eho & Ho)); auto; try lia.
  - splits; auto. intros px py b Hb. ifs; auto. lia.
  - intros u v s Hu Hv (Ws & Ew & Eh & G).
    destruct (get_some s u v Ws) as (p & Ep); try lia.
    destruct (get_some s (u - x) (v - y) Ws) as (q & Eq); try lia.
    rewrite (proj2 (get_pixel_ok _ _ _ _) Ep). cbn [bind].
    rewrite (proj2 (get_pixel_ok _ _ _ _) Eq). cbn [bind].
    rewrite put_pixel_ok by lia. eexists; split; [reflexivity|].
    split; [apply wf_put; auto|]. split; [auto|]. split; [auto|].
    intros px py b Hb. specialize (G px py b Hb). rewrite get_put by (auto; lia).
    destruct ((px =? u) && (py =? v)) eqn:E.
    + assert (px = u) by lia. assert (py = v) by lia. subst px py.
      destruct ((x <=? u) && (u <? xe) && (y <=? v) && ((v <? v) || (v =? v) && (u <? u))) eqn:E5; [lia|].
      assert (p = b) by congruence. subst p. ifs; [eauto|lia].
    + ifs; ifs_in G; auto; apply get_inb in Hb; lia.
  - intros v s Hv (Ws & Ew & Eh & G). splits; auto.
    intros px py b Hb. specialize (G px py b Hb). apply get_inb in Hb. ifs; ifs_in G; auto; lia.
  - exists out; split; [exact Eo|]. split; [auto|]. split; [split; auto|].
    intros px py b Hb. specialize (Ho px py b Hb). apply get_inb in Hb. unfold covered.
    split; intros H; ifs_in Ho; auto; lia.
Qed.
