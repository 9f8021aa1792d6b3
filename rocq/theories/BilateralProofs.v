(** Proofs about the bilateral filter. *)
From Verif Require Import Base BaseProofs Float MapProofs SuppressProofs LineProofs TemplateProofs BilateralModel BilateralSpec.
Local Ltac Zify.zify_post_hook ::= idtac.
Open Scope Z_scope.

Lemma lxor_ones w : 0 <= w < 2 ^ 32 -> Z.lxor w (2 ^ 32 - 1) = 2 ^ 32 - 1 - w.
Proof.
  intros H. change (2 ^ 32 - 1) with (Z.ones 32).
  assert (L : Z.log2 w < 32).
  { destruct (Z.eq_dec w 0) as [->|]; [reflexivity|]. apply Z.log2_lt_pow2; lia. }
  rewrite <- Z.ldiff_ones_l_low by (first [exact L | lia]).
  rewrite <- Z.sub_nocarry_ldiff; [reflexivity|]. apply Z.ldiff_ones_r_low; [lia|assumption].
Qed.

Lemma guard_ok im : 0 <= iw im < 2 ^ 32 -> 0 <= ih im < 2 ^ 32 ->
  (supported_size im -> size_guard im = Ok tt) /\ (~ supported_size im -> size_guard im = Panic).
Proof.
  intros Hw Hh. unfold size_guard, supported_size, assert. rewrite !lxor_ones by assumption.
  split; intros H.
  - replace (2 ^ 31 - 1 <? 2 ^ 32 - 1 - iw im) with true by lia.
    replace (2 ^ 31 - 1 <? 2 ^ 32 - 1 - ih im) with true by lia.
    replace (iw im =? 0) with false by lia. replace (ih im =? 0) with false by lia. reflexivity.
  - destruct (Z.ltb_spec (2 ^ 31 - 1) (2 ^ 32 - 1 - iw im)); [|reflexivity]. cbn [bind].
    destruct (Z.ltb_spec (2 ^ 31 - 1) (2 ^ 32 - 1 - ih im)); [|reflexivity]. cbn [bind].
    destruct (Z.eqb_spec (iw im) 0); [reflexivity|]. cbn [bind negb].
    destruct (Z.eqb_spec (ih im) 0); [reflexivity|]. exfalso. apply H. lia.
Qed.

Lemma znth_list_prod {A B} (l : list A) (m : list B) i j a b :
  znth l i = Some a -> znth m j = Some b -> znth (list_prod l m) (i * zlen m + j) = Some (a, b).
Proof.
  revert i; induction l as [|c l IH]; intros i Hi Hj; pose proof (znth_range _ _ _ Hi); pose proof (znth_range _ _ _ Hj).
  - change (zlen (@nil A)) with 0 in *. lia.
  - cbn [list_prod]. destruct (Z.eqb_spec i 0) as [->|].
    + rewrite znth_cons_0 in Hi. inversion Hi; subst. rewrite znth_app_l by (rewrite zlen_map; lia).
      rewrite znth_map. replace (0 * zlen m + j) with j by lia. rewrite Hj. reflexivity.
    + rewrite znth_cons_S in Hi by lia. rewrite znth_app_r by (rewrite zlen_map; nia). rewrite zlen_map.
      replace (i * zlen m + j - zlen m) with ((i - 1) * zlen m + j) by lia. apply IH; assumption.
Qed.

Lemma offsets_window r : offsets r = map (fun '(wy, wx) => (wx, wy)) (window r).
Proof.
  unfold offsets, window.
  assert (K : forall l m : list Z, flat_map (fun dy => map (fun dx => (dx, dy)) m) l = map (fun '(wy, wx) => (wx, wy)) (list_prod l m)).
  { intros l m. induction l as [|a l IH]; [reflexivity|]. cbn [flat_map list_prod]. rewrite IH, map_app, map_map. reflexivity. }
  apply K.
Qed.

Lemma window_in r wy wx : In (wy, wx) (window r) <-> - r <= wy <= r /\ - r <= wx <= r.
Proof. unfold window. rewrite in_prod_iff, !in_zrange. lia. Qed.

Lemma window_nth r wy wx : 0 <= r -> - r <= wy <= r -> - r <= wx <= r ->
  znth (window r) ((2 * r + 1) * (wy + r) + (wx + r)) = Some (wy, wx).
Proof.
  intros Hr Hy Hx. unfold window.
  assert (L : zlen (zrange (- r) (r + 1)) = 2 * r + 1) by (rewrite zlen_zrange; lia).
  replace ((2 * r + 1) * (wy + r) + (wx + r)) with ((wy + r) * zlen (zrange (- r) (r + 1)) + (wx + r)) by (rewrite L; lia).
  apply znth_list_prod; rewrite znth_zrange by lia; f_equal; lia.
Qed.

(** the average *)
Lemma nth_znth (l : list Z) j : 0 <= j < zlen l -> znth l j = Some (nth (Z.to_nat j) l 0).
Proof. intros H. unfold znth. replace (0 <=? j) with true by lia. apply nth_error_nth'. unfold zlen in H. lia. Qed.

Definition terms (e : f32 * list Z) : f32 * list f32 := let '(w, v) := e in (w, map (fun s => fmul w (of_int s)) v).
Definition chan (j : Z) (e : f32 * list Z) : f32 := fmul (fst e) (of_int (nth (Z.to_nat j) (snd e) 0)).

Lemma znth_terms e j : 0 <= j < zlen (snd e) -> znth (snd (terms e)) j = Some (chan j e).
Proof.
  intros H. destruct e as [w v]. cbn [terms snd fst chan] in *. rewrite znth_map, nth_znth by assumption. reflexivity.
Qed.

Lemma average_loop ch (t : list (f32 * list Z)) h :
  (forall e, In e t -> zlen (snd e) = ch) -> zlen (snd h) = ch ->
  exists cs, for_each (map terms t) (fun '(w2, c2) '(w1, c1) =>
            assert (zlen c1 =? zlen c2) ;;;
            Ok (fadd w1 w2, map (fun '(a, b) => fadd a b) (combine c1 c2))) (terms h) =
    Ok (fold_left fadd (map fst t) (fst h), cs) /\ zlen cs = ch /\
    forall j, 0 <= j < ch -> znth cs j = Some (fold_left fadd (map (chan j) t) (chan j h)).
Proof.
  intros Ht Hh.
  destruct (for_each_ind (fun done (s : f32 * list f32) => exists d r, t = d ++ r /\ done = map terms d /\
      fst s = fold_left fadd (map fst d) (fst h) /\ zlen (snd s) = ch /\
      forall j, 0 <= j < ch -> znth (snd s) j = Some (fold_left fadd (map (chan j) d) (chan j h)))
    (map terms t) (fun '(w2, c2) '(w1, c1) =>
            assert (zlen c1 =? zlen c2) ;;;
            Ok (fadd w1 w2, map (fun '(a, b) => fadd a b) (combine c1 c2))) (terms h)) as ((ws & cs) & E & d & r & Et & Ed & K1 & K2 & K3).
  - exists [], t. splits; try reflexivity.
    + destruct h; reflexivity.
    + destruct h as [w v]. cbn [terms snd] in *. rewrite zlen_map. assumption.
    + intros j Hj. apply znth_terms. lia.
  - intros done e rest (w1 & c1) Ed (d & r & Et & Edd & K1 & K2 & K3).
    assert (R : exists e' r', r = e' :: r' /\ e = terms e').
    { destruct r as [|e' r'].
      - exfalso. rewrite Et, app_nil_r, <- Edd in Ed.
        apply (f_equal (@length _)) in Ed. rewrite app_length in Ed. cbn in Ed. lia.
      - exists e', r'. split; [reflexivity|]. rewrite Et, map_app, <- Edd in Ed. cbn [map] in Ed.
        apply app_inv_head in Ed. inversion Ed. reflexivity. }
    destruct R as (e' & r' & -> & ->). cbn [fst snd] in *.
    assert (Le : zlen (snd e') = ch) by (apply Ht; rewrite Et; apply in_or_app; right; left; reflexivity).
    destruct (terms e') as [w2 c2] eqn:T.
    assert (L2 : zlen c2 = ch).
    { destruct e' as [w v]. cbn [terms snd] in *. inversion T. rewrite zlen_map. assumption. }
    assert (W2 : w2 = fst e') by (destruct e' as [w v]; cbn [terms] in T; inversion T; reflexivity).
    unfold assert. rewrite K2, L2, Z.eqb_refl. cbn [bind]. eexists; split; [reflexivity|].
    exists (d ++ [e']), r'. rewrite <- app_assoc. splits.
    + assumption.
    + rewrite map_app. cbn [map]. rewrite T, Edd. reflexivity.
    + cbn [fst]. rewrite map_app, fold_left_app. cbn [map fold_left]. rewrite <- K1, W2. reflexivity.
    + cbn [snd]. rewrite zlen_map. unfold zlen in *. rewrite combine_length. lia.
    + intros j Hj. cbn [snd]. rewrite znth_map, map_app, fold_left_app. cbn [map fold_left].
      assert (Z2 : znth c2 j = Some (chan j e')).
      { replace c2 with (snd (terms e')) by (rewrite T; reflexivity). apply znth_terms. lia. }
      assert (CB : forall (a b : list f32) i x y, znth a i = Some x -> znth b i = Some y -> znth (combine a b) i = Some (x, y)).
      { clear. induction a as [|u a IH]; intros [|v b] i x y Ha Hb; pose proof (znth_range _ _ _ Ha); pose proof (znth_range _ _ _ Hb).
        1, 2: change (zlen (@nil f32)) with 0 in *; lia.
        - change (zlen (@nil f32)) with 0 in *; lia.
        - cbn [combine]. destruct (Z.eqb_spec i 0) as [->|].
          + cbn in Ha, Hb |- *. congruence.
          + rewrite znth_cons_S in Ha, Hb by lia. rewrite znth_cons_S by lia. apply IH; assumption. }
      rewrite (CB _ _ _ _ _ (K3 j Hj) Z2). reflexivity.
  - assert (d = t).
    { apply (f_equal (@length _)) in Ed. rewrite !map_length in Ed.
      destruct r; [rewrite Et, app_nil_r; reflexivity|]. rewrite Et, app_length in Ed. cbn in Ed. lia. }
    subst d. exists cs. cbn [fst snd] in *. rewrite E, K1. auto.
Qed.

Lemma average_ok ch (l : list (f32 * list Z)) : l <> [] -> (forall e, In e l -> zlen (snd e) = ch) ->
  exists q, weighted_average l = Ok q /\ zlen q = ch /\ forall j, 0 <= j < ch -> znth q j = Some (weighted l j).
Proof.
  intros Hl HC. destruct l as [|h t]; [contradiction|]. unfold weighted_average. cbn [map].
  change (map (fun '(w, v) => (w, map (fun s => fmul w (of_int s)) v)) t) with (map terms t).
  destruct h as [hw hv].
  change ((hw, map (fun s => fmul hw (of_int s)) hv)) with (terms (hw, hv)).
  destruct (average_loop ch t (hw, hv)) as (cs & E & L & K).
  - intros e He. apply HC. right; assumption.
  - apply HC. left; reflexivity.
  - rewrite E. cbn [bind]. eexists; split; [reflexivity|]. split; [rewrite zlen_map; assumption|].
    intros j Hj. rewrite znth_map, (K j Hj). reflexivity.
Qed.

Section Pixel.
  Context (fexp : f32 -> f32) (color : list Z -> list Z -> f32) (im : image (list Z)) (radius : Z) (sigma : f32) (ch : Z).
  Hypothesis (W : wf im) (S : supported_size im) (HR : 0 <= radius <= 90).
  Hypothesis (Bw : iw im + radius <= 2 ^ 31) (Bh : ih im + radius <= 2 ^ 31).
  Hypothesis HC : all_px (fun p => zlen p = ch) im.
  Let lookup := map (fun '(w_y, w_x) => gaussian_weight fexp (fadd (sq (of_int w_x)) (sq (of_int w_y))) (sq sigma)) (window radius).

  Lemma lookup_at wy wx : - radius <= wy <= radius -> - radius <= wx <= radius ->
    znth lookup ((2 * radius + 1) * (wy + radius) + (wx + radius)) = Some (spatial fexp sigma wx wy).
  Proof. intros Hy Hx. unfold lookup. rewrite znth_map, window_nth by lia. reflexivity. Qed.

  Lemma pixel_ok x y : 0 <= x < iw im -> 0 <= y < ih im ->
    exists q, bilateral_pixel color im radius lookup x y = Ok q /\
      exists center entries, get im x y = Some center /\ zlen q = zlen center /\
      zlen entries = zlen (offsets radius) /\
      (forall k dx dy, znth (offsets radius) k = Some (dx, dy) -> exists p,
         clamped_get im (x + dx) (y + dy) = Some p /\
         znth entries k = Some (fmul (spatial fexp sigma dx dy) (color center p), p)) /\
      (forall j, 0 <= j < zlen center -> znth q j = Some (weighted entries j)).
  Proof.
    intros Hx Hy. unfold bilateral_pixel. destruct (get_some im x y W Hx Hy) as (c & G).
    rewrite (proj2 (get_pixel_ok im x y c) G). cbn [bind].
    unfold chk_i, i_fits. change (2 ^ (16 - 1)) with 32768. change (2 ^ (32 - 1)) with 2147483648.
    replace ((- (32768) <=? 2 * radius) && (2 * radius <? 32768)) with true by lia. cbn [bind].
    replace ((- (32768) <=? 2 * radius + 1) && (2 * radius + 1 <? 32768)) with true by lia. cbn [bind].
    set (px := fun wx wy => match clamped_get im (x + wx) (y + wy) with Some p => p | None => [] end).
    assert (PX : forall wx wy, clamped_get im (x + wx) (y + wy) = Some (px wx wy) /\ zlen (px wx wy) = ch).
    { intros wx wy. unfold px, clamped_get. destruct S as (S1 & S2).
      destruct (get_some im (Z.max 0 (Z.min (iw im - 1) (x + wx))) (Z.max 0 (Z.min (ih im - 1) (y + wy))) W) as (p & Gp); [lia|lia|].
      rewrite Gp. split; [reflexivity|]. eapply HC; eauto. }
    rewrite (mapM_ok _ (fun '(wy, wx) => (fmul (spatial fexp sigma wx wy) (color c (px wx wy)), px wx wy))).
    2: { intros [wy wx] Hin. apply window_in in Hin. destruct Hin as (Wy & Wx). destruct S as (S1 & S2).
         replace ((- (2147483648) <=? wy + y) && (wy + y <? 2147483648)) with true by lia. cbn [bind].
         replace ((- (2147483648) <=? ih im - 1) && (ih im - 1 <? 2147483648)) with true by lia. cbn [bind].
         replace ((- (2147483648) <=? wx + x) && (wx + x <? 2147483648)) with true by lia. cbn [bind].
         replace ((- (2147483648) <=? iw im - 1) && (iw im - 1 <? 2147483648)) with true by lia. cbn [bind].
         destruct (PX wx wy) as (Gp & _). unfold clamped_get in Gp.
         replace (zclamp 0 (iw im - 1) (wx + x)) with (Z.max 0 (Z.min (iw im - 1) (x + wx))) by (unfold zclamp; lia).
         replace (zclamp 0 (ih im - 1) (wy + y)) with (Z.max 0 (Z.min (ih im - 1) (y + wy))) by (unfold zclamp; lia).
         rewrite (proj2 (get_pixel_ok im _ _ _) Gp). cbn [bind].
         replace ((- (32768) <=? wy + radius) && (wy + radius <? 32768)) with true by lia. cbn [bind].
         assert (B : 0 <= (2 * radius + 1) * (wy + radius) <= 181 * 180) by nia.
         replace ((- (32768) <=? (2 * radius + 1) * (wy + radius)) && ((2 * radius + 1) * (wy + radius) <? 32768)) with true by lia. cbn [bind].
         replace ((- (32768) <=? wx + radius) && (wx + radius <? 32768)) with true by lia. cbn [bind].
         replace ((- (32768) <=? (2 * radius + 1) * (wy + radius) + (wx + radius)) && ((2 * radius + 1) * (wy + radius) + (wx + radius) <? 32768)) with true by lia. cbn [bind].
         rewrite (proj2 (vget_ok lookup _ _) (lookup_at wy wx Wy Wx)). reflexivity. }
    cbn [bind].
    set (entries := map (fun '(wy, wx) => (fmul (spatial fexp sigma wx wy) (color c (px wx wy)), px wx wy)) (window radius)).
    destruct (average_ok ch entries) as (q & Eq & Lq & Kq).
    - intros E. apply map_eq_nil in E. assert (In (0, 0) (window radius)) as K by (apply window_in; lia). rewrite E in K. destruct K.
    - intros e He. apply in_map_iff in He. destruct He as ([wy wx] & <- & _). apply PX.
    - rewrite Eq. assert (Lc : zlen c = ch) by (eapply HC; eauto).
      exists q. split; [reflexivity|]. exists c, entries. rewrite Lc. splits; try assumption.
      + rewrite offsets_window. unfold entries. rewrite !zlen_map. reflexivity.
      + intros k dx dy Hk. rewrite offsets_window, znth_map in Hk.
        destruct (znth (window radius) k) as [[wy wx]|] eqn:Ek; [|discriminate]. cbn in Hk. inversion Hk; subst.
        exists (px dx dy). split; [apply PX|]. unfold entries. rewrite znth_map, Ek. reflexivity.
  Qed.
End Pixel.

Lemma mapM_panic {X Y} (f : X -> res Y) l x : (forall z, In z l -> f z <> Timeout) -> In x l -> f x = Panic -> mapM f l = Panic.
Proof.
  induction l as [|a l IH]; intros HT [] HP.
  - subst. cbn [mapM]. rewrite HP. reflexivity.
  - cbn [mapM]. specialize (HT a (or_introl eq_refl)) as Ha. destruct (f a); [|reflexivity|contradiction].
    cbn [bind]. rewrite IH; auto. intros z Hz. apply HT. right; assumption.
Qed.
Lemma mapM_no_timeout {X Y} (f : X -> res Y) l : (forall z, In z l -> f z <> Timeout) -> mapM f l <> Timeout.
Proof.
  induction l as [|a l IH]; intros HT; [discriminate|]. cbn [mapM].
  specialize (HT a (or_introl eq_refl)) as Ha. destruct (f a); [|discriminate|contradiction]. cbn [bind].
  assert (mapM f l <> Timeout) by (apply IH; intros z Hz; apply HT; right; assumption).
  destruct (mapM f l); cbn [bind]; congruence.
Qed.
