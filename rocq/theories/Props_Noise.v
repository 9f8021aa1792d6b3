(** C69: synthetic noise. *)
From Verif Require Import Base BaseProofs Float ClampModel NoiseModel NoiseSpec RasterProofs.
Local Ltac Zify.zify_post_hook ::= idtac.
Open Scope Z_scope.

(** position of the first draw used by each pixel *)
Lemma salt_loop_spec {P} (white black : P) draw rate ps k0 :
  zlen (salt_and_pepper_loop white black draw rate k0 ps) = zlen ps /\
  exists k : Z -> Z, k 0 = k0 /\ (forall i, 0 <= i -> k0 + i <= k i <= k0 + 2 * i) /\
    forall i p, znth ps i = Some p ->
      k (i + 1) = (if flt rate (draw (k i)) then k i + 1 else k i + 2) /\
      znth (salt_and_pepper_loop white black draw rate k0 ps) i =
        Some (if flt rate (draw (k i)) then p else if fle half (draw (k i + 1)) then white else black).
Proof.
  revert k0; induction ps as [|p ps IH]; intros k0.
  - split; [reflexivity|]. exists (fun i => k0 + i). split; [lia|]. split; [lia|].
    intros i p H. apply znth_range in H. change (zlen (@nil P)) with 0 in H. lia.
  - cbn [salt_and_pepper_loop]. set (b := flt rate (draw k0)).
    set (k1 := if b then k0 + 1 else k0 + 2).
    destruct (IH k1) as (L & k & K0 & KB & K).
    set (v := if b then p else if fle half (draw (k0 + 1)) then white else black).
    assert (E : (if b then p :: salt_and_pepper_loop white black draw rate (k0 + 1) ps
                 else (if fle half (draw (k0 + 1)) then white else black) ::
                   salt_and_pepper_loop white black draw rate (k0 + 2) ps) =
                v :: salt_and_pepper_loop white black draw rate k1 ps).
    { unfold v, k1. destruct b; reflexivity. }
    rewrite E. split; [rewrite !zlen_cons, L; reflexivity|].
    assert (B1 : k0 + 1 <= k1 <= k0 + 2) by (unfold k1; destruct b; lia).
    exists (fun i => if i <=? 0 then k0 else k (i - 1)). split; [reflexivity|]. split.
    + intros i Hi. destruct (Z.leb_spec i 0); [lia|]. specialize (KB (i - 1)). lia.
    + intros i q Hq. pose proof (znth_range _ _ _ Hq).
      destruct (Z.leb_spec (i + 1) 0); [lia|]. destruct (Z.leb_spec i 0).
      * assert (i = 0) by lia. subst i. rewrite znth_cons_0 in Hq. inversion Hq; subst q.
        rewrite znth_cons_0. rewrite Z.add_simpl_r, K0. split; reflexivity.
      * rewrite znth_cons_S in Hq by lia. destruct (K (i - 1) q Hq) as (A & B).
        rewrite znth_cons_S by lia. replace (i + 1 - 1) with (i - 1 + 1) by lia. split; assumption.
Qed.

(** Whatever the random stream: only black and white appear, the size is kept. *)
Theorem c69_salt_and_pepper : forall (P : Type) (white black : P) uniform (im : image P) rate seed, wf im ->
  speckled white black im (salt_and_pepper_noise white black uniform im rate seed).
Proof.
  intros P white black uniform im rate seed (W & H & L). unfold salt_and_pepper_noise.
  destruct (salt_loop_spec white black (uniform seed) rate (idata im) 0) as (LL & k & _ & _ & K).
  unfold speckled. split; [unfold wf; cbn [iw ih idata]; lia|]. split; [reflexivity|]. split; [reflexivity|].
  intros x y p G. unfold get, inb in *. cbn [iw ih idata].
  destruct ((0 <=? x) && (x <? iw im) && (0 <=? y) && (y <? ih im)); [|discriminate].
  destruct (K _ _ G) as (_ & ->). destruct (flt rate _); [auto|]. destruct (fle half _); auto.
Qed.
Print Assumptions c69_salt_and_pepper.

(** Pixel i in raster order looks at draw k(i): above the rate it is kept, else
    the next draw decides between white (at least one half) and black. *)
Theorem c69_which_pixels : forall (P : Type) (white black : P) uniform (im : image P) rate seed, wf im ->
  exists k : Z -> Z, k 0 = 0 /\
    forall x y p, get im x y = Some p -> let i := y * iw im + x in
      k (i + 1) = (if flt rate (uniform seed (k i)) then k i + 1 else k i + 2) /\
      get (salt_and_pepper_noise white black uniform im rate seed) x y =
        Some (if flt rate (uniform seed (k i)) then p
              else if fle (of_dyadic 1 (-1)) (uniform seed (k i + 1)) then white else black).
Proof.
  intros P white black uniform im rate seed W. unfold salt_and_pepper_noise.
  destruct (salt_loop_spec white black (uniform seed) rate (idata im) 0) as (LL & k & K0 & _ & K).
  exists k. split; [exact K0|]. intros x y p G. unfold get, inb in *. cbn [iw ih idata].
  destruct ((0 <=? x) && (x <? iw im) && (0 <=? y) && (y <? ih im)); [|discriminate].
  exact (K _ _ G).
Qed.
Print Assumptions c69_which_pixels.

(** If every draw is above the rate nothing changes; if none is, no pixel survives
    except by being black or white itself. *)
Theorem c69_extreme_rates : forall (P : Type) (white black : P) uniform (im : image P) rate seed, wf im ->
  ((forall k, flt rate (uniform seed k) = true) -> salt_and_pepper_noise white black uniform im rate seed = im) /\
  ((forall k, flt rate (uniform seed k) = false) -> forall x y p,
     get (salt_and_pepper_noise white black uniform im rate seed) x y = Some p -> p = white \/ p = black).
Proof.
  intros P white black uniform im rate seed W.
  destruct (c69_which_pixels P white black uniform im rate seed W) as (k & _ & K).
  destruct (c69_salt_and_pepper P white black uniform im rate seed W) as (Wo & Ew & Eh & _). split; intros H.
  - apply image_ext; try assumption. intros x y Hx Hy. destruct (get_some im x y W) as (p & G); [lia|lia|].
    pose proof (K x y p G) as K'. cbv zeta in K'. destruct K' as (_ & K'). rewrite K', H, G. reflexivity.
  - intros x y p G. pose proof (get_inb _ _ _ _ G). destruct (get_some im x y W) as (q & Gq); [lia|lia|].
    pose proof (K x y q Gq) as K'. cbv zeta in K'. destruct K' as (_ & E). rewrite E, H in G. inversion G. destruct (fle _ _); auto.
Qed.
Print Assumptions c69_extreme_rates.

(** The result depends only on the draws for this seed that are used. *)
Theorem c69_deterministic : forall (P : Type) (white black : P) u u' (im : image P) rate seed, wf im ->
  (forall k, 0 <= k < 2 * (iw im * ih im) -> u seed k = u' seed k) ->
  salt_and_pepper_noise white black u im rate seed = salt_and_pepper_noise white black u' im rate seed.
Proof.
  intros P white black u u' im rate seed (_ & _ & L) H. unfold salt_and_pepper_noise. apply f_equal.
  rewrite <- L in H. assert (G : forall k, 0 <= k < 0 + 2 * zlen (idata im) -> u seed k = u' seed k) by (intros; apply H; lia).
  assert (N : 0 <= 0) by lia. clear H L. generalize dependent 0.
  induction (idata im) as [|p ps IH]; intros k0 G N; [reflexivity|]. cbn [salt_and_pepper_loop].
  rewrite zlen_cons in G. pose proof (zlen_nonneg ps).
  rewrite <- (G k0), <- (G (k0 + 1)) by lia.
  rewrite (IH (k0 + 1)), (IH (k0 + 2)) by first [lia | intros; apply G; lia]. reflexivity.
Qed.
Print Assumptions c69_deterministic.

(** gaussian_noise adds one draw to every channel, in raster order, and clamps. *)
Lemma gauss_inner (nrm : f64 -> f64 -> Z -> Z -> f64) mean stddev seed (p : list Z) k0 :
  for_each p (fun c '(q, k) => Ok (q ++ [clamp_f64_u8 (fadd (of_int c) (nrm mean stddev seed k))], k + 1)) ([], k0) =
  Ok (map (fun '(i, c) => clamp_f64_u8 (fadd (of_int c) (nrm mean stddev seed (k0 + i)))) (combine (zrange 0 (zlen p)) p), k0 + zlen p).
Proof.
  destruct (for_each_ind (fun done (s : list Z * Z) =>
      s = (map (fun '(i, c) => clamp_f64_u8 (fadd (of_int c) (nrm mean stddev seed (k0 + i)))) (combine (zrange 0 (zlen done)) done), k0 + zlen done))
    p (fun c '(q, k) => Ok (q ++ [clamp_f64_u8 (fadd (of_int c) (nrm mean stddev seed k))], k + 1)) ([], k0)) as (s & E & K).
  - change (zlen (@nil Z)) with 0. rewrite zrange_empty by lia. cbn. f_equal. lia.
  - intros done c rest s Ep ->. eexists; split; [reflexivity|]. rewrite zlen_app. change (zlen [c]) with 1.
    rewrite zrange_snoc by (pose proof (zlen_nonneg done); lia).
    assert (CA : forall (l1 : list Z) x, zlen l1 = zlen done -> combine (l1 ++ [x]) (done ++ [c]) = combine l1 done ++ [(x, c)]).
    { intros l1 x. generalize done. induction l1 as [|a l1 IH]; intros [|b d] HL.
      - reflexivity.
      - rewrite zlen_cons in HL. change (zlen (@nil Z)) with 0 in HL. pose proof (zlen_nonneg d). lia.
      - rewrite zlen_cons in HL. change (zlen (@nil Z)) with 0 in HL. pose proof (zlen_nonneg l1). lia.
      - rewrite !zlen_cons in HL. cbn [app combine]. rewrite IH by lia. reflexivity. }
    rewrite CA by (rewrite zlen_zrange; pose proof (zlen_nonneg done); lia).
    rewrite map_app. cbn [map]. rewrite Z.add_assoc. reflexivity.
  - rewrite E, K. reflexivity.
Qed.

Theorem c69_gaussian : forall ch normal_new normal (im : image (list Z)) mean stddev seed,
  wf im -> all_px (fun p => zlen p = ch) im -> normal_new mean stddev = true ->
  exists out, gaussian_noise normal_new normal im mean stddev seed = Ok out /\
    wf out /\ iw out = iw im /\ ih out = ih im /\
    forall x y p, get im x y = Some p -> exists q, get out x y = Some q /\ zlen q = ch /\
      forall i c, znth p i = Some c ->
        znth q i = Some (clamp_f64_u8 (fadd (of_int c) (normal mean stddev seed ((y * iw im + x) * ch + i)))).
Proof.
  intros ch nn nrm im mean stddev seed W C Hn. unfold gaussian_noise, assert. rewrite Hn. cbn [bind].
  set (f k0 p := map (fun '(i, c) => clamp_f64_u8 (fadd (of_int c) (nrm mean stddev seed (k0 + i)))) (combine (zrange 0 (zlen p)) p)).
  assert (LF : forall k0 p, zlen (f k0 p) = zlen p).
  { intros. unfold f. rewrite zlen_map. unfold zlen. rewrite combine_length.
    pose proof (zlen_zrange 0 (zlen p)). pose proof (zlen_nonneg p). unfold zlen in *. lia. }
  destruct (for_each_ind (fun done (s : list (list Z) * Z) =>
      zlen (fst s) = zlen done /\ snd s = ch * zlen done /\
      forall i p, znth done i = Some p -> znth (fst s) i = Some (f (ch * i) p))
    (idata im) (fun p '(d, k) =>
      ' (q, k) <- for_each p (fun c '(q, k) =>
          Ok (q ++ [clamp_f64_u8 (fadd (of_int c) (nrm mean stddev seed k))], k + 1)) ([], k) ;;
      Ok (d ++ [q], k)) ([], 0)) as ((d & k) & E & K1 & K2 & K3).
  - cbn [fst snd]. change (zlen (@nil (list Z))) with 0. split; [reflexivity|]. split; [lia|].
    intros i p H. apply znth_range in H. change (zlen (@nil (list Z))) with 0 in H. lia.
  - intros done p rest (d & k) Ep (K1 & K2 & K3). cbn [fst snd] in *. rewrite gauss_inner. cbn [bind].
    eexists; split; [reflexivity|]. cbn [fst snd]. rewrite !zlen_app. change (zlen [p]) with 1.
    assert (Lp : zlen p = ch).
    { assert (In p (idata im)) as Hi by (rewrite Ep; apply in_or_app; right; left; reflexivity).
      apply (In_get im) in Hi; [|assumption]. destruct Hi as (x & y & G). eapply C; eauto. }
    split; [change (zlen [map (fun '(i, c) => clamp_f64_u8 (fadd (of_int c) (nrm mean stddev seed (k + i)))) (combine (zrange 0 (zlen p)) p)]) with 1; lia|].
    split; [lia|]. intros i q Hq. pose proof (znth_range _ _ _ Hq) as R. rewrite zlen_app in R. change (zlen [p]) with 1 in R.
    destruct (Z.ltb_spec i (zlen done)).
    + rewrite znth_app_l in Hq |- * by lia. apply K3. assumption.
    + rewrite znth_app_r in Hq |- * by lia. replace (i - zlen done) with 0 in Hq by lia. replace (i - zlen d) with 0 by lia.
      rewrite znth_cons_0 in *. inversion Hq; subst q. unfold f. rewrite K2. replace i with (zlen done) by lia. reflexivity.
  - rewrite E. cbn [bind fst snd] in *. eexists; split; [reflexivity|]. pose proof W as (W1 & W2 & W3).
    split; [unfold wf; cbn [iw ih idata]; lia|]. split; [reflexivity|]. split; [reflexivity|].
    intros x y p G. assert (Lp : zlen p = ch) by (eapply C; eauto).
    unfold get, inb in *. cbn [iw ih idata].
    destruct ((0 <=? x) && (x <? iw im) && (0 <=? y) && (y <? ih im)); [|discriminate].
    eexists; split; [apply K3; exact G|]. rewrite LF. split; [exact Lp|].
    intros i c Hc. pose proof (znth_range _ _ _ Hc). unfold f. rewrite znth_map.
    assert (CB : znth (combine (zrange 0 (zlen p)) p) i = Some (i, c)).
    { clear - Hc H. assert (Q : forall (l : list Z) a j, znth l j = Some c -> znth (combine (zrange a (a + zlen l)) l) j = Some (a + j, c)).
      { induction l as [|b l IH]; intros a j Hj; pose proof (znth_range _ _ _ Hj) as R.
        - change (zlen (@nil Z)) with 0 in R. lia.
        - rewrite zlen_cons in *. rewrite zrange_cons by lia. cbn [combine].
          destruct (Z.eqb_spec j 0) as [->|].
          + rewrite znth_cons_0 in *. inversion Hj. do 2 f_equal. lia.
          + rewrite znth_cons_S in Hj by lia. rewrite znth_cons_S by lia. replace (a + (1 + zlen l)) with (a + 1 + zlen l) by lia.
            rewrite (IH (a + 1) (j - 1)) by assumption. do 2 f_equal. lia. }
      apply (Q p 0 i Hc). }
    rewrite CB. cbn [option_map]. do 4 f_equal. lia.
Qed.
Print Assumptions c69_gaussian.

(** ... and panics when the distribution cannot be built. *)
Theorem c69_gaussian_bad_parameters : forall normal_new normal (im : image (list Z)) mean stddev seed,
  normal_new mean stddev = false -> gaussian_noise normal_new normal im mean stddev seed = Panic.
Proof. intros. unfold gaussian_noise, assert. rewrite H. reflexivity. Qed.
Print Assumptions c69_gaussian_bad_parameters.

(** Draws 0.9, 0.1, 0.7, 0.2, 0.3 with rate 0.5: the first pixel is kept, the second
    becomes white, the third black. *)
Definition c69_draw (_ k : Z) : f64 :=
  match k with 0 => of_dyadic 7 (-3) | 1 => of_dyadic 1 (-3) | 2 => of_dyadic 6 (-3) | 3 => of_dyadic 2 (-3) | _ => of_dyadic 3 (-3) end.
Example c69_nontrivial :
  salt_and_pepper_noise 255 0 c69_draw (mkImage 3 1 [17; 18; 19]) (of_dyadic 4 (-3)) 1 = mkImage 3 1 [17; 255; 0] /\
  gaussian_noise (fun _ _ => true) (fun m _ _ _ => m) (mkImage 2 1 [[17]; [250]]) (of_int 10) (of_int 0) 1 = Ok (mkImage 2 1 [[27]; [255]]).
Proof. split; vm_compute; reflexivity. Qed.
