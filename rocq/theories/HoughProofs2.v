(** Proofs about [detect_lines]: the accumulator and the reported lines. *)
From Flocq Require Import Core BinarySingleNaN.
From Verif Require Import Base BaseProofs Float RasterProofs GeomProofs LineProofs SuppressModel SuppressSpec SuppressProofs HoughModel HoughSpec HoughProofs.
Local Ltac Zify.zify_post_hook ::= idtac.

Section Detect.
  Context (lut : list (f32 * f32)) (im : image Z) (TT : trig_table lut) (W : wf im)
    (HD : iw im * iw im + ih im * ih im < 2 ^ 32).
  Notation R := (diagonal im).

  Lemma dims : 0 <= iw im <= 65535 /\ 0 <= ih im <= 65535 /\ 0 <= R <= 65535.
  Proof.
    destruct W as (A & B & _). assert (0 <= iw im * iw im) by nia. assert (0 <= ih im * ih im) by nia.
    unfold diagonal. set (n := iw im * iw im + ih im * ih im) in *.
    pose proof (Z.sqrt_nonneg n). pose proof (Z.sqrt_spec n ltac:(lia)) as S. cbv zeta in S.
    set (k := Z.sqrt n) in *. clearbody k.
    assert (SQ : forall z, 65536 <= z -> 2 ^ 32 <= z * z) by (clear; intros; nia).
    destruct (Z_le_gt_dec (iw im) 65535); [|pose proof (SQ (iw im) ltac:(lia)); lia].
    destruct (Z_le_gt_dec (ih im) 65535); [|pose proof (SQ (ih im) ltac:(lia)); lia].
    destruct (Z_le_gt_dec k 65535); [lia|pose proof (SQ k ltac:(lia)); lia].
  Qed.

  Lemma lut_at m : 0 <= m < 180 -> exists sc, znth lut m = Some sc /\ trig_pair sc.
  Proof.
    intros H. destruct TT as (L & F). destruct (znth_some lut m) as (sc & E); [lia|].
    exists sc. split; [exact E|]. rewrite Forall_forall in F. apply F. eapply znth_In; eauto.
  Qed.

  (** the vote of pixel (x, y) in column i of row j *)
  Definition hit (i j x y : Z) : Z :=
    match znth lut j with Some sc => if bucket sc x y =? i - R then 1 else 0 | None => 0 end.

  Definition acc_shape (acc : image Z) : Prop := wf acc /\ iw acc = 2 * R + 1 /\ ih acc = 180.

  Lemma vote_ok x y acc : 0 <= x < iw im -> 0 <= y < ih im -> acc_shape acc ->
    (forall i j v, get acc i j = Some v -> 0 <= v < 2 ^ 31) ->
    exists acc', hough_vote lut R x y acc = Ok acc' /\ acc_shape acc' /\
      forall i j v, get acc i j = Some v -> get acc' i j = Some (v + hit i j x y).
  Proof.
    intros Hx Hy AS Bd. pose proof dims as (Dw & Dh & DR). unfold hough_vote. rewrite (proj1 TT).
    destruct (for_range_ind (fun m a => acc_shape a /\
      forall i j v, get acc i j = Some v -> get a i j = Some (if j <? m then v + hit i j x y else v)) 0 180
      (fun m acc => ' sc <- vget lut m ;;
        let r := fadd (fmul (of_int x) (snd sc)) (fmul (of_int y) (fst sc)) in
        d <- chk_i 32 (i32_of_f32 r + R) ;;
        r2 <- chk_i 32 (2 * R) ;;
        if (d <=? r2) && (0 <=? d) then
          v <- get_pixel acc d m ;; v' <- chk_u 32 (v + 1) ;; put_pixel acc d m v'
        else Ok acc) acc) as (a & E & AS' & G).
    - lia.
    - split; [exact AS|]. intros i j v H. assert (0 <= i < iw acc /\ 0 <= j < ih acc) by (eapply get_inb; eauto).
      destruct (Z.ltb_spec j 0); [lia|assumption].
    - intros m a Hm (A1 & A2). destruct (lut_at m Hm) as (sc & Es & TP).
      rewrite (proj2 (vget_ok lut m sc) Es). cbn [bind]. cbv zeta.
      change (i32_of_f32 _) with (bucket sc x y).
      assert (BR : Z.abs (bucket sc x y) <= R) by (apply bucket_range; auto; lia).
      rewrite chk_i_ok by lia. cbn [bind]. rewrite chk_i_ok by lia. cbn [bind].
      destruct (Z.leb_spec (bucket sc x y + R) (2 * R)); [|lia]. destruct (Z.leb_spec 0 (bucket sc x y + R)); [|lia]. cbn [andb].
      assert (ASc := AS). destruct AS as (Wa & Ia & Ha). destruct A1 as (W1 & I1 & H1).
      destruct (get_some acc (bucket sc x y + R) m Wa) as (v & Ev); [lia|lia|].
      pose proof (A2 _ _ _ Ev) as Ev'. destruct (Z.ltb_spec m m); [lia|].
      rewrite (proj2 (get_pixel_ok a _ m v) Ev'). cbn [bind].
      pose proof (Bd _ _ _ Ev). rewrite chk_u_ok by lia. cbn [bind].
      rewrite put_pixel_ok by lia. eexists. split; [reflexivity|]. split.
      { split; [apply wf_put; assumption|]. unfold put; cbn. auto. }
      intros i j v0 G0. rewrite get_put by (auto; lia). pose proof (A2 _ _ _ G0) as G1.
      assert (Hr : hit i m x y = if bucket sc x y =? i - R then 1 else 0) by (unfold hit; rewrite Es; reflexivity).
      destruct (Z.eqb_spec i (bucket sc x y + R)) as [->|Ni], (Z.eqb_spec j m) as [->|Nj]; cbn [andb].
      + rewrite Ev in G0. injection G0 as <-. destruct (Z.ltb_spec m (m + 1)); [|lia]. rewrite Hr.
        destruct (Z.eqb_spec (bucket sc x y) (bucket sc x y + R - R)); [reflexivity|lia].
      + rewrite G1. destruct (Z.ltb_spec j m), (Z.ltb_spec j (m + 1)); try lia; reflexivity.
      + rewrite G1. destruct (Z.ltb_spec m m); [lia|]. destruct (Z.ltb_spec m (m + 1)); [|lia]. rewrite Hr.
        destruct (Z.eqb_spec (bucket sc x y) (i - R)); [lia|]. f_equal. lia.
      + rewrite G1. destruct (Z.ltb_spec j m), (Z.ltb_spec j (m + 1)); try lia; reflexivity.
    - exists a. split; [exact E|]. split; [exact AS'|]. intros i j v H. rewrite (G _ _ _ H).
      assert (0 <= i < iw acc /\ 0 <= j < ih acc) by (eapply get_inb; eauto).
      destruct AS as (_ & _ & Ha). destruct (Z.ltb_spec j 180); [reflexivity|lia].
  Qed.

  Definition term (i j x y : Z) : Z :=
    match znth lut j with Some sc => if bucket sc x y =? i - R then foreground im x y else 0 | None => 0 end.
  Lemma fg_01 x y : 0 <= foreground im x y <= 1.
  Proof. unfold foreground. destruct (get im x y) as [p|]; [destruct (0 <? p)|]; lia. Qed.
  Lemma term_01 i j x y : 0 <= term i j x y <= 1.
  Proof. unfold term. pose proof (fg_01 x y). destruct (znth lut j); [destruct (_ =? _)|]; lia. Qed.
  Lemma row_bound i j y n : 0 <= n -> 0 <= zsum 0 n (fun x => term i j x y) <= n.
  Proof.
    intros H. split.
    - apply zsum_nonneg. intros. apply term_01.
    - rewrite <- (Z.mul_1_r n) at 2. replace n with (n - 0) at 2 by lia. rewrite <- (zsum_const 0 n 1) by lia.
      apply zsum_le. intros. apply term_01.
  Qed.
  Lemma rows_bound i j n : 0 <= n -> 0 <= zsum 0 n (fun y => zsum 0 (iw im) (fun x => term i j x y)) <= n * iw im.
  Proof.
    intros H. pose proof dims. split.
    - apply zsum_nonneg. intros. apply row_bound. lia.
    - replace (n * iw im) with ((n - 0) * iw im) by lia. rewrite <- (zsum_const 0 n (iw im)) by lia.
      apply zsum_le. intros. apply row_bound. lia.
  Qed.

  Lemma acc_ok : exists acc, hough_acc lut im = Ok acc /\ acc_shape acc /\
    forall d m, is_bucket im d m -> get acc (d + R) m = Some (votes lut im d m).
  Proof.
    pose proof dims as (Dw & Dh & DR). unfold hough_acc.
    rewrite rmax_ok by (auto; lia). cbn [bind]. fold R. rewrite chk_u_ok by lia. cbn [bind]. rewrite chk_u_ok by lia. cbn [bind].
    destruct (for_range_ind (fun y acc => acc_shape acc /\
      forall i j, 0 <= i < 2 * R + 1 -> 0 <= j < 180 ->
        get acc i j = Some (zsum 0 y (fun y => zsum 0 (iw im) (fun x => term i j x y)))) 0 (ih im)
      (fun y acc => for_range 0 (iw im) (fun x acc =>
        p <- get_pixel im x y ;;
        if 0 <? p then hough_vote lut R x y acc else Ok acc) acc) (new_image (2 * R + 1) 180 0)) as (acc & E & AS & G).
    - lia.
    - split; [split; [apply wf_new; lia|split; reflexivity]|]. intros i j Hi Hj. unfold new_image. rewrite get_gen_in by assumption.
      rewrite zsum_empty by lia. reflexivity.
    - intros y acc Hy (AS & G).
      match goal with |- exists s', for_range ?a ?b ?bd ?s = Ok s' /\ _ =>
        destruct (for_range_ind (fun x acc => acc_shape acc /\
          forall i j, 0 <= i < 2 * R + 1 -> 0 <= j < 180 ->
            get acc i j = Some (zsum 0 y (fun y => zsum 0 (iw im) (fun x => term i j x y)) + zsum 0 x (fun x => term i j x y)))
          a b bd s) as (acc' & E & AS' & G') end.
      + lia.
      + split; [exact AS|]. intros i j Hi Hj. rewrite G by assumption. rewrite (zsum_empty 0 0) by lia. f_equal. lia.
      + intros x a Hx (A1 & A2). destruct (get_some im x y W) as (p & Ep); [lia|lia|].
        rewrite (proj2 (get_pixel_ok im x y p) Ep). cbn [bind].
        assert (Fg : foreground im x y = if 0 <? p then 1 else 0) by (unfold foreground; rewrite Ep; reflexivity).
        assert (SN : forall i j, zsum 0 (x + 1) (fun x => term i j x y) = zsum 0 x (fun x => term i j x y) + term i j x y)
          by (intros i j; exact (zsum_snoc 0 x (fun x => term i j x y) (proj1 Hx))).
        destruct (0 <? p) eqn:Pp.
        * destruct (vote_ok x y a) as (a' & E' & AS' & G'); auto.
          { intros i j v Gv. assert (B : 0 <= i < iw a /\ 0 <= j < ih a) by (eapply get_inb; eauto).
            destruct A1 as (_ & I1 & H1). rewrite A2 in Gv by lia. injection Gv as <-.
            pose proof (rows_bound i j y ltac:(lia)). pose proof (row_bound i j y x ltac:(lia)).
            assert (y * iw im + x < 2 ^ 31); [|lia]. revert HD Hx Hy. clear. generalize (iw im), (ih im). intros w h HD Hx Hy. assert (y * w <= (h - 1) * w) by nia. pose proof (Z.square_nonneg (w - h)); assert (2 * (h * w) <= w * w + h * h) by lia. lia. }
          exists a'. split; [exact E'|]. split; [exact AS'|]. intros i j Hi Hj.
          rewrite (G' _ _ _ (A2 i j Hi Hj)). rewrite SN. f_equal.
          assert (term i j x y = hit i j x y) by (unfold term, hit; rewrite Fg; reflexivity). lia.
        * exists a. split; [reflexivity|]. split; [exact A1|]. intros i j Hi Hj. rewrite A2 by assumption. rewrite SN. f_equal.
          assert (term i j x y = 0) by (unfold term; rewrite Fg; destruct (znth lut j); [destruct (_ =? _)|]; reflexivity). lia.
      + exists acc'. split; [exact E|]. split; [exact AS'|]. intros i j Hi Hj. rewrite G' by assumption. rewrite zsum_snoc by lia. reflexivity.
    - exists acc. split; [exact E|]. split; [exact AS|]. intros d m (Hd & Hm). rewrite G by lia. f_equal. unfold votes.
      apply zsum_ext. intros y Hy. apply zsum_ext. intros x Hx. unfold term. replace (d + R - R) with d by lia. reflexivity.
  Qed.

  (** the loops that collect the lines *)
  Lemma collect_ok (sup : image Z) thr : acc_shape sup ->
    for_range 0 (ih sup) (fun m lines =>
      for_range 0 (iw sup) (fun r lines =>
        votes <- get_pixel sup r m ;;
        if thr <=? votes then d <- chk_i 32 (r - R) ;; Ok (lines ++ [(of_int d, m)]) else Ok lines) lines) [] =
    Ok (kept_lines R (fun d m => match get sup (d + R) m with Some v => thr <=? v | None => false end)).
  Proof.
    intros (Ws & Is & Hs). pose proof dims as (_ & _ & DR). rewrite Is, Hs.
    set (keep := fun d m => match get sup (d + R) m with Some v => thr <=? v | None => false end).
    set (row := fun m => map (fun d => ((of_int d : f32), m)) (filter (fun d => keep d m) (zrange (- R) (R + 1)))).
    destruct (for_range_ind (fun m (lines : list polar_line) => lines = flat_map row (zrange 0 m)) 0 180
      (fun m lines => for_range 0 (2 * R + 1) (fun r lines =>
        votes <- get_pixel sup r m ;;
        if thr <=? votes then d <- chk_i 32 (r - R) ;; Ok (lines ++ [(of_int d, m)]) else Ok lines) lines) []) as (ls & E & P).
    - lia.
    - rewrite zrange_empty by lia. reflexivity.
    - intros m ls Hm ->.
      destruct (for_range_ind (fun r (lines : list polar_line) => lines = flat_map row (zrange 0 m) ++
          map (fun d => ((of_int d : f32), m)) (filter (fun d => keep d m) (zrange (- R) (r - R)))) 0 (2 * R + 1)
        (fun r lines => votes <- get_pixel sup r m ;;
          if thr <=? votes then d <- chk_i 32 (r - R) ;; Ok (lines ++ [(of_int d, m)]) else Ok lines)
        (flat_map row (zrange 0 m))) as (ls' & E' & P').
      + lia.
      + rewrite (zrange_empty (- R)) by lia. cbn. rewrite app_nil_r. reflexivity.
      + intros r ls Hr ->. destruct (get_some sup r m Ws) as (v & Ev); [lia|lia|].
        rewrite (proj2 (get_pixel_ok sup r m v) Ev). cbn [bind].
        replace (r + 1 - R) with (r - R + 1) by lia. rewrite zrange_snoc by lia. rewrite filter_app, map_app, app_assoc.
        cbn [filter]. assert (Kp : keep (r - R) m = (thr <=? v)) by (unfold keep; replace (r - R + R) with r by lia; rewrite Ev; reflexivity).
        rewrite Kp. destruct (thr <=? v).
        * rewrite chk_i_ok by lia. cbn [bind]. eexists. split; reflexivity.
        * eexists. split; [reflexivity|]. cbn [map]. rewrite app_nil_r. reflexivity.
      + exists ls'. split; [exact E'|]. rewrite P'. rewrite zrange_snoc by lia. rewrite flat_map_app. cbn [flat_map].
        rewrite app_nil_r. unfold row at 3. replace (2 * R + 1 - R) with (R + 1) by lia. reflexivity.
    - transitivity (Ok ls); [exact E|rewrite P; reflexivity].
  Qed.

  Lemma detect_ok thr rad : 0 <= rad -> 2 * R + 1 + rad < 2 ^ 32 -> 180 + rad < 2 ^ 32 ->
    exists keep, detect_lines lut im thr rad = Ok (kept_lines R keep) /\
      forall d m, is_bucket im d m ->
        (top_bucket lut im rad d m -> keep d m = (thr <=? votes lut im d m)) /\
        (~ top_bucket lut im rad d m -> keep d m = (thr <=? 0)).
  Proof.
    intros Hr B1 B2. pose proof dims as (Dw & Dh & DR). unfold detect_lines.
    rewrite rmax_ok by (auto; lia). cbn [bind]. fold R.
    destruct acc_ok as (acc & Ea & (Wa & Ia & Ha) & G). rewrite Ea. cbn [bind].
    destruct (suppress_ok acc rad) as (sup & Es & Ws & Is & Hs & S); auto; try lia.
    rewrite Es. cbn [bind]. rewrite collect_ok by (split; [exact Ws|split; lia]).
    eexists. split; [reflexivity|]. cbv beta. intros d m B. pose proof (G d m B) as Gd.
    destruct (S _ _ _ Gd) as (S1 & S2).
    assert (LM : top_bucket lut im rad d m <-> is_local_max acc rad (d + R) m (votes lut im d m)).
    { split.
      - intros T x' y' v' (Bx & By_) Gx Pf. assert (I : 0 <= x' < iw acc /\ 0 <= y' < ih acc) by (eapply get_inb; eauto).
        assert (Bk : is_bucket im (x' - R) y') by (unfold is_bucket; lia).
        pose proof (G _ _ Bk) as Gx'. replace (x' - R + R) with x' in Gx' by lia. rewrite Gx in Gx'. injection Gx' as ->.
        apply (T (x' - R) y' Bk); [lia|lia|]. unfold preferred in *. lia.
      - intros L d' m' Bk Bd Bm Pf. apply (L (d' + R) m' (votes lut im d' m')).
        + unfold in_block. lia.
        + apply G. exact Bk.
        + unfold preferred in *. lia. }
    split; intros T.
    - rewrite S1 by (apply LM; exact T). reflexivity.
    - rewrite S2 by (intros L; apply T, LM, L). reflexivity.
  Qed.

  (** no vote is lost *)
  Lemma votes_total m : 0 <= m < 180 -> zsum (- R) (R + 1) (fun d => votes lut im d m) = foreground_count im.
  Proof.
    intros Hm. pose proof dims as (Dw & Dh & DR). destruct (lut_at m Hm) as (sc & Es & TP).
    unfold votes, foreground_count. rewrite zsum_swap. apply zsum_ext. intros y Hy. rewrite zsum_swap. apply zsum_ext. intros x Hx.
    rewrite Es. assert (BR : Z.abs (bucket sc x y) <= R) by (apply bucket_range; auto; lia).
    rewrite (zsum_split _ (bucket sc x y)) by lia. rewrite (zsum_cons (bucket sc x y)) by lia.
    rewrite (zsum_ext (- R) (bucket sc x y) _ (fun _ => 0)).
    2:{ intros i Hi. destruct (Z.eqb_spec (bucket sc x y) i); [lia|reflexivity]. }
    rewrite (zsum_ext (bucket sc x y + 1) (R + 1) _ (fun _ => 0)).
    2:{ intros i Hi. destruct (Z.eqb_spec (bucket sc x y) i); [lia|reflexivity]. }
    rewrite !zsum_const by lia. rewrite Z.eqb_refl. lia.
  Qed.
End Detect.
