(** Proofs about transposition. *)
From Verif Require Import Base BaseProofs RasterProofs MapProofs SignalsModel SignalsSpec.
Local Ltac Zify.zify_post_hook ::= idtac.
Open Scope Z_scope.

Lemma at_ok n r c : r < n -> c < n -> at_ n r c = Ok (r + n * c).
Proof. intros. unfold at_, assert. replace (r <? n) with true by lia. replace (c <? n) with true by lia. reflexivity. Qed.

Lemma cell n x y x' y' : 0 <= x < n -> 0 <= x' < n -> y * n + x = y' * n + x' -> x = x' /\ y = y'.
Proof. intros. assert (y = y') by nia. subst. lia. Qed.
Lemma cell_lt n x y : 0 <= x < n -> 0 <= y < n -> 0 <= y * n + x < n * n.
Proof. intros. nia. Qed.

Lemma inplace_ok {F} (im : image F) : wf im -> iw im = ih im ->
  exists t, transpose_inplace im = Ok t /\ is_transpose im t.
Proof.
  intros (W & H & L) E. unfold transpose_inplace, assert. rewrite <- E in *. rewrite Z.eqb_refl. cbn [bind].
  rewrite L, Z.eqb_refl. cbn [bind]. set (n := iw im) in *.
  (* pixels whose smaller coordinate is below r are transposed *)
  set (done := fun r c x y => Z.min x y < r \/ (Z.min x y = r /\ Z.max x y < c)).
  set (I := fun r c (buf : list F) => zlen buf = n * n /\ forall x y, 0 <= x < n -> 0 <= y < n ->
     (done r c x y -> znth buf (y * n + x) = znth (idata im) (x * n + y)) /\
     (~ done r c x y -> znth buf (y * n + x) = znth (idata im) (y * n + x))).
  destruct (for_range_ind (fun r buf => I r r buf) 0 n
    (fun row buf => for_range row n (fun col buf =>
      rc <- at_ n row col ;; cr <- at_ n col row ;; a <- vget buf rc ;; b <- vget buf cr ;;
      buf <- vset buf rc b ;; vset buf cr a) buf) (idata im)) as (buf & EB & HB & HI).
  - lia.
  - split; [assumption|]. intros x y Hx Hy. unfold done. split; [lia|reflexivity].
  - intros r buf Hr HI.
    destruct (for_range_ind (fun c buf => I r c buf) r n
      (fun col buf =>
        rc <- at_ n r col ;; cr <- at_ n col r ;; a <- vget buf rc ;; b <- vget buf cr ;;
        buf <- vset buf rc b ;; vset buf cr a) buf) as (buf' & E' & HL' & HI').
    + lia.
    + exact HI.
    + intros c s Hc (HL & HS). rewrite !at_ok by lia. cbn [bind].
      pose proof (cell_lt n r c ltac:(lia) ltac:(lia)) as B1.
      pose proof (cell_lt n c r ltac:(lia) ltac:(lia)) as B2.
      destruct (znth_some s (r + n * c)) as (a & Ea); [lia|].
      destruct (znth_some s (c + n * r)) as (b & Eb); [lia|].
      rewrite (proj2 (vget_ok s _ a) Ea), (proj2 (vget_ok s _ b) Eb). cbn [bind].
      rewrite vset_ok by lia. cbn [bind]. rewrite vset_ok by (rewrite zupd_zlen; lia).
      eexists; split; [reflexivity|]. split; [rewrite !zupd_zlen; assumption|].
      intros x y Hx Hy. rewrite !znth_zupd by (rewrite ?zupd_zlen; lia).
      replace (c + n * r) with (r * n + c) in * by lia. replace (r + n * c) with (c * n + r) in * by lia.
      destruct (HS x y Hx Hy) as (K1 & K2).
      destruct (HS r c) as (_ & R2); [lia|lia|]. destruct (HS c r) as (_ & R4); [lia|lia|].
      unfold done in *. rewrite R2 in Ea by lia. rewrite R4 in Eb by lia.
      destruct (Z.eqb_spec (y * n + x) (r * n + c)) as [Q|Q].
      { apply cell in Q; [|lia|lia]. destruct Q; subst x y. split; [|lia]. intros _. symmetry. exact Ea. }
      destruct (Z.eqb_spec (y * n + x) (c * n + r)) as [Q2|Q2].
      { apply cell in Q2; [|lia|lia]. destruct Q2; subst x y. split; [|lia]. intros _. symmetry. exact Eb. }
      assert (N1 : ~ (x = c /\ y = r)) by (intros (-> & ->); lia).
      assert (N2 : ~ (x = r /\ y = c)) by (intros (-> & ->); lia).
      clear - K1 K2 N1 N2 Hx Hy Hc.
      split; intros D; [apply K1|apply K2]; lia.
    + exists buf'. split; [exact E'|]. split; [exact HL'|]. intros x y Hx Hy.
      destruct (HI' x y Hx Hy) as (K1 & K2). unfold done in *.
      split; intros D; [apply K1|apply K2]; lia.
  - rewrite EB. cbn [bind]. eexists; split; [reflexivity|]. unfold is_transpose. rewrite <- E. splits.
    + unfold wf. cbn. lia.
    + reflexivity.
    + cbn. lia.
    + intros x y. unfold get, inb. cbn [iw ih idata]. fold n. rewrite <- E.
      destruct ((0 <=? x) && (x <? n) && (0 <=? y) && (y <? n)) eqn:B.
      * replace ((0 <=? y) && (y <? n) && (0 <=? x) && (x <? n)) with true by lia.
        apply (HI x y); [lia|lia|]. unfold done. lia.
      * replace ((0 <=? y) && (y <? n) && (0 <=? x) && (x <? n)) with false by lia. reflexivity.
Qed.

Lemma transpose_ok {F} (im : image F) : wf im -> exists t, transpose im = Ok t /\ is_transpose im t.
Proof.
  intros W. pose proof W as (Hw & Hh & L). unfold transpose, get_pixel.
  destruct (gen_res_some (ih im) (iw im) (fun x y => get im y x)) as (t & E & Wt & Ew & Eh & G).
  - assumption.
  - assumption.
  - intros x y Hx Hy K. destruct (get_some im y x W) as (a & Ga); [lia|lia|congruence].
  - exists t. split; [exact E|]. unfold is_transpose. splits; try assumption. intros x y.
    destruct (bool_dec (inb t x y) true) as [B|B].
    + apply inb_spec in B. apply G; lia.
    + rewrite !get_none; [reflexivity| |]; intros (? & ?); apply B; apply inb_spec; lia.
Qed.

Lemma T_ok {F} (im : image F) : wf im -> exists t, T_ im = Ok t /\ is_transpose im t.
Proof.
  intros W. unfold T_. destruct (Z.eqb_spec (iw im) (ih im)); [apply inplace_ok|apply transpose_ok]; assumption.
Qed.

Lemma transpose_unique {F} (im t t' : image F) : wf im -> is_transpose im t -> is_transpose im t' -> t = t'.
Proof.
  intros W (A1 & A2 & A3 & A4) (B1 & B2 & B3 & B4). apply image_ext; try assumption; congruence.
Qed.

Lemma znth_row {F} (im : image F) y x : wf im -> 0 <= y < ih im ->
  znth (row_of im y) x = get im x y.
Proof.
  intros (W & H & L) Hy. unfold row_of.
  assert (SP : exists a b c, idata im = a ++ b ++ c /\ zlen a = y * iw im /\ zlen b = iw im).
  { exists (firstn (Z.to_nat (y * iw im)) (idata im)),
           (firstn (Z.to_nat (iw im)) (skipn (Z.to_nat (y * iw im)) (idata im))),
           (skipn (Z.to_nat (iw im)) (skipn (Z.to_nat (y * iw im)) (idata im))).
    rewrite !firstn_skipn. split; [reflexivity|].
    assert (y * iw im + iw im <= iw im * ih im) by nia.
    unfold zlen in *. rewrite !firstn_length, !skipn_length. assert (0 <= y * iw im) by nia. lia. }
  destruct SP as (a & b & c & E & La & Lb).
  assert (B : firstn (Z.to_nat (iw im)) (skipn (Z.to_nat (y * iw im)) (idata im)) = b).
  { rewrite E, <- La, <- Lb. unfold zlen. rewrite !Nat2Z.id, skipn_app, skipn_all, Nat.sub_diag. cbn [app skipn].
    rewrite firstn_app, firstn_all, Nat.sub_diag. cbn [firstn]. apply app_nil_r. }
  rewrite B. unfold get. destruct (inb im x y) eqn:I.
  - apply inb_spec in I. rewrite E. rewrite znth_app_r by lia. rewrite znth_app_l by lia. f_equal. lia.
  - apply inb_false in I. apply znth_none. rewrite Lb. lia.
Qed.

Lemma row_len {F} (im : image F) y : wf im -> 0 <= y < ih im -> zlen (row_of im y) = iw im.
Proof.
  intros (W & H & L) Hy. unfold row_of. assert (y * iw im + iw im <= iw im * ih im) by nia. assert (0 <= y * iw im) by nia.
  unfold zlen in *. rewrite firstn_length, skipn_length. lia.
Qed.

Lemma dct1d_ok {F} (dct : Z -> list F -> list F) (im : image F) : wf im ->
  (forall l, zlen l = iw im -> zlen (dct (iw im) l) = iw im) ->
  exists out, dct1d dct (iw im) im = Ok out /\ wf out /\ iw out = iw im /\ ih out = ih im /\
    forall y l, 0 <= y < ih im -> is_row im y l -> is_row out y (dct (iw im) l).
Proof.
  intros W HD. pose proof W as (Hw & Hh & L). unfold dct1d, assert. rewrite Z.eqb_refl. cbn [bind].
  destruct (for_range_ind (fun y (buf : list F) => zlen buf = y * iw im /\
      forall y' x, 0 <= y' < y -> 0 <= x < iw im -> znth buf (y' * iw im + x) = znth (dct (iw im) (row_of im y')) x)
    0 (ih im) (fun y buf => (if zlen (row_of im y) =? iw im then Ok tt else Panic) ;;; Ok (buf ++ dct (iw im) (row_of im y))) [])
    as (buf & E & LB & HB).
  - lia.
  - split; [change (zlen (@nil F)) with 0; lia|]. intros; lia.
  - intros y buf Hy (K & HK). rewrite (row_len im y W Hy), Z.eqb_refl. cbn [bind].
    eexists; split; [reflexivity|]. pose proof (HD _ (row_len im y W Hy)) as LR. split.
    + rewrite zlen_app, LR, K. lia.
    + intros y' x Hy' Hx. destruct (Z.eqb_spec y' y) as [->|].
      * rewrite znth_app_r by lia. f_equal. lia.
      * rewrite znth_app_l by nia. apply HK; lia.
  - rewrite E. cbn [bind]. rewrite LB. replace (ih im * iw im =? iw im * ih im) with true by lia. cbn [bind].
    eexists; split; [reflexivity|]. splits; try reflexivity.
    + unfold wf. cbn. lia.
    + intros y l Hy HR x.
      assert (El : l = row_of im y).
      { assert (LL : zlen l = zlen (row_of im y)).
        { rewrite (row_len im y W Hy).
          destruct (Z.lt_trichotomy (zlen l) (iw im)) as [C|[C|C]]; [|assumption|].
          - destruct (get_some im (zlen l) y W) as (a & Ga); [pose proof (zlen_nonneg l); lia|lia|].
            rewrite <- HR in Ga. apply znth_range in Ga. lia.
          - destruct (znth_some l (iw im)) as (a & Ea); [lia|]. rewrite HR in Ea. apply get_inb in Ea. lia. }
        apply znth_ext; [unfold zlen in LL; lia|]. intros i. rewrite HR, znth_row by assumption. reflexivity. }
      rewrite El. unfold get, inb. cbn [iw ih idata].
      destruct ((0 <=? x) && (x <? iw im) && (0 <=? y) && (y <? ih im)) eqn:B.
      * symmetry. apply HB; lia.
      * apply znth_none. rewrite HD by (apply row_len; assumption). lia.
Qed.

Lemma dct2d_ok {F} (dct : Z -> list F -> list F) (im : image F) : wf im ->
  (forall n l, zlen l = n -> zlen (dct n l) = n) ->
  exists mid out, dct2d dct im = Ok out /\ wf out /\ iw out = iw im /\ ih out = ih im /\
    wf mid /\ iw mid = iw im /\ ih mid = ih im /\
    (forall x l, 0 <= x < iw im -> is_column im x l -> is_column mid x (dct (ih im) l)) /\
    (forall y l, 0 <= y < ih im -> is_row mid y l -> is_row out y (dct (iw im) l)).
Proof.
  intros W HD. unfold dct2d. destruct (T_ok im W) as (t & -> & Wt & Tw & Th & Tg). cbn [bind].
  destruct (dct1d_ok dct t Wt) as (d & Ed & Wd & Dw & Dh & Dg); [intros; apply HD; assumption|].
  rewrite Tw in Ed. rewrite Ed. cbn [bind].
  destruct (T_ok d Wd) as (m & -> & Wm & Mw & Mh & Mg). cbn [bind].
  destruct (dct1d_ok dct m Wm) as (o & Eo & Wo & Ow & Oh & Og); [intros; apply HD; assumption|].
  assert (Em : iw m = iw im) by congruence. rewrite Em in Eo, Og. rewrite Eo.
  exists m, o. split; [reflexivity|]. split; [assumption|]. split; [congruence|]. split; [congruence|].
  split; [assumption|]. split; [congruence|]. split; [congruence|]. split.
  - intros x l Hx HC y. rewrite Mg. rewrite Tw in Dg. rewrite <- (Dg x l).
    + reflexivity.
    + lia.
    + intros z. rewrite HC, Tg. reflexivity.
  - intros y l Hy HR. apply Og; [lia|assumption].
Qed.
