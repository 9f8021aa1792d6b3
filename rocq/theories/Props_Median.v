(** C26: median_filter. *)
From Verif Require Import Base BaseProofs GeomProofs RasterProofs IntegralSpec FilterSpec MedianModel MedianSpec MedianProofs.

(** The full property: the median of the window everywhere, and no panic
    unless a documented size is exceeded. *)
Definition c26_statement : Prop := forall ch im rx ry,
  0 <= ch -> channels8 ch im -> 0 < iw im -> 0 < ih im -> 0 <= rx -> 0 <= ry ->
  iw im + rx < 2 ^ 31 -> ih im + ry < 2 ^ 31 ->
  exists out, median_filter ch im rx ry = Ok out /\ iw out = iw im /\ ih out = ih im /\
    forall x y, 0 <= x < iw im -> 0 <= y < ih im -> exists p, get out x y = Some p /\ zlen p = ch /\
      forall c, 0 <= c < ch -> exists m, znth p c = Some m /\
        is_median (window_count im rx ry x y c) ((2 * rx + 1) * (2 * ry + 1)) m.

(** The kernel size (2rx+1)(2ry+1) overflows u32. *)
Theorem c26_median_refuted : ~ c26_statement.
Proof.
  intros H. destruct (H 1 (mkImage 1 1 [[7]]) 32768 32768) as (out & E & _); try (simpl; lia).
  - split; [unfold wf, zlen; simpl; lia|]. intros x y p G. apply get_In in G. destruct G as [<-|[]]. split; auto.
    intros v [<-|[]]. unfold is_u8; lia.
  - vm_compute in E. discriminate.
Qed.

(** Complete when the window has fewer than 2^31 pixels. *)
Theorem c26_median_partial : forall ch im rx ry,
  0 <= ch -> channels8 ch im -> 0 < iw im -> 0 < ih im -> 0 <= rx -> 0 <= ry ->
  iw im + rx < 2 ^ 31 -> ih im + ry < 2 ^ 31 -> (2 * rx + 1) * (2 * ry + 1) < 2 ^ 31 ->
  exists out, median_filter ch im rx ry = Ok out /\ iw out = iw im /\ ih out = ih im /\
    forall x y, 0 <= x < iw im -> 0 <= y < ih im -> exists p, get out x y = Some p /\ zlen p = ch /\
      forall c, 0 <= c < ch -> exists m, znth p c = Some m /\
        is_median (window_count im rx ry x y c) ((2 * rx + 1) * (2 * ry + 1)) m.
Proof.
  intros ch im rx ry Hc Him Hw Hh Hx Hy Gx Gy HN.
  rewrite (median_ok ch im Him Hc rx ry) by auto. eexists; split; [reflexivity|]. splits; auto.
  intros x y Hxx Hyy. eexists. split; [apply get_gen_in; auto|]. split; [apply zlen_med; auto|].
  intros c Hcc. unfold medpx. rewrite znth_map, znth_zrange by lia. eexists; split; [reflexivity|].
  rewrite Z.add_0_l. apply (medc_ok ch im Him rx ry); auto.
Qed.

(** the median is unique, so the theorem determines the output *)
Theorem c26_median_unique : forall cnt n a b, (forall v, 0 <= cnt v) -> zsum 0 256 cnt = n ->
  is_median cnt n a -> is_median cnt n b -> a = b.
Proof.
  assert (L : forall cnt n a b, (forall v, 0 <= cnt v) -> zsum 0 256 cnt = n -> is_median cnt n a -> is_median cnt n b -> ~ a < b).
  { intros cnt n a b Hp Hs (A1 & A2 & A3 & A4) (B1 & B2 & B3 & B4) Hlt. unfold is_u8 in *.
    rewrite (zsum_split 0 b 256) in Hs by lia.
    assert (zsum b 256 cnt <= zsum (a + 1) 256 cnt).
    { rewrite (zsum_split (a + 1) b 256) by lia. assert (0 <= zsum (a + 1) b cnt) by (apply zsum_nonneg; auto). lia. }
    lia. }
  intros cnt n a b Hp Hs Ha Hb. pose proof (L cnt n a b Hp Hs Ha Hb). pose proof (L cnt n b a Hp Hs Hb Ha). lia.
Qed.

Theorem c26_median_empty : forall ch im rx ry, iw im = 0 \/ ih im = 0 -> median_filter ch im rx ry = Ok im.
Proof. intros ch im rx ry H. unfold median_filter. assert ((iw im =? 0) || (ih im =? 0) = true) as -> by lia. auto. Qed.
(** the documented panic *)
Theorem c26_median_panics : forall ch im rx ry, 0 < iw im -> 0 < ih im ->
  iw im + rx > 2 ^ 31 - 1 \/ ih im + ry > 2 ^ 31 - 1 -> median_filter ch im rx ry = Panic.
Proof.
  intros ch im rx ry Hw Hh H. unfold median_filter. assert ((iw im =? 0) || (ih im =? 0) = false) as -> by lia.
  unfold chk_u. destruct (u_fits 32 (iw im + rx)); auto. cbn [bind]. destruct (u_fits 32 (ih im + ry)); auto. cbn [bind].
  assert ((iw im + rx >? 2 ^ 31 - 1) || (ih im + ry >? 2 ^ 31 - 1) = true) as -> by lia. auto.
Qed.

Example c26_nontrivial :
  median_filter 1 (mkImage 3 3 [[1]; [2]; [3]; [200]; [6]; [7]; [9]; [100]; [11]]) 1 1
    = Ok (mkImage 3 3 [[2]; [3]; [3]; [9]; [7]; [7]; [9]; [11]; [11]]) /\
  median_filter 2 (mkImage 1 2 [[1; 50]; [2; 3]]) 2 1 = Ok (mkImage 1 2 [[1; 50]; [2; 3]]).
Proof. vm_compute. auto. Qed.

Print Assumptions c26_median_refuted.
Print Assumptions c26_median_partial.
Print Assumptions c26_median_unique.
Print Assumptions c26_median_empty.
Print Assumptions c26_median_panics.
