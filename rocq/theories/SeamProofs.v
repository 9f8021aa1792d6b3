From Verif Require Import Base BaseProofs RasterProofs FilterModel FilterSpec FilterProofs
  GradientModel GradientSpec GradientProofs SuppressProofs SeamModel SeamSpec.
Local Ltac Zify.zify_post_hook ::= idtac.

(** ** The energy image *)
Lemma sum_u16 (l : list Z) : forall a, 0 <= a -> (forall v, In v l -> 0 <= v) ->
  a + fold_right Z.add 0 l < 2 ^ 16 ->
  for_each l (fun c acc => chk_u 16 (acc + c)) a = Ok (a + fold_right Z.add 0 l).
Proof.
  induction l as [|v l IH]; intros a Ha Hv Hs; cbn [for_each fold_right] in *.
  - f_equal. lia.
  - assert (0 <= v) by (apply Hv; left; auto).
    assert (0 <= fold_right Z.add 0 l).
    { assert (forall u, In u l -> 0 <= u) by (intros; apply Hv; right; auto). clear -H0.
      induction l; cbn; [lia|]. specialize (IHl (fun u Hu => H0 u (or_intror Hu))).
      specialize (H0 a (or_introl eq_refl)). lia. }
    rewrite chk_u_ok by lia. cbn [bind]. rewrite IH; try lia.
    + f_equal. lia.
    + intros; apply Hv; right; auto.
Qed.

Lemma mag_bound im c x y : wf im -> u8_image im ->
  0 <= Z.sqrt (deriv_x 1 2 im c x y ^ 2 + deriv_y 1 2 im c x y ^ 2) <= 1442.
Proof.
  intros W U. split; [apply Z.sqrt_nonneg|].
  pose proof (deriv_x_bound im 1 2 c x y W U ltac:(lia) ltac:(lia)).
  pose proof (deriv_y_bound im 1 2 c x y W U ltac:(lia) ltac:(lia)).
  apply Z.le_trans with (Z.sqrt (1020 ^ 2 + 1020 ^ 2)); [apply Z.sqrt_le_mono; nia|vm_compute; discriminate].
Qed.

Lemma zsum_bound lo hi f M : lo <= hi -> (forall i, lo <= i < hi -> 0 <= f i <= M) -> 0 <= zsum lo hi f <= (hi - lo) * M.
Proof.
  intros H B. split; [apply zsum_nonneg; intros; apply B; auto|].
  rewrite <- zsum_const by auto. apply zsum_le. intros; apply B; auto.
Qed.

Lemma pixel_energy_bound ch im x y : wf im -> u8_image im -> 0 < ch -> 0 <= pixel_energy ch im x y <= 1442.
Proof.
  intros W U H. unfold pixel_energy.
  destruct (zsum_bound 0 ch (fun c => Z.sqrt (deriv_x 1 2 im c x y ^ 2 + deriv_y 1 2 im c x y ^ 2)) 1442) as (B1 & B2);
    [lia|intros; apply mag_bound; auto|].
  split; [apply Z.div_pos; lia|]. apply Z.div_le_upper_bound; lia.
Qed.

Lemma gradient_energy_ok ch im : 1 <= ch <= 45 -> channels ch im -> u8_image im ->
  gradient_energy ch im = Ok (gen (iw im) (ih im) (pixel_energy ch im)).
Proof.
  intros Hc C U. pose proof C as (W & _). unfold gradient_energy.
  change (kernel_new sobel_h 3 3) with (Ok (mkKernel sobel_h 3 3)).
  change (kernel_new sobel_v 3 3) with (Ok (mkKernel sobel_v 3 3)). cbn [bind].
  apply (gradients_ok ch im sobel_h sobel_v); auto; try lia; try reflexivity.
  intros x y Hx Hy.
  rewrite (map_ext_in _ (fun c => Z.sqrt (deriv_x 1 2 im c x y ^ 2 + deriv_y 1 2 im c x y ^ 2))).
  2:{ intros c _. rewrite (corr_dx im 1 2), (corr_dy im 1 2). rewrite mag_deriv by (auto; lia). reflexivity. }
  unfold mean_u16.
  assert (FR : fold_right Z.add 0 (map (fun c => Z.sqrt (deriv_x 1 2 im c x y ^ 2 + deriv_y 1 2 im c x y ^ 2)) (zrange 0 ch))
     = zsum 0 ch (fun c => Z.sqrt (deriv_x 1 2 im c x y ^ 2 + deriv_y 1 2 im c x y ^ 2))).
  { unfold zsum. generalize (zrange 0 ch) as l. induction l as [|q l IHl]; [reflexivity|]. cbn [map fold_right]. rewrite IHl. reflexivity. }
  destruct (zsum_bound 0 ch (fun c => Z.sqrt (deriv_x 1 2 im c x y ^ 2 + deriv_y 1 2 im c x y ^ 2)) 1442) as (B1 & B2);
    [lia|intros; apply mag_bound; auto|].
  rewrite sum_u16.
  - cbn [bind]. rewrite FR. rewrite (proj2 (Z.eqb_neq ch 0)) by lia. reflexivity.
  - lia.
  - intros v Hv. apply in_map_iff in Hv as (c & <- & _). apply Z.sqrt_nonneg.
  - rewrite FR. lia.
Qed.

(** ** Dynamic programming over an energy function E on a w-wide image *)
Section DP.
  Variables (w : Z) (E : Z -> Z -> Z).
  Definition dmin (f : Z -> Z) (x : Z) : Z :=
    let m := if 0 <? x then Z.min (f x) (f (x - 1)) else f x in
    if x <? w - 1 then Z.min m (f (x + 1)) else m.
  Fixpoint D (n : nat) (x : Z) : Z :=
    match n with O => E x 0 | S k => dmin (D k) x + E x (Z.of_nat n) end.

  Lemma dmin_le f x a : 0 <= x < w -> 0 <= a < w -> Z.abs (a - x) <= 1 -> dmin f x <= f a.
  Proof.
    intros Hx Ha Hd. unfold dmin.
    assert (a = x \/ a = x - 1 \/ a = x + 1) as [->|[->| ->]] by lia;
      destruct (Z.ltb_spec 0 x), (Z.ltb_spec x (w - 1)); try lia.
  Qed.
  Lemma dmin_in f x : 0 <= x < w -> exists a, 0 <= a < w /\ Z.abs (a - x) <= 1 /\ dmin f x = f a.
  Proof.
    intros Hx. unfold dmin.
    destruct (Z.ltb_spec 0 x), (Z.ltb_spec x (w - 1)).
    - destruct (Z_le_dec (Z.min (f x) (f (x - 1))) (f (x + 1))) as [L|L].
      + destruct (Z_le_dec (f x) (f (x - 1))); [exists x|exists (x - 1)]; splits; lia.
      + exists (x + 1). splits; lia.
    - destruct (Z_le_dec (f x) (f (x - 1))); [exists x|exists (x - 1)]; splits; lia.
    - destruct (Z_le_dec (f x) (f (x + 1))); [exists x|exists (x + 1)]; splits; lia.
    - exists x. splits; lia.
  Qed.

  Definition vpath (n : Z) (c : Z -> Z) : Prop :=
    (forall i, 0 <= i <= n -> 0 <= c i < w) /\ (forall i, 0 <= i < n -> Z.abs (c (i + 1) - c i) <= 1).
  Definition cost (n : Z) (c : Z -> Z) : Z := zsum 0 (n + 1) (fun i => E (c i) i).

  Lemma D_lower n : forall c, vpath (Z.of_nat n) c -> D n (c (Z.of_nat n)) <= cost (Z.of_nat n) c.
  Proof.
    induction n as [|n IH]; intros c (H1 & H2).
    - unfold cost. cbn [D]. change (Z.of_nat 0) with 0. change (0 + 1) with 1.
      rewrite zsum_cons, zsum_empty by lia. lia.
    - cbn [D]. unfold cost. rewrite zsum_snoc by lia.
      replace (Z.of_nat (S n)) with (Z.of_nat n + 1) by lia.
      specialize (IH c). unfold cost in IH.
      assert (V : vpath (Z.of_nat n) c) by (split; intros; [apply H1|apply H2]; lia).
      specialize (IH V).
      assert (dmin (D n) (c (Z.of_nat n + 1)) <= D n (c (Z.of_nat n))).
      { apply dmin_le; [apply H1; lia|apply H1; lia|]. specialize (H2 (Z.of_nat n) ltac:(lia)). lia. }
      lia.
  Qed.
  Lemma D_attained n : forall x, 0 <= x < w ->
    exists c, vpath (Z.of_nat n) c /\ c (Z.of_nat n) = x /\ cost (Z.of_nat n) c = D n x.
  Proof.
    induction n as [|n IH]; intros x Hx.
    - exists (fun _ => x). split; [split; intros; lia|]. split; auto.
      unfold cost. change (Z.of_nat 0 + 1) with 1. rewrite zsum_cons, zsum_empty by lia. cbn [D]. lia.
    - destruct (dmin_in (D n) x Hx) as (a & Ha & Hd & Em).
      destruct (IH a Ha) as (c & (V1 & V2) & Ec & Cc).
      exists (fun i => if i <=? Z.of_nat n then c i else x).
      replace (Z.of_nat (S n)) with (Z.of_nat n + 1) by lia.
      split; [split|split].
      + intros i Hi. destruct (Z.leb_spec i (Z.of_nat n)); [apply V1; lia|auto].
      + intros i Hi. destruct (Z.leb_spec i (Z.of_nat n)); [|lia].
        destruct (Z.leb_spec (i + 1) (Z.of_nat n)); [apply V2; lia|].
        replace i with (Z.of_nat n) by lia. rewrite Ec. lia.
      + destruct (Z.leb_spec (Z.of_nat n + 1) (Z.of_nat n)); lia.
      + unfold cost in *. rewrite zsum_snoc by lia.
        rewrite (zsum_ext 0 (Z.of_nat n + 1) _ (fun i => E (c i) i)).
        * rewrite Cc. destruct (Z.leb_spec (Z.of_nat n + 1) (Z.of_nat n)); [lia|]. cbn [D]. rewrite Em.
          replace (Z.of_nat (S n)) with (Z.of_nat n + 1) by lia. lia.
        * intros i Hi. destruct (Z.leb_spec i (Z.of_nat n)); [auto|lia].
  Qed.
  Lemma D_bound M n x : (forall x y, 0 <= E x y <= M) -> 0 <= D n x <= (Z.of_nat n + 1) * M.
  Proof.
    intros B. revert x. induction n as [|n IH]; intros x; cbn [D].
    - specialize (B x 0). lia.
    - assert (0 <= dmin (D n) x <= (Z.of_nat n + 1) * M).
      { unfold dmin. pose proof (IH x). pose proof (IH (x - 1)). pose proof (IH (x + 1)).
        destruct (0 <? x), (x <? w - 1); lia. }
      specialize (B x (Z.of_nat (S n))). lia.
  Qed.
End DP.

Lemma path_energies_ok w h E M : 0 <= w -> 0 < h -> (forall x y, 0 <= E x y <= M) -> h * M < 2 ^ 32 ->
  path_energies (gen w h E) = Ok (gen w h (fun x y => D w E (Z.to_nat y) x)).
Proof.
  intros Hw Hh B HM. assert (M0 : 0 <= M) by (specialize (B 0 0); lia).
  unfold path_energies. cbn [ih gen].
  destruct (raster_ind (fun i j o => wf o /\ iw o = w /\ ih o = h /\
     forall a b, 0 <= a < w -> 0 <= b < h ->
       get o a b = Some (if (b <? j) || ((b =? j) && (a <? i)) then D w E (Z.to_nat b) a else E a b))
    1 h 0 (fun o => iw o) w (fun y x e => set_path_energy e x y) (gen w h E)) as (o & Eo & (Wo & Ew & Eh & H)); try lia.
  - splits; [apply wf_gen; lia|reflexivity|reflexivity|]. intros a b Ha Hb. rewrite get_gen_in by lia.
    destruct (Z.ltb_spec b 1); cbn [orb]; [replace b with 0 by lia; reflexivity|].
    rewrite (proj2 (Z.ltb_ge a 0)) by lia. rewrite andb_false_r. reflexivity.
  - intros x y o Hx Hy (Wo & Ew & Eh & H). unfold set_path_energy. rewrite Ew.
    assert (GA : forall a, 0 <= a < w -> get_pixel o a (y - 1) = Ok (D w E (Z.to_nat (y - 1)) a)).
    { intros a Ha. apply get_pixel_ok. rewrite H by lia. rewrite (proj2 (Z.ltb_lt (y - 1) y)) by lia. reflexivity. }
    rewrite GA by lia. cbn [bind].
    assert (GC : get_pixel o x y = Ok (E x y)).
    { apply get_pixel_ok. rewrite H by lia. rewrite Z.ltb_irrefl, Z.eqb_refl, Z.ltb_irrefl. reflexivity. }
    assert (EM : (m <- (if 0 <? x
        then above_left <- get_pixel o (x - 1) (y - 1);; Ok (Z.min (D w E (Z.to_nat (y - 1)) x) above_left)
        else Ok (D w E (Z.to_nat (y - 1)) x));;
      (if x <? w - 1 then above_right <- get_pixel o (x + 1) (y - 1);; Ok (Z.min m above_right) else Ok m))
      = Ok (dmin w (D w E (Z.to_nat (y - 1))) x)).
    { unfold dmin. destruct (Z.ltb_spec 0 x).
      - rewrite GA by lia. cbn [bind]. destruct (Z.ltb_spec x (w - 1)); [|reflexivity].
        rewrite GA by lia. reflexivity.
      - cbn [bind]. destruct (Z.ltb_spec x (w - 1)); [|reflexivity]. rewrite GA by lia. reflexivity. }
    rewrite <- bind_assoc. rewrite EM. cbn [bind]. rewrite GC. cbn [bind].
    assert (ED : dmin w (D w E (Z.to_nat (y - 1))) x + E x y = D w E (Z.to_nat y) x).
    { replace (Z.to_nat y) with (S (Z.to_nat (y - 1))) by lia. cbn [D].
      replace (Z.of_nat (S (Z.to_nat (y - 1)))) with y by lia. reflexivity. }
    rewrite ED.
    pose proof (D_bound w E M (Z.to_nat y) x B) as DB.
    rewrite Z2Nat.id in DB by lia.
    assert ((y + 1) * M <= h * M) by (apply Z.mul_le_mono_nonneg_r; lia).
    rewrite chk_u_ok by lia. cbn [bind].
    rewrite put_pixel_ok by lia. eexists. split; [reflexivity|].
    splits; [apply wf_put; auto|rewrite iw_put; auto|rewrite ih_put; auto|].
    intros a b Ha Hb. rewrite get_put by (auto; lia).
    destruct (Z.eqb_spec a x) as [->|Na]; [destruct (Z.eqb_spec b y) as [->|Nb]|]; cbn [andb].
    + rewrite (proj2 (Z.ltb_lt x (x + 1))) by lia. rewrite Z.ltb_irrefl. reflexivity.
    + rewrite H by lia. rewrite (proj2 (Z.eqb_neq b y)) by lia. reflexivity.
    + rewrite H by lia.
      assert ((a <? x) = (a <? x + 1)) as -> by (apply eq_iff_eq_true; rewrite !Z.ltb_lt; lia). reflexivity.
  - intros j o Hj (Wo & Ew & Eh & H). splits; auto. intros a b Ha Hb. rewrite H by lia. f_equal.
    assert (((b <? j) || ((b =? j) && (a <? w))) = ((b <? j + 1) || ((b =? j + 1) && (a <? 0)))) as ->; [|reflexivity].
    apply eq_iff_eq_true. rewrite !orb_true_iff, !andb_true_iff, !Z.ltb_lt, !Z.eqb_eq. lia.
  - rewrite Eo. f_equal. apply image_ext; auto; [apply wf_gen; lia|].
    intros a b Ha Hb. rewrite H by lia. rewrite get_gen_in by lia.
    rewrite (proj2 (Z.ltb_lt b h)) by lia. reflexivity.
Qed.

(** ** Retracing *)
Lemma seam_at_app s t h y : 0 <= h - 1 - y < zlen s -> seam_at (s ++ t) h y = seam_at s h y.
Proof. intros H. unfold seam_at. rewrite znth_app_l by lia. reflexivity. Qed.
Lemma seam_at_last s x h y : h - 1 - y = zlen s -> seam_at (s ++ [x]) h y = x.
Proof.
  intros H. unfold seam_at. rewrite znth_app_r by (pose proof (zlen_nonneg s); lia).
  rewrite H, Z.sub_diag. reflexivity.
Qed.

Lemma bottom_scan w h F : 0 < w -> 0 < h ->
  exists x, for_range 1 w (fun x '(min_x, min_energy) =>
     c <- get_pixel (gen w h F) x (h - 1) ;;
     if c <? min_energy then Ok (x, c) else Ok (min_x, min_energy)) (0, F 0 (h - 1)) = Ok (x, F x (h - 1))
   /\ 0 <= x < w /\ forall a, 0 <= a < w -> F x (h - 1) <= F a (h - 1).
Proof.
  intros Hw Hh.
  destruct (for_range_ind (fun i (s : Z * Z) => exists x, s = (x, F x (h - 1)) /\ 0 <= x < w /\
      forall a, 0 <= a < i -> F x (h - 1) <= F a (h - 1)) 1 w
    (fun x '(min_x, min_energy) =>
     c <- get_pixel (gen w h F) x (h - 1) ;;
     if c <? min_energy then Ok (x, c) else Ok (min_x, min_energy)) (0, F 0 (h - 1)))
    as (s & Es & (x & -> & Hx & Hm)); try lia.
  - exists 0. split; [reflexivity|]. split; [lia|]. intros a Ha. replace a with 0 by lia. lia.
  - intros i s Hi (x & -> & Hx & Hm).
    assert (G : get_pixel (gen w h F) i (h - 1) = Ok (F i (h - 1))) by (apply get_pixel_ok; apply get_gen_in; lia).
    rewrite G. cbn [bind]. destruct (Z.ltb_spec (F i (h - 1)) (F x (h - 1))) as [L|L];
      (eexists; split; [reflexivity|]); [exists i|exists x]; (split; [reflexivity|split; [lia|]]);
      intros a Ha; (destruct (Z.eq_dec a i) as [->|]; [lia|]); specialize (Hm a ltac:(lia)); lia.
  - exists x. auto.
Qed.

Section Retrace.
  Variables (w h : Z) (E : Z -> Z -> Z).
  Hypothesis (Hw : 2 <= w) (Hh : 0 < h < 2 ^ 32).
  Notation F := (fun x y => D w E (Z.to_nat y) x).
  (** rows i-1..h-1 of the list are a path *)
  Definition part (i : Z) (s : list Z) : Prop :=
    zlen s = h - i + 1 /\
    (forall y, i - 1 <= y < h -> 0 <= seam_at s h y < w) /\
    (forall y, i - 1 <= y -> y + 1 < h -> Z.abs (seam_at s h (y + 1) - seam_at s h y) <= 1).
  Definition left_only (i : Z) (s : list Z) : Prop :=
    (forall y, i - 1 <= y -> y + 1 < h -> seam_at s h y <= seam_at s h (y + 1)) /\
    (forall y, i - 1 <= y < h -> 0 < E (seam_at s h y) y).
  Definition tail_cost (i : Z) (s : list Z) : Z := zsum i h (fun y => E (seam_at s h y) y).

  Lemma retrace_ok : exists s, retrace (gen w h F) = Ok s /\ valid_seam w h s /\
    (forall a, 0 <= a < w -> F (seam_at s h (h - 1)) (h - 1) <= F a (h - 1)) /\
    (left_only 1 s -> F (seam_at s h 0) 0 + tail_cost 1 s = F (seam_at s h (h - 1)) (h - 1)).
  Proof.
    unfold retrace. cbn [iw ih gen].
    assert (G : forall x y, 0 <= x < w -> 0 <= y < h -> get_pixel (gen w h F) x y = Ok (F x y))
      by (intros; apply get_pixel_ok; apply (get_gen_in w h F); lia).
    rewrite chk_u_ok by lia. cbn [bind]. rewrite G by lia. cbn [bind].
    destruct (bottom_scan w h F) as (x0 & -> & Hx0 & Hmin); try lia. cbn [bind].
    destruct (for_range_rev_ind (fun i (st : Z * Z * Z * list Z) =>
      let '(mx, me, lx, s) := st in
      mx = lx /\ part i s /\ seam_at s h (i - 1) = lx /\ seam_at s h (h - 1) = x0 /\
      (left_only i s -> me >= F lx (i - 1) /\ F lx (i - 1) + tail_cost i s = F x0 (h - 1))) 1 h
      (fun y '(min_x, min_energy, last_x, seam) =>
     above <- get_pixel (gen w h F) last_x (y - 1) ;;
     ' s <- (if 0 <? last_x then
               left <- get_pixel (gen w h F) (last_x - 1) (y - 1) ;;
               if left <? above then Ok (last_x - 1, left) else Ok (min_x, min_energy)
             else Ok (min_x, min_energy)) ;;
     let '(min_x, min_energy) := s in
     ' s <- (if last_x <? w - 1 then
               right <- get_pixel (gen w h F) (last_x + 1) (y - 1) ;;
               if right <? min_energy then Ok (last_x + 1, right) else Ok (min_x, min_energy)
             else Ok (min_x, min_energy)) ;;
     let '(min_x, min_energy) := s in
     Ok (min_x, min_energy, min_x, seam ++ [min_x])) (x0, F x0 (h - 1), x0, [x0]))
      as ((((mx & me) & lx) & s) & -> & (Emx & (P1 & P2 & P3) & E0 & Eb & HC)); try lia.
    - assert (S0 : seam_at [x0] h (h - 1) = x0) by (unfold seam_at; rewrite Z.sub_diag; reflexivity).
      splits; auto.
      + unfold part. splits.
        * change (zlen [x0]) with 1. lia.
        * intros y Hy. replace y with (h - 1) by lia. rewrite S0. lia.
        * intros; lia.
      + intros _. unfold tail_cost. rewrite zsum_empty by lia. split; lia.
    - intros y (((mx & me) & lx) & s) Hy (-> & (P1 & P2 & P3) & E0 & Eb & HC).
      replace (y + 1 - 1) with y in * by lia.
      assert (Hlx : 0 <= lx < w) by (rewrite <- E0; apply P2; lia).
      rewrite G by lia. cbn [bind].
      set (A := F lx (y - 1)). set (L := F (lx - 1) (y - 1)). set (R := F (lx + 1) (y - 1)).
      assert (DD : F lx y = dmin w (fun x => F x (y - 1)) lx + E lx y).
      { cbv beta. replace (Z.to_nat y) with (S (Z.to_nat (y - 1))) by lia. cbn [D].
        replace (Z.of_nat (S (Z.to_nat (y - 1)))) with y by lia. reflexivity. }
      assert (NX : exists nx ne, (' s0 <- (if 0 <? lx then
               left <- get_pixel (gen w h F) (lx - 1) (y - 1) ;;
               if left <? A then Ok (lx - 1, left) else Ok (lx, me)
             else Ok (lx, me)) ;;
           let '(min_x, min_energy) := s0 in
           ' s0 <- (if lx <? w - 1 then
               right <- get_pixel (gen w h F) (lx + 1) (y - 1) ;;
               if right <? min_energy then Ok (lx + 1, right) else Ok (min_x, min_energy)
             else Ok (min_x, min_energy)) ;;
           let '(min_x, min_energy) := s0 in
           Ok (min_x, min_energy, min_x, s ++ [min_x])) = Ok (nx, ne, nx, s ++ [nx])
           /\ 0 <= nx < w /\ Z.abs (nx - lx) <= 1 /\
           (nx <= lx -> 0 < E lx y -> me >= F lx y ->
              ne >= F nx (y - 1) /\ F nx (y - 1) = dmin w (fun x => F x (y - 1)) lx)).
      { destruct (Z.ltb_spec 0 lx) as [B0|B0].
        - rewrite G by lia. cbn [bind]. fold L.
          destruct (Z.ltb_spec L A) as [LA|LA]; cbn [bind];
          (destruct (Z.ltb_spec lx (w - 1)) as [B1|B1]; [rewrite G by lia; cbn [bind]; fold R|]);
          try match goal with |- context [R <? ?q] => destruct (Z.ltb_spec R q) as [RQ|RQ] end; cbn [bind];
          (eexists _, _; split; [reflexivity|]); (split; [lia|split; [lia|]]); intros N1 N2 N3; try lia;
          rewrite DD in N3; unfold dmin in *; rewrite (proj2 (Z.ltb_lt 0 lx)) in * by lia;
          fold A L R in N3 |- *;
          try (rewrite (proj2 (Z.ltb_lt lx (w - 1))) in * by lia);
          try (rewrite (proj2 (Z.ltb_ge lx (w - 1))) in * by lia); lia.
        - cbn [bind].
          (destruct (Z.ltb_spec lx (w - 1)) as [B1|B1]; [rewrite G by lia; cbn [bind]; fold R|lia]).
          destruct (Z.ltb_spec R me) as [RQ|RQ]; cbn [bind];
          (eexists _, _; split; [reflexivity|]); (split; [lia|split; [lia|]]); intros N1 N2 N3; try lia.
          rewrite DD in N3; unfold dmin in *; rewrite (proj2 (Z.ltb_ge 0 lx)) in * by lia.
          fold A R in N3 |- *.
          rewrite (proj2 (Z.ltb_lt lx (w - 1))) in * by lia. lia. }
      destruct NX as (nx & ne & -> & Hnx & Hd & Hopt).
      eexists. split; [reflexivity|]. cbv beta iota.
      assert (SA : forall y', y <= y' < h -> seam_at (s ++ [nx]) h y' = seam_at s h y')
        by (intros; apply seam_at_app; lia).
      assert (SN : seam_at (s ++ [nx]) h (y - 1) = nx) by (apply seam_at_last; lia).
      splits; auto.
      + unfold part. splits.
        * rewrite zlen_app. change (zlen [nx]) with 1. lia.
        * intros y' Hy'. destruct (Z.eq_dec y' (y - 1)) as [->|]; [rewrite SN; lia|].
          rewrite SA by lia. apply P2; lia.
        * intros y' Hy1 Hy2. rewrite SA by lia. destruct (Z.eq_dec y' (y - 1)) as [->|].
          -- rewrite SN. replace (y - 1 + 1) with y by lia. rewrite E0. lia.
          -- rewrite SA by lia. apply P3; lia.
      + rewrite SA by lia. exact Eb.
      + intros (L1 & L2).
        assert (LO : left_only (y + 1) s).
        { split.
          - intros y' Hy1 Hy2. specialize (L1 y' ltac:(lia) Hy2). rewrite !SA in L1 by lia. exact L1.
          - intros y' Hy'. specialize (L2 y' ltac:(lia)). rewrite SA in L2 by lia. exact L2. }
        destruct (HC LO) as (C1 & C2).
        pose proof (L1 (y - 1) ltac:(lia) ltac:(lia)) as N1. rewrite SN in N1.
        replace (y - 1 + 1) with y in N1 by lia. rewrite SA, E0 in N1 by lia.
        pose proof (L2 y ltac:(lia)) as N2. rewrite SA, E0 in N2 by lia.
        destruct (Hopt N1 N2 C1) as (O1 & O2). split; [exact O1|].
        unfold tail_cost in *. rewrite zsum_cons by lia. rewrite SA, E0 by lia.
        rewrite (zsum_ext (y + 1) h _ (fun y0 => E (seam_at s h y0) y0)) by (intros; rewrite SA by lia; reflexivity).
        rewrite O2. rewrite DD in C2. lia.
    - cbn [bind]. exists s. split; [reflexivity|]. change (1 - 1) with 0 in *.
      split; [|split].
      + unfold valid_seam. splits; [lia|intros; apply P2; lia|intros; apply P3; lia].
      + rewrite Eb. exact Hmin.
      + rewrite E0, Eb. intros L. apply HC; auto.
  Qed.
End Retrace.
