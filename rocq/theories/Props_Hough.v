(** C83, C84 and C85: line detection and polar lines (src/hough.rs). *)
From Flocq Require Import Core BinarySingleNaN.
From Coq Require Import Reals Lra.
From Verif Require Import Base BaseProofs RasterProofs GeomProofs Float FloatProofs FloatErr SuppressModel SuppressSpec LineModel LineSpec LineProofs WuProofs.
From Verif Require Import HoughModel HoughSpec HoughLines HoughProofs HoughProofs2.
Local Ltac Zify.zify_post_hook ::= idtac.

Lemma nodup_map_in {A B} (f : A -> B) l : (forall a b, In a l -> In b l -> f a = f b -> a = b) -> NoDup l -> NoDup (map f l).
Proof.
  induction l as [|a l IH]; intros I N; [constructor|]. inversion N as [|? ? N1 N2]; subst. cbn [map]. constructor.
  - intros H. apply in_map_iff in H. destruct H as (b & E & Hb). apply N1. rewrite <- (I b a); auto; [right; exact Hb|left; reflexivity].
  - apply IH; [|exact N2]. intros x y Hx Hy. apply I; right; assumption.
Qed.
Lemma nodup_app_in {A} (l1 l2 : list A) : NoDup l1 -> NoDup l2 -> (forall a, In a l1 -> In a l2 -> False) -> NoDup (l1 ++ l2).
Proof.
  induction l1 as [|a l1 IH]; intros N1 N2 D; [exact N2|]. inversion N1 as [|? ? M1 M2]; subst. cbn [app]. constructor.
  - intros H. apply in_app_or in H. destruct H as [H|H]; [auto|]. apply (D a); [left; reflexivity|exact H].
  - apply IH; [exact M2|exact N2|]. intros b B1 B2. apply (D b); [right; exact B1|exact B2].
Qed.

(** * C83 *)
(** For every grey image, threshold and radius: the lines are, by angle and
    distance, the buckets whose votes reach the threshold after suppression. *)
Definition c83_statement : Prop := forall lut (im : image Z) thr rad,
  trig_table lut -> gray8 im -> iw im < 2 ^ 32 -> ih im < 2 ^ 32 -> 0 <= thr -> 0 <= rad < 2 ^ 31 ->
  exists keep, detect_lines lut im thr rad = Ok (kept_lines (diagonal im) keep) /\
    forall d m, is_bucket im d m ->
      (top_bucket lut im rad d m -> keep d m = (thr <=? votes lut im d m)) /\
      (~ top_bucket lut im rad d m -> keep d m = (thr <=? 0)).

(** an image of one row that is 65536 pixels wide makes it panic *)
Theorem c83_refuted : ~ c83_statement.
Proof.
  intros H. set (sc := (of_int 0, of_int 1) : f32 * f32).
  destruct (H (repeat sc 180) (new_image 65536 1 0) 1 0) as (keep & E & _); try (rewrite ?iw_new, ?ih_new; lia); try lia.
  - split; [reflexivity|]. apply Forall_forall. intros p Hp. apply repeat_spec in Hp. subst p.
    destruct (int32_R 0) as (F0 & R0); [lia|]. destruct (int32_R 1) as (F1 & R1); [lia|].
    unfold trig_pair, sc. cbn [fst snd]. rewrite R0, R1. split; [exact F0|]. split; [exact F1|].
    rewrite Rabs_R0, Rabs_R1. lra.
  - split; [apply wf_new; lia|]. intros x y v G. pose proof (get_inb _ _ _ _ G) as B. unfold new_image in G, B.
    cbn [iw ih gen] in B. rewrite get_gen_in in G by apply B. injection G as <-. unfold is_u8. lia.
  - revert E. unfold detect_lines. rewrite iw_new, ih_new. replace (hough_rmax _ _) with (@Panic Z) by (vm_compute; reflexivity). discriminate.
Qed.

(** missing: images whose squared diagonal overflows a u32; sines and cosines
    are a parameter *)
Theorem c83_detect_lines_partial : forall lut (im : image Z) thr rad,
  trig_table lut -> gray8 im -> iw im * iw im + ih im * ih im < 2 ^ 32 ->
  0 <= rad < 2 ^ 31 ->
  exists keep, detect_lines lut im thr rad = Ok (kept_lines (diagonal im) keep) /\
    forall d m, is_bucket im d m ->
      (top_bucket lut im rad d m -> keep d m = (thr <=? votes lut im d m)) /\
      (~ top_bucket lut im rad d m -> keep d m = (thr <=? 0)).
Proof.
  intros lut im thr rad TT (W & _) HD Hr. pose proof (dims im W HD) as (_ & _ & DR). apply detect_ok; auto; lia.
Qed.

(** With a positive threshold the reported lines are exactly the buckets that
    have the greatest vote of their block and reach the threshold. *)
Theorem c83_reported_iff_partial : forall lut (im : image Z) thr rad,
  trig_table lut -> gray8 im -> iw im * iw im + ih im * ih im < 2 ^ 32 ->
  0 < thr -> 0 <= rad < 2 ^ 31 ->
  exists lines, detect_lines lut im thr rad = Ok lines /\ NoDup lines /\
    forall d m, Z.abs d <= 2 ^ 24 -> (In (of_int d, m) lines <->
      is_bucket im d m /\ top_bucket lut im rad d m /\ thr <= votes lut im d m).
Proof.
  intros lut im thr rad TT G8 HD Ht Hr.
  destruct (c83_detect_lines_partial lut im thr rad TT G8 HD Hr) as (keep & E & K).
  exists (kept_lines (diagonal im) keep). split; [exact E|].
  pose proof (dims im (proj1 G8) HD) as (_ & _ & DR).
  assert (INJ : forall a b, Z.abs a <= 2 ^ 24 -> Z.abs b <= 2 ^ 24 -> (of_int a : f32) = of_int b -> a = b).
  { intros a b Ha Hb Eq. assert (Da : dy 0 a (of_int a : f32)) by (apply dy_int; [apply dyk_0|exact Ha]).
    assert (Db : dy 0 b (of_int b : f32)) by (apply dy_int; [apply dyk_0|exact Hb]).
    rewrite Eq in Da. pose proof (dy_eq 24 128 0 a b _ _ Da Db) as X.
    pose proof (dy_eq 24 128 0 b b _ _ Db Db) as Y. rewrite Z.eqb_refl in Y. rewrite Y in X. symmetry in X.
    apply Z.eqb_eq in X. exact X. }
  split.
  - unfold kept_lines.
    assert (ROW : forall m, NoDup (map (fun d => ((of_int d : f32), m)) (filter (fun d => keep d m) (zrange (- diagonal im) (diagonal im + 1))))).
    { intros m. apply nodup_map_in; [|apply NoDup_filter, NoDup_zrange].
      intros a b Ha Hb Eq. apply filter_In in Ha, Hb. rewrite in_zrange in Ha, Hb.
      apply (INJ a b); [lia|lia|]. congruence. }
    assert (GEN : forall ms, NoDup ms -> NoDup (flat_map (fun m => map (fun d => ((of_int d : f32), m))
       (filter (fun d => keep d m) (zrange (- diagonal im) (diagonal im + 1)))) ms)).
    { induction ms as [|m ms IH]; intros N; [constructor|]. inversion N as [|? ? N1 N2]; subst. cbn [flat_map].
      apply nodup_app_in; [apply ROW|apply IH, N2|].
      intros p P1 P2. apply in_map_iff in P1. destruct P1 as (d & <- & _).
      apply in_flat_map in P2. destruct P2 as (m' & M & P2). apply in_map_iff in P2. destruct P2 as (d' & Eq & _).
      apply N1. assert (m' = m) by congruence. subst. exact M. }
    apply GEN, NoDup_zrange.
  - intros d m Hd. unfold kept_lines. rewrite in_flat_map. split.
    + intros (m' & M & P). apply in_map_iff in P. destruct P as (d' & Eq & P). apply filter_In in P.
      rewrite in_zrange in M, P. destruct P as (P & Kp). assert (m' = m) by congruence. subst m'.
      assert (d' = d) by (apply INJ; [lia|lia|congruence]). subst d'.
      assert (B : is_bucket im d m) by (unfold is_bucket; lia). destruct (K d m B) as (K1 & K2).
      assert (T : top_bucket lut im rad d m).
      { intros d' m' B' Bd Bm Pf. rewrite K2 in Kp; [lia|]. intros T. exact (T d' m' B' Bd Bm Pf). }
      split; [exact B|]. split; [exact T|]. rewrite (K1 T) in Kp. lia.
    + intros (B & T & V). exists m. rewrite in_zrange. unfold is_bucket in B. split; [lia|].
      apply in_map_iff. exists d. split; [reflexivity|]. apply filter_In. rewrite in_zrange. split; [lia|].
      rewrite (proj1 (K d m B) T). lia.
Qed.

(** every foreground pixel votes exactly once for each angle *)
Theorem c83_votes_total_partial : forall lut (im : image Z) m,
  trig_table lut -> gray8 im -> iw im * iw im + ih im * ih im < 2 ^ 32 -> 0 <= m < 180 ->
  zsum (- diagonal im) (diagonal im + 1) (fun d => votes lut im d m) = foreground_count im.
Proof. intros lut im m TT (W & _) HD Hm. apply votes_total; auto. Qed.

(** a pixel votes for a bucket at distance less than 1.02 from its own exact distance *)
Theorem c83_vote_near : forall sc x y, trig_pair sc -> 0 <= x <= 65535 -> 0 <= y <= 65535 ->
  (Rabs (IZR x * B2R (snd sc) + IZR y * B2R (fst sc) - IZR (bucket sc x y)) < 1 + / 50)%R.
Proof. intros sc x y T Hx Hy. apply bucket_near; assumption. Qed.

(** a vertical line of three pixels; the table is that of 0 degrees for every angle *)
Example c83_nontrivial :
  let lut := repeat (of_int 0 : f32, of_int 1 : f32) 180 in
  let im := mkImage 3 3 [0;0;9; 0;0;9; 0;0;9] in
  trig_table lut /\ gray8 im /\ diagonal im = 4 /\ votes lut im 2 0 = 3 /\
  detect_lines lut im 3 200 = Ok [(of_int 2, 0)].
Proof.
  cbv zeta. split; [|split; [|split; [|split]]].
  - split; [reflexivity|]. apply Forall_forall. intros p Hp. apply repeat_spec in Hp. subst p.
    destruct (int32_R 0) as (F0 & R0); [lia|]. destruct (int32_R 1) as (F1 & R1); [lia|].
    unfold trig_pair. cbn [fst snd]. rewrite R0, R1. split; [exact F0|]. split; [exact F1|].
    rewrite Rabs_R0, Rabs_R1. lra.
  - apply gray8b_ok; reflexivity.
  - reflexivity.
  - vm_compute. reflexivity.
  - vm_compute. reflexivity.
Qed.

(** * C84 *)
(** On exact arithmetic: the two points are on the line and in the box, the
    part of the line in the box is the segment between them, and None means
    that the line misses the box. *)
Definition c84_statement : Prop := forall (r sn cs w h : R) m, (0 < w)%R -> (0 < h)%R -> trig_of m sn cs ->
  match intersection_points calc_R r m sn cs w h with
  | Some (p, q) =>
      in_rect w h p /\ in_rect w h q /\ on_polar r sn cs p /\ on_polar r sn cs q /\
      forall z, in_rect w h z -> on_polar r sn cs z -> on_segment p q z
  | None => forall z, in_rect w h z -> ~ on_polar r sn cs z
  end.

(** the line x + y = 5 meets the 10 x 5 box from (0, 5) to (5, 0), but only its
    end (0, 5) is returned, twice *)
Theorem c84_refuted : ~ c84_statement.
Proof.
  intros H. specialize (H 5%R 1%R 1%R 10%R 5%R 45).
  assert (E : intersection_points calc_R 5%R 45 1%R 1%R 10%R 5%R = Some ((0, 5), (0, 5))%R).
  { unfold intersection_points. cbn [k0 kle kneg kdiv kfma calc_R]. change (45 =? 0) with false. change (45 =? 90) with false. cbv iota.
    replace ((1 * - (10) + 5) / 1)%R with (-5)%R by field. replace (5 / 1)%R with 5%R by field.
    replace ((1 * - (5) + 5) / 1)%R with 0%R by field.
    rewrite (Rle_bool_false 0 (-5)) by lra. rewrite (Rle_bool_true 0 5), (Rle_bool_true 5 5), (Rle_bool_true 0 0), (Rle_bool_true 0 10) by lra.
    reflexivity. }
  rewrite E in H. destruct H as (_ & _ & _ & _ & C); [lra|lra|right; right; repeat split; try lia; lra|].
  destruct (C (5, 0)%R) as (t & Ht & X & _).
  - unfold in_rect. cbn. lra.
  - unfold on_polar. cbn. lra.
  - cbn in X. lra.
Qed.

(** the same in f32: 30 degrees, distance 10, a 100 x 20 image *)
Theorem c84_degenerate_f32 :
  match intersection_points calc_f32 (of_int 10) 30 (of_dyadic 1 (-1)) (of_dyadic 14529495 (-24)) (of_int 100) (of_int 20) with
  | Some (p, q) => feq (fst p) (of_int 0) && feq (snd p) (of_int 20) && feq (fst q) (of_int 0) && feq (snd q) (of_int 20) = true
  | None => False
  end.
Proof. vm_compute. reflexivity. Qed.

(** missing: the part of the line when it passes through one of the two lower corners *)
Theorem c84_intersection_partial : forall (r sn cs w h : R) m, (0 < w)%R -> (0 < h)%R -> trig_of m sn cs ->
  match intersection_points calc_R r m sn cs w h with
  | Some (p, q) =>
      in_rect w h p /\ in_rect w h q /\ on_polar r sn cs p /\ on_polar r sn cs q /\
      (~ on_polar r sn cs (0, h)%R -> ~ on_polar r sn cs (w, h) ->
       forall z, in_rect w h z -> on_polar r sn cs z -> on_segment p q z)
  | None => forall z, in_rect w h z -> ~ on_polar r sn cs z
  end.
Proof.
  intros r sn cs w h m Hw Hh T. destruct (intersection_points calc_R r m sn cs w h) as [(p, q)|] eqn:E.
  - destruct (ip_on_line r sn cs w h m Hw Hh T p q E) as (A & B & C & D). split; [exact A|]. split; [exact B|].
    split; [exact C|]. split; [exact D|]. intros C1 C2. eapply ip_cover; eauto.
  - eapply ip_none; eauto.
Qed.

(** f32: for every distance, angle, sine and cosine (including NaN and
    infinities) a returned point lies in the closed box and on its border *)
Theorem c84_in_box : forall (r sn cs : f32) m w h p q, 0 <= w < 2 ^ 32 -> 0 <= h < 2 ^ 32 ->
  intersection_points calc_f32 r m sn cs (of_int w) (of_int h) = Some (p, q) ->
  forall z, z = p \/ z = q ->
    fle (of_int 0) (fst z) = true /\ fle (fst z) (of_int w) = true /\
    fle (of_int 0) (snd z) = true /\ fle (snd z) (of_int h) = true /\
    (fst z = of_int 0 \/ fst z = of_int w \/ snd z = of_int 0 \/ snd z = of_int h).
Proof.
  intros r sn cs m w h p q Hw Hh E.
  assert (Z0 : fle (of_int 0 : f32) (of_int 0) = true) by (vm_compute; reflexivity).
  assert (FI : forall k, 0 <= k < 2 ^ 32 -> fle (of_int 0 : f32) (of_int k) = true /\ fle (of_int k : f32) (of_int k) = true).
  { intros k Hk. destruct (of_int_R 24 128 k) as (F & Rk).
    { rewrite Rabs_pos_eq by (apply IZR_le; lia). pose proof f32_big.
      assert (IZR k <= IZR (2 ^ 32))%R by (apply IZR_le; lia). change (IZR (2 ^ 32)) with 4294967296%R in *. lra. }
    destruct (int32_R 0) as (F0 & R0); [lia|].
    assert (0 <= rnd 24 128 (IZR k))%R. { rewrite <- (rnd_0 24 128). apply (rnd_le 24 128). apply IZR_le. lia. }
    split; unfold fle; rewrite (Bleb_correct 24 128) by assumption; apply Rle_bool_true; rewrite ?R0, ?Rk; lra. }
  destruct (FI w Hw) as (A1 & A2). destruct (FI h Hh) as (B1 & B2).
  destruct (ip_box calc_f32 (of_int w) (of_int h) r m sn cs p q) as (P & Q & SP & SQ); auto;
    try (unfold inr_; cbn [k0 kle calc_f32]; rewrite ?Z0, ?A1, ?A2, ?B1, ?B2; reflexivity).
  assert (G : forall z, pt_in calc_f32 (of_int w) (of_int h) z = true -> pt_side calc_f32 (of_int w) (of_int h) z ->
    fle (of_int 0) (fst z) = true /\ fle (fst z) (of_int w) = true /\
    fle (of_int 0) (snd z) = true /\ fle (snd z) (of_int h) = true /\
    (fst z = of_int 0 \/ fst z = of_int w \/ snd z = of_int 0 \/ snd z = of_int h)).
  { intros z Hz S. unfold pt_in, inr_ in Hz. cbn [k0 kle calc_f32] in Hz. rewrite !andb_true_iff in Hz.
    unfold pt_side in S. cbn [k0 calc_f32] in S. tauto. }
  intros z [->| ->]; apply G; assumption.
Qed.

Example c84_nontrivial :
  match intersection_points calc_f32 (of_int 3) 45 (of_dyadic 11863283 (-24)) (of_dyadic 11863283 (-24)) (of_int 10) (of_int 5) with
  | Some (p, q) => feq (fst p) (of_int 0) && flt (of_int 4) (snd p) && flt (snd p) (of_int 5) &&
                   feq (snd q) (of_int 0) && flt (of_int 4) (fst q) = true
  | None => False
  end.
Proof. vm_compute. reflexivity. Qed.

(** * C85 *)
(** the pixels of the segments of the given lines *)
Definition on_lines {A} (trig : Z -> f32 * f32) (im : image A) (lines : list polar_line) (x y : Z) : Prop :=
  exists r m s e pts, In (r, m) lines /\
    intersection_points calc_f32 r m (fst (trig m)) (snd (trig m)) (of_int (iw im)) (of_int (ih im)) = Some (s, e) /\
    bres_points s e = Ok pts /\ In (x, y) pts.

Definition point_dec (p q : Z * Z) : {p = q} + {p <> q}.
Proof. decide equality; apply Z.eq_dec. Defined.

Lemma fle_flt (a b : f32) : fle a b = true -> flt b a = false.
Proof.
  unfold fle, flt, Bleb, Bltb, SpecFloat.SFleb, SpecFloat.SFltb. fold (Bcompare a b) (Bcompare b a).
  rewrite (Bcompare_swap 24 128 a b). destruct (Bcompare a b) as [[]|]; cbn; congruence.
Qed.

Lemma box_points {A} (im : image A) s e : wf im -> iw im < 2 ^ 29 -> ih im < 2 ^ 29 ->
  (forall z, z = s \/ z = e -> fle (of_int 0) (fst z) = true /\ fle (fst z) (of_int (iw im)) = true /\
    fle (of_int 0) (snd z) = true /\ fle (snd z) (of_int (ih im)) = true) ->
  exists pts, bres_points s e = Ok pts.
Proof.
  intros (Ww & Wh & _) Hw Hh B. set (im' := mkImage (iw im + 1) (ih im + 1) (@nil Z)).
  assert (C : forall z, z = s \/ z = e -> clamp_point z im' = z).
  { intros z Hz. destruct (B z Hz) as (B1 & B2 & B3 & B4). unfold clamp_point, fclamp. cbn [iw ih im'].
    replace (iw im + 1 - 1) with (iw im) by lia. replace (ih im + 1 - 1) with (ih im) by lia.
    rewrite !fle_flt by assumption. destruct z; reflexivity. }
  destruct (clamped_points im' s e) as (pts & E); [cbn; lia|cbn; lia|].
  rewrite !C in E by auto. eauto.
Qed.

Theorem c85_draw_polar_lines : forall A (trig : Z -> f32 * f32) (im : image A) (c : A) lines,
  wf im -> iw im < 2 ^ 29 -> ih im < 2 ^ 29 ->
  exists out, draw_polar_lines trig (fun _ => c) im lines = Ok out /\
    recoloured (on_lines trig im lines) (fun _ => c) im out.
Proof.
  intros A trig im c lines W Hw Hh. unfold draw_polar_lines.
  assert (G : forall lines (cur : image A) done, wf cur -> iw cur = iw im -> ih cur = ih im ->
    recoloured (on_lines trig im done) (fun _ => c) im cur ->
    exists out, for_each lines (fun line im => draw_polar_line trig (fun _ => c) im line) cur = Ok out /\
      recoloured (on_lines trig im (done ++ lines)) (fun _ => c) im out).
  { clear lines. induction lines as [|(r, m) lines IH]; intros cur done Wc Iw Ih Rc.
    - exists cur. split; [reflexivity|]. rewrite app_nil_r. exact Rc.
    - assert (ST : exists cur', draw_polar_line trig (fun _ => c) cur (r, m) = Ok cur' /\ recoloured (on_lines trig im (done ++ [(r, m)])) (fun _ => c) im cur').
      { unfold draw_polar_line. rewrite Iw, Ih.
        destruct (intersection_points calc_f32 r m (fst (trig m)) (snd (trig m)) (of_int (iw im)) (of_int (ih im))) as [(s, e)|] eqn:EI.
        - destruct (box_points im s e W Hw Hh) as (pts & EP).
          { intros z Hz. destruct W as (W1 & W2 & _). pose proof (c84_in_box r (fst (trig m)) (snd (trig m)) m (iw im) (ih im) s e ltac:(lia) ltac:(lia) EI z Hz). tauto. }
          destruct (draw_line_ok (fun _ => c) cur s e pts) as (out & D & Ro); [unfold cdim; destruct Wc; repeat split; auto; lia|exact EP|].
          exists out. split; [exact D|]. destruct Ro as (R1 & R2 & R3 & R4). destruct Rc as (_ & _ & _ & Rc).
          split; [exact R1|]. split; [lia|]. split; [lia|]. intros x y p Gp.
          assert (IN : exists p', get cur x y = Some p'). { apply get_inb in Gp. apply get_some; [exact Wc|lia|lia]. }
          destruct IN as (p' & Gp'). destruct (R4 x y p' Gp') as (R5 & R6). destruct (Rc x y p Gp) as (R7 & R8).
          split.
          + intros (r' & m' & s' & e' & pts' & I1 & I2 & I3 & I4).
            destruct (in_dec point_dec (x, y) pts) as [Y|N]; [apply R5, Y|].
            rewrite (R6 N). rewrite <- Gp'. apply R7. apply in_app_or in I1. destruct I1 as [I1|[I1|[]]].
            * exists r', m', s', e', pts'. auto.
            * exfalso. apply N. injection I1 as <- <-. rewrite EI in I2. injection I2 as <- <-. rewrite EP in I3. injection I3 as <-. exact I4.
          + intros N. rewrite R6. * rewrite <- Gp'. apply R8. intros (r' & m' & s' & e' & pts' & I1 & I2). apply N.
              exists r', m', s', e', pts'. split; [apply in_or_app; auto|exact I2].
            * intros Y. apply N. exists r, m, s, e, pts. split; [apply in_or_app; right; left; reflexivity|auto].
        - exists cur. split; [reflexivity|]. destruct Rc as (R1 & R2 & R3 & R4). split; [exact R1|]. split; [exact R2|]. split; [exact R3|].
          intros x y p Gp. destruct (R4 x y p Gp) as (R5 & R6). split.
          + intros (r' & m' & s' & e' & pts' & I1 & I2 & I3). apply R5. apply in_app_or in I1. destruct I1 as [I1|[I1|[]]].
            * exists r', m', s', e', pts'. auto.
            * exfalso. injection I1 as <- <-. rewrite EI in I2. discriminate.
          + intros N. apply R6. intros (r' & m' & s' & e' & pts' & I1 & I2). apply N.
            exists r', m', s', e', pts'. split; [apply in_or_app; auto|exact I2]. }
      destruct ST as (cur' & E & Rc'). cbn [for_each]. rewrite E. cbn [bind].
      destruct (IH cur' (done ++ [(r, m)])) as (out & E' & R'); [apply Rc'|apply Rc'|apply Rc'|exact Rc'|].
      exists out. split; [exact E'|]. rewrite <- app_assoc in R'. exact R'. }
  destruct (G lines im [] W eq_refl eq_refl) as (out & E & Ro).
  - split; [exact W|]. split; [reflexivity|]. split; [reflexivity|]. intros x y p Gp. split; [|auto].
    intros (r & m & s & e & pts & I & _). destruct I.
  - exists out. split; [exact E|exact Ro].
Qed.

Example c85_nontrivial : exists out,
  draw_polar_lines (fun _ => (of_int 0, of_int 1)) (fun _ => 9) (mkImage 3 2 [1; 2; 3; 4; 5; 6]) [(of_int 1, 0); (B754_nan, 7)] = Ok out /\
  idata out = [1; 9; 3; 4; 9; 6].
Proof. eexists. split; [vm_compute; reflexivity|vm_compute; reflexivity]. Qed.

Print Assumptions c83_refuted.
Print Assumptions c83_detect_lines_partial.
Print Assumptions c83_reported_iff_partial.
Print Assumptions c83_votes_total_partial.
Print Assumptions c83_vote_near.
Print Assumptions c84_refuted.
Print Assumptions c84_degenerate_f32.
Print Assumptions c84_intersection_partial.
Print Assumptions c84_in_box.
Print Assumptions c85_draw_polar_lines.
