(** Proofs about ellipse drawing: the side region, and the whole outline. *)
From Flocq Require Import Core BinarySingleNaN.
From Coq Require Import Reals Lra Psatz.
From Verif Require Import Base BaseProofs Float FloatProofs FloatErr ClampModel TemplateProofs FContrastProofs WuModel WuSpec WuProofs.
From Verif Require Import LineModel LineSpec LineProofs ShapeModel ShapeSpec ShapeProofs EllipseModel EllipseSpec EllipseProofs.
Local Ltac Zify.zify_post_hook ::= idtac.
Local Open Scope R_scope.

Section Ellipse.
  Context (w h : Z) (Hw : (1 <= w <= 250)%Z) (Hh : (1 <= h <= 250)%Z).
  Notation Wr := (IZR w * IZR w). Notation Hr := (IZR h * IZR h).
  Notation E' := (E (IZR w * IZR w) (IZR h * IZR h)).
  Notation w2 := (of_int (w * w) : f32). Notation h2 := (of_int (h * h) : f32).

  Definition side_inv (x y : Z) (px py p : f32) : Prop :=
    (1 <= x <= w + 1)%Z /\ (0 <= y <= h)%Z /\
    dy 1 (h * h * x) px /\ dy 1 (w * w * y) py /\
    ((1 <= y)%Z -> is_finite p = true /\ Rabs (B2R p - E' (IZR x + / 2) (IZR y - 1)) <= Hr / 16 + (IZR h - IZR y) * c2 (IZR w) Hr) /\
    (w * w * y <= h * h * x)%Z /\ E' (IZR x - 1) (IZR y) <= 0 /\ 0 <= E' (IZR x + 1) (IZR y) /\ (y = 0 -> x = w)%Z.

  Lemma in_w a b : 0 <= a -> E' a b <= 0 -> a <= IZR w.
  Proof.
    intros A L. pose proof (Bw w Hw) as BW. pose proof (Bh h Hh) as BH. pose proof (H_pos _ _ eq_refl BH) as PH. pose proof (W_pos _ _ eq_refl BW) as PW.
    destruct (Rle_dec a (IZR w)) as [K|K]; [exact K|exfalso]. apply Rnot_le_lt in K.
    assert (Q : Wr < a * a) by (clear - K BW; nra). assert (Q2 : Hr * Wr < Hr * (a * a)) by (apply Rmult_lt_compat_l; lra).
    assert (0 <= b * b) by nra. assert (0 <= Wr * (b * b)) by (apply Rmult_le_pos; lra). unfold E in L. lra.
  Qed.
  Lemma side_near x y : (1 <= x)%Z -> (0 <= y)%Z -> E' (IZR x - 1) (IZR y) <= 0 -> 0 <= E' (IZR x + 1) (IZR y) -> near w h x y.
  Proof.
    intros X Y L U. apply (near_of' w h Hw Hh x y (x - 1) y (x + 1) y); unfold shrink, grow; try lia.
    - apply (E_in w h). rewrite minus_IZR. exact L.
    - rewrite plus_IZR. exact U.
  Qed.

  (** the rounded updates of [p] *)
  Lemma upd_stay (p py : f32) V Pn y e M : is_finite p = true -> Rabs (B2R p - V) <= e -> dy 1 (w * w * y) py ->
    Pn = V + (Wr - 2 * (Wr * IZR y)) -> Rabs Pn <= 6 * M -> Rabs (Wr - 2 * (Wr * IZR y)) <= 2 * M -> 2 <= M <= 16000000 -> 0 <= e <= M ->
    is_finite (fadd p (fsub w2 py)) = true /\ Rabs (B2R (fadd p (fsub w2 py)) - Pn) <= e + 14 * M / 16777216.
  Proof.
    intros Fp Ep D -> B6 B2 BM Be. destruct (py_R w _ _ D) as (Fy & Ry). destruct (w2_R w Hw) as (Fh & Rh).
    destruct (sub_err w2 py Wr (2 * (Wr * IZR y)) 0 0 (2 * M) Fh Fy (err0 _ _ Rh) (err0 _ _ Ry)) as (F1 & E1); [lra|lra|].
    assert (T : tiny = / 1000000000) by reflexivity.
    destruct (add_err p (fsub w2 py) V _ e _ (7 * M + (2 * M / 16777216 + tiny)) Fp F1 Ep E1) as (F2 & E2); [lra|lra|].
    split; [exact F2|]. lra.
  Qed.
  Lemma upd_move (p px py : f32) V Pn x y e M : is_finite p = true -> Rabs (B2R p - V) <= e -> dy 1 (w * w * y) py -> dy 1 (h * h * x) px ->
    Pn = V + (Wr - 2 * (Wr * IZR y) + 2 * (Hr * IZR x)) -> Rabs Pn <= 6 * M -> Rabs (Wr - 2 * (Wr * IZR y)) <= 2 * M ->
    Rabs (Wr - 2 * (Wr * IZR y) + 2 * (Hr * IZR x)) <= 4 * M -> 2 <= M <= 16000000 -> 0 <= e <= M ->
    is_finite (fadd p (fadd (fsub w2 py) px)) = true /\ Rabs (B2R (fadd p (fadd (fsub w2 py) px)) - Pn) <= e + 14 * M / 16777216.
  Proof.
    intros Fp Ep D D' -> B6 B2 B4 BM Be. destruct (py_R w _ _ D) as (Fy & Ry). destruct (px_R h _ _ D') as (Fx & Rx). destruct (w2_R w Hw) as (Fh & Rh).
    destruct (sub_err w2 py Wr (2 * (Wr * IZR y)) 0 0 (2 * M) Fh Fy (err0 _ _ Rh) (err0 _ _ Ry)) as (F1 & E1); [lra|lra|].
    assert (T : tiny = / 1000000000) by reflexivity.
    destruct (add_err (fsub w2 py) px _ _ _ 0 (4 * M + (3 * M / 16777216 + tiny)) F1 Fx E1 (err0 _ _ Rx)) as (F3 & E3); [lra|lra|].
    destruct (add_err p _ V _ e _ (7 * M + (7 * M / 16777216 + 10 * tiny)) Fp F3 Ep E3) as (F2 & E2); [lra|lra|].
    split; [exact F2|]. lra.
  Qed.

  Lemma side_step x y (px py p : f32) : side_inv x y px py p -> (1 <= y)%Z ->
    let px' := fadd px (fmul (of_int 2) h2) in
    let py' := fadd py (fmul (of_int (-2)) w2) in
    (flt (of_int 0) p = true -> side_inv x (y - 1) px py' (fadd p (fsub w2 py')) /\ near w h x (y - 1)) /\
    (flt (of_int 0) p = false -> side_inv (x + 1) (y - 1) px' py' (fadd p (fadd (fsub w2 py') px')) /\ near w h (x + 1) (y - 1)).
  Proof.
    intros (Bx & By & Dx & Dy & PE & C & L & U & _) Y1. cbv zeta. destruct (PE Y1) as (Fp & Ep). clear PE.
    pose proof (Bw w Hw) as BW. pose proof (Bh h Hh) as BH. pose proof (H_pos _ _ eq_refl BH) as PH. pose proof (W_pos _ _ eq_refl BW) as PW.
    assert (BX : 1 <= IZR x <= IZR w + 1) by (rewrite <- plus_IZR; split; apply IZR_le; lia).
    assert (BY : 1 <= IZR y <= IZR h) by (split; apply IZR_le; lia).
    assert (CR : Wr * IZR y <= Hr * IZR x). { apply IZR_le in C. rewrite !mult_IZR in C. exact C. }
    assert (CS : Hr / 16 + (IZR h - IZR y) * c2 (IZR w) Hr <= Hr / 8) by (apply (c2_small _ (IZR h) _ eq_refl BW BH); lra).
    pose proof (M2_pos _ _ _ eq_refl BW BH) as (BM & HM).
    assert (Ep' : Rabs (B2R p - E' (IZR x + / 2) (IZR y - 1)) <= Hr / 8) by (eapply Rle_trans; [exact Ep|exact CS]).
    assert (E0 : 0 <= Hr / 16 + (IZR h - IZR y) * c2 (IZR w) Hr) by (eapply Rle_trans; [apply Rabs_pos|exact Ep]).
    destruct (side_bound _ _ _ _ eq_refl eq_refl BW BH _ _ BX BY CR L U) as (S1 & S2 & S3 & S4).
    assert (Dy' : dy 1 (w * w * (y - 1)) (fadd py (fmul (of_int (-2)) w2))) by (apply (py_step w h Hw Hh); [lia|]; replace (y - 1 + 1)%Z with y by lia; exact Dy).
    destruct (int32_R 0) as (F0 & R0); [lia|]. destruct (flt_R' (of_int 0) p F0 Fp) as (LT & GE). rewrite R0 in LT, GE.
    split; intros Q.
    - specialize (LT Q). destruct (side_stay _ _ _ _ eq_refl eq_refl BW BH _ _ BX BY CR L U _ Ep' LT) as (T1 & T2 & T3).
      assert (NR : near w h x (y - 1)). { apply side_near; [lia|lia| |]; rewrite minus_IZR; assumption. }
      split; [|exact NR]. split; [lia|]. split; [lia|]. split; [exact Dx|]. split; [exact Dy'|]. split.
      { intros _. destruct (upd_stay p _ _ (E' (IZR x + / 2) (IZR (y - 1) - 1)) (y - 1) _ (M2 (IZR w) Hr) Fp Ep Dy') as (F & ER).
        { rewrite minus_IZR. unfold E. ring. }
        { rewrite minus_IZR. exact S1. } { rewrite minus_IZR. exact S2. } { exact BM. } { lra. }
        split; [exact F|]. eapply Rle_trans; [exact ER|]. rewrite minus_IZR. unfold c2. lra. }
      split. { apply le_IZR. rewrite !mult_IZR, minus_IZR. exact T1. }
      rewrite minus_IZR. split; [exact T2|]. split; [exact T3|].
      intros Y0. destruct (last_stay _ _ _ _ eq_refl eq_refl BW BH _ _ BX BY CR L U _ Ep' LT) as (K1 & K2); [apply IZR_eq; lia|].
      rewrite <- minus_IZR in K1. rewrite <- plus_IZR in K2. apply lt_IZR in K1, K2. lia.
    - specialize (GE Q). destruct (side_move _ _ _ _ eq_refl eq_refl BW BH _ _ BX BY CR L U _ Ep' GE) as (T1 & T2 & T3).
      assert (XW : (x <= w)%Z). { apply le_IZR. apply (in_w _ (IZR y - 1)); [lra|]. replace (IZR x) with (IZR x + 1 - 1) by ring. exact T2. }
      assert (Dx' : dy 1 (h * h * (x + 1)) (fadd px (fmul (of_int 2) h2))) by (apply (px_step w h Hw Hh); [lia|]; replace (x + 1 - 1)%Z with x by lia; exact Dx).
      assert (NR : near w h (x + 1) (y - 1)). { apply side_near; [lia|lia| |]; rewrite plus_IZR, minus_IZR; assumption. }
      split; [|exact NR]. split; [lia|]. split; [lia|]. split; [exact Dx'|]. split; [exact Dy'|]. split.
      { intros _. destruct (upd_move p _ _ _ (E' (IZR (x + 1) + / 2) (IZR (y - 1) - 1)) (x + 1) (y - 1) _ (M2 (IZR w) Hr) Fp Ep Dy' Dx') as (F & ER).
        { rewrite plus_IZR, minus_IZR. unfold E. field. }
        { rewrite plus_IZR, minus_IZR. exact S3. } { rewrite minus_IZR. exact S2. } { rewrite plus_IZR, minus_IZR. exact S4. } { exact BM. } { lra. }
        split; [exact F|]. eapply Rle_trans; [exact ER|]. rewrite minus_IZR. unfold c2. lra. }
      split. { apply le_IZR. rewrite !mult_IZR, plus_IZR, minus_IZR. exact T1. }
      rewrite plus_IZR, minus_IZR. split; [exact T2|]. split; [exact T3|].
      intros Y0. destruct (last_move _ _ _ _ eq_refl eq_refl BW BH _ _ BX BY CR L U _ Ep' GE) as (K1 & K2); [apply IZR_eq; lia|].
      rewrite <- minus_IZR in K1. apply lt_IZR in K1, K2. lia.
  Qed.

  Lemma side_list : forall n x y px py p, side_inv x y px py p -> (y + 1 <= Z.of_nat n)%Z ->
    exists l, (forall S (render : Z -> Z -> S -> res S) s,
      ellipse_side n render w2 h2 x y px py p s = for_each l (fun q s => render (fst q) (snd q) s) s) /\
      stairs (x, y) l /\ last l (x, y) = (w, 0%Z) /\ Forall (box w h) l.
  Proof.
    induction n as [|n IH]; intros x y px py p I Hn. { destruct I as (_ & By & _). lia. }
    cbn [ellipse_side]. destruct (Z.ltb_spec 0 y) as [Y|Y].
    - destruct (side_step _ _ _ _ _ I ltac:(lia)) as (T1 & T2). destruct I as (Bx & By & _).
      destruct (flt (of_int 0) p) eqn:Q.
      + destruct (T1 eq_refl) as (I' & N). destruct (IH _ _ _ _ _ I') as (l & R & ST & LA & FA); [lia|].
        exists ((x, y - 1)%Z :: l). split.
        { intros S render s. rewrite chk_i_ok by lia. cbn [bind for_each fst snd]. destruct (render x (y - 1)%Z s); cbn [bind]; [apply R|reflexivity|reflexivity]. }
        split. { split; [|exact ST]. split; [cbn; lia|]. split; [cbn; lia|]. intros [= K]. lia. }
        split. { rewrite <- LA. destruct l as [|q l]; [reflexivity|]. exact (last_cons q _ _ l). }
        constructor; [|exact FA]. split; [cbn; lia|exact N].
      + destruct (T2 eq_refl) as (I' & N). destruct (IH _ _ _ _ _ I') as (l & R & ST & LA & FA); [lia|].
        exists ((x + 1, y - 1)%Z :: l). split.
        { intros S render s. rewrite chk_i_ok by lia. cbn [bind]. rewrite chk_i_ok by lia. cbn [bind for_each fst snd].
          destruct (render (x + 1)%Z (y - 1)%Z s); cbn [bind]; [apply R|reflexivity|reflexivity]. }
        split. { split; [|exact ST]. split; [cbn; lia|]. split; [cbn; lia|]. intros [= K]. lia. }
        split. { rewrite <- LA. destruct l as [|q l]; [reflexivity|]. exact (last_cons q _ _ l). }
        constructor; [|exact FA]. split; [cbn; lia|exact N].
    - exists []. split; [reflexivity|]. split; [exact Logic.I|]. split; [|constructor].
      destruct I as (_ & By & _ & _ & _ & _ & _ & _ & Z0). cbn. f_equal; [apply Z0|]; lia.
  Qed.

  (** from the end of the top loop to the start of the side loop *)
  Definition side_p (x y : Z) : f32 :=
    let t := fadd (of_int x) (of_dyadic 1 (-1)) in
    fsub (fadd (fmul h2 (fmul t t)) (fmul w2 (of_int ((y - 1) * (y - 1))))) (fmul w2 h2).
  Lemma side_init x y px py p : top_inv w h x y px py p -> (w * w * y <= h * h * x)%Z -> (1 <= y)%Z -> side_inv x y px py (side_p x y).
  Proof.
    intros (Bx & By & X0 & Dx & Dy & Fp & Ep & H2 & H1 & LL & _) C Y1.
    pose proof (Bw w Hw) as BW. pose proof (Bh h Hh) as BH. pose proof (H_pos _ _ eq_refl BH) as PH. pose proof (W_pos _ _ eq_refl BW) as PW.
    pose proof (sq_le w Hw w Hw) as QW. pose proof (sq_le w Hw h Hh) as QH.
    assert (X1 : (1 <= x)%Z) by (clear - C Y1 Bx QW; destruct (Z.eq_dec x 0) as [->|]; [rewrite Z.mul_0_r in C; assert (0 < w * w * y)%Z by (apply Z.mul_pos_pos; lia); lia|lia]).
    assert (BX : 1 <= IZR x <= IZR w) by (split; apply IZR_le; lia). assert (BY : 1 <= IZR y <= IZR h) by (split; apply IZR_le; lia).
    assert (CR : Wr * IZR y <= Hr * IZR x). { apply IZR_le in C. rewrite !mult_IZR in C. exact C. }
    split; [lia|]. split; [lia|]. split; [exact Dx|]. split; [exact Dy|]. split.
    - intros _. assert (Dt : dy (0 - 1) (x * 2 ^ 1 + 1) (fadd (of_int x) (of_dyadic 1 (-1)) : f32)).
      { apply dy_add; [apply dyk_any; lia|lia| |].
        - apply dy_scale; [lia|]. apply dy_int; [apply dyk_any; lia|lia].
        - apply dy_dyadic; [apply dyk_any; lia|lia]. }
      unfold side_p. cbv zeta. set (t := fadd (of_int x) (of_dyadic 1 (-1)) : f32) in *.
      assert (Dtt : dy (0 - 1 + (0 - 1)) ((x * 2 ^ 1 + 1) * (x * 2 ^ 1 + 1)) (fmul t t)).
      { apply dy_mul; [apply dyk_any; lia| |exact Dt|exact Dt]. change (2 ^ 1)%Z with 2%Z. change (2 ^ 24)%Z with 16777216%Z. nia. }
      destruct Dtt as (Ftt & Rtt). change (bpow radix2 (0 - 1 + (0 - 1))) with (/ 4) in Rtt.
      assert (Rt2 : B2R (fmul t t) = (IZR x + / 2) * (IZR x + / 2)).
      { rewrite Rtt. change (2 ^ 1)%Z with 2%Z. rewrite mult_IZR, plus_IZR, mult_IZR. field. }
      destruct (h2_R w h Hw Hh) as (Fh & Rh). destruct (w2_R w Hw) as (Fw & Rw).
      destruct (int32_R ((y - 1) * (y - 1))) as (Fy & Ry); [clear - By Y1 Hh; nia|]. rewrite mult_IZR, minus_IZR in Ry.
      set (Q := Hr * ((IZR w + 1) * (IZR w + 1))).
      assert (q1 : Hr * ((IZR x + / 2) * (IZR x + / 2)) <= Q). { apply Rmult_le_compat_l; [lra|]. apply Rmult_le_compat; lra. }
      assert (q1' : 0 <= Hr * ((IZR x + / 2) * (IZR x + / 2))). { apply Rmult_le_pos; [lra|]. apply Rmult_le_pos; lra. }
      assert (q2 : Wr * ((IZR y - 1) * (IZR y - 1)) <= Wr * Hr). { apply Rmult_le_compat_l; [lra|]. apply Rmult_le_compat; lra. }
      assert (q2' : 0 <= Wr * ((IZR y - 1) * (IZR y - 1))). { apply Rmult_le_pos; [lra|]. apply Rmult_le_pos; lra. }
      assert (q3 : Wr * Hr <= Q). { unfold Q. rewrite Rmult_comm. apply Rmult_le_compat_l; [lra|]. apply Rmult_le_compat; lra. }
      assert (q4 : Q <= Hr * 63001). { apply Rmult_le_compat_l; [lra|]. clear - BW. nra. }
      assert (q5 : 1 <= Q). { apply Rle_trans with (Wr * Hr); [|exact q3]. clear - PW PH. nra. }
      assert (QB : Q <= 4000000000) by lra.
      clearbody Q. set (A := Hr * ((IZR x + / 2) * (IZR x + / 2))) in *. set (B := Wr * ((IZR y - 1) * (IZR y - 1))) in *.
      destruct (mul_err h2 (fmul t t) _ _ Q Fh Ftt Rh Rt2) as (F1 & E1); [fold A; rewrite Rabs_pos_eq by lra; lra|lra|]. fold A in E1.
      destruct (mul_err w2 (of_int ((y - 1) * (y - 1))) _ _ Q Fw Fy Rw Ry) as (F2 & E2); [fold B; rewrite Rabs_pos_eq by lra; lra|lra|]. fold B in E2.
      destruct (mul_err w2 h2 _ _ Q Fw Fh Rw Rh) as (F3 & E3); [rewrite Rabs_pos_eq by (clear - PW PH; nra); lra|lra|].
      assert (T : tiny = / 1000000000) by reflexivity.
      destruct (add_err _ _ A B _ _ (2.1 * Q) F1 F2 E1 E2) as (F4 & E4); [rewrite Rabs_pos_eq by lra; lra|lra|].
      assert (AB : Rabs (A + B - Wr * Hr) <= 2 * Q) by (apply Rabs_le; split; lra).
      destruct (sub_err _ _ (A + B) (Wr * Hr) _ _ (2.2 * Q) F4 F3 E4 E3) as (F5 & E5); [lra|lra|].
      split; [exact F5|]. unfold E. fold A. fold B. eapply Rle_trans; [exact E5|].
      assert (0 <= (IZR h - IZR y) * c2 (IZR w) Hr). { apply Rmult_le_pos; [lra|]. unfold c2, M2. assert (0 <= Hr * (IZR w + 1)) by (apply Rmult_le_pos; lra). lra. }
      lra.
    - split; [exact C|]. split; [apply LL; [exact C|lia]|]. split.
      { exact (top_exit _ _ _ _ eq_refl eq_refl BW BH (IZR x) (IZR y) ltac:(lra) ltac:(lra) CR H2). }
      lia.
  Qed.

  (** ** the whole quarter *)
  Lemma stairs_mono : forall l p, stairs p l -> forall q, In q (p :: l) -> (fst p <= fst q <= fst (last l p))%Z.
  Proof.
    induction l as [|r l IH]; intros p S q I.
    - destruct I as [<-|[]]. cbn. lia.
    - destruct S as ((S1 & _) & S). replace (last (r :: l) p) with (last l r).
      2:{ destruct l as [|r' l]; [reflexivity|]. exact (last_cons r' _ _ l). }
      pose proof (IH r S r (or_introl eq_refl)) as M. destruct I as [<-|I]; [lia|]. specialize (IH r S q I). lia.
  Qed.
  Lemma stairs_app : forall l p m, stairs p l -> stairs (last l p) m -> stairs p (l ++ m).
  Proof.
    induction l as [|r l IH]; intros p m S T; [exact T|]. destruct S as (S1 & S). split; [exact S1|]. apply IH; [exact S|].
    destruct l as [|r' l]; [exact T|]. rewrite (last_cons r' r p l). exact T.
  Qed.
  Lemma last_app {A} (l m : list A) d : last (l ++ m) d = last m (last l d).
  Proof.
    revert d. induction l as [|a l IH]; intros d; [reflexivity|]. destruct l as [|b l].
    - destruct m as [|c m]; [reflexivity|]. cbn [app]. change (last (c :: m) d = last (c :: m) a). apply last_cons.
    - change (last ((b :: l) ++ m) d = last m (last (b :: l) d)). apply IH.
  Qed.
  Lemma for_each_app {A S} (l m : list A) (f : A -> S -> res S) s : for_each (l ++ m) f s = (s <- for_each l f s ;; for_each m f s).
  Proof. revert s. induction l as [|a l IH]; intros s; [reflexivity|]. cbn [app for_each]. destruct (f a s); cbn [bind]; [apply IH|reflexivity|reflexivity]. Qed.

  Theorem ellipse_list n : (w + h + 2 <= Z.of_nat n)%Z ->
    exists e l, quarter w h e l /\ (w <> h -> (2 * w <= h * h)%Z -> e = w) /\
      forall S (render : Z -> Z -> S -> res S) s,
        draw_ellipse n render w h s = for_each ((0%Z, h) :: l) (fun q s => render (fst q) (snd q) s) s.
  Proof.
    intros Hn. pose proof (sq_le w Hw w Hw) as QW. pose proof (sq_le w Hw h Hh) as QH.
    destruct (top_list w h Hw Hh n _ _ _ _ _ (top_init w h Hw Hh)) as (l & x & y & px & py & R & (p & I) & EX & ST & LA & FA); [lia|].
    assert (B : (0 <= x <= w /\ 0 <= y <= h)%Z) by (destruct I as (? & ? & _); auto).
    assert (Z0 : box w h (0%Z, h)). { split; [cbn; lia|]. cbn [fst snd]. apply (near_of w h Hw Hh 0 h 0 h 1 h); unfold shrink, grow, inside; try lia; nia. }
    assert (GO : exists e m, (forall S (render : Z -> Z -> S -> res S) s, ellipse_side n render w2 h2 x y px py (side_p x y) s = for_each m (fun q s => render (fst q) (snd q) s) s) /\
       stairs (x, y) m /\ last m (x, y) = (e, 0%Z) /\ Forall (box w h) m /\ (0 <= e <= w)%Z /\ (w <> h -> (2 * w <= h * h)%Z -> e = w)).
    { destruct (Z_le_gt_dec 1 y) as [Y|Y].
      - pose proof (side_init _ _ _ _ _ I EX Y) as SI. destruct (side_list n _ _ _ _ _ SI) as (m & R2 & S2 & L2 & F2); [lia|].
        exists w, m. split; [exact R2|]. split; [exact S2|]. split; [exact L2|]. split; [exact F2|]. split; [lia|auto].
      - exists x, []. assert (y = 0)%Z by lia. subst y. split.
        { intros. destruct n as [|n]; [lia|]. cbn [ellipse_side]. reflexivity. }
        split; [exact Logic.I|]. split; [reflexivity|]. split; [constructor|]. split; [lia|].
        intros N F. exfalso. destruct I as (_ & _ & _ & _ & _ & _ & _ & _ & _ & _ & K). exact (K eq_refl N F). }
    destruct GO as (e & m & R2 & S2 & L2 & F2 & Be & Bf).
    exists e, (l ++ m).
    assert (STS : stairs (0%Z, h) (l ++ m)) by (apply stairs_app; [exact ST|rewrite LA; exact S2]).
    assert (LAS : last (l ++ m) (0%Z, h) = (e, 0%Z)) by (rewrite last_app, LA; exact L2).
    split.
    - split; [exact STS|]. split; [exact LAS|]. intros dx dy Q.
      pose proof (stairs_mono _ _ STS _ Q) as M. rewrite LAS in M. cbn [fst] in M.
      assert (BX : box w h (dx, dy)). { destruct Q as [<-|Q]; [exact Z0|]. apply in_app_or in Q. destruct Q as [Q|Q]; [exact (proj1 (Forall_forall _ _) FA _ Q)|exact (proj1 (Forall_forall _ _) F2 _ Q)]. }
      destruct BX as (BX & N). cbn [fst snd] in *. split; [lia|]. split; [lia|exact N].
    - split; [exact Bf|]. intros S render s. unfold draw_ellipse. rewrite (chk_i_ok (w * w)) by lia. cbn [bind]. rewrite (chk_i_ok (h * h)) by lia. cbn [bind].
      cbn [for_each fst snd]. destruct (render 0%Z h s) as [s1| |]; cbn [bind]; [|reflexivity|reflexivity].
      rewrite R. rewrite for_each_app. destruct (for_each l (fun q s => render (fst q) (snd q) s) s1) as [s2| |]; cbn [bind]; [|reflexivity|reflexivity].
      rewrite (chk_i_ok (y - 1)) by lia. cbn [bind]. rewrite chk_i_ok by (clear - B Hh; nia). cbn [bind]. apply R2.
  Qed.
End Ellipse.
