(** Proofs about ellipse drawing. *)
From Flocq Require Import Core BinarySingleNaN.
From Coq Require Import Reals Lra Psatz.
From Verif Require Import Base BaseProofs Float FloatProofs FloatErr ClampModel TemplateProofs FContrastProofs WuModel WuSpec WuProofs.
From Verif Require Import LineModel LineSpec LineProofs ShapeModel ShapeSpec ShapeProofs EllipseModel EllipseSpec.
Local Ltac Zify.zify_post_hook ::= idtac.
Local Open Scope R_scope.
Local Notation rn := (rnd 24 128).

(** ** rounding errors *)
Definition tiny : R := / 1000000000.
Lemma rn_err r B : Rabs r <= B -> Rabs (rn r - r) <= B / 16777216 + tiny.
Proof. exact (err_le r B). Qed.
Lemma add_err (f g : f32) V W e d B : is_finite f = true -> is_finite g = true -> Rabs (B2R f - V) <= e -> Rabs (B2R g - W) <= d ->
  Rabs (V + W) + e + d <= B -> B <= 1000000000000 ->
  is_finite (fadd f g) = true /\ Rabs (B2R (fadd f g) - (V + W)) <= e + d + (B / 16777216 + tiny).
Proof.
  intros Ff Fg Ef Eg S Bb.
  assert (A : Rabs (B2R f + B2R g) <= B).
  { replace (B2R f + B2R g) with ((V + W) + ((B2R f - V) + (B2R g - W))) by ring.
    eapply Rle_trans; [apply Rabs_triang|]. pose proof (Rabs_triang (B2R f - V) (B2R g - W)). lra. }
  destruct (fadd_R 24 128 f g Ff Fg) as (F & R). { pose proof f32_big. lra. }
  split; [exact F|]. pose proof (rn_err _ _ A) as E. rewrite <- R in E.
  replace (B2R (fadd f g) - (V + W)) with ((B2R (fadd f g) - (B2R f + B2R g)) + ((B2R f - V) + (B2R g - W))) by ring.
  eapply Rle_trans; [apply Rabs_triang|]. pose proof (Rabs_triang (B2R f - V) (B2R g - W)). lra.
Qed.
Lemma sub_err (f g : f32) V W e d B : is_finite f = true -> is_finite g = true -> Rabs (B2R f - V) <= e -> Rabs (B2R g - W) <= d ->
  Rabs (V - W) + e + d <= B -> B <= 1000000000000 ->
  is_finite (fsub f g) = true /\ Rabs (B2R (fsub f g) - (V - W)) <= e + d + (B / 16777216 + tiny).
Proof.
  intros Ff Fg Ef Eg S Bb.
  assert (A : Rabs (B2R f - B2R g) <= B).
  { replace (B2R f - B2R g) with ((V - W) + ((B2R f - V) + - (B2R g - W))) by ring.
    eapply Rle_trans; [apply Rabs_triang|]. pose proof (Rabs_triang (B2R f - V) (- (B2R g - W))). rewrite Rabs_Ropp in H. lra. }
  destruct (fsub_R 24 128 f g Ff Fg) as (F & R). { pose proof f32_big. lra. }
  split; [exact F|]. pose proof (rn_err _ _ A) as E. rewrite <- R in E.
  replace (B2R (fsub f g) - (V - W)) with ((B2R (fsub f g) - (B2R f - B2R g)) + ((B2R f - V) + - (B2R g - W))) by ring.
  eapply Rle_trans; [apply Rabs_triang|]. pose proof (Rabs_triang (B2R f - V) (- (B2R g - W))). rewrite Rabs_Ropp in H. lra.
Qed.
Lemma mul_err (f g : f32) V W B : is_finite f = true -> is_finite g = true -> B2R f = V -> B2R g = W ->
  Rabs (V * W) <= B -> B <= 1000000000000 ->
  is_finite (fmul f g) = true /\ Rabs (B2R (fmul f g) - V * W) <= B / 16777216 + tiny.
Proof.
  intros Ff Fg <- <- A Bb. destruct (fmul_R 24 128 f g Ff Fg) as (F & R). { pose proof f32_big. lra. }
  split; [exact F|]. rewrite R. apply rn_err, A.
Qed.

Lemma err0 r V : r = V -> Rabs (r - V) <= 0.
Proof. intros ->. rewrite Rminus_diag_eq by reflexivity. rewrite Rabs_R0. lra. Qed.

(** ** the constants *)
Lemma k1 : bpow radix2 1 = 2. Proof. reflexivity. Qed.
Lemma dyk_any k : (-100 <= k <= 50)%Z -> dyk 24 128 k.
Proof. intros H. unfold dyk. lia. Qed.

(** ** the curve E = 0, in reals *)
Definition E (W H x y : R) : R := H * (x * x) + W * (y * y) - W * H.

Section RealSteps.
  Context (w h W H : R) (HW : W = w * w) (HH : H = h * h) (Bw : 1 <= w <= 250) (Bh : 1 <= h <= 250).
  Definition M1 : R := W * h + H.
  Definition c1 : R := 13 * M1 / 16777216.
  Lemma W_pos : 1 <= W <= 62500. Proof. rewrite HW. nra. Qed.
  Lemma H_pos : 1 <= H <= 62500. Proof. rewrite HH. nra. Qed.
  Lemma c1_small x : 0 <= x <= w -> (x + 1) * c1 <= W / 5.
  Proof.
    intros Hx. unfold c1, M1. assert (A : (x + 1) * (W * h + H) <= 2 * w * (W * h + H)).
    { apply Rmult_le_compat_r; [|lra]. pose proof W_pos. pose proof H_pos. nra. }
    assert (B1 : w * (W * h) <= W * 62500). { pose proof W_pos. assert (w * h <= 62500) by nra. nra. }
    assert (B2 : w * H <= W * 62500). { rewrite HW. pose proof H_pos. nra. }
    replace ((x + 1) * (13 * (W * h + H) / 16777216)) with (13 / 16777216 * ((x + 1) * (W * h + H))) by field. pose proof W_pos. lra.
  Qed.
  Lemma M1_pos : 2 <= M1 <= 16000000 /\ W <= M1 /\ H <= M1 /\ W * h <= M1.
  Proof. unfold M1. pose proof W_pos. pose proof H_pos. nra. Qed.

  (** the top region: a step to the right *)
  Section Top.
    Context (x y : R) (Bx : 0 <= x <= w) (By : 1 <= y <= h).
    Context (Hc : H * x < W * y) (H1 : E W H x (y - / 2) <= W / 5) (H2 : - (W / 5) <= E W H x (y + / 2)).
    Lemma top_HX : 0 <= H * x <= W * h /\ W * y <= W * h /\ W <= W * y.
    Proof. pose proof W_pos. pose proof H_pos. nra. Qed.
    Lemma top_x : x < w.
    Proof.
      pose proof W_pos. pose proof H_pos. unfold E in H1. assert (Q : / 4 <= (y - / 2) * (y - / 2)) by (clear - By; nra). assert (W * / 4 <= W * ((y - / 2) * (y - / 2))) by (apply Rmult_le_compat_l; lra).
      assert (A : H * (x * x) < H * (w * w)) by (rewrite <- HW; lra). destruct (Rlt_le_dec x w) as [L|G]; [exact L|exfalso].
      assert (w * w <= x * x) by (clear - G Bw; nra). assert (H * (w * w) <= H * (x * x)) by (apply Rmult_le_compat_l; lra). lra.
    Qed.
    Lemma top_bound_straight : Rabs (E W H (x + 1 + 1) (y - / 2)) <= 5 * M1 /\ Rabs (H * (2 * (x + 1) + 1)) <= 3 * M1.
    Proof.
      pose proof top_HX. pose proof W_pos. pose proof H_pos. unfold E, M1 in *. split; apply Rabs_le; split; lra.
    Qed.
    Lemma top_bound_diag : Rabs (E W H (x + 1 + 1) (y - 1 - / 2)) <= 5 * M1 /\ Rabs (H * (2 * (x + 1) + 1) - 2 * (W * (y - 1))) <= 3 * M1.
    Proof.
      pose proof top_HX. pose proof W_pos. pose proof H_pos. unfold E, M1 in *. split; apply Rabs_le; split; lra.
    Qed.
    Context (p : R) (Hp : Rabs (p - E W H (x + 1) (y - / 2)) <= W / 5).
    Lemma top_straight : p < 0 -> E W H (x + 1) (y - / 2) <= W / 5 /\ - (W / 5) <= E W H (x + 1) (y + / 2) /\
      E W H (x + 1) (y - 1) <= 0 /\ 0 < E W H (x + 1) (y + 1) /\ (W * y <= H * (x + 1) -> E W H x y <= 0).
    Proof.
      intros P. apply Rabs_le_inv in Hp. pose proof top_HX. pose proof W_pos. pose proof H_pos.
      unfold E in *. assert (0 <= W * y) by lra. repeat split; try intros; lra.
    Qed.
    Lemma top_diag : 0 <= p -> - (W / 5) <= E W H (x + 1) (y - 1 + / 2) /\
      E W H x (y - 1) <= 0 /\ 0 < E W H (x + 1) y /\
      (H * (x + 1) < W * (y - 1) -> E W H (x + 1) (y - 1 - / 2) <= W / 5).
    Proof.
      intros P. apply Rabs_le_inv in Hp. pose proof top_HX. pose proof W_pos. pose proof H_pos.
      unfold E in *. assert (0 <= W * y) by lra. repeat split; try intros; lra.
    Qed.
  End Top.

  (** where the top region ends *)
  Lemma top_exit x y : 0 <= x -> 1 <= y -> W * y <= H * x -> - (W / 5) <= E W H x (y + / 2) -> 0 <= E W H (x + 1) y.
  Proof. intros X Y C H2. pose proof W_pos. pose proof H_pos. unfold E in *. assert (W <= W * y) by nra. lra. Qed.
  (** flat ellipses only reach the axis in the top region *)
  Lemma top_flat x : 0 <= x -> w = 2 \/ 3 <= w -> w <> h -> 2 * w <= h * h -> (w = 2 -> 9 <= h * h) -> H * x < W -> - (W / 5) <= E W H (x + 1) (/ 2) -> False.
  Proof.
    intros X V N F F2 C P. pose proof W_pos. pose proof H_pos. unfold E in P.
    assert (A : H * (x + 1) < W + H) by lra.
    assert (A2 : (H * (x + 1)) * (H * (x + 1)) < (W + H) * (W + H)) by (apply Rmult_le_0_lt_compat; nra).
    assert (A3 : H * (W * H - W * (9 / 20)) <= (H * (x + 1)) * (H * (x + 1))) by nra.
    assert (A4 : H * (W * H - W * (9 / 20)) < (W + H) * (W + H)) by lra.
    clear - A4 V N F F2 HW HH Bw Bh. rewrite <- HH in *.
    assert (B : W * W <= W * (H * H) / 4) by (assert (W <= H * H / 4) by nra; nra).
    assert (D : 3 / 4 * (W * H) < 49 / 20 * W + H).
    { assert (0 < H) by nra. apply Rmult_lt_reg_l with H; [assumption|]. lra. }
    destruct V as [V|V].
    - specialize (F2 V). rewrite HW, V in D. lra.
    - assert (9 <= W) by (clear - V HW; nra). assert (6 <= H) by lra. assert (0 <= (H - 6) * (3 / 4 * W - 1)) by (apply Rmult_le_pos; lra). lra.
  Qed.

  (** the side region *)
  Definition M2 : R := H * (w + 1).
  Definition c2 : R := 14 * M2 / 16777216.
  Lemma c2_small k : 0 <= k <= h -> H / 16 + k * c2 <= H / 8.
  Proof.
    intros K. unfold c2, M2. pose proof H_pos. assert (A : k * (w + 1) <= 62750) by nra.
    assert (B : H * (k * (w + 1)) <= H * 62750) by (apply Rmult_le_compat_l; lra).
    replace (k * (14 * (H * (w + 1)) / 16777216)) with (14 / 16777216 * (H * (k * (w + 1)))) by field. lra.
  Qed.
  Lemma M2_pos : 2 <= M2 <= 16000000 /\ 2 * H <= M2.
  Proof. unfold M2. pose proof H_pos. nra. Qed.

  Section Side.
    Context (x y : R) (Bx : 1 <= x <= w + 1) (By : 1 <= y <= h).
    Context (Hc : W * y <= H * x) (L : E W H (x - 1) y <= 0) (U : 0 <= E W H (x + 1) y).
    Lemma side_HX : H <= H * x <= M2 /\ W <= W * y.
    Proof. unfold M2. pose proof W_pos. pose proof H_pos. nra. Qed.
    Lemma side_bound : Rabs (E W H (x + / 2) (y - 1 - 1)) <= 6 * M2 /\ Rabs (W - 2 * (W * (y - 1))) <= 2 * M2 /\
      Rabs (E W H (x + 1 + / 2) (y - 1 - 1)) <= 6 * M2 /\ Rabs (W - 2 * (W * (y - 1)) + 2 * (H * (x + 1))) <= 4 * M2.
    Proof.
      pose proof side_HX. pose proof M2_pos. pose proof W_pos. pose proof H_pos. unfold E in *.
      repeat split; apply Rabs_le; split; lra.
    Qed.
    Context (p : R) (Hp : Rabs (p - E W H (x + / 2) (y - 1)) <= H / 8).
    Lemma side_stay : 0 < p -> W * (y - 1) <= H * x /\ E W H (x - 1) (y - 1) <= 0 /\ 0 <= E W H (x + 1) (y - 1).
    Proof.
      intros P. apply Rabs_le_inv in Hp. pose proof side_HX. pose proof W_pos. pose proof H_pos. unfold E in *. repeat split; lra.
    Qed.
    Lemma side_move : p <= 0 -> W * (y - 1) <= H * (x + 1) /\ E W H (x + 1 - 1) (y - 1) <= 0 /\ 0 <= E W H (x + 1 + 1) (y - 1).
    Proof.
      intros P. apply Rabs_le_inv in Hp. pose proof side_HX. pose proof W_pos. pose proof H_pos. unfold E in *. repeat split; lra.
    Qed.
    Lemma last_stay : 0 < p -> y = 1 -> w - 1 < x < w + 1.
    Proof.
      intros P ->. apply Rabs_le_inv in Hp. pose proof W_pos. pose proof H_pos. unfold E in *. split.
      - destruct (Rlt_le_dec (w - 1) x) as [G|G]; [exact G|exfalso].
        assert (A : (x + / 2) * (x + / 2) <= (w - / 2) * (w - / 2)) by (clear - G Bx; nra).
        assert (A2 : H * ((x + / 2) * (x + / 2)) <= H * ((w - / 2) * (w - / 2))) by (apply Rmult_le_compat_l; lra).
        assert (A3 : H * w >= H) by (clear - H1 Bw; nra). replace (W * H) with (H * (w * w)) in * by (rewrite HW; ring). lra.
      - destruct (Rlt_le_dec x (w + 1)) as [G|G]; [exact G|exfalso].
        assert (A : w * w <= (x - 1) * (x - 1)) by (clear - G Bw; nra). rewrite <- HW in A.
        assert (A2 : H * W <= H * ((x - 1) * (x - 1))) by (apply Rmult_le_compat_l; lra). lra.
    Qed.
    Lemma last_move : p <= 0 -> y = 1 -> w - 2 < x < w.
    Proof.
      intros P ->. apply Rabs_le_inv in Hp. pose proof W_pos. pose proof H_pos. unfold E in *. split.
      - destruct (Rlt_le_dec (w - 2) x) as [G|G]; [exact G|exfalso].
        assert (A : (x + 1) * (x + 1) <= (w - 1) * (w - 1)) by (clear - G Bx; nra).
        assert (A2 : H * ((x + 1) * (x + 1)) <= H * ((w - 1) * (w - 1))) by (apply Rmult_le_compat_l; lra).
        assert (A3 : H * x <= H * (w - 2)) by (apply Rmult_le_compat_l; lra).
        assert (A4 : H * w >= H) by (clear - H1 Bw; nra). replace (W * H) with (H * (w * w)) in * by (rewrite HW; ring). lra.
      - destruct (Rlt_le_dec x w) as [G|G]; [exact G|exfalso].
        assert (A : (w + / 2) * (w + / 2) <= (x + / 2) * (x + / 2)) by (clear - G Bw; nra).
        assert (A2 : H * ((w + / 2) * (w + / 2)) <= H * ((x + / 2) * (x + / 2))) by (apply Rmult_le_compat_l; lra).
        assert (A3 : H * w >= H) by (clear - H1 Bw; nra). replace (W * H) with (H * (w * w)) in * by (rewrite HW; ring). lra.
    Qed.
  End Side.
End RealSteps.

(** ** the loops, in floats *)
Lemma flt_R' (a b : f32) : is_finite a = true -> is_finite b = true -> (flt a b = true -> B2R a < B2R b) /\ (flt a b = false -> B2R b <= B2R a).
Proof.
  intros Fa Fb. unfold flt. rewrite (Bltb_correct _ _ a b Fa Fb). split; intros H.
  - destruct (Rlt_bool_spec (B2R a) (B2R b)); [assumption|discriminate].
  - destruct (Rlt_bool_spec (B2R a) (B2R b)); [discriminate|assumption].
Qed.
Lemma dy1_R m (f : f32) : dy 1 m f -> is_finite f = true /\ B2R f = 2 * IZR m.
Proof. intros (F & R). split; [exact F|]. rewrite R. change (bpow radix2 1) with 2. ring. Qed.

Lemma last_cons {A} (a d e : A) l : last (a :: l) d = last (a :: l) e.
Proof. revert a. induction l as [|b l IH]; intros a; [reflexivity|]. change (last (b :: l) d = last (b :: l) e). apply IH. Qed.

Section Ellipse.
  Context (w h : Z) (Hw : (1 <= w <= 250)%Z) (Hh : (1 <= h <= 250)%Z).
  Notation Wr := (IZR w * IZR w). Notation Hr := (IZR h * IZR h).
  Notation E' := (E (IZR w * IZR w) (IZR h * IZR h)).
  Notation w2 := (of_int (w * w) : f32). Notation h2 := (of_int (h * h) : f32).
  Lemma Bw : 1 <= IZR w <= 250. Proof. split; apply IZR_le; lia. Qed.
  Lemma Bh : 1 <= IZR h <= 250. Proof. split; apply IZR_le; lia. Qed.
  Lemma sq_le a : (1 <= a <= 250)%Z -> (1 <= a * a <= 62500)%Z. Proof. nia. Qed.
  Lemma w2_R : is_finite w2 = true /\ B2R w2 = Wr.
  Proof. destruct (int32_R (w * w)) as (F & R); [pose proof (sq_le w Hw); lia|]. rewrite R, mult_IZR. auto. Qed.
  Lemma h2_R : is_finite h2 = true /\ B2R h2 = Hr.
  Proof. destruct (int32_R (h * h)) as (F & R); [pose proof (sq_le h Hh); lia|]. rewrite R, mult_IZR. auto. Qed.

  Lemma E_in x y : E' (IZR x) (IZR y) <= 0 -> inside w h x y.
  Proof.
    unfold E, inside. intros L. apply le_IZR. rewrite !plus_IZR, !mult_IZR. lra.
  Qed.
  Lemma E_out x y : 0 < E' (IZR x) (IZR y) -> ~ inside w h x y.
  Proof.
    unfold E, inside. intros L I. apply IZR_le in I. rewrite !plus_IZR, !mult_IZR in I. lra.
  Qed.
  Lemma inside_mono a b a' b' : (0 <= a <= a')%Z -> (0 <= b <= b')%Z -> inside w h a' b' -> inside w h a b.
  Proof.
    unfold inside. intros A B I. assert (A2 : (a * a <= a' * a')%Z) by (clear - A; nia). assert (B2 : (b * b <= b' * b')%Z) by (clear - B; nia).
    pose proof (sq_le w Hw). pose proof (sq_le h Hh).
    assert (h * h * (a * a) <= h * h * (a' * a'))%Z by (apply Z.mul_le_mono_nonneg_l; lia).
    assert (w * w * (b * b) <= w * w * (b' * b'))%Z by (apply Z.mul_le_mono_nonneg_l; lia). lia.
  Qed.
  (** the two shapes in which the loops establish that a pixel is near *)
  Lemma near_of x y a b c d : (0 <= x)%Z -> (0 <= y)%Z ->
    (shrink x <= a)%Z -> (shrink y <= b)%Z -> inside w h a b -> (0 <= c <= grow x)%Z -> (0 <= d <= grow y)%Z -> ~ inside w h c d -> near w h x y.
  Proof.
    intros X Y A B I C D O. split.
    - revert I. apply inside_mono; unfold shrink in *; lia.
    - intros I'. apply O. revert I'. apply inside_mono; assumption.
  Qed.
  (** as [near_of], when the outer point may be on the ellipse *)
  Lemma near_of' x y a b c d : (0 <= x)%Z -> (0 <= y)%Z ->
    (shrink x <= a)%Z -> (shrink y <= b)%Z -> inside w h a b -> (0 <= c <= grow x)%Z -> (0 <= d < grow y)%Z ->
    0 <= E' (IZR c) (IZR d) -> near w h x y.
  Proof.
    intros X Y A B I C D O. apply (near_of x y a b c (d + 1)); try assumption; try (unfold grow in *; lia).
    apply E_out. rewrite plus_IZR. unfold E in *. pose proof Bw. assert (0 <= IZR d) by (apply IZR_le; lia).
    assert (0 < Wr) by nra. assert (0 <= Wr * IZR d) by (apply Rmult_le_pos; lra). lra.
  Qed.

  (** exact increments of [px] and [py] *)
  Lemma px_step x (px : f32) : (0 <= x <= w + 1)%Z -> dy 1 (h * h * (x - 1)) px -> dy 1 (h * h * x) (fadd px (fmul (of_int 2) h2)).
  Proof.
    intros Hx D. assert (S : (h * h * x <= 62500 * 251)%Z) by (pose proof (sq_le h Hh); nia). assert (S0 : (0 <= h * h * x)%Z) by nia.
    assert (D2 : dy 1 (h * h) (fmul (of_int 2) h2)).
    { cut (dy (1 + 0) (1 * (h * h)) (fmul (of_int 2) h2)); [rewrite Z.add_0_r, Z.mul_1_l; auto|].
      apply dy_mul; [apply dyk_any; lia|pose proof (sq_le h Hh); lia| |].
      - change (of_int 2 : f32) with (of_dyadic 2 0 : f32). destruct (dy_dyadic 24 128 0 2) as (F & R); [apply dyk_any; lia|lia|].
        split; [exact F|]. rewrite R. change (bpow radix2 0) with 1. change (bpow radix2 1) with 2. ring.
      - apply dy_int; [apply dyk_any; lia|pose proof (sq_le h Hh); lia]. }
    replace (h * h * x)%Z with (h * h * (x - 1) + h * h)%Z by ring.
    apply dy_add; [apply dyk_any; lia|lia|exact D|exact D2].
  Qed.
  Lemma py_step y (py : f32) : (0 <= y <= h)%Z -> dy 1 (w * w * (y + 1)) py -> dy 1 (w * w * y) (fadd py (fmul (of_int (-2)) w2)).
  Proof.
    intros Hy D. assert (S : (w * w * y <= 62500 * 250)%Z) by (pose proof (sq_le w Hw); nia). assert (S0 : (0 <= w * w * y)%Z) by nia.
    assert (D2 : dy 1 (- (w * w)) (fmul (of_int (-2)) w2)).
    { cut (dy (1 + 0) ((-1) * (w * w)) (fmul (of_int (-2)) w2)); [rewrite Z.add_0_r; replace (-1 * (w * w))%Z with (- (w * w))%Z by ring; auto|].
      apply dy_mul; [apply dyk_any; lia|pose proof (sq_le w Hw); lia| |].
      - change (of_int (-2) : f32) with (of_dyadic (-2) 0 : f32). destruct (dy_dyadic 24 128 0 (-2)) as (F & R); [apply dyk_any; lia|lia|].
        split; [exact F|]. rewrite R. change (bpow radix2 0) with 1. change (bpow radix2 1) with 2. ring.
      - apply dy_int; [apply dyk_any; lia|pose proof (sq_le w Hw); lia]. }
    replace (w * w * y)%Z with (w * w * (y + 1) + - (w * w))%Z by ring.
    apply dy_add; [apply dyk_any; lia|lia|exact D|exact D2].
  Qed.

  Definition top_inv (x y : Z) (px py p : f32) : Prop :=
    (0 <= x <= w)%Z /\ (0 <= y <= h)%Z /\ (x = 0 -> y = h)%Z /\
    dy 1 (h * h * x) px /\ dy 1 (w * w * y) py /\ is_finite p = true /\
    Rabs (B2R p - E' (IZR x + 1) (IZR y - / 2)) <= (IZR x + 1) * c1 (IZR h) Wr Hr /\
    - (Wr / 5) <= E' (IZR x) (IZR y + / 2) /\
    ((h * h * x < w * w * y)%Z -> E' (IZR x) (IZR y - / 2) <= Wr / 5) /\
    ((w * w * y <= h * h * x)%Z -> (1 <= y)%Z -> E' (IZR x - 1) (IZR y) <= 0) /\
    ((y = 0)%Z -> w <> h -> (2 * w <= h * h)%Z -> False).

  Lemma px_R x (px : f32) : dy 1 (h * h * x) px -> is_finite px = true /\ B2R px = 2 * (Hr * IZR x).
  Proof. intros D. destruct (dy1_R _ _ D) as (F & R). rewrite R, !mult_IZR. auto. Qed.
  Lemma py_R y (py : f32) : dy 1 (w * w * y) py -> is_finite py = true /\ B2R py = 2 * (Wr * IZR y).
  Proof. intros D. destruct (dy1_R _ _ D) as (F & R). rewrite R, !mult_IZR. auto. Qed.

  (** the rounded updates of [p] *)
  Lemma upd_straight (p px : f32) V Pn x e M : is_finite p = true -> Rabs (B2R p - V) <= e -> dy 1 (h * h * x) px ->
    Pn = V + Hr * (2 * IZR x + 1) -> Rabs Pn <= 5 * M -> Rabs (Hr * (2 * IZR x + 1)) <= 3 * M -> 2 <= M <= 16000000 -> 0 <= e <= M ->
    is_finite (fadd p (fadd h2 px)) = true /\ Rabs (B2R (fadd p (fadd h2 px)) - Pn) <= e + 13 * M / 16777216.
  Proof.
    intros Fp Ep D -> B5 B3 BM Be. destruct (px_R _ _ D) as (Fx & Rx). destruct h2_R as (Fh & Rh).
    destruct (add_err h2 px Hr (2 * (Hr * IZR x)) 0 0 (3 * M) Fh Fx (err0 _ _ Rh) (err0 _ _ Rx)) as (F1 & E1); [|lra|].
    { replace (Hr + 2 * (Hr * IZR x)) with (Hr * (2 * IZR x + 1)) by ring. lra. }
    replace (Hr + 2 * (Hr * IZR x)) with (Hr * (2 * IZR x + 1)) in E1 by ring.
    assert (T : tiny = / 1000000000) by reflexivity.
    destruct (add_err p (fadd h2 px) V _ e _ (6 * M + (3 * M / 16777216 + tiny)) Fp F1 Ep E1) as (F2 & E2); [lra|lra|].
    split; [exact F2|]. lra.
  Qed.
  Lemma upd_diag (p px py : f32) V Pn x y e M : is_finite p = true -> Rabs (B2R p - V) <= e -> dy 1 (h * h * x) px -> dy 1 (w * w * y) py ->
    Pn = V + (Hr * (2 * IZR x + 1) - 2 * (Wr * IZR y)) -> Rabs Pn <= 5 * M -> Rabs (Hr * (2 * IZR x + 1)) <= 3 * M ->
    Rabs (Hr * (2 * IZR x + 1) - 2 * (Wr * IZR y)) <= 3 * M -> 2 <= M <= 16000000 -> 0 <= e <= M / 2 ->
    is_finite (fadd p (fsub (fadd h2 px) py)) = true /\ Rabs (B2R (fadd p (fsub (fadd h2 px) py)) - Pn) <= e + 13 * M / 16777216.
  Proof.
    intros Fp Ep D D' -> B5 B3 B3' BM Be. destruct (px_R _ _ D) as (Fx & Rx). destruct (py_R _ _ D') as (Fy & Ry). destruct h2_R as (Fh & Rh).
    destruct (add_err h2 px Hr (2 * (Hr * IZR x)) 0 0 (3 * M) Fh Fx (err0 _ _ Rh) (err0 _ _ Rx)) as (F1 & E1); [|lra|].
    { replace (Hr + 2 * (Hr * IZR x)) with (Hr * (2 * IZR x + 1)) by ring. lra. }
    replace (Hr + 2 * (Hr * IZR x)) with (Hr * (2 * IZR x + 1)) in E1 by ring.
    assert (T : tiny = / 1000000000) by reflexivity.
    destruct (sub_err _ py _ _ _ 0 (3 * M + (3 * M / 16777216 + tiny)) F1 Fy E1 (err0 _ _ Ry)) as (F3 & E3); [lra|lra|].
    destruct (add_err p _ V _ e _ (5.5 * M + (7 * M / 16777216 + 10 * tiny)) Fp F3 Ep E3) as (F2 & E2); [lra|lra|].
    split; [exact F2|]. lra.
  Qed.

  Lemma top_step x y (px py p : f32) : top_inv x y px py p -> flt px py = true ->
    let px' := fadd px (fmul (of_int 2) h2) in
    let py' := fadd py (fmul (of_int (-2)) w2) in
    (x < w)%Z /\ (1 <= y)%Z /\
    (flt p (of_int 0) = true -> top_inv (x + 1) y px' py (fadd p (fadd h2 px')) /\ near w h (x + 1) y) /\
    (flt p (of_int 0) = false -> top_inv (x + 1) (y - 1) px' py' (fadd p (fsub (fadd h2 px') py')) /\ near w h (x + 1) (y - 1)).
  Proof.
    intros (Bx & By & X0 & Dx & Dy & Fp & Ep & H2 & H1 & _ & _) C. cbv zeta.
    rewrite (dy_lt 24 128 1 _ _ px py Dx Dy) in C. apply Z.ltb_lt in C. specialize (H1 C).
    assert (Y1 : (1 <= y)%Z). { pose proof (sq_le w Hw). pose proof (sq_le h Hh). assert (0 <= h * h * x)%Z by nia. nia. }
    pose proof Bw as BW. pose proof Bh as BH.
    assert (BX : 0 <= IZR x <= IZR w) by (split; apply IZR_le; lia). assert (BY : 1 <= IZR y <= IZR h) by (split; apply IZR_le; lia).
    assert (CR : Hr * IZR x < Wr * IZR y). { apply IZR_lt in C. rewrite !mult_IZR in C. exact C. }
    assert (XW : (x < w)%Z). { apply lt_IZR. exact (top_x _ _ _ _ eq_refl eq_refl BW BH _ _ BY H1). }
    split; [exact XW|]. split; [exact Y1|].
    pose proof (c1_small _ _ _ _ eq_refl eq_refl BW BH _ BX) as CS. pose proof (M1_pos _ _ _ _ eq_refl eq_refl BW BH) as (BM & WM & _ & _).
    pose proof (W_pos _ _ eq_refl BW) as PW. pose proof (H_pos _ _ eq_refl BH) as PH.
    assert (Ep' : Rabs (B2R p - E' (IZR x + 1) (IZR y - / 2)) <= Wr / 5) by (eapply Rle_trans; [exact Ep|exact CS]).
    assert (Dx' : dy 1 (h * h * (x + 1)) (fadd px (fmul (of_int 2) h2))) by (apply px_step; [lia|]; replace (x + 1 - 1)%Z with x by lia; exact Dx).
    destruct (int32_R 0) as (F0 & R0); [lia|]. destruct (flt_R' p (of_int 0) Fp F0) as (LT & GE). rewrite R0 in LT, GE.
    assert (C1 : 0 <= (IZR x + 1) * c1 (IZR h) Wr Hr) by (eapply Rle_trans; [apply Rabs_pos|exact Ep]).
    pose proof (top_bound_straight _ _ _ _ eq_refl eq_refl BW BH _ _ BX BY CR H1 H2) as (S5 & S3).
    split; intros Q.
    - specialize (LT Q). destruct (top_straight _ _ _ _ eq_refl eq_refl BW BH _ _ BX BY CR H1 H2 _ Ep' LT) as (T1 & T2 & T3 & T4 & T5).
      split.
      + split; [lia|]. split; [lia|]. split; [lia|]. split; [exact Dx'|]. split; [exact Dy|].
        destruct (upd_straight p _ _ (E' (IZR (x + 1) + 1) (IZR y - / 2)) (x + 1) _ (M1 (IZR h) Wr Hr) Fp Ep Dx') as (F & ER).
        { rewrite plus_IZR. unfold E. ring. }
        { rewrite plus_IZR. exact S5. } { rewrite plus_IZR. exact S3. } { exact BM. } { lra. }
        split; [exact F|]. split. { eapply Rle_trans; [exact ER|]. rewrite plus_IZR. unfold c1. lra. }
        rewrite plus_IZR. split; [exact T2|]. split; [intros _; exact T1|]. split; [|lia].
        intros G _. replace (IZR x + 1 - 1) with (IZR x) by ring. apply T5. apply IZR_le in G. rewrite !mult_IZR, plus_IZR in G. exact G.
      + apply (near_of (x + 1) y (x + 1) (y - 1) (x + 1) (y + 1)); unfold shrink, grow; try lia.
        * apply E_in. rewrite plus_IZR, minus_IZR. exact T3.
        * apply E_out. rewrite !plus_IZR. exact T4.
    - specialize (GE Q). destruct (top_diag _ _ _ _ eq_refl eq_refl BW BH _ _ BX BY CR H1 _ Ep' GE) as (T1 & T2 & T3 & T4).
      pose proof (top_bound_diag _ _ _ _ eq_refl eq_refl BW BH _ _ BX BY CR H1 H2) as (D5 & D3).
      assert (Dy' : dy 1 (w * w * (y - 1)) (fadd py (fmul (of_int (-2)) w2))) by (apply py_step; [lia|]; replace (y - 1 + 1)%Z with y by lia; exact Dy).
      split.
      + split; [lia|]. split; [lia|]. split; [lia|]. split; [exact Dx'|]. split; [exact Dy'|].
        destruct (upd_diag p _ _ _ (E' (IZR (x + 1) + 1) (IZR (y - 1) - / 2)) (x + 1) (y - 1) _ (M1 (IZR h) Wr Hr) Fp Ep Dx' Dy') as (F & ER).
        { rewrite plus_IZR, minus_IZR. unfold E. field. }
        { rewrite plus_IZR, minus_IZR. exact D5. } { rewrite plus_IZR. exact S3. } { rewrite plus_IZR, minus_IZR. exact D3. } { exact BM. } { lra. }
        split; [exact F|]. split. { eapply Rle_trans; [exact ER|]. rewrite plus_IZR. unfold c1. lra. }
        rewrite plus_IZR, minus_IZR. split; [exact T1|]. split.
        { intros G. apply T4. apply IZR_lt in G. rewrite !mult_IZR, plus_IZR, minus_IZR in G. exact G. }
        split. { intros _ _. replace (IZR x + 1 - 1) with (IZR x) by ring. exact T2. }
        intros Y0 N F2. assert (y = 1)%Z by lia. subst y.
        destruct (Z.eq_dec w 1) as [->|W1].
        { assert (x = 0)%Z by lia. subst x. specialize (X0 eq_refl). lia. }
        apply (top_flat _ _ _ _ eq_refl eq_refl BW BH (IZR x)); try lra.
        * destruct (Z.eq_dec w 2) as [->|]; [left; reflexivity|right; apply IZR_le; lia].
        * intros K. apply eq_IZR in K. lia.
        * rewrite <- !mult_IZR. apply IZR_le. exact F2.
        * intros K. rewrite <- mult_IZR. apply IZR_le. apply eq_IZR in K. subst w. clear - F2 N Hh. assert (h <> 2)%Z by lia. assert (h <> 1)%Z by (intros ->; lia). nia.
        * replace (/ 2) with (IZR 1 - 1 + / 2) by lra. exact T1.
      + apply (near_of (x + 1) (y - 1) x (y - 1) (x + 1) y); unfold shrink, grow; try lia.
        * apply E_in. rewrite minus_IZR. exact T2.
        * apply E_out. rewrite !plus_IZR. exact T3.
  Qed.

  Lemma Bprod (a b : Z) : (1 <= a <= 250 -> 1 <= b <= 250 -> 1 <= a * a * b <= 15625000)%Z.
  Proof. intros A B. pose proof (sq_le a A). nia. Qed.

  Lemma top_init : top_inv 0 h (of_int 0) (fmul (fmul (of_int 2) w2) (of_int h))
    (fadd (fsub h2 (fmul w2 (of_int h))) (fmul (of_dyadic 1 (-2)) w2)).
  Proof.
    pose proof Bw as BW. pose proof Bh as BH. pose proof (W_pos _ _ eq_refl BW) as PW. pose proof (H_pos _ _ eq_refl BH) as PH.
    pose proof (sq_le w Hw) as QW. pose proof (sq_le h Hh) as QH. pose proof (Bprod w h Hw Hh) as QP.
    pose proof (M1_pos _ _ _ _ eq_refl eq_refl BW BH) as (BM & WM & HM & WhM).
    assert (Dw : dy 0 (w * w) w2) by (apply dy_int; [apply dyk_any; lia|lia]).
    assert (Dh2 : dy 0 (h * h) h2) by (apply dy_int; [apply dyk_any; lia|lia]).
    assert (Dh : dy 0 h (of_int h : f32)) by (apply dy_int; [apply dyk_any; lia|lia]).
    split; [lia|]. split; [lia|]. split; [auto|]. split.
    { destruct (int32_R 0) as (F0 & R0); [lia|]. split; [exact F0|]. rewrite R0, Z.mul_0_r. ring. }
    split.
    { assert (D2 : dy 1 (w * w) (fmul (of_int 2) w2)).
      { cut (dy (1 + 0) (1 * (w * w)) (fmul (of_int 2) w2)); [rewrite Z.add_0_r, Z.mul_1_l; auto|].
        apply dy_mul; [apply dyk_any; lia|lia| |exact Dw].
        change (of_int 2 : f32) with (of_dyadic 2 0 : f32). destruct (dy_dyadic 24 128 0 2) as (F & R); [apply dyk_any; lia|lia|].
        split; [exact F|]. rewrite R. change (bpow radix2 0) with 1. change (bpow radix2 1) with 2. ring. }
      cut (dy (1 + 0) (w * w * h) (fmul (fmul (of_int 2) w2) (of_int h))); [rewrite Z.add_0_r; auto|]. apply dy_mul; [apply dyk_any; lia|lia|exact D2|exact Dh]. }
    assert (D3 : dy (0 + 0) (w * w * h) (fmul w2 (of_int h))) by (apply dy_mul; [apply dyk_any; lia|lia|exact Dw|exact Dh]). rewrite Z.add_0_r in D3.
    assert (D4 : dy 0 (h * h - w * w * h) (fsub h2 (fmul w2 (of_int h)))) by (apply dy_sub; [apply dyk_any; lia|lia|exact Dh2|exact D3]).
    assert (D5 : dy (-2 + 0) (1 * (w * w)) (fmul (of_dyadic 1 (-2)) w2)).
    { apply dy_mul; [apply dyk_any; lia|lia| |exact Dw]. apply dy_dyadic; [apply dyk_any; lia|lia]. }
    destruct D4 as (F4 & R4). destruct D5 as (F5 & R5). rewrite Z.mul_1_l in R5. change (bpow radix2 (-2 + 0)) with (/ 4) in R5. change (bpow radix2 0) with 1 in R4.
    rewrite minus_IZR, !mult_IZR in R4. rewrite mult_IZR in R5.
    destruct (add_err _ _ _ _ 0 0 (2 * M1 (IZR h) Wr Hr) F4 F5 (err0 _ _ R4) (err0 _ _ R5)) as (F6 & E6); [|lra|].
    { assert (0 < Wr * IZR h) by nra. match goal with |- Rabs ?r + 0 + 0 <= _ => assert (Rabs r <= 2 * M1 (IZR h) Wr Hr) end; [|lra].
      unfold M1 in *. apply Rabs_le. split; lra. }
    split; [exact F6|]. split.
    { assert (T : tiny = / 1000000000) by reflexivity. unfold c1.
      match type of E6 with Rabs (_ - ?v) <= _ => replace (E' (0 + 1) (IZR h - / 2)) with v by (unfold E; field) end. lra. }
    assert (P : 1 <= Wr * IZR h) by nra. assert (P2 : Wr <= Wr * IZR h) by nra.
    split; [unfold E; lra|]. split; [intros _; unfold E; lra|]. split; [lia|]. lia.
  Qed.

  (** the points drawn by the top loop *)
  Definition box (q : Z * Z) : Prop := (0 <= fst q /\ 0 <= snd q <= h)%Z /\ near w h (fst q) (snd q).
  Lemma top_list : forall n x y px py p, top_inv x y px py p -> (w - x + 1 <= Z.of_nat n)%Z ->
    exists l x' y' px' py', (forall S (render : Z -> Z -> S -> res S) s,
      ellipse_top n render w2 h2 x y px py p s = (s <- for_each l (fun q s => render (fst q) (snd q) s) s ;; Ok (x', y', px', py', s))) /\
      (exists p', top_inv x' y' px' py' p') /\ (w * w * y' <= h * h * x')%Z /\ stairs (x, y) l /\ last l (x, y) = (x', y') /\
      Forall box l.
  Proof.
    induction n as [|n IH]; intros x y px py p I Hn. { destruct I as (Bx & _). lia. }
    cbn [ellipse_top]. destruct (flt px py) eqn:C.
    - destruct (top_step _ _ _ _ _ I C) as (XW & Y1 & T1 & T2). destruct I as (Bx & By & _).
      destruct (flt p (of_int 0)) eqn:Q.
      + destruct (T1 eq_refl) as (I' & N). destruct (IH _ _ _ _ _ I') as (l & x' & y' & px' & py' & R & IE & EX & ST & LA & FA); [lia|].
        exists ((x + 1, y)%Z :: l), x', y', px', py'. split.
        { intros S render s. rewrite chk_i_ok by lia. cbn [bind for_each fst snd]. destruct (render (x + 1)%Z y s); cbn [bind]; [apply R|reflexivity|reflexivity]. }
        split; [exact IE|]. split; [exact EX|]. split. { split; [|exact ST]. split; [cbn; lia|]. split; [cbn; lia|]. intros [= K]. lia. }
        split. { rewrite <- LA. destruct l as [|q l]; [reflexivity|]. exact (last_cons q _ _ l). }
        constructor; [|exact FA]. split; [cbn; lia|exact N].
      + destruct (T2 eq_refl) as (I' & N). destruct (IH _ _ _ _ _ I') as (l & x' & y' & px' & py' & R & IE & EX & ST & LA & FA); [lia|].
        exists ((x + 1, y - 1)%Z :: l), x', y', px', py'. split.
        { intros S render s. rewrite chk_i_ok by lia. cbn [bind]. rewrite chk_i_ok by lia. cbn [bind for_each fst snd].
          destruct (render (x + 1)%Z (y - 1)%Z s); cbn [bind]; [apply R|reflexivity|reflexivity]. }
        split; [exact IE|]. split; [exact EX|]. split. { split; [|exact ST]. split; [cbn; lia|]. split; [cbn; lia|]. intros [= K]. lia. }
        split. { rewrite <- LA. destruct l as [|q l]; [reflexivity|]. exact (last_cons q _ _ l). }
        constructor; [|exact FA]. split; [cbn; lia|exact N].
    - exists [], x, y, px, py. split; [reflexivity|]. split; [eauto|]. split.
      { destruct I as (_ & _ & _ & Dx & Dy & _). rewrite (dy_lt 24 128 1 _ _ px py Dx Dy) in C. apply Z.ltb_ge in C. exact C. }
      split; [exact Logic.I|]. split; [reflexivity|]. constructor.
  Qed.
End Ellipse.
