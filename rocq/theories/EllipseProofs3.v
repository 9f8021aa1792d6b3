(** Proofs about ellipse drawing: from the quarter outline to the image. *)
From Verif Require Import Base BaseProofs Float FloatProofs LineModel LineSpec LineProofs ShapeModel ShapeSpec ShapeProofs.
From Verif Require Import EllipseModel EllipseSpec EllipseProofs EllipseProofs2.
Local Ltac Zify.zify_post_hook ::= idtac.
Local Open Scope Z_scope.

Lemma quarter_in w h e l q : quarter w h e l -> In q ((0, h) :: l) -> 0 <= fst q <= w /\ 0 <= snd q <= h /\ near w h (fst q) (snd q).
Proof. destruct q as [dx dy]. intros (_ & _ & Q) I. apply Q. exact I. Qed.

(** what the two closures do, for a list of offsets *)
Lemma hollow_points {A} (dr : A -> A) im cx cy w h l : cdim im -> (forall a, dr (dr a) = dr a) ->
  (forall q, In q l -> 0 <= fst q <= w /\ 0 <= snd q <= h) -> w <= 250 -> h <= 250 -> Z.abs cx <= 2 ^ 30 -> Z.abs cy <= 2 ^ 30 ->
  exists out, for_each l (fun q im =>
      let pt sx sy im := x <- chk_i 32 (cx + sx) ;; y <- chk_i 32 (cy + sy) ;; draw_if_in_bounds dr im x y in
      im <- pt (fst q) (snd q) im ;; im <- pt (- fst q) (snd q) im ;; im <- pt (fst q) (- snd q) im ;; pt (- fst q) (- snd q) im) im = Ok out /\
    recoloured (fun x y => In (Z.abs (x - cx), Z.abs (y - cy)) l) dr im out.
Proof.
  intros C ID B Lw Lh Hx Hy.
  match goal with |- context [for_each l ?body im] =>
    destruct (for_each_draw dr (fun q x y => Z.abs (x - cx) = fst q /\ Z.abs (y - cy) = snd q) body l im C ID) as (out & Eo & Ro) end.
  - intros q x y. lia.
  - intros [x y] m Hq Cm. specialize (B _ Hq). clear Hq. cbn [fst snd] in *.
    destruct (draw_points_idem dr m [(cx + x, cy + y); (cx + - x, cy + y); (cx + x, cy + - y); (cx + - x, cy + - y)] Cm ID) as (m' & E & R).
    exists m'. split.
    + rewrite <- E. cbn [for_each fst snd]. repeat rewrite chk_i_ok by lia. cbn [bind].
      do 3 (match goal with
            | |- bind (draw_if_in_bounds dr ?m0 ?a ?b) _ = _ =>
                destruct (draw_if_in_bounds dr m0 a b); cbn [bind]; [|reflexivity|reflexivity]
            end).
      destruct (draw_if_in_bounds _ _ _ _); reflexivity.
    + revert R. apply recoloured_ext. intros x' y' _ _. cbn [In]. clear - B. split.
      * intros H. repeat destruct H as [H|H]; try contradiction; injection H as <- <-; lia.
      * intros [P Q]. assert (X : x' = cx + x \/ x' = cx + - x) by lia. assert (Y : y' = cy + y \/ y' = cy + - y) by lia.
        destruct X as [-> | ->], Y as [-> | ->]; auto 12.
  - exists out. split; [exact Eo|]. revert Ro. apply recoloured_ext. intros x y _ _. split.
    + intros ([a b] & Hq & -> & ->). exact Hq.
    + intros I. eexists. split; [exact I|]. split; reflexivity.
Qed.

Lemma filled_points {A} (dr : A -> A) im cx cy w h l : cdim im -> (forall a, dr (dr a) = dr a) ->
  (forall q, In q l -> 0 <= fst q <= w /\ 0 <= snd q <= h) -> w <= 250 -> h <= 250 -> Z.abs cx <= 2 ^ 21 -> Z.abs cy <= 2 ^ 21 ->
  exists out, for_each l (fun q im =>
      let seg hx sy im :=
        l <- chk_i 32 (cx - hx) ;; y <- chk_i 32 (cy + sy) ;; r <- chk_i 32 (cx + hx) ;;
        draw_line_segment dr im (i2f l y) (i2f r y) in
      im <- seg (fst q) (snd q) im ;; seg (fst q) (- snd q) im) im = Ok out /\
    recoloured (fun x y => exists dx, In (dx, Z.abs (y - cy)) l /\ Z.abs (x - cx) <= dx) dr im out.
Proof.
  intros C ID B Lw Lh Hx Hy.
  match goal with |- context [for_each l ?body im] =>
    destruct (for_each_draw dr (fun q x y => Z.abs (x - cx) <= fst q /\ Z.abs (y - cy) = snd q) body l im C ID) as (out & Eo & Ro) end.
  - intros q x y. lia.
  - intros [x y] m Hq Cm. specialize (B _ Hq). clear Hq. cbn [fst snd] in *.
    destruct (for_each_draw dr (fun q x' y' => y' = cy + snd q /\ cx - fst q <= x' <= cx + fst q)
      (fun q im => l <- chk_i 32 (cx - fst q) ;; y <- chk_i 32 (cy + snd q) ;; r <- chk_i 32 (cx + fst q) ;;
          draw_line_segment dr im (i2f l y) (i2f r y))
      [(x, y); (x, - y)] m Cm ID) as (m' & E & R).
    + intros q x' y'. lia.
    + intros [hx sy] m1 Hq Cm1. cbn [fst snd].
      assert (0 <= hx <= 250 /\ Z.abs sy <= 250)
        by (cbn [In] in Hq; repeat destruct Hq as [Hq|Hq]; try contradiction; injection Hq as <- <-; lia).
      do 3 (rewrite chk_i_ok by lia; cbn [bind]).
      destruct (draw_seg dr m1 _ _ _ Cm1
        (hseg (cx - hx) (cx + hx) (cy + sy) ltac:(lia) ltac:(unfold small; cbn [fst snd]; lia) ltac:(unfold small; cbn [fst snd]; lia)))
        as (m2 & E2 & _ & R2).
      exists m2. split; [exact E2|]. exact R2.
    + exists m'. split.
      * rewrite <- E. cbn [for_each fst snd].
        repeat rewrite chk_i_ok by lia. cbn [bind].
        match goal with
            | |- bind (draw_line_segment dr ?m0 ?a ?b) _ = _ =>
                destruct (draw_line_segment dr m0 a b); cbn [bind]; [|reflexivity|reflexivity]
            end.
        destruct (draw_line_segment _ _ _ _); reflexivity.
      * revert R. apply recoloured_ext. intros x' y' _ _. clear - B. split.
        -- intros (q & Hq & H). cbn [In] in Hq.
           repeat destruct Hq as [Hq|Hq]; try contradiction; subst q; cbn [fst snd] in H; lia.
        -- intros [P Q]. assert (Y : y' = cy + y \/ y' = cy + - y) by lia.
           destruct Y as [-> | ->]; [exists (x, y)|exists (x, - y)]; cbn [In fst snd]; split; auto; lia.
  - exists out. split; [exact Eo|]. revert Ro. apply recoloured_ext. intros x y _ _. split.
    + intros ([a b] & Hq & H & ->). exists a. auto.
    + intros (dx & I & H). eexists. split; [exact I|]. split; [exact H|reflexivity].
Qed.

(** every row from the axis to the top has a pixel of the quarter *)
Lemma stairs_rows : forall l p, stairs p l -> forall y, snd (last l p) <= y <= snd p -> exists x, In (x, y) (p :: l).
Proof.
  induction l as [|q l IH]; intros [px py] S y Hy.
  - cbn in Hy. exists px. left. f_equal. lia.
  - destruct S as ((_ & S1 & _) & S). destruct (Z.eq_dec y py) as [->|N]; [exists px; left; reflexivity|].
    replace (last (q :: l) (px, py)) with (last l q) in Hy.
    2:{ destruct l as [|r l]; [reflexivity|]. exact (last_cons r _ _ l). }
    cbn [snd] in *. destruct (IH q S y) as (x & I); [lia|]. exists x. right. exact I.
Qed.

(** the filled set contains what is well inside the ellipse and nothing that is
    well outside *)
Lemma filled_bounds w h e l c x y : 1 <= w <= 250 -> 1 <= h <= 250 -> quarter w h e l ->
  (inside w h (grow (x - fst c)) (grow (y - snd c)) -> in_outline c w h l x y) /\
  (in_outline c w h l x y -> inside w h (shrink (x - fst c)) (shrink (y - snd c))).
Proof.
  intros Hw Hh Q. destruct Q as (S & L & N). split.
  - intros I. set (a := Z.abs (x - fst c)). set (b := Z.abs (y - snd c)). assert (A : 0 <= a /\ 0 <= b) by lia.
    assert (Bh : b <= h).
    { destruct (Z_le_gt_dec b h) as [K|K]; [exact K|exfalso]. unfold inside, grow in I. fold a b in I.
      assert (h * h < (b + 1) * (b + 1)) by nia. assert (0 < w * w) by nia. assert (0 <= h * h * ((a + 1) * (a + 1))) by nia. nia. }
    destruct (stairs_rows l (0, h) S b) as (dx & D). { rewrite L. cbn [snd]. lia. }
    exists dx. fold b. split; [exact D|]. fold a. destruct (N _ _ D) as (Hx & _ & _ & O).
    destruct (Z_le_gt_dec a dx) as [K|K]; [exact K|exfalso]. apply O. revert I. unfold grow. fold a b.
    apply (inside_mono w h Hw Hh); lia.
  - intros (dx & D & H). destruct (N _ _ D) as (Hx & _ & I & _). revert I. apply (inside_mono w h Hw Hh); unfold shrink; lia.
Qed.

(** more fuel does not change the result *)
Lemma top_fuel {S} (render : Z -> Z -> S -> res S) w2 h2 : forall n m x y px py p s v, (n <= m)%nat ->
  ellipse_top n render w2 h2 x y px py p s = Ok v -> ellipse_top m render w2 h2 x y px py p s = Ok v.
Proof.
  induction n as [|n IH]; intros m x y px py p s v L E; [discriminate|]. destruct m as [|m]; [lia|].
  cbn [ellipse_top] in *. destruct (flt px py); [|exact E]. apply bind_ok in E. destruct E as (x' & -> & E). cbn [bind].
  destruct (flt p (of_int 0)).
  - apply bind_ok in E. destruct E as (s' & -> & E). cbn [bind]. apply IH; [lia|exact E].
  - apply bind_ok in E. destruct E as (y' & -> & E). cbn [bind]. apply bind_ok in E. destruct E as (s' & -> & E). cbn [bind]. apply IH; [lia|exact E].
Qed.
Lemma side_fuel {S} (render : Z -> Z -> S -> res S) w2 h2 : forall n m x y px py p s v, (n <= m)%nat ->
  ellipse_side n render w2 h2 x y px py p s = Ok v -> ellipse_side m render w2 h2 x y px py p s = Ok v.
Proof.
  induction n as [|n IH]; intros m x y px py p s v L E; [discriminate|]. destruct m as [|m]; [lia|].
  cbn [ellipse_side] in *. destruct (0 <? y); [|exact E]. apply bind_ok in E. destruct E as (y' & -> & E). cbn [bind].
  destruct (flt (of_int 0) p).
  - apply bind_ok in E. destruct E as (s' & -> & E). cbn [bind]. apply IH; [lia|exact E].
  - apply bind_ok in E. destruct E as (x' & -> & E). cbn [bind]. apply bind_ok in E. destruct E as (s' & -> & E). cbn [bind]. apply IH; [lia|exact E].
Qed.
Lemma ellipse_fuel {S} (render : Z -> Z -> S -> res S) w h n m s v : (n <= m)%nat ->
  draw_ellipse n render w h s = Ok v -> draw_ellipse m render w h s = Ok v.
Proof.
  intros L. unfold draw_ellipse. destruct (chk_i 32 (w * w)) as [ww| |]; cbn [bind]; [|discriminate|discriminate].
  destruct (chk_i 32 (h * h)) as [hh| |]; cbn [bind]; [|discriminate|discriminate].
  destruct (render 0 h s) as [s1| |]; cbn [bind]; [|discriminate|discriminate].
  intros E. apply bind_ok in E. destruct E as (((((x & y) & px) & py) & s2) & E1 & E). rewrite (top_fuel _ _ _ n m _ _ _ _ _ _ _ L E1). cbn [bind].
  destruct (chk_i 32 (y - 1)) as [y1| |]; cbn [bind] in *; [|discriminate|discriminate].
  destruct (chk_i 32 (y1 * y1)) as [y2| |]; cbn [bind] in *; [|discriminate|discriminate].
  exact (side_fuel _ _ _ n m _ _ _ _ _ _ _ L E).
Qed.

Lemma exists_last_in {A} (q d : A) l : In (last (q :: l) d) (q :: l).
Proof. revert q. induction l as [|r l IH]; intros q; [left; reflexivity|]. right. exact (IH r). Qed.

(** height 0: neither loop runs *)
Lemma zero_height w n : 1 <= w <= 250 -> (1 <= n)%nat -> forall S (render : Z -> Z -> S -> res S) s,
  draw_ellipse n render w 0 s = for_each [(0, 0)] (fun q s => render (fst q) (snd q) s) s.
Proof.
  intros Hw Hn S render s. destruct n as [|n]; [lia|]. unfold draw_ellipse. assert (w * w <= 62500) by nia. assert (0 <= w * w) by nia.
  rewrite (chk_i_ok (w * w)) by lia. cbn [bind]. change (chk_i 32 (0 * 0)) with (Ok 0). cbn [bind for_each fst snd].
  destruct (render 0 0 s) as [s1| |]; cbn [bind]; [|reflexivity|reflexivity]. cbn [ellipse_top].
  assert (Dw : dy 0 (w * w) (of_int (w * w) : f32)) by (apply dy_int; [apply dyk_any; lia|lia]).
  assert (D2 : dy (0 + 0) (2 * (w * w)) (fmul (of_int 2) (of_int (w * w)) : f32)).
  { apply dy_mul; [apply dyk_any; lia|lia| |exact Dw]. apply dy_int; [apply dyk_any; lia|lia]. }
  assert (D0 : dy 0 0 (of_int 0 : f32)) by (apply dy_int; [apply dyk_any; lia|lia]).
  assert (D3 : dy (0 + 0 + 0) (2 * (w * w) * 0) (fmul (fmul (of_int 2) (of_int (w * w))) (of_int 0) : f32)).
  { apply dy_mul; [apply dyk_any; lia|lia|exact D2|exact D0]. }
  change (0 + 0 + 0) with 0 in D3. rewrite Z.mul_0_r in D3. rewrite (dy_lt 24 128 0 _ _ _ _ D0 D3). change (0 <? 0) with false. cbv iota. cbn [bind].
  change (chk_i 32 (0 - 1)) with (Ok (-1)). cbn [bind]. change (chk_i 32 (-1 * -1)) with (Ok 1). cbn [bind ellipse_side]. reflexivity.
Qed.
