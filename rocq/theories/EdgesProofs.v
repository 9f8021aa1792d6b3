(** Proofs about hysteresis thresholding. *)
From Verif Require Import Base BaseProofs Float SuppressProofs EdgesModel EdgesSpec.
Local Ltac Zify.zify_post_hook ::= idtac.

(** * Counting zeros *)
Definition zeros (l : list Z) : nat := length (filter (Z.eqb 0) l).
Lemma zeros_upd l : forall n a, nth_error l n = Some 0 -> a <> 0 -> zeros l = S (zeros (list_upd l n a)).
Proof.
  induction l as [|b l IH]; intros [|n] a E N; try discriminate E.
  - injection E as ->. cbn [list_upd]. unfold zeros. cbn [filter].
    rewrite (proj2 (Z.eqb_neq 0 a)), Z.eqb_refl by lia. reflexivity.
  - cbn [nth_error] in E. cbn [list_upd]. unfold zeros in *. cbn [filter].
    destruct (0 =? b); cbn [length]; rewrite (IH n a E N); reflexivity.
Qed.
Lemma zeros_put (im : image Z) x y a : wf im -> get im x y = Some 0 -> a <> 0 ->
  zeros (idata im) = S (zeros (idata (put im x y a))).
Proof.
  intros W G N. pose proof (get_inb _ _ _ _ G) as R. unfold get in G. rewrite (proj2 (inb_spec im x y)) in G by auto.
  unfold put. cbn [idata]. unfold zupd, znth in *. destruct W as (Hw & Hh & _).
  assert (0 <= y * iw im + x) by nia.
  rewrite (proj2 (Z.leb_le 0 (y * iw im + x))) in * by lia. apply zeros_upd; auto.
Qed.
Lemma zeros_le l : (zeros l <= length l)%nat.
Proof. unfold zeros. induction l as [|a l IH]; cbn [filter length]; [lia|]. destruct (0 =? a); cbn [length]; lia. Qed.

Definition lowb (im : image f32) (t : f32) (x y : Z) : bool :=
  match get im x y with Some v => fle t v | None => false end.
Lemma lowb_spec im t x y : lowb im t x y = true <-> at_least im t x y.
Proof.
  unfold lowb, at_least. destruct (get im x y) as [v|]; split.
  - intros H. exists v. auto.
  - intros (u & [= <-] & H). exact H.
  - discriminate.
  - intros (u & [=] & _).
Qed.
Definition marked (out : image Z) (x y : Z) : Prop := get out x y = Some 255.
Definition nb6 (dx dy : Z) : Prop := In (dx, dy) six.
Lemma nb6_spec dx dy : nb6 dx dy <-> eight_but_two dx dy.
Proof.
  unfold nb6, six, eight_but_two, eight. cbn [In]. split.
  - intros H. repeat (destruct H as [H|H]; [injection H as <- <-; lia|]). destruct H.
  - intros [H N]. assert (-1 <= dx <= 1) by lia. assert (-1 <= dy <= 1) by lia.
    assert (C : dx = -1 \/ dx = 0 \/ dx = 1) by lia. assert (D : dy = -1 \/ dy = 0 \/ dy = 1) by lia.
    destruct C as [->|[->| ->]], D as [->|[->| ->]]; cbn in H; try lia; tauto.
Qed.

Section H.
Variables (input : image f32) (low high : f32).
Notation w := (iw input).
Notation h := (ih input).
Notation LK := (linked eight_but_two input low high).
Hypothesis Hwf : wf input.
Hypothesis Hsize : w < 2 ^ 32 /\ h < 2 ^ 32.
Hypothesis Hb : forall x y, lowb input low x y = true -> 1 <= x < w - 1 /\ 1 <= y < h - 1.

Definition closed (out : image Z) (x y : Z) : Prop :=
  forall dx dy, nb6 dx dy -> lowb input low (x + dx) (y + dy) = true -> marked out (x + dx) (y + dy).

(** [open]: pixels whose neighbours are still to be visited *)
Record inv (open : Z -> Z -> Prop) (out : image Z) (edges : list (Z * Z)) : Prop := {
  i_wf : wf out;
  i_w : iw out = w;
  i_h : ih out = h;
  i_val : forall x y v, get out x y = Some v -> v = 0 \/ v = 255;
  i_sound : forall x y, marked out x y -> LK x y /\ 1 <= x < w - 1 /\ 1 <= y < h - 1;
  i_stack : forall x y, In (x, y) edges -> marked out x y;
  i_closed : forall x y, marked out x y -> ~ In (x, y) edges -> ~ open x y -> closed out x y }.

Lemma marked_put out x y x' y' : wf out -> 0 <= x < iw out -> 0 <= y < ih out ->
  (marked (put out x y 255) x' y' <-> (x' = x /\ y' = y) \/ marked out x' y').
Proof.
  intros W Hx Hy. unfold marked. rewrite get_put by auto.
  destruct (Z.eqb_spec x' x) as [->|]; destruct (Z.eqb_spec y' y) as [->|]; cbn [andb]; split; auto;
    intros [[? ?]|?]; auto; lia.
Qed.

Lemma visit_ok open out edges dx dy px py :
  inv open out edges -> LK px py -> 1 <= px < w - 1 -> 1 <= py < h - 1 -> nb6 dx dy ->
  exists out' edges', visit input low (px + dx, py + dy) (out, edges) = Ok (out', edges') /\
    inv open out' edges' /\ (forall x y, marked out x y -> marked out' x y) /\
    (lowb input low (px + dx) (py + dy) = true -> marked out' (px + dx) (py + dy)) /\
    (zeros (idata out') + length edges' = zeros (idata out) + length edges)%nat.
Proof.
  intros I HL Hpx Hpy Hn.
  assert (Rd : -1 <= dx <= 1 /\ -1 <= dy <= 1) by (apply nb6_spec in Hn; unfold eight_but_two, eight in Hn; lia).
  set (qx := px + dx) in *. set (qy := py + dy) in *.
  assert (Rq : 0 <= qx < w /\ 0 <= qy < h) by lia.
  destruct (get_some input qx qy Hwf) as (v & Ev); [lia|lia|].
  pose proof (i_wf _ _ _ I) as W. pose proof (i_w _ _ _ I) as Ew. pose proof (i_h _ _ _ I) as Eh.
  destruct (get_some out qx qy W) as (o & Eo); [lia|lia|].
  unfold visit. cbn [fst snd]. rewrite (proj2 (get_pixel_ok _ _ _ _) Ev). cbn [bind].
  rewrite (proj2 (get_pixel_ok _ _ _ _) Eo). cbn [bind].
  assert (El : lowb input low qx qy = fle low v) by (unfold lowb; rewrite Ev; reflexivity).
  rewrite El.
  destruct (fle low v) eqn:Ef; cbn [andb].
  - destruct (Z.eqb_spec o 0) as [->|No].
    + rewrite put_pixel_ok by lia. cbn [bind]. exists (put out qx qy 255), ((qx, qy) :: edges).
      assert (MP : forall x y, marked (put out qx qy 255) x y <-> (x = qx /\ y = qy) \/ marked out x y)
        by (intros; apply marked_put; auto; lia).
      split; [reflexivity|]. split; [constructor|].
      * apply wf_put. auto.
      * rewrite <- Ew. reflexivity.
      * rewrite <- Eh. reflexivity.
      * intros x y u G. rewrite get_put in G by (auto; lia).
        destruct ((x =? qx) && (y =? qy)); [injection G as <-; auto|]. apply (i_val _ _ _ I x y u G).
      * intros x y M. apply MP in M. destruct M as [[-> ->]|M].
        -- split; [|apply Hb; exact El]. apply (l_step _ _ _ _ px py); auto.
           ++ apply nb6_spec. unfold qx, qy. replace (px + dx - px) with dx by lia. replace (py + dy - py) with dy by lia. exact Hn.
           ++ apply lowb_spec. exact El.
        -- apply (i_sound _ _ _ I); auto.
      * intros x y [E|E]; apply MP; [injection E as <- <-; auto|right; apply (i_stack _ _ _ I); auto].
      * intros x y M NS NO. apply MP in M. destruct M as [[-> ->]|M].
        -- exfalso. apply NS. left; reflexivity.
        -- intros ex ey Hne Hle. apply MP. right. apply (i_closed _ _ _ I x y M); auto.
           intros C. apply NS. right. exact C.
      * split; [intros x y M; apply MP; auto|]. split; [intros _; apply MP; auto|].
        rewrite (zeros_put out qx qy 255 W Eo) by lia. cbn [length]. lia.
    + exists out, edges. split; [reflexivity|]. split; [exact I|]. split; [auto|]. split; [|reflexivity].
      intros _. destruct (i_val _ _ _ I _ _ _ Eo) as [->| ->]; [congruence|]. exact Eo.
  - exists out, edges. split; [reflexivity|]. split; [exact I|]. split; [auto|]. split; [|reflexivity]. discriminate.
Qed.

Lemma visits_ok px py : LK px py -> 1 <= px < w - 1 -> 1 <= py < h - 1 ->
  forall ds, (forall d, In d ds -> In d six) -> forall open out edges, inv open out edges ->
  exists out' edges', for_each (map (fun d => (px + fst d, py + snd d)) ds) (visit input low) (out, edges) = Ok (out', edges') /\
    inv open out' edges' /\ (forall x y, marked out x y -> marked out' x y) /\
    (forall d, In d ds -> lowb input low (px + fst d) (py + snd d) = true -> marked out' (px + fst d) (py + snd d)) /\
    (zeros (idata out') + length edges' = zeros (idata out) + length edges)%nat.
Proof.
  intros HL Hx Hy. induction ds as [|[dx dy] ds IH]; intros Hd open out edges I.
  - exists out, edges. split; [reflexivity|]. split; [exact I|]. split; [auto|]. split; [intros d []|reflexivity].
  - destruct (visit_ok open out edges dx dy px py I HL Hx Hy) as (o1 & e1 & E1 & I1 & M1 & L1 & Z1).
    { apply (Hd (dx, dy)). left; auto. }
    destruct (IH ltac:(intros d H; apply Hd; right; auto) open o1 e1 I1) as (o2 & e2 & E2 & I2 & M2 & L2 & Z2).
    exists o2, e2. cbn [map for_each fst snd]. rewrite E1. cbn [bind]. rewrite E2.
    split; [reflexivity|]. split; [exact I2|]. split; [auto|]. split; [|lia].
    intros d [<-|H] Hl; [apply M2; apply L1; exact Hl|apply L2; auto].
Qed.

Lemma drain_ok fuel : forall out edges, inv (fun _ _ => False) out edges ->
  (zeros (idata out) + length edges < fuel)%nat ->
  exists out', drain input low fuel (out, edges) = Ok out' /\ inv (fun _ _ => False) out' [] /\
    (forall x y, marked out x y -> marked out' x y).
Proof.
  induction fuel as [|fuel IH]; intros out edges I Hf; [lia|].
  destruct edges as [|[nx ny] edges]; cbn [drain].
  - exists out. auto.
  - pose proof (i_stack _ _ _ I nx ny (or_introl eq_refl)) as M.
    destruct (i_sound _ _ _ I nx ny M) as (HL & Hx & Hy).
    assert (Em : mapM (fun '(dx, dy) => x <- chk_u 32 (nx + dx) ;; y <- chk_u 32 (ny + dy) ;; Ok (x, y)) six =
                 Ok (map (fun d => (nx + fst d, ny + snd d)) six)).
    { apply mapM_ok. intros [dx dy] Hd. assert (R : -1 <= dx <= 1 /\ -1 <= dy <= 1) by
        (apply nb6_spec in Hd; unfold eight_but_two, eight in Hd; lia).
      rewrite !chk_u_ok by lia. reflexivity. }
    rewrite Em. cbn [bind].
    assert (I0 : inv (fun x y => x = nx /\ y = ny) out edges).
    { destruct I. constructor; auto.
      - intros x y H. apply i_stack0. right; auto.
      - intros x y H1 H2 H3. apply i_closed0; auto. intros [E|E]; [injection E as <- <-; apply H3; auto|contradiction]. }
    destruct (visits_ok nx ny HL Hx Hy six (fun d H => H) _ out edges I0) as (o' & e' & E & I' & M' & L' & Z').
    rewrite E. cbn [bind].
    destruct (IH o' e') as (o2 & E2 & I2 & M2).
    + destruct I'. constructor; auto. intros x y H1 H2 _.
      destruct (Z.eq_dec x nx) as [->|Nx]; [destruct (Z.eq_dec y ny) as [->|Ny]|].
      * intros dx dy Hd Hl. apply (L' (dx, dy) Hd). exact Hl.
      * apply i_closed0; auto. intros [_ ?]; contradiction.
      * apply i_closed0; auto. intros [? _]; contradiction.
    + cbn [length] in Hf. lia.
    + exists o2. split; [exact E2|]. split; [exact I2|]. auto.
Qed.

Hypothesis Hhl : forall x y, lowb input high x y = true -> lowb input low x y = true.
Hypothesis Harea : w * h < 2 ^ 32.
Hypothesis Hne : 1 <= w /\ 1 <= h.

Lemma hysteresis_ok : exists out, hysteresis input low high = Ok out /\ wf out /\ iw out = w /\ ih out = h /\
  forall x y, 0 <= x < w -> 0 <= y < h ->
    (get out x y = Some 255 \/ get out x y = Some 0) /\ (get out x y = Some 255 <-> LK x y).
Proof.
  unfold hysteresis. rewrite (chk_u_ok 32 (w * h)) by nia. cbn [bind]. rewrite (chk_u_ok 32 (h - 1)) by lia. cbn [bind].
  set (P := fun x y out => inv (fun _ _ => False) out [] /\
    forall x' y', 1 <= x' < w - 1 -> 1 <= y' < h - 1 -> y' < y \/ (y' = y /\ x' < x) -> lowb input high x' y' = true -> marked out x' y').
  assert (I0 : inv (fun _ _ => False) (new_image w h 0) []).
  { assert (Gn : forall x y v, get (new_image w h 0) x y = Some v -> v = 0).
    { intros x y v G. pose proof (get_inb _ _ _ _ G) as R. unfold new_image in *. cbn [gen iw ih] in R.
      rewrite get_gen_in in G by lia. congruence. }
    constructor.
    - apply wf_gen; lia.
    - reflexivity.
    - reflexivity.
    - intros x y v G. left. apply (Gn x y v G).
    - intros x y M. apply Gn in M. discriminate.
    - intros x y [].
    - intros x y M. apply Gn in M. discriminate. }
  assert (PH : forall H1, H1 = h - 1 -> exists out, for_range 1 H1 (fun y out =>
      w1 <- chk_u 32 (w - 1) ;;
      for_range 1 w1 (fun x out =>
        i <- get_pixel input x y ;; o <- get_pixel out x y ;;
        if fle high i && (o =? 0) then
          out <- put_pixel out x y 255 ;; drain input low (S (Z.to_nat (w * h))) (out, [(x, y)])
        else Ok out) out) (new_image w h 0) = Ok out /\ P 1 (Z.max 1 H1) out).
  { intros H1 ->. destruct (Z.le_gt_cases (h - 1) 1) as [Lh|Lh].
    { rewrite for_range_empty by lia. eexists. split; [reflexivity|]. split; [exact I0|]. intros; lia. }
    replace (Z.max 1 (h - 1)) with (h - 1) by lia.
    apply (for_range_ind (fun y out => P 1 y out)); [lia| |].
    { split; [exact I0|]. intros; lia. }
    intros y out Hy HP. rewrite (chk_u_ok 32 (w - 1)) by lia. cbn [bind].
    destruct (Z.le_gt_cases (w - 1) 1) as [Lw|Lw].
    { rewrite for_range_empty by lia. exists out. split; [reflexivity|]. destruct HP as [A B]. split; [exact A|]. intros; lia. }
    destruct (for_range_ind (fun x out => P x y out) 1 (w - 1) (fun x out =>
        i <- get_pixel input x y ;; o <- get_pixel out x y ;;
        if fle high i && (o =? 0) then
          out <- put_pixel out x y 255 ;; drain input low (S (Z.to_nat (w * h))) (out, [(x, y)])
        else Ok out) out) as (o' & E' & [A B]); [lia|exact HP| |].
    2:{ exists o'. split; [exact E'|]. split; [exact A|]. intros x' y' Hx' Hy' C. apply B; auto. lia. }
    clear HP out. intros x out Hx [I HB].
    pose proof (i_wf _ _ _ I) as W. pose proof (i_w _ _ _ I) as Ew. pose proof (i_h _ _ _ I) as Eh.
    destruct (get_some input x y Hwf) as (v & Ev); [lia|lia|].
    destruct (get_some out x y W) as (o & Eo); [lia|lia|].
    rewrite (proj2 (get_pixel_ok _ _ _ _) Ev). cbn [bind]. rewrite (proj2 (get_pixel_ok _ _ _ _) Eo). cbn [bind].
    assert (El : lowb input high x y = fle high v) by (unfold lowb; rewrite Ev; reflexivity).
    destruct (fle high v) eqn:Ef; cbn [andb]; [destruct (Z.eqb_spec o 0) as [->|No]|].
    - rewrite put_pixel_ok by lia. cbn [bind].
      assert (MP : forall x' y', marked (put out x y 255) x' y' <-> (x' = x /\ y' = y) \/ marked out x' y')
        by (intros; apply marked_put; auto; lia).
      destruct (drain_ok (S (Z.to_nat (w * h))) (put out x y 255) [(x, y)]) as (o' & E & I' & M).
      + constructor.
        * apply wf_put. auto.
        * rewrite <- Ew. reflexivity.
        * rewrite <- Eh. reflexivity.
        * intros x' y' u G. rewrite get_put in G by (auto; lia).
          destruct ((x' =? x) && (y' =? y)); [injection G as <-; auto|]. apply (i_val _ _ _ I _ _ u G).
        * intros x' y' Mk. apply MP in Mk. destruct Mk as [[-> ->]|Mk]; [|apply (i_sound _ _ _ I); auto].
          split; [|lia]. apply l_strong; [lia|lia|]. apply lowb_spec. exact El.
        * intros x' y' [E|[]]. injection E as <- <-. apply MP. auto.
        * intros x' y' Mk NS _. apply MP in Mk. destruct Mk as [[-> ->]|Mk].
          -- exfalso. apply NS. left. reflexivity.
          -- intros ex ey Hn Hl. apply MP. right. apply (i_closed _ _ _ I x' y' Mk); auto.
      + cbn [length]. pose proof (zeros_put out x y 255 W Eo ltac:(lia)) as Zp. pose proof (zeros_le (idata out)) as Zl.
        destruct W as (Hw0 & Hh0 & HL). unfold zlen in HL. rewrite Ew, Eh in HL. lia.
      + exists o'. split; [exact E|]. split; [exact I'|].
        intros x' y' Hx' Hy' C Hh'. apply M. apply MP.
        destruct (Z.eq_dec x' x) as [->|Nx]; [destruct (Z.eq_dec y' y) as [->|Ny]|]; auto; right; apply HB; auto; lia.
    - exists out. split; [reflexivity|]. split; [exact I|]. intros x' y' Hx' Hy' C Hh'.
      destruct (Z.eq_dec x' x) as [->|Nx]; [destruct (Z.eq_dec y' y) as [->|Ny]|]; try (apply HB; auto; lia).
      destruct (i_val _ _ _ I _ _ _ Eo) as [->| ->]; [congruence|]. exact Eo.
    - exists out. split; [reflexivity|]. split; [exact I|]. intros x' y' Hx' Hy' C Hh'.
      destruct (Z.eq_dec x' x) as [->|Nx]; [destruct (Z.eq_dec y' y) as [->|Ny]|]; try (apply HB; auto; lia).
      congruence. }
  destruct (PH (h - 1) eq_refl) as (out & E & I & HB). exists out.
  split; [exact E|]. split; [apply (i_wf _ _ _ I)|]. split; [apply (i_w _ _ _ I)|]. split; [apply (i_h _ _ _ I)|].
  intros x y Hx Hy.
  pose proof (i_wf _ _ _ I) as W. pose proof (i_w _ _ _ I) as Ew. pose proof (i_h _ _ _ I) as Eh.
  split.
  - destruct (get_some out x y W) as (o & Eo); [lia|lia|]. destruct (i_val _ _ _ I _ _ _ Eo) as [->| ->]; auto.
  - split; [intros M; apply (i_sound _ _ _ I x y M)|]. clear Hx Hy. intros L.
    induction L as [x y Hx Hy Hs|x y x' y' L IH Hn Hl].
    + apply HB; [auto|auto|lia|apply lowb_spec; exact Hs].
    + replace x' with (x + (x' - x)) by lia. replace y' with (y + (y' - y)) by lia.
      apply (i_closed _ _ _ I x y IH); auto.
      * apply nb6_spec. exact Hn.
      * replace (x + (x' - x)) with x' by lia. replace (y + (y' - y)) with y' by lia. apply lowb_spec. exact Hl.
Qed.
End H.

(** * Suppression *)
Section N.
Variables (g : image f32) (dir : Z -> Z -> direction).
Hypothesis (Hwf : wf g) (Hne : 1 <= iw g < 2 ^ 32 /\ 1 <= ih g < 2 ^ 32).
Definition nms_at (x y : Z) : f32 :=
  let '((ax, ay), (bx, by_)) := across (dir x y) in
  match get g x y, get g (x + ax) (y + ay), get g (x + bx) (y + by_) with
  | Some p, Some a, Some b => if flt p a || flt p b then of_int 0 else p
  | _, _, _ => of_int 0
  end.
Lemma nms_ok : exists out, non_maximum_suppression g dir = Ok out /\ wf out /\ iw out = iw g /\ ih out = ih g /\
  forall x y, 0 <= x < iw g -> 0 <= y < ih g ->
    get out x y = Some (if (1 <=? x) && (x <? iw g - 1) && (1 <=? y) && (y <? ih g - 1) then nms_at x y else of_int 0).
Proof.
  unfold non_maximum_suppression. rewrite (chk_u_ok 32 (ih g - 1)) by lia. cbn [bind].
  set (P := fun x y out => wf out /\ iw out = iw g /\ ih out = ih g /\
    forall x' y', 0 <= x' < iw g -> 0 <= y' < ih g ->
     get out x' y' = Some (if (1 <=? x') && (x' <? iw g - 1) && (1 <=? y') && (y' <? ih g - 1) && ((y' <? y) || ((y' =? y) && (x' <? x)))
                           then nms_at x' y' else of_int 0)).
  assert (P0 : P 1 1 (new_image (iw g) (ih g) (of_int 0))).
  { split; [apply wf_gen; lia|]. split; [reflexivity|]. split; [reflexivity|]. intros x' y' Hx Hy.
    unfold new_image. rewrite get_gen_in by auto. f_equal.
    destruct ((1 <=? x') && (x' <? iw g - 1) && (1 <=? y') && (y' <? ih g - 1) && ((y' <? 1) || (y' =? 1) && (x' <? 1))) eqn:E; [lia|reflexivity]. }
  assert (Q : exists out, for_range 1 (ih g - 1) (fun y out =>
    w1 <- chk_u 32 (iw g - 1) ;;
    for_range 1 w1 (fun x out =>
      let '((ax, ay), (bx, by_)) := across (dir x y) in
      cmp1 <- get_pixel g (x + ax) (y + ay) ;;
      cmp2 <- get_pixel g (x + bx) (y + by_) ;;
      pixel <- get_pixel g x y ;;
      if flt pixel cmp1 || flt pixel cmp2 then put_pixel out x y (of_int 0)
      else put_pixel out x y pixel) out) (new_image (iw g) (ih g) (of_int 0)) = Ok out /\ P 1 (Z.max 1 (ih g - 1)) out).
  { destruct (Z.le_gt_cases (ih g - 1) 1) as [Lh|Lh].
    { rewrite for_range_empty by lia. eexists. split; [reflexivity|]. replace (Z.max 1 (ih g - 1)) with 1 by lia. exact P0. }
    replace (Z.max 1 (ih g - 1)) with (ih g - 1) by lia.
    apply (for_range_ind (fun y out => P 1 y out)); [lia|exact P0|].
    intros y out Hy HP. rewrite (chk_u_ok 32 (iw g - 1)) by lia. cbn [bind].
    assert (NX : forall out, P (Z.max 1 (iw g - 1)) y out -> P 1 (y + 1) out).
    { intros o (A & B & C & D). split; [auto|]. split; [auto|]. split; [auto|]. intros x' y' Hx' Hy'. rewrite D by auto.
      f_equal. match goal with |- (if ?a then _ else _) = (if ?b then _ else _) => replace b with a; [reflexivity|] end. lia. }
    destruct (Z.le_gt_cases (iw g - 1) 1) as [Lw|Lw].
    { rewrite for_range_empty by lia. exists out. split; [reflexivity|]. apply NX. replace (Z.max 1 (iw g - 1)) with 1 by lia. exact HP. }
    match goal with |- exists s', for_range 1 _ ?b out = _ /\ _ => destruct (for_range_ind (fun x out => P x y out) 1 (iw g - 1) b out) as (o' & E' & H') end;
      [lia|exact HP| |].
    2:{ exists o'. split; [exact E'|]. apply NX. replace (Z.max 1 (iw g - 1)) with (iw g - 1) by lia. exact H'. }
    clear HP out. intros x out Hx (W & Ew & Eh & HG).
    assert (ST : forall v, v = nms_at x y -> P (x + 1) y (put out x y v)).
    { intros v ->. split; [apply wf_put; auto|]. split; [rewrite <- Ew; reflexivity|]. split; [rewrite <- Eh; reflexivity|].
      intros x' y' Hx' Hy'. rewrite get_put by (auto; lia).
      destruct ((x' =? x) && (y' =? y)) eqn:E.
      - assert (x' = x /\ y' = y) as [-> ->] by lia. f_equal.
        match goal with |- _ = (if ?b then _ else _) => replace b with true by lia end. reflexivity.
      - rewrite HG by auto. f_equal.
        match goal with |- (if ?a then _ else _) = (if ?b then _ else _) => replace b with a by lia end. reflexivity. }
    destruct (across (dir x y)) as [[ax ay] [bx by_]] eqn:Ea.
    assert (Ra : -1 <= ax <= 1 /\ -1 <= ay <= 1 /\ -1 <= bx <= 1 /\ -1 <= by_ <= 1)
      by (destruct (dir x y); cbn in Ea; injection Ea as <- <- <- <-; lia).
    destruct (get_some g (x + ax) (y + ay) Hwf) as (va & Eva); [lia|lia|].
    destruct (get_some g (x + bx) (y + by_) Hwf) as (vb & Evb); [lia|lia|].
    destruct (get_some g x y Hwf) as (vp & Evp); [lia|lia|].
    rewrite (proj2 (get_pixel_ok _ _ _ _) Eva). cbn [bind]. rewrite (proj2 (get_pixel_ok _ _ _ _) Evb). cbn [bind].
    rewrite (proj2 (get_pixel_ok _ _ _ _) Evp). cbn [bind].
    assert (En : nms_at x y = if flt vp va || flt vp vb then of_int 0 else vp).
    { unfold nms_at. rewrite Ea, Eva, Evb, Evp. reflexivity. }
    destruct (flt vp va || flt vp vb); rewrite put_pixel_ok by lia; eexists; (split; [reflexivity|]); apply ST; auto. }
  destruct Q as (out & E & W & Ew & Eh & HG). exists out. split; [exact E|]. split; [auto|]. split; [auto|]. split; [auto|].
  intros x y Hx Hy. rewrite HG by auto. f_equal.
  match goal with |- (if ?a then _ else _) = (if ?b then _ else _) => assert (EE : a = b) by lia; rewrite EE end. reflexivity.
Qed.
End N.
