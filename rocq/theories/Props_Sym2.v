(** C107, continued: connected components and grayscale morphology. *)
From Coq Require Import Relations.
From Verif Require Import Base BaseProofs RasterProofs RegionModel RegionSpec Props_Region MaskModel MaskSpec Props_Mask.
From Verif Require Import SymSpec SymProofs SymProofs2.
Local Ltac Zify.zify_post_hook ::= idtac.

(** ** Connected components: the same regions, though numbered in the order of
    the moved image *)
Section Paths.
  Context {A : Type} (s : symmetry) (im im' : image A) (M : moved s im im').
  Let at_ (p : Z * Z) : Z * Z := place s (iw im) (ih im) (fst p) (snd p).
  Lemma get_at p : get im' (fst (at_ p)) (snd (at_ p)) = get im (fst p) (snd p).
  Proof using M. unfold at_. rewrite (moved_back s im im' M), back_place. reflexivity. Qed.
  Lemma neighbours_at conn p q : neighbours conn p q -> neighbours conn (at_ p) (at_ q).
  Proof using. clear M. clear im'. destruct p as (x, y), q as (u, v). unfold neighbours, at_. destruct conn; cases s; lia. Qed.
  Lemma path_at conn p q : path im conn p q -> path im' conn (at_ p) (at_ q).
  Proof using M.
    intros H. induction H as [p q (N & c & P & Q)|p|p q r _ IH1 _ IH2].
    - apply rt_step. split; [now apply neighbours_at|]. exists c. now rewrite !get_at.
    - apply rt_refl.
    - eapply rt_trans; eauto.
  Qed.
End Paths.
Lemma path_iff {A} s (im im' : image A) conn p q : moved s im im' ->
  path im' conn (place s (iw im) (ih im) (fst p) (snd p)) (place s (iw im) (ih im) (fst q) (snd q)) <-> path im conn p q.
Proof.
  intros M. split; [|now apply path_at]. intros H. pose proof M as (_ & _ & E1 & E2 & _).
  apply (path_at (inverse s) im' im (moved_inverse s im im' M)) in H. rewrite E1, E2, !inverse_place in H.
  destruct p, q; exact H.
Qed.
Theorem c107_components : forall A (eqb : A -> A -> bool), (forall a b, eqb a b = true <-> a = b) ->
  forall s (im im' : image A) conn bg out out', moved s im im' ->
  connected_components eqb im conn bg = Ok out -> connected_components eqb im' conn bg = Ok out' ->
  let at_x x y := fst (place s (iw im) (ih im) x y) in let at_y x y := snd (place s (iw im) (ih im) x y) in
  (forall x y, 0 <= x < iw im -> 0 <= y < ih im -> (get out x y = Some 0 <-> get out' (at_x x y) (at_y x y) = Some 0)) /\
  (forall x y u v c d, get im x y = Some c -> c <> bg -> get im u v = Some d -> d <> bg ->
    (get out x y = get out u v <-> get out' (at_x x y) (at_y x y) = get out' (at_x u v) (at_y u v))).
Proof.
  intros A eqb Heq s im im' conn bg out out' M E E' at_x at_y. pose proof M as (W & W' & _ & _ & H).
  destruct (c10_components A eqb Heq im conn bg out W E) as (_ & _ & _ & B & F & P).
  destruct (c10_components A eqb Heq im' conn bg out' W' E') as (_ & _ & _ & B' & F' & P').
  assert (G : forall x y, get im' (at_x x y) (at_y x y) = get im x y).
  { intros x y. unfold at_x, at_y. rewrite (moved_back s im im' M), back_place. reflexivity. }
  split.
  - intros x y Hx Hy. destruct (get_some im x y W Hx Hy) as (c & Gc).
    pose proof (G x y) as Gc'. rewrite Gc in Gc'.
    destruct (eqb c bg) eqn:Q.
    + apply Heq in Q. subst c. rewrite (B _ _ Gc), (B' _ _ Gc'). tauto.
    + assert (N : c <> bg) by (intros ->; rewrite (proj2 (Heq bg bg) eq_refl) in Q; discriminate).
      destruct (F _ _ _ Gc N) as (l & -> & L & _). destruct (F' _ _ _ Gc' N) as (l' & -> & L' & _).
      split; intros [=]; lia.
  - intros x y u v c d Gc Nc Gd Nd.
    rewrite (P _ _ _ _ _ _ Gc Nc Gd Nd).
    assert (Gc' : get im' (at_x x y) (at_y x y) = Some c) by (now rewrite G).
    assert (Gd' : get im' (at_x u v) (at_y u v) = Some d) by (now rewrite G).
    rewrite (P' _ _ _ _ _ _ Gc' Nc Gd' Nd).
    unfold at_x, at_y. rewrite <- !surjective_pairing. symmetry. apply (path_iff s im im' conn (x, y) (u, v) M).
Qed.

(** ** Grayscale dilation and erosion, with the mask moved as well *)
Definition moved_offset (s : symmetry) (d : Z * Z) : Z * Z := place s 1 1 (fst d) (snd d).
Definition moved_mask (s : symmetry) (m m' : list (Z * Z)) : Prop := forall d, In d m <-> In (moved_offset s d) m'.
Lemma covered_at {A} s (im im' : image A) m m' x y u v : moved s im im' -> moved_mask s m m' ->
  (covered im' m' (fst (place s (iw im) (ih im) x y)) (snd (place s (iw im) (ih im) x y)) (fst (place s (iw im) (ih im) u v)) (snd (place s (iw im) (ih im) u v))
   <-> covered im m x y u v).
Proof.
  intros M MM. pose proof M as (_ & _ & E1 & E2 & _). unfold covered. rewrite E1, E2, (MM (u - x, v - y)).
  assert (O : moved_offset s (u - x, v - y) =
    (fst (place s (iw im) (ih im) u v) - fst (place s (iw im) (ih im) x y), snd (place s (iw im) (ih im) u v) - snd (place s (iw im) (ih im) x y))).
  { unfold moved_offset. clear. cases s; f_equal; lia. }
  rewrite O. clear.
  assert (R : (0 <= fst (place s (iw im) (ih im) u v) < (if transposed s then ih im else iw im) /\
     0 <= snd (place s (iw im) (ih im) u v) < (if transposed s then iw im else ih im)) <-> (0 <= u < iw im /\ 0 <= v < ih im)).
  { cases s; lia. }
  tauto.
Qed.
Section Extremes.
  Context (s : symmetry) (im im' : image Z) (m m' : list (Z * Z)) (M : moved s im im') (MM : moved_mask s m m').
  Lemma get_place x y : get im' (fst (place s (iw im) (ih im) x y)) (snd (place s (iw im) (ih im) x y)) = get im x y.
  Proof using M. rewrite (moved_back s im im' M), back_place. reflexivity. Qed.
  Lemma covered_back x y U V :
    covered im' m' (fst (place s (iw im) (ih im) x y)) (snd (place s (iw im) (ih im) x y)) U V <->
    covered im m x y (fst (back s (iw im) (ih im) U V)) (snd (back s (iw im) (ih im) U V)).
  Proof using M MM.
    rewrite <- (covered_at s im im' m m' x y _ _ M MM). rewrite place_back. reflexivity.
  Qed.
  Lemma max_at x y r r' : window_max im m x y r ->
    window_max im' m' (fst (place s (iw im) (ih im) x y)) (snd (place s (iw im) (ih im) x y)) r' -> r' = r.
  Proof using M MM.
    intros (U1 & A1) (U2 & A2).
    assert (V : forall u v p, covered im m x y u v -> get im u v = Some p -> p <= r').
    { intros u v p C G. apply (U2 (fst (place s (iw im) (ih im) u v)) (snd (place s (iw im) (ih im) u v))).
      - now apply (covered_at s im im' m m').
      - now rewrite get_place. }
    assert (N : (forall u v, ~ covered im m x y u v) <-> (forall U V, ~ covered im' m' (fst (place s (iw im) (ih im) x y)) (snd (place s (iw im) (ih im) x y)) U V)).
    { split; intros N a b C; [apply covered_back in C; exact (N _ _ C)|]. apply (covered_at s im im' m m' x y a b M MM) in C. exact (N _ _ C). }
    destruct A2 as [(U & W & C & G)|(N2 & E2)].
    - apply covered_back in C. rewrite (moved_back s im im' M) in G. pose proof (U1 _ _ _ C G).
      destruct A1 as [(u & v & C1 & G1)|(N1 & _)]; [|exfalso; exact (N1 _ _ C)]. pose proof (V _ _ _ C1 G1). lia.
    - destruct A1 as [(u & v & C1 & _)|(_ & E1)]; [|lia]. exfalso. exact (proj2 N N2 _ _ C1).
  Qed.
  Lemma min_at x y r r' : window_min im m x y r ->
    window_min im' m' (fst (place s (iw im) (ih im) x y)) (snd (place s (iw im) (ih im) x y)) r' -> r' = r.
  Proof using M MM.
    intros (U1 & A1) (U2 & A2).
    assert (V : forall u v p, covered im m x y u v -> get im u v = Some p -> r' <= p).
    { intros u v p C G. apply (U2 (fst (place s (iw im) (ih im) u v)) (snd (place s (iw im) (ih im) u v))).
      - now apply (covered_at s im im' m m').
      - now rewrite get_place. }
    assert (N : (forall u v, ~ covered im m x y u v) <-> (forall U V, ~ covered im' m' (fst (place s (iw im) (ih im) x y)) (snd (place s (iw im) (ih im) x y)) U V)).
    { split; intros N a b C; [apply covered_back in C; exact (N _ _ C)|]. apply (covered_at s im im' m m' x y a b M MM) in C. exact (N _ _ C). }
    destruct A2 as [(U & W & C & G)|(N2 & E2)].
    - apply covered_back in C. rewrite (moved_back s im im' M) in G. pose proof (U1 _ _ _ C G).
      destruct A1 as [(u & v & C1 & G1)|(N1 & _)]; [|exfalso; exact (N1 _ _ C)]. pose proof (V _ _ _ C1 G1). lia.
    - destruct A1 as [(u & v & C1 & _)|(_ & E1)]; [|lia]. exfalso. exact (proj2 N N2 _ _ C1).
  Qed.
End Extremes.
Theorem c107_grayscale : forall s (im im' : image Z) m m', gray8 im -> 0 < iw im -> 0 < ih im -> moved s im im' -> moved_mask s m m' ->
  both_moved s (grayscale_dilate im m) (grayscale_dilate im' m') /\ both_moved s (grayscale_erode im m) (grayscale_erode im' m').
Proof.
  intros s im im' m m' G Hw Hh M MM. pose proof M as (_ & _ & E1 & E2 & _). pose proof (moved_gray8 s im im' M G) as G'.
  assert (Hw' : 0 < iw im') by (rewrite E1; destruct (transposed s); auto).
  split.
  - destruct (c24_grayscale_dilate im m G Hw) as (o & E & (Wo & _) & O1 & O2 & H).
    destruct (c24_grayscale_dilate im' m' G' Hw') as (o' & E' & (Wo' & _) & O1' & O2' & H').
    exists o, o'. split; [exact E|]. split; [exact E'|]. split; [exact Wo|]. split; [exact Wo'|].
    rewrite O1, O2, O1', O2'. split; [exact E1|]. split; [exact E2|]. intros x y Hx Hy.
    destruct (H x y Hx Hy) as (r & Gr & Mr). destruct (place_in s im im' M x y Hx Hy) as (P1 & P2).
    destruct (H' _ _ P1 P2) as (r' & Gr' & Mr'). rewrite Gr, Gr'. f_equal. exact (max_at s im im' m m' M MM x y r r' Mr Mr').
  - destruct (c24_grayscale_erode im m G Hw) as (o & E & (Wo & _) & O1 & O2 & H).
    destruct (c24_grayscale_erode im' m' G' Hw') as (o' & E' & (Wo' & _) & O1' & O2' & H').
    exists o, o'. split; [exact E|]. split; [exact E'|]. split; [exact Wo|]. split; [exact Wo'|].
    rewrite O1, O2, O1', O2'. split; [exact E1|]. split; [exact E2|]. intros x y Hx Hy.
    destruct (H x y Hx Hy) as (r & Gr & Mr). destruct (place_in s im im' M x y Hx Hy) as (P1 & P2).
    destruct (H' _ _ P1 P2) as (r' & Gr' & Mr'). rewrite Gr, Gr'. f_equal. exact (min_at s im im' m m' M MM x y r r' Mr Mr').
Qed.
Example c107_grayscale_nontrivial :
  moved_mask mirror_sym [(0, 0); (1, 0)] [(-1, 0); (0, 0)] /\
  grayscale_dilate (mkImage 3 1 [1; 9; 3]) [(0, 0); (1, 0)] = Ok (mkImage 3 1 [9; 9; 3]) /\
  grayscale_dilate (mkImage 3 1 [3; 9; 1]) [(-1, 0); (0, 0)] = Ok (mkImage 3 1 [3; 9; 9]).
Proof.
  split; [|vm_compute; auto]. intros (a, b). unfold moved_offset, mirror_sym, place. cbn [transposed mirror_x mirror_y fst snd In].
  split.
  - intros [H|[H|[]]]; injection H as <- <-; auto.
  - intros [H|[H|[]]]; injection H as H1 H2; [right; left|left]; f_equal; lia.
Qed.

Print Assumptions c107_components.
Print Assumptions c107_grayscale.
