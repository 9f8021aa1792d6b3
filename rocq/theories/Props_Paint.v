(** C112: painting shapes in one colour: once is enough and the order does not matter. *)
From Coq Require Import Classical_Prop.
From Verif Require Import Base BaseProofs Float FloatProofs LineModel LineSpec LineProofs Props_Line
  ShapeModel ShapeSpec ShapeProofs Props_Shape PolygonModel PolygonSpec PolygonProofs Props_Polygon.
Local Ltac Zify.zify_post_hook ::= idtac.

(** ** Specification *)
Inductive shape : Type :=
| Line (a b : Z * Z) | HollowRect (r : rect) | FilledRect (r : rect) | HollowCircle (c : Z * Z) (r : Z) | FilledCircle (c : Z * Z) (r : Z)
| Cross (x y : Z) | Polygon (vertices : list (Z * Z)).
(** the call of the library that draws the shape *)
Definition paint {A} (col : A) (s : shape) (im : image A) : res (image A) :=
  match s with
  | Line a b => draw_line_segment (fun _ => col) im (of_int (fst a), of_int (snd a)) (of_int (fst b), of_int (snd b))
  | HollowRect r => draw_hollow_rect (fun _ => col) im r
  | FilledRect r => draw_filled_rect (fun _ => col) im r
  | HollowCircle c r => draw_hollow_circle (fun _ => col) im c r
  | FilledCircle c r => draw_filled_circle (fun _ => col) im c r
  | Cross x y => draw_cross (fun _ => col) im x y
  | Polygon v => draw_polygon (fun _ => col) im v
  end.
Fixpoint paint_all {A} (col : A) (l : list shape) (im : image A) : res (image A) :=
  match l with [] => Ok im | s :: l => bind (paint col s im) (paint_all col l) end.
(** shapes may stick out of the image; coordinates are below about four million *)
Definition drawable (s : shape) : Prop :=
  match s with
  | Line a b => small a /\ small b
  | HollowRect r | FilledRect r => - 2 ^ 22 <= r_left r /\ - 2 ^ 22 <= r_top r /\ 1 <= r_width r /\ 1 <= r_height r /\
      r_left r + r_width r <= 2 ^ 22 /\ r_top r + r_height r <= 2 ^ 22
  | HollowCircle c r | FilledCircle c r => 0 <= r /\ Z.abs (fst c) + r < 2 ^ 22 /\ Z.abs (snd c) + r < 2 ^ 22
  | Cross x y => small (x, y)
  | Polygon v => Forall small v
  end.
Definition canvas {A} (im : image A) : Prop := wf im /\ 1 <= iw im < 2 ^ 31 /\ 1 <= ih im < 2 ^ 31 - 2 ^ 22.

(** ** Proofs *)
(** the pixels of a shape do not depend on the image *)
Definition area (s : shape) (x y : Z) : Prop :=
  match s with
  | Line a b => exists pts, bres_points (of_int (fst a), of_int (snd a)) (of_int (fst b), of_int (snd b)) = Ok pts /\ In (x, y) pts
  | HollowRect r => on_border r x y
  | FilledRect r => in_rect r x y
  | HollowCircle c r => on_circle r (x - fst c) (y - snd c)
  | FilledCircle c r => in_disc r (x - fst c) (y - snd c)
  | Cross u v => Z.abs (x - u) + Z.abs (y - v) <= 1
  | Polygon v => interior v x y \/ exists p q pts, In (p, q) (poly_edges v) /\
      bres_points (of_int (fst p), of_int (snd p)) (of_int (fst q), of_int (snd q)) = Ok pts /\ In (x, y) pts
  end.
Lemma paint_ok {A} (col : A) s im : drawable s -> canvas im ->
  exists o, paint col s im = Ok o /\ recoloured (area s) (fun _ => col) im o.
Proof.
  intros D (W & Hw & Hh). destruct s as [a b|r|r|[cx cy] r|[cx cy] r|x y|v]; unfold area; cbn [paint drawable fst snd] in *.
  - destruct D as (Da & Db). destruct (c33_draw_line_segment A (fun _ => col) im a b W ltac:(lia) ltac:(lia) Da Db) as (pts & o & E & F & R).
    exists o. split; [exact F|]. revert R. apply recoloured_ext. intros x y _ _. split; [eauto|]. intros (p & E' & I). congruence.
  - destruct D as (D1 & D2 & D3 & D4 & D5 & D6). apply c34_hollow_rect; auto; lia.
  - apply c34_filled_rect; auto; try lia. unfold rect_ok. lia.
  - apply c35_hollow_circle; auto; lia.
  - apply c35_filled_circle; auto; lia.
  - unfold small in D. cbn [fst snd] in D. apply c72_cross; auto; lia.
  - apply c38_draw_polygon; auto; lia.
Qed.
Lemma canvas_keep {A} S (dr : A -> A) im o : canvas im -> recoloured S dr im o -> canvas o.
Proof. intros (W & Hw & Hh) (W' & D1 & D2 & _). red. rewrite D1, D2. auto. Qed.
Lemma recoloured_same {A} (S S' : Z -> Z -> Prop) (dr : A -> A) im o o' : wf im -> (forall x y, S x y <-> S' x y) ->
  recoloured S dr im o -> recoloured S' dr im o' -> o = o'.
Proof.
  intros W E (W1 & D1 & D2 & G1) (W2 & D3 & D4 & G2). apply image_ext; auto; try congruence. intros x y Hx Hy.
  destruct (get_some im x y W) as (p & P); try (rewrite <- ?D1, <- ?D2; assumption).
  destruct (G1 x y p P) as (A1 & A2). destruct (G2 x y p P) as (B1 & B2). destruct (classic (S x y)) as [H|H].
  - rewrite A1 by exact H. rewrite B1 by (apply E; exact H). reflexivity.
  - rewrite A2 by exact H. rewrite B2 by (rewrite <- E; exact H). reflexivity.
Qed.
Lemma paint_all_ok {A} (col : A) l im : Forall drawable l -> canvas im ->
  exists o, paint_all col l im = Ok o /\ recoloured (fun x y => exists s, In s l /\ area s x y) (fun _ => col) im o.
Proof.
  revert im. induction l as [|s l IH]; intros im D C; cbn [paint_all].
  - exists im. split; [reflexivity|]. destruct C as (W & _). split; [exact W|]. split; [reflexivity|]. split; [reflexivity|]. intros x y p P. split; [intros (s & [] & _)|auto].
  - inversion D as [|? ? D1 D2]; subst. destruct (paint_ok col s im D1 C) as (m & E & R). rewrite E. cbn [bind].
    destruct (IH m D2 (canvas_keep _ _ _ _ C R)) as (o & E' & R'). exists o. split; [exact E'|].
    destruct C as (W & _). eapply recoloured_ext; [|eapply recoloured_seq_idem with (S1 := area s); eauto; intros; apply classic].
    intros x y _ _. split.
    + intros [H|(t & I & H)]; [exists s; split; [now left|exact H]|exists t; split; [now right|exact H]].
    + intros (t & [<-|I] & H); [now left|right; eauto].
Qed.

(** ** Theorems *)
(** painting a shape again in the same colour changes nothing, and in another colour hides the first *)
Theorem c112_repaint : forall A (col col' : A) s im, drawable s -> canvas im ->
  exists o, paint col s im = Ok o /\ paint col' s o = paint col' s im.
Proof.
  intros A col col' s im D C. destruct (paint_ok col s im D C) as (o & E & R). exists o. split; [exact E|].
  destruct (paint_ok col' s o D (canvas_keep _ _ _ _ C R)) as (a & Ea & Ra). destruct (paint_ok col' s im D C) as (b & Eb & Rb).
  rewrite Ea, Eb. f_equal. apply (recoloured_same (area s) (area s) (fun _ => col') im); [apply C|tauto| |exact Rb].
  destruct R as (_ & D1 & D2 & G). destruct Ra as (Wa & D3 & D4 & G'). split; [exact Wa|]. split; [congruence|]. split; [congruence|].
  intros x y p P. destruct (G x y p P) as (A1 & A2). split; intros H.
  - apply (proj1 (G' x y col (A1 H)) H).
  - apply (proj2 (G' x y p (A2 H)) H).
Qed.
Theorem c112_twice : forall A (col : A) s im, drawable s -> canvas im ->
  exists o, paint col s im = Ok o /\ paint col s o = Ok o.
Proof. intros A col s im D C. destruct (c112_repaint A col col s im D C) as (o & E & F). exists o. split; congruence. Qed.

(** shapes of one colour can be painted in any order, with repetitions *)
Theorem c112_any_order : forall A (col : A) l l' im, Forall drawable l -> canvas im -> (forall s, In s l <-> In s l') ->
  exists o, paint_all col l im = Ok o /\ paint_all col l' im = Ok o.
Proof.
  intros A col l l' im D C P. destruct (paint_all_ok col l im D C) as (o & E & R).
  assert (D' : Forall drawable l') by (rewrite Forall_forall in *; intros s H; apply D, P, H).
  destruct (paint_all_ok col l' im D' C) as (o' & E' & R'). exists o. split; [exact E|]. rewrite E'. f_equal. symmetry.
  revert R R'. apply recoloured_same; [apply C|]. intros x y. split; intros (s & I & H); exists s; split; auto; apply P; exact I.
Qed.

(** painting works pixel by pixel: images of one size that agree at a pixel agree there afterwards *)
Theorem c112_background : forall A (col : A) s im im' o o', drawable s -> canvas im -> canvas im' -> iw im = iw im' -> ih im = ih im' ->
  paint col s im = Ok o -> paint col s im' = Ok o' ->
  forall x y, get im x y = get im' x y -> get o x y = get o' x y.
Proof.
  intros A col s im im' o o' D C C' Dw Dh E E' x y G. destruct (paint_ok col s im D C) as (a & Ea & Ra). destruct (paint_ok col s im' D C') as (b & Eb & Rb).
  assert (a = o) by congruence. assert (b = o') by congruence. subst a b.
  destruct (get im x y) as [p|] eqn:P.
  - destruct Ra as (_ & _ & _ & Ga). destruct Rb as (_ & _ & _ & Gb). destruct (Ga x y p P) as (A1 & A2). destruct (Gb x y p (eq_sym G)) as (B1 & B2).
    destruct (classic (area s x y)) as [H|H]; [rewrite A1, B1 by exact H|rewrite A2, B2 by exact H]; reflexivity.
  - rewrite (recoloured_get _ _ _ _ x y (proj1 C) Ra P). symmetry. apply (recoloured_get _ _ _ _ x y (proj1 C') Rb). auto.
Qed.

Example c112_nontrivial :
  let im := mkImage 4 3 [0;0;0;0; 0;0;0;0; 0;0;0;0] in let l := [Line (0, 0) (3, 2); FilledRect (mkRect (-1) 1 2 9); Cross 3 0] in
  Forall drawable l /\ canvas im /\ paint_all 7 l im = Ok (mkImage 4 3 [7;0;7;7; 7;7;7;7; 7;0;0;7]) /\
  paint_all 7 (rev l) im = Ok (mkImage 4 3 [7;0;7;7; 7;7;7;7; 7;0;0;7]).
Proof.
  cbv zeta. split; [repeat constructor; cbn; try lia; unfold small; cbn; lia|].
  split; [unfold canvas, wf, zlen; cbn; lia|]. vm_compute. auto.
Qed.

Print Assumptions c112_repaint. Print Assumptions c112_twice. Print Assumptions c112_any_order. Print Assumptions c112_background.
