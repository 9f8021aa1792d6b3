(** C98: antialiased polygons. *)
From Coq Require Import Reals Lra.
From Flocq Require Import Core BinarySingleNaN.
From Verif Require Import Base BaseProofs Float FloatProofs LineModel LineSpec LineProofs ShapeModel ShapeProofs PolygonModel PolygonSpec PolygonProofs.
From Verif Require Import WuModel WuSpec Props_Wu AAPolygonModel AAPolygonSpec.
Local Ltac Zify.zify_post_hook ::= idtac.
Local Open Scope Z_scope.

(** Full claim, for vertices with coordinates from [lo] to 1000: nothing panics, and
    every pixel is what drawing one antialiased line per edge makes of the colour
    (interior pixels, by the even-odd rule) or of the old pixel (others). *)
Definition c98_for (lo : Z) : Prop := forall A (im : image A) (b : A -> A -> f32 -> A) poly color,
  wf im -> iw im < 2 ^ 31 -> 1 <= ih im < 2 ^ 31 - 2 ^ 22 ->
  Forall (fun p => lo <= fst p <= 1000 /\ lo <= snd p <= 1000) poly ->
  exists out, draw_antialiased_polygon b im poly color = Ok out /\ wf out /\ iw out = iw im /\ ih out = ih im /\
    forall x y o, get im x y = Some o -> exists r, get out x y = Some r /\
      (interior poly x y -> lines_over b color (poly_edges poly) x y color r) /\
      (~ interior poly x y -> lines_over b color (poly_edges poly) x y o r).
Definition c98_statement : Prop := c98_for (-1000).

(** Refuted by a polygon with a vertex above the image: pixel (1, 1) lies three
    half pixels from the only line, and is painted. *)
Theorem c98_refuted : ~ c98_statement.
Proof.
  intros H. set (im := mkImage 3 2 [0; 0; 0; 0; 0; 0]).
  assert (W : wf im) by (split; [cbn; lia|split; [cbn; lia|reflexivity]]).
  destruct (H Z im (fun _ _ _ => 1) [(0, -1); (2, 0)] 5) as (out & E & _ & _ & _ & P); [exact W|cbn; lia|cbn; lia| |].
  { repeat constructor; cbn [fst snd]; lia. }
  assert (E' : match draw_antialiased_polygon (fun _ _ _ => 1) im [(0, -1); (2, 0)] 5 with Ok o => get o 1 1 | _ => None end = Some 1)
    by (vm_compute; reflexivity).
  rewrite E in E'. destruct (P 1 1 0 eq_refl) as (r & Er & _ & NI). rewrite E' in Er. assert (r = 1) as -> by congruence.
  assert (I : ~ interior [(0, -1); (2, 0)] 1 1).
  { unfold interior. assert (N : crossings [(0, -1); (2, 0)] 1 = []) by (vm_compute; reflexivity). rewrite N. cbn. intros [[]|]. discriminate. }
  specialize (NI I). assert (N : poly_edges [(0, -1); (2, 0)] = [((0, -1), (2, 0)); ((2, 0), (0, -1))]) by (vm_compute; reflexivity). rewrite N in NI.
  cbn [lines_over] in NI. destruct NI as (o1 & A1 & o2 & A2 & F2).
  assert (O1 : line_offset (0, -1) (2, 0) 1 1 = (3 / 2)%R) by (unfold line_offset, steep; cbn; lra).
  assert (O2 : line_offset (2, 0) (0, -1) 1 1 = (3 / 2)%R) by (unfold line_offset, steep; cbn; lra).
  rewrite O1 in A1. rewrite O2 in A2. unfold wu_result in A1, A2. rewrite Rabs_pos_eq in A1, A2 by lra.
  destruct A1 as [(_ & B & _)|(_ & G)]; [lra|]. injection G as ->.
  destruct A2 as [(_ & B & _)|(_ & G)]; [lra|]. injection G as ->. discriminate F2.
Qed.
Print Assumptions c98_refuted.

Lemma round_trip z : Z.abs z <= 2 ^ 24 -> i32_of_f32 (of_int z : f32) = z.
Proof. intros H. apply i32_dy; [|lia]. apply (dy_int 24 128); [unfold dyk; cbn; lia|exact H]. Qed.

(** a list of antialiased lines *)
Lemma lines_ok {A} (b : A -> A -> f32 -> A) color es : forall im : image A,
  wf im -> iw im < 2 ^ 31 -> ih im < 2 ^ 31 ->
  (forall e, In e es -> (0 <= fst (fst e) <= 1000 /\ 0 <= snd (fst e) <= 1000) /\ (0 <= fst (snd e) <= 1000 /\ 0 <= snd (snd e) <= 1000)) ->
  exists out, for_each es (fun e im => let '((x0, y0), (x1, y1)) := e in
      draw_antialiased_line_segment b im (i32_of_f32 (of_int x0), i32_of_f32 (of_int y0)) (i32_of_f32 (of_int x1), i32_of_f32 (of_int y1)) color) im = Ok out /\
    wf out /\ iw out = iw im /\ ih out = ih im /\
    forall x y o, get im x y = Some o -> exists r, get out x y = Some r /\ lines_over b color es x y o r.
Proof.
  induction es as [|[[x0 y0] [x1 y1]] es IH]; intros im W Hw Hh B.
  - exists im. cbn [for_each]. splits; auto. intros x y o G. exists o. split; [exact G|reflexivity].
  - destruct (B _ (or_introl eq_refl)) as ((B1 & B2) & B3 & B4). cbn [fst snd] in *. cbn [for_each].
    rewrite !round_trip by lia.
    destruct (c81_lines_partial A im b x0 y0 x1 y1 color W Hw Hh B1 B2 B3 B4) as (m & E & Wm & Mw & Mh & P).
    rewrite E. cbn [bind]. destruct (IH m Wm) as (out & Eo & Wo & Ow & Oh & Q); [lia|lia|intros e He; apply B; right; exact He|].
    exists out. split; [exact Eo|]. split; [exact Wo|]. split; [lia|]. split; [lia|]. intros x y o G. specialize (P x y o G).
    destruct (get m x y) as [o'|] eqn:Gm.
    + destruct (Q x y o' Gm) as (r & Gr & L). exists r. split; [exact Gr|]. cbn [lines_over]. exists o'. split; [exact P|exact L].
    + exfalso. destruct P as [(_ & _ & w & _ & _ & F)|(_ & F)]; discriminate.
Qed.

(** What holds: the claim for vertices without negative coordinates. *)
Theorem c98_polygon_partial : c98_for 0.
Proof.
  intros A im b poly color W Hw Hh SM. unfold draw_antialiased_polygon, draw_polygon_with.
  assert (C : cdim im) by (split; [assumption|split; lia]).
  destruct poly as [|p0 l].
  { exists im. splits; auto. intros x y o G. exists o. split; [exact G|]. split; [|reflexivity].
    unfold interior, crossings, poly_edges. cbn. intros [[]|H]; discriminate. }
  set (poly := p0 :: l) in *. rewrite close_poly_closed, windows2_combine. fold (poly_edges poly).
  rewrite wrap_id by lia. rewrite chk_i_ok by lia. cbn [bind].
  set (ymin := fold_left Z.min (map snd poly) (2 ^ 31 - 1)).
  set (ymax := fold_left Z.max (map snd poly) (- 2 ^ 31)).
  destruct (fold_min_le (map snd poly) (2 ^ 31 - 1)) as (_ & MN). fold ymin in MN.
  destruct (fold_max_ge (map snd poly) (- 2 ^ 31)) as (_ & MX). fold ymax in MX.
  rewrite chk_i_ok by lia. cbn [bind].
  assert (MM : ymin <= ymax).
  { assert (I : In (snd p0) (map snd poly)) by (left; reflexivity). specialize (MN _ I). specialize (MX _ I). lia. }
  set (lo := Z.max 0 (Z.min ymin (ih im - 1))). set (hi := Z.max 0 (Z.min ymax (ih im - 1)) + 1).
  assert (SM' : Forall small poly).
  { eapply Forall_impl; [|exact SM]. intros p. unfold small. cbn beta. lia. }
  destruct (for_range_draw (fun _ => color) (fun i x y => y = i /\ interior poly x i) (scan_line (fun _ => color) (poly_edges poly)) lo hi im C)
    as (m & Em & (Wm & Mw & Mh & Rm)).
  - unfold lo, hi. lia.
  - intros i j x y N [-> _] [E _]. lia.
  - intros i m Hi Cm Ew Eh. apply scan_line_ok; auto; unfold lo, hi in Hi; lia.
  - rewrite Em. cbn [bind].
    destruct (lines_ok b color (poly_edges poly) m Wm) as (out & Eo & Wo & Ow & Oh & Q); [lia|lia| |].
    { intros e He. destruct (poly_edges_in _ _ He) as (P0 & P1). rewrite Forall_forall in SM. split; apply SM; assumption. }
    exists out. split; [exact Eo|]. split; [exact Wo|]. split; [lia|]. split; [lia|].
    intros x y o G. destruct (Rm x y o G) as (RI & RO).
    assert (Hb : 0 <= y < ih im) by (destruct (get_inb _ _ _ _ G); lia).
    destruct (interior_dec poly x y) as [I|I].
    + assert (Gm : get m x y = Some color).
      { apply RI. exists y. split; [|auto]. destruct (Z_lt_dec y ymin); [|destruct (Z_lt_dec ymax y)]; [exfalso..|unfold lo, hi; lia].
        - unfold interior in I. rewrite crossings_outside in I; [destruct I as [[]|I]; discriminate|].
          right. intros p Hp. assert (In (snd p) (map snd poly)) as J by (apply in_map; exact Hp). specialize (MN _ J). lia.
        - unfold interior in I. rewrite crossings_outside in I; [destruct I as [[]|I]; discriminate|].
          left. intros p Hp. assert (In (snd p) (map snd poly)) as J by (apply in_map; exact Hp). specialize (MX _ J). lia. }
      destruct (Q x y color Gm) as (r & Gr & L). exists r. split; [exact Gr|]. split; [auto|contradiction].
    + assert (Gm : get m x y = Some o). { apply RO. intros (i & _ & -> & I'). auto. }
      destruct (Q x y o Gm) as (r & Gr & L). exists r. split; [exact Gr|]. split; [contradiction|auto].
Qed.
Print Assumptions c98_polygon_partial.

(** Consequences.  A pixel more than 9/8 of a pixel away from every edge it lies
    beside gets exactly the colour inside the polygon, and is unchanged outside. *)
Theorem c98_away_from_edges : forall A (im : image A) (b : A -> A -> f32 -> A) poly color,
  wf im -> iw im < 2 ^ 31 -> 1 <= ih im < 2 ^ 31 - 2 ^ 22 ->
  Forall (fun p => 0 <= fst p <= 1000 /\ 0 <= snd p <= 1000) poly ->
  exists out, draw_antialiased_polygon b im poly color = Ok out /\
    forall x y o, get im x y = Some o ->
      (forall p q, In (p, q) (poly_edges poly) -> between_ends p q x y -> (9 / 8 < Rabs (line_offset p q x y))%R) ->
      (interior poly x y -> get out x y = Some color) /\ (~ interior poly x y -> get out x y = Some o).
Proof.
  intros A im b poly color W Hw Hh SM. destruct (c98_polygon_partial A im b poly color W Hw Hh SM) as (out & E & _ & _ & _ & P).
  exists out. split; [exact E|]. intros x y o G Far. destruct (P x y o G) as (r & Gr & RI & RO).
  assert (L : forall es, incl es (poly_edges poly) -> forall a c, lines_over b color es x y a c -> c = a).
  { induction es as [|[p q] es IH]; intros I a c; cbn [lines_over]; [auto|]. intros (a' & Wu & L).
    assert (I' : incl es (poly_edges poly)) by (intros e He; apply I; right; exact He).
    rewrite (IH I' _ _ L). destruct Wu as [(In1 & B & _)|(_ & F)]; [|congruence].
    specialize (Far p q (I _ (or_introl eq_refl)) In1). exfalso. apply (Rlt_not_le _ _ Far). exact B. }
  rewrite Gr. split; intros I; f_equal; eapply L; try apply incl_refl; eauto.
Qed.
Print Assumptions c98_away_from_edges.

(** A blend function that leaves the colour alone when painting it over itself
    gives the colour to the whole interior, edges included. *)
Theorem c98_solid_interior : forall A (im : image A) (b : A -> A -> f32 -> A) poly color,
  wf im -> iw im < 2 ^ 31 -> 1 <= ih im < 2 ^ 31 - 2 ^ 22 ->
  Forall (fun p => 0 <= fst p <= 1000 /\ 0 <= snd p <= 1000) poly -> (forall w, b color color w = color) ->
  exists out, draw_antialiased_polygon b im poly color = Ok out /\
    forall x y o, get im x y = Some o -> interior poly x y -> get out x y = Some color.
Proof.
  intros A im b poly color W Hw Hh SM Hb. destruct (c98_polygon_partial A im b poly color W Hw Hh SM) as (out & E & _ & _ & _ & P).
  exists out. split; [exact E|]. intros x y o G I. destruct (P x y o G) as (r & Gr & RI & _). specialize (RI I). rewrite Gr. f_equal.
  assert (L : forall es c, lines_over b color es x y color c -> c = color).
  { induction es as [|[p q] es IH]; intros c; cbn [lines_over]; [auto|]. intros (a' & Wu & L).
    assert (a' = color) as ->. { destruct Wu as [(_ & _ & w & _ & _ & F)|(_ & F)]; [rewrite Hb in F|]; congruence. }
    auto. }
  eauto.
Qed.
Print Assumptions c98_solid_interior.

(** The crate's own [interpolate], recommended by the documentation, is not such a
    function: interior pixels beside an edge can come out one level too dark. *)
Definition c98_interpolate_statement : Prop := forall im poly color,
  wf im -> iw im < 2 ^ 31 -> 1 <= ih im < 2 ^ 31 - 2 ^ 22 ->
  Forall (fun p => 0 <= fst p <= 1000 /\ 0 <= snd p <= 1000) poly -> 0 <= color <= 255 ->
  exists out, draw_antialiased_polygon (interpolate 255) im poly [color] = Ok out /\
    forall x y o, get im x y = Some o -> interior poly x y -> get out x y = Some [color].
Theorem c98_interpolate_refuted : ~ c98_interpolate_statement.
Proof.
  intros H. set (poly := [(0, 0); (7, 3); (0, 5)]). set (im := new_image 8 6 [0]).
  destruct (H im poly 61) as (out & E & P); [|cbn; lia|cbn; lia| |lia|].
  - split; [cbn; lia|split; [cbn; lia|reflexivity]].
  - repeat constructor; cbn [fst snd]; lia.
  - assert (E' : match draw_antialiased_polygon (interpolate 255) im poly [61] with Ok o => get o 1 1 | _ => None end = Some [60])
      by (vm_compute; reflexivity).
    rewrite E in E'. rewrite (P 1 1 [0] eq_refl) in E'; [discriminate|].
    right. vm_compute. reflexivity.
Qed.
Print Assumptions c98_interpolate_refuted.

(** A triangle whose interior pixel (5, 4) is away from all edges. *)
Example c98_nontrivial :
  match draw_antialiased_polygon (interpolate 255) (new_image 12 12 [200]) [(0, 0); (11, 2); (1, 11)] [3] with
  | Ok o => (get o 5 4, get o 7 8, get o 3 10)
  | _ => (None, None, None) end = (Some [3], Some [200], Some [160]) /\
  interior [(0, 0); (11, 2); (1, 11)] 5 4.
Proof. split; [vm_compute; reflexivity|right; vm_compute; reflexivity]. Qed.
