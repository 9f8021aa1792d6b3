(** Proofs for C38. *)
From Coq Require Import Permutation Sorted.
From Verif Require Import Base BaseProofs Float FloatProofs LineModel LineSpec LineProofs ShapeModel ShapeProofs.
From Verif Require Import PolygonModel PolygonSpec.
Local Ltac Zify.zify_post_hook ::= idtac.

(** ** sorting *)
Lemma insert_perm x l : Permutation (x :: l) (insert_sorted x l).
Proof.
  induction l as [|y t IH]; [reflexivity|]. cbn [insert_sorted]. destruct (x <=? y); [reflexivity|].
  rewrite perm_swap. constructor. exact IH.
Qed.
Lemma sort_perm l : Permutation l (sort_z l).
Proof.
  induction l as [|x l IH]; [reflexivity|]. cbn [sort_z fold_right]. fold (sort_z l).
  rewrite <- insert_perm. constructor. exact IH.
Qed.
Lemma insert_ss x l : StronglySorted Z.le l -> StronglySorted Z.le (insert_sorted x l).
Proof.
  induction l as [|y t IH]; intros H; cbn [insert_sorted].
  - constructor; constructor.
  - inversion H as [|? ? H1 H2]; subst. destruct (x <=? y) eqn:E.
    + constructor; auto. constructor; [lia|]. eapply Forall_impl; [|exact H2]. intros; lia.
    + constructor; [auto|]. apply Forall_forall. intros z Hz.
      apply (Permutation_in _ (Permutation_sym (insert_perm x t))) in Hz. destruct Hz as [<-|Hz]; [lia|].
      rewrite Forall_forall in H2. auto.
Qed.
Lemma sort_ss l : StronglySorted Z.le (sort_z l).
Proof. induction l as [|x l IH]; [constructor|]. cbn [sort_z fold_right]. apply insert_ss, IH. Qed.

Definition cnt_lt (x : Z) (l : list Z) : nat := length (filter (fun c => c <? x) l).
Lemma cnt_lt_perm x l l' : Permutation l l' -> cnt_lt x l = cnt_lt x l'.
Proof.
  induction 1; unfold cnt_lt in *; cbn [filter]; auto.
  - destruct (_ <? _); cbn [length]; lia.
  - destruct (y <? x), (x0 <? x); reflexivity.
  - lia.
Qed.

(** in one of the spans [l0,l1], [l2,l3], ... *)
Fixpoint in_spans (l : list Z) (x : Z) : Prop :=
  match l with
  | a :: b :: t => a <= x <= b \/ in_spans t x
  | _ => False
  end.
Lemma in_spans_dec l x : in_spans l x \/ ~ in_spans l x.
Proof.
  assert (H : forall n l, (length l <= n)%nat -> in_spans l x \/ ~ in_spans l x); [|apply (H (length l)); lia].
  induction n as [|n IH]; intros [|a [|b t]] Hl; cbn [length in_spans] in *; try tauto; try lia.
Qed.

Lemma spans_spec x l : StronglySorted Z.le l -> Nat.even (length l) = true ->
  in_spans l x <-> In x l \/ Nat.odd (cnt_lt x l) = true.
Proof.
  assert (H : forall n l, (length l <= n)%nat -> StronglySorted Z.le l -> Nat.even (length l) = true ->
    (in_spans l x <-> In x l \/ Nat.odd (cnt_lt x l) = true)); [|apply (H (length l)); lia].
  clear l. induction n as [|n IH]; intros l Hl SS EV.
  - destruct l; [|cbn in Hl; lia]. cbn. intuition discriminate.
  - destruct l as [|a [|b t]]; [cbn; intuition discriminate|discriminate|].
    inversion SS as [|? ? S1 F1]; subst. inversion S1 as [|? ? S2 F2]; subst.
    inversion F1 as [|? ? Hab F1']; subst.
    rewrite Forall_forall in F1', F2.
    cbn [length] in Hl, EV. cbn [Nat.even] in EV.
    specialize (IH t ltac:(lia) S2 EV). cbn [in_spans].
    unfold cnt_lt in *. cbn [filter In].
    assert (LOW : x <= b -> filter (fun c => c <? x) t = []).
    { intros Hx. destruct (filter (fun c => c <? x) t) as [|z zs] eqn:E; [reflexivity|].
      assert (Hz : In z (filter (fun c => c <? x) t)) by (rewrite E; left; auto).
      apply filter_In in Hz. destruct Hz as (Hz & Hc). apply F2 in Hz. lia. }
    destruct (Z_le_gt_dec x b) as [L|G].
    + rewrite (LOW L) in *. replace (b <? x) with false by lia. cbn [length Nat.odd Nat.even negb] in IH.
      destruct (a <? x) eqn:E; cbn [length].
      * split; [intros _; right; reflexivity|]. intros _. left. lia.
      * split.
        -- intros [H|H]; [left; left; lia|]. apply IH in H. destruct H as [H|H]; [auto|discriminate].
        -- intros [[H|[H|H]]|H]; [left; lia|left; lia|right; apply IH; auto|discriminate].
    + replace (b <? x) with true by lia. replace (a <? x) with true by lia. cbn [length].
      change (Nat.odd (S (S (length (filter (fun c => c <? x) t))))) with (Nat.odd (length (filter (fun c => c <? x) t))).
      rewrite IH. split; [intros [H|H]; [lia|tauto]|]. intros [[H|[H|H]]|H]; try lia; tauto.
Qed.

(** ** the crossings of a row *)
Definition small_e (e : (Z * Z) * (Z * Z)) : Prop := small (fst e) /\ small (snd e).

Lemma edge_ok y e : small_e e -> Z.abs y < 2 ^ 31 - 2 ^ 22 -> edge_intersections y e = Ok (edge_crossings y e).
Proof.
  destruct e as [[x0 y0] [x1 y1]]. intros [[A1 A2] [B1 B2]] Hy. cbn [fst snd] in *.
  unfold edge_intersections, edge_crossings, edge_column.
  destruct ((y0 <=? y) && (y <=? y1) || (y1 <=? y) && (y <=? y0)) eqn:E.
  - destruct (y0 =? y1) eqn:E1.
    + replace ((y0 =? y) && (y1 =? y)) with true by lia. reflexivity.
    + replace ((y0 =? y) && (y1 =? y)) with false by lia.
      destruct (y0 =? y) eqn:E2; cbn [orb].
      * destruct (y <? y0) eqn:E3; [lia|]. destruct (y <? y1); reflexivity.
      * destruct (y1 =? y) eqn:E3.
        -- destruct (y <? y1) eqn:E4; [lia|]. destruct (y <? y0); reflexivity.
        -- rewrite chk_i_ok by lia. cbn [bind]. rewrite chk_i_ok by lia. cbn [bind].
           rewrite chk_i_ok by lia. cbn [bind].
           replace (Bool.eqb (y <? y0) (y <? y1)) with false; [reflexivity|].
           destruct (y <? y0) eqn:E4, (y <? y1) eqn:E5; try reflexivity; lia.
  - replace ((y0 =? y) && (y1 =? y)) with false by lia.
    replace (Bool.eqb (y <? y0) (y <? y1)) with true; [reflexivity|].
    destruct (y <? y0) eqn:E4, (y <? y1) eqn:E5; try reflexivity; lia.
Qed.

Lemma edge_parity y e : Nat.odd (length (edge_crossings y e)) = xorb (y <? snd (fst e)) (y <? snd (snd e)).
Proof.
  destruct e as [[x0 y0] [x1 y1]]. unfold edge_crossings. cbn [fst snd].
  destruct ((y0 =? y) && (y1 =? y)) eqn:E.
  - replace (y <? y0) with false by lia. replace (y <? y1) with false by lia. reflexivity.
  - destruct (y <? y0), (y <? y1); reflexivity.
Qed.

Lemma parity_path y l p : Nat.odd (length (flat_map (edge_crossings y) (combine (p :: l) l))) =
  xorb (y <? snd p) (y <? snd (last l p)).
Proof.
  revert p. induction l as [|q l IH]; intros p.
  - cbn. now rewrite xorb_nilpotent.
  - change (combine (p :: q :: l) (q :: l)) with ((p, q) :: combine (q :: l) l).
    cbn [flat_map]. rewrite app_length, Nat.odd_add, edge_parity, IH. cbn [fst snd].
    replace (last (q :: l) p) with (last l q).
    + destruct (y <? snd p), (y <? snd q), (y <? snd (last l q)); reflexivity.
    + clear. revert p q. induction l as [|r l IH]; intros p q; [reflexivity|]. cbn [last]. 
      destruct l; [reflexivity|]. apply (IH p q).
Qed.

Lemma last_snoc {X} (l : list X) a d : last (l ++ [a]) d = a.
Proof. induction l as [|b l IH]; [reflexivity|]. cbn [app last]. destruct (l ++ [a]) eqn:E; [destruct l; discriminate|exact IH]. Qed.

Lemma closed_last p l : exists q, closed (p :: l) = p :: q /\ snd (last q p) = snd p.
Proof.
  unfold closed. destruct ((fst p =? fst (last (p :: l) p)) && (snd p =? snd (last (p :: l) p))) eqn:E.
  - exists l. split; [reflexivity|]. apply andb_true_iff in E. destruct E as (_ & E). apply Z.eqb_eq in E.
    rewrite E. destruct l as [|q l]; reflexivity.
  - exists (l ++ [p]). split; [reflexivity|]. now rewrite last_snoc.
Qed.

Lemma crossings_even poly y : Nat.even (length (crossings poly y)) = true.
Proof.
  unfold crossings, poly_edges. destruct poly as [|p l]; [reflexivity|].
  destruct (closed_last p l) as (q & -> & E). cbn [tl].
  rewrite <- Nat.negb_odd, parity_path, E, xorb_nilpotent. reflexivity.
Qed.

Lemma windows2_combine {X} (l : list X) : windows2 l = combine l (tl l).
Proof.
  induction l as [|a [|b t] IH]; [reflexivity|reflexivity|].
  change (windows2 (a :: b :: t)) with ((a, b) :: windows2 (b :: t)). rewrite IH. reflexivity.
Qed.

Lemma in_closed poly p : In p (closed poly) -> In p poly.
Proof.
  destruct poly as [|q l]; [intros []|]. unfold closed. destruct (_ && _); [auto|].
  intros H. apply in_app_or in H. destruct H as [H|[<-|[]]]; [exact H|left; auto].
Qed.
Lemma poly_edges_in poly e : In e (poly_edges poly) -> In (fst e) poly /\ In (snd e) poly.
Proof.
  unfold poly_edges. destruct e as [a b]. intros H. cbn [fst snd]. split.
  - apply in_combine_l in H. now apply in_closed.
  - apply in_combine_r in H. apply in_closed. destruct (closed poly); [destruct H|right; exact H].
Qed.

(** ** drawing the spans *)
Lemma draw_spans_ok {A} (dr : A -> A) y : (forall a, dr (dr a) = dr a) ->
  forall n l (im : image A), (length l <= n)%nat -> Nat.even (length l) = true -> cdim im -> 0 <= y < ih im ->
  exists out, draw_spans dr y l im = Ok out /\ recoloured (fun x' y' => y' = y /\ in_spans l x') dr im out.
Proof.
  intros ID. induction n as [|n IH]; intros l im Hl EV C Hy.
  - destruct l; [|cbn in Hl; lia]. exists im. split; [reflexivity|].
    eapply recoloured_ext; [|apply recoloured_refl; apply C]. intros. cbn. tauto.
  - destruct l as [|a [|b t]]; [|discriminate|].
    { exists im. split; [reflexivity|]. eapply recoloured_ext; [|apply recoloured_refl; apply C]. intros. cbn. tauto. }
    cbn [length] in Hl, EV. pose proof C as (W & Hw & Hh). pose proof W as (W1 & W2 & _).
    cbn [draw_spans]. rewrite !wrap_id by lia. rewrite chk_i_ok by lia. cbn [bind].
    assert (ST : exists m, (if (Z.min a (iw im) <? iw im) && (0 <=? Z.min b (iw im - 1))
        then to1 <- chk_i 32 (Z.max 0 (Z.min b (iw im - 1)) + 1);;
             for_range (Z.max 0 (Z.min a (iw im))) to1 (fun x im0 => draw_pixel dr im0 x y) im
        else Ok im) = Ok m /\ recoloured (fun x' y' => y' = y /\ a <= x' <= b) dr im m).
    { destruct ((Z.min a (iw im) <? iw im) && (0 <=? Z.min b (iw im - 1))) eqn:E.
      - rewrite chk_i_ok by lia. cbn [bind].
        set (lo := Z.max 0 (Z.min a (iw im))). set (hi := Z.max 0 (Z.min b (iw im - 1)) + 1).
        destruct (Z_le_gt_dec lo hi) as [L|G].
        + destruct (for_range_draw dr (fun i x' y' => x' = i /\ y' = y) (fun x im0 => draw_pixel dr im0 x y) lo hi im C L)
            as (m & Em & Rm).
          * intros; lia.
          * intros i m Hi Cm Ew Eh.
            destruct (get_some m i y (proj1 Cm)) as (p & G); [unfold lo, hi in Hi; lia|lia|].
            rewrite (draw_pixel_ok dr m i y p G). eexists. split; [reflexivity|].
            pose proof (get_inb _ _ _ _ G) as B.
            unfold recoloured. splits; [apply wf_put, Cm|reflexivity|reflexivity|].
            intros x' y' p' G'. rewrite get_put by (try apply Cm; lia).
            destruct ((x' =? i) && (y' =? y)) eqn:E'.
            -- assert (x' = i) by lia. assert (y' = y) by lia. subst. split; [intros _; congruence|tauto].
            -- split; [lia|auto].
          * exists m. split; [exact Em|]. revert Rm. apply recoloured_ext. intros x' y' Hx' Hy'. split.
            -- intros (i & Hi & -> & ->). split; [reflexivity|]. unfold lo, hi in *; lia.
            -- intros (-> & Hx). exists x'. unfold lo, hi in *; lia.
        + rewrite for_range_empty by lia. exists im. split; [reflexivity|].
          eapply recoloured_ext; [|apply recoloured_refl; exact W]. intros x' y' Hx' Hy'. unfold lo, hi in *; lia.
      - exists im. split; [reflexivity|].
        eapply recoloured_ext; [|apply recoloured_refl; exact W]. intros x' y' Hx' Hy'. cbv beta. split; [tauto|lia]. }
    destruct ST as (m & Em & Rm). rewrite Em. cbn [bind].
    pose proof Rm as (_ & Ew & Eh & _).
    destruct (IH t m) as (out & Eo & Ro); [lia|exact EV|eapply recoloured_cdim; eauto|lia|].
    exists out. split; [exact Eo|].
    eapply recoloured_ext; [|eapply recoloured_seq_idem; [exact W|exact ID| | |exact Rm|exact Ro]].
    + intros x' y' _ _. cbn [in_spans]. tauto.
    + intros; cbv beta; lia.
    + intros x' y'. destruct (in_spans_dec t x'), (Z.eq_dec y' y); tauto.
Qed.

Lemma scan_line_ok {A} (dr : A -> A) poly y (im : image A) : (forall a, dr (dr a) = dr a) ->
  Forall small poly -> cdim im -> 0 <= y < ih im -> y < 2 ^ 31 - 2 ^ 22 ->
  exists out, scan_line dr (poly_edges poly) y im = Ok out /\
    recoloured (fun x' y' => y' = y /\ interior poly x' y) dr im out.
Proof.
  intros ID SM C Hy Hy'. unfold scan_line. rewrite Forall_forall in SM.
  rewrite (mapM_ok _ (edge_crossings y)).
  2:{ intros e He. apply edge_ok; [|lia]. apply poly_edges_in in He. split; apply SM; tauto. }
  cbn [bind]. rewrite <- flat_map_concat_map. fold (crossings poly y).
  pose proof (sort_perm (crossings poly y)) as P.
  assert (EV : Nat.even (length (sort_z (crossings poly y))) = true)
    by (rewrite <- (Permutation_length P); apply crossings_even).
  destruct (draw_spans_ok dr y ID (length (sort_z (crossings poly y))) (sort_z (crossings poly y)) im)
    as (out & E & R); auto.
  exists out. split; [exact E|]. revert R. apply recoloured_ext. intros x' y' _ _.
  rewrite (spans_spec x' _ (sort_ss _) EV). unfold interior. fold (cnt_lt x' (crossings poly y)).
  rewrite (cnt_lt_perm x' _ _ P). 
  split; intros (E1 & [H|H]); (split; [exact E1|]); auto; left.
  - eapply Permutation_in; [apply Permutation_sym, P|exact H].
  - eapply Permutation_in; [exact P|exact H].
Qed.

Lemma fold_min_le l : forall a, fold_left Z.min l a <= a /\ forall x, In x l -> fold_left Z.min l a <= x.
Proof.
  induction l as [|b l IH]; intros a; cbn [fold_left In]; [split; [lia|tauto]|].
  destruct (IH (Z.min a b)) as (H1 & H2). split; [lia|]. intros x [<-|H]; [lia|auto].
Qed.
Lemma fold_max_ge l : forall a, a <= fold_left Z.max l a /\ forall x, In x l -> x <= fold_left Z.max l a.
Proof.
  induction l as [|b l IH]; intros a; cbn [fold_left In]; [split; [lia|tauto]|].
  destruct (IH (Z.max a b)) as (H1 & H2). split; [lia|]. intros x [<-|H]; [lia|auto].
Qed.
Lemma crossings_outside poly y : (forall p, In p poly -> snd p < y) \/ (forall p, In p poly -> y < snd p) ->
  crossings poly y = [].
Proof.
  intros H. unfold crossings.
  assert (G : forall l, incl l (poly_edges poly) -> flat_map (edge_crossings y) l = []).
  { induction l as [|e l IH]; intros I; [reflexivity|]. cbn [flat_map]. rewrite IH by (intros z Hz; apply I; right; auto).
    rewrite app_nil_r. destruct (poly_edges_in poly e (I e (or_introl eq_refl))) as (P0 & P1).
    destruct e as [[x0 y0] [x1 y1]]. cbn [fst snd] in *. unfold edge_crossings.
    destruct H as [H|H]; apply H in P0; apply H in P1; cbn [snd] in *;
      replace ((y0 =? y) && (y1 =? y)) with false by lia.
    - replace (y <? y0) with false by lia. replace (y <? y1) with false by lia. reflexivity.
    - replace (y <? y0) with true by lia. replace (y <? y1) with true by lia. reflexivity. }
  apply G. apply incl_refl.
Qed.

(** ** the whole polygon *)
Definition on_edge (e : (Z * Z) * (Z * Z)) (x y : Z) : Prop :=
  exists pts, bres_points (fpt (fst e)) (fpt (snd e)) = Ok pts /\ In (x, y) pts.
Lemma on_edge_dec e x y : on_edge e x y \/ ~ on_edge e x y.
Proof.
  unfold on_edge. destruct (bres_points _ _) as [pts| |]; [|right; intros (p & E & _); discriminate..].
  destruct (In_pt_dec pts x y) as [H|H]; [left; eauto|right]. intros (p & [= <-] & H'). auto.
Qed.
Lemma interior_dec poly x y : interior poly x y \/ ~ interior poly x y.
Proof.
  unfold interior. destruct (in_dec Z.eq_dec x (crossings poly y)); [tauto|].
  destruct (Nat.odd _); [tauto|]. right. intros [H|H]; [auto|discriminate].
Qed.

Lemma close_poly_closed poly : close_poly poly = closed poly.
Proof. reflexivity. Qed.

Lemma polygon_ok {A} (dr : A -> A) (im : image A) poly : (forall a, dr (dr a) = dr a) ->
  cdim im -> 1 <= ih im < 2 ^ 31 - 2 ^ 22 -> Forall small poly ->
  exists out, draw_polygon dr im poly = Ok out /\
    recoloured (fun x y => interior poly x y \/ exists e, In e (poly_edges poly) /\ on_edge e x y) dr im out.
Proof.
  intros ID C Hh SM. pose proof C as (W & Hw & _). unfold draw_polygon, draw_polygon_with.
  destruct poly as [|p0 l].
  { exists im. split; [reflexivity|]. eapply recoloured_ext; [|apply recoloured_refl; exact W].
    intros x y _ _. unfold interior, crossings, poly_edges. cbn. split; [tauto|].
    intros [[[]|H]|(e & [] & _)]. discriminate. }
  set (poly := p0 :: l) in *. rewrite close_poly_closed, windows2_combine. fold (poly_edges poly).
  rewrite wrap_id by lia. rewrite chk_i_ok by lia. cbn [bind].
  set (ymin := fold_left Z.min (map snd poly) (2 ^ 31 - 1)).
  set (ymax := fold_left Z.max (map snd poly) (- 2 ^ 31)).
  destruct (fold_min_le (map snd poly) (2 ^ 31 - 1)) as (_ & MN). fold ymin in MN.
  destruct (fold_max_ge (map snd poly) (- 2 ^ 31)) as (_ & MX). fold ymax in MX.
  rewrite chk_i_ok by lia. cbn [bind].
  assert (MM : ymin <= ymax).
  { assert (I : In (snd p0) (map snd poly)) by (left; reflexivity). specialize (MN _ I). specialize (MX _ I). lia. }
  set (lo := Z.max 0 (Z.min ymin (ih im - 1))). set (hi := Z.max 0 (Z.min ymax (ih im - 1)) + 1).
  destruct (for_range_draw dr (fun i x y => y = i /\ interior poly x i) (scan_line dr (poly_edges poly)) lo hi im C)
    as (m & Em & Rm).
  - unfold lo, hi. lia.
  - intros i j x y N [-> _] [E _]. lia.
  - intros i m Hi Cm Ew Eh. apply scan_line_ok; auto; unfold lo, hi in Hi; lia.
  - rewrite Em. cbn [bind]. pose proof Rm as (Wm & Ewm & Ehm & _).
    destruct (for_each_draw dr on_edge (fun (e : (Z * Z) * (Z * Z)) im =>
        let '((x0, y0), (x1, y1)) := e in
        draw_line_segment dr im (of_int x0, of_int y0) (of_int x1, of_int y1)) (poly_edges poly) m)
      as (out & Eo & Ro).
    + eapply recoloured_cdim; eauto.
    + exact ID.
    + apply on_edge_dec.
    + intros [[x0 y0] [x1 y1]] m' He Cm'.
      destruct (poly_edges_in _ _ He) as (P0 & P1). rewrite Forall_forall in SM.
      destruct (bres_good _ _ (SM _ P0) (SM _ P1)) as (pts & Ep & _). cbn [fst snd] in Ep.
      destruct (draw_line_ok dr m' _ _ pts Cm' Ep) as (o & E1 & R1).
      exists o. split; [exact E1|]. revert R1. apply recoloured_ext. intros x y _ _.
      unfold on_edge. cbn [fst snd]. split; [eauto|]. intros (pts' & E' & H). congruence.
    + exists out. split; [exact Eo|].
      eapply recoloured_ext; [|eapply recoloured_seq_idem; [exact W|exact ID| | |exact Rm|exact Ro]].
      * intros x y Hx Hy. split.
        -- intros [(i & Hi & -> & H)|H]; auto.
        -- intros [H|H]; [|auto]. left. exists y. split; [|auto].
           destruct (Z_lt_dec y ymin); [|destruct (Z_lt_dec ymax y)]; [exfalso..|unfold lo, hi; lia].
           ++ unfold interior in H. rewrite crossings_outside in H; [destruct H as [[]|H]; discriminate|].
              right. intros p Hp. assert (In (snd p) (map snd poly)) as I by (apply in_map; exact Hp).
              specialize (MN _ I). lia.
           ++ unfold interior in H. rewrite crossings_outside in H; [destruct H as [[]|H]; discriminate|].
              left. intros p Hp. assert (In (snd p) (map snd poly)) as I by (apply in_map; exact Hp).
              specialize (MX _ I). lia.
      * intros x y. destruct (interior_dec poly x y) as [H|H].
        -- destruct (Z_le_dec lo y), (Z_lt_dec y hi); [left; exists y; auto|right; intros (i & Hi & -> & _); lia..].
        -- right. intros (i & Hi & -> & H'). auto.
      * intros x y. destruct (Exists_dec (fun e => on_edge e x y) (poly_edges poly)) as [H|H].
        -- intros e. unfold on_edge. destruct (bres_points (fpt (fst e)) (fpt (snd e))) as [pts| |].
           ++ destruct (in_dec (fun p q : Z * Z => ltac:(decide equality; apply Z.eq_dec) : {p = q} + {p <> q}) (x, y) pts).
              ** left. eauto.
              ** right. intros (q & [= <-] & H'). auto.
           ++ right. intros (q & E' & _). discriminate.
           ++ right. intros (q & E' & _). discriminate.
        -- left. apply Exists_exists in H. exact H.
        -- right. intros H'. apply H, Exists_exists. exact H'.
Qed.

(** ** accuracy of the interpolated column *)
From Flocq Require Import Core BinarySingleNaN.
From Coq Require Import Reals Lra.
From Verif Require Import FloatErr.

Lemma edge_column_accurate x0 y0 x1 y1 y :
  Z.abs x0 <= 2 ^ 20 -> Z.abs y0 <= 2 ^ 20 -> Z.abs x1 <= 2 ^ 20 -> Z.abs y1 <= 2 ^ 20 ->
  y0 < y < y1 \/ y1 < y < y0 ->
  Z.abs (edge_column y ((x0, y0), (x1, y1)) * (y1 - y0) - (x0 * (y1 - y0) + (y - y0) * (x1 - x0)))
    < Z.abs (y1 - y0).
Proof.
  intros Hx0 Hy0 Hx1 Hy1 Hy. unfold edge_column.
  replace (y0 =? y) with false by lia. replace (y1 =? y) with false by lia.
  set (a := y - y0). set (b := y1 - y0). set (dx := x1 - x0).
  assert (Hb : b <> 0) by (unfold b; lia).
  assert (Hdx : Z.abs dx <= 2097152) by (unfold dx; lia).
  assert (Hab : 0 < a < b \/ b < a < 0) by (unfold a, b; lia).
  assert (Hb2 : Z.abs b <= 2097152) by (unfold b; lia).
  assert (LX : Z.abs x0 <= 1048576) by lia. assert (LX1 : Z.abs (x0 + dx) <= 1048576) by (unfold dx; lia).
  clearbody a b dx. clear - Hb Hdx Hab Hb2 LX LX1.
  assert (INT : forall z, Z.abs z <= 2097152 -> is_finite (of_int z : f32) = true /\ B2R (of_int z : f32) = IZR z).
  { intros z Hz. pose proof (dy_int 24 128 z (dyk_0) ltac:(lia)) as (F1 & F2). split; [exact F1|].
    rewrite F2. change (bpow radix2 0) with 1%R. ring. }
  destruct (INT a ltac:(lia)) as (Fa & Ra). destruct (INT b ltac:(lia)) as (Fb & Rb).
  destruct (INT dx ltac:(lia)) as (Fd & Rd). destruct (INT x0 ltac:(lia)) as (Fx & Rx).
  pose proof f32_big as BIG.
  assert (Nb : IZR b <> 0%R) by (apply not_0_IZR; exact Hb).
  (* the fraction t = a / b is in (0, 1) *)
  set (t := (IZR a / IZR b)%R).
  assert (T : (0 < t < 1)%R).
  { unfold t. destruct Hab as [H|H].
    - assert (0 < IZR a < IZR b)%R by (split; apply IZR_lt; lia). split.
      + apply Rdiv_lt_0_compat; lra.
      + apply Rmult_lt_reg_r with (IZR b); [lra|]. unfold Rdiv. rewrite Rmult_assoc, Rinv_l by lra. lra.
    - assert (IZR b < IZR a < 0)%R by (split; apply IZR_lt; lia).
      replace (IZR a / IZR b)%R with ((- IZR a) / (- IZR b))%R by (field; lra). split.
      + apply Rdiv_lt_0_compat; lra.
      + apply Rmult_lt_reg_r with (- IZR b)%R; [lra|]. unfold Rdiv. rewrite Rmult_assoc, Rinv_l by lra. lra. }
  destruct (fdiv_R 24 128 (of_int a) (of_int b)) as (Fq & Rq); [exact Fa|rewrite Rb; exact Nb| |].
  { rewrite Ra, Rb. fold t. rewrite Rabs_pos_eq by lra. lra. }
  rewrite Ra, Rb in Rq. fold t in Rq.
  pose proof (f32_err t) as Eq. rewrite <- Rq in Eq. set (q := B2R (fdiv (of_int a : f32) (of_int b))) in *.
  assert (RD : (Rabs (IZR dx) <= 2097152)%R) by (rewrite <- abs_IZR; apply IZR_le; exact Hdx).
  rewrite (Rabs_pos_eq t) in Eq by lra.
  assert (Eq' : (Rabs (q - t) <= / 16000000)%R) by lra.
  assert (QD : (Rabs (q * IZR dx - t * IZR dx) <= 2097152 / 16000000)%R).
  { rewrite <- Rmult_minus_distr_r, Rabs_mult. unfold Rdiv. rewrite Rmult_comm.
    apply Rmult_le_compat; auto using Rabs_pos. }
  assert (TD : (Rabs (t * IZR dx) <= 2097152)%R).
  { rewrite Rabs_mult, (Rabs_pos_eq t) by lra. replace 2097152%R with (1 * 2097152)%R by ring.
    apply Rmult_le_compat; try lra. apply Rabs_pos. }
  assert (QA : (Rabs (q * IZR dx) <= 2097153)%R).
  { replace (q * IZR dx)%R with ((q * IZR dx - t * IZR dx) + t * IZR dx)%R by ring.
    eapply Rle_trans; [apply Rabs_triang|]. lra. }
  destruct (fmul_R 24 128 (fdiv (of_int a) (of_int b)) (of_int dx) Fq Fd) as (Fp & Rp).
  { rewrite Rd. fold q. lra. }
  rewrite Rd in Rp. fold q in Rp. pose proof (f32_err (q * IZR dx)) as Ep. rewrite <- Rp in Ep.
  set (p := B2R (fmul (fdiv (of_int a) (of_int b)) (of_int dx : f32))) in *.
  assert (EP : (Rabs (p - t * IZR dx) <= 3 / 10)%R).
  { replace (p - t * IZR dx)%R with ((p - q * IZR dx) + (q * IZR dx - t * IZR dx))%R by ring.
    eapply Rle_trans; [apply Rabs_triang|]. lra. }
  (* the exact column is between x0 and x0 + dx *)
  assert (EX : (Rabs (IZR x0 + t * IZR dx) <= 1048576)%R).
  { assert (L0 : (-1048576 <= IZR x0 <= 1048576)%R) by (split; apply IZR_le; lia).
    assert (L1 : (-1048576 <= IZR x0 + IZR dx <= 1048576)%R) by (rewrite <- plus_IZR; split; apply IZR_le; lia).
    replace (IZR x0 + t * IZR dx)%R with ((1 - t) * IZR x0 + t * (IZR x0 + IZR dx))%R by ring.
    apply Rabs_le. nra. }
  assert (XP : (Rabs (IZR x0 + p) <= 1048577)%R).
  { replace (IZR x0 + p)%R with ((p - t * IZR dx) + (IZR x0 + t * IZR dx))%R by ring.
    eapply Rle_trans; [apply Rabs_triang|]. lra. }
  destruct (fadd_R 24 128 (of_int x0) (fmul (fdiv (of_int a) (of_int b)) (of_int dx)) Fx Fp) as (Fs & Rs).
  { rewrite Rx. fold p. lra. }
  rewrite Rx in Rs. fold p in Rs. pose proof (f32_err (IZR x0 + p)) as Es. rewrite <- Rs in Es.
  set (s := fadd (of_int x0) (fmul (fdiv (of_int a) (of_int b)) (of_int dx : f32))) in *.
  assert (ES : (Rabs (B2R s - (IZR x0 + t * IZR dx)) <= 4 / 10)%R).
  { replace (B2R s - (IZR x0 + t * IZR dx))%R with ((B2R s - (IZR x0 + p)) + (p - t * IZR dx))%R by ring.
    eapply Rle_trans; [apply Rabs_triang|]. lra. }
  destruct (nearby_R 24 128 mode_NA s Fs) as (Fn & Rn). cbn [round_mode] in Rn.
  pose proof (znearest_half (fun x => 0 <=? x) (B2R s)) as NH.
  unfold i32_of_f32, fround. rewrite (to_int_IZR 24 128 _ _ _ _ Fn Rn).
  set (n := Znearest (fun x => 0 <=? x) (B2R s)) in *.
  assert (NE : (Rabs (IZR n - (IZR x0 + t * IZR dx)) <= 9 / 10)%R).
  { replace (IZR n - (IZR x0 + t * IZR dx))%R with ((IZR n - B2R s) + (B2R s - (IZR x0 + t * IZR dx)))%R by ring.
    eapply Rle_trans; [apply Rabs_triang|]. lra. }
  assert (NB : Z.abs n <= 1048577).
  { apply le_IZR. rewrite abs_IZR. replace (IZR n) with ((IZR n - (IZR x0 + t * IZR dx)) + (IZR x0 + t * IZR dx))%R by ring.
    eapply Rle_trans; [apply Rabs_triang|]. lra. }
  replace (zclamp (- 2 ^ 31) (2 ^ 31 - 1) n) with n by (unfold zclamp; lia).
  apply lt_IZR. rewrite !abs_IZR, !minus_IZR, plus_IZR, !mult_IZR.
  replace (IZR n * IZR b - (IZR x0 * IZR b + IZR a * IZR dx))%R
    with ((IZR n - (IZR x0 + t * IZR dx)) * IZR b)%R by (unfold t; field; exact Nb).
  rewrite Rabs_mult. assert (0 < Rabs (IZR b))%R by (apply Rabs_pos_lt; exact Nb). nra.
Qed.

Definition on_fedge (e : (f32 * f32) * (f32 * f32)) (x y : Z) : Prop :=
  exists pts, bres_points (fst e) (snd e) = Ok pts /\ In (x, y) pts.
Lemma on_fedge_dec e x y : {on_fedge e x y} + {~ on_fedge e x y}.
Proof.
  unfold on_fedge. destruct (bres_points _ _) as [pts| |]; [|right; intros (p & E & _); discriminate..].
  destruct (in_dec (fun p q : Z * Z => ltac:(decide equality; apply Z.eq_dec) : {p = q} + {p <> q}) (x, y) pts).
  - left. eauto.
  - right. intros (q & [= <-] & H'). auto.
Qed.

Lemma hollow_polygon_ok {A} (dr : A -> A) (im : image A) (poly : list (f32 * f32)) first l :
  poly = first :: l -> l <> [] -> (forall a, dr (dr a) = dr a) -> cdim im ->
  (forall p q, In p poly -> In q poly -> exists pts, bres_points p q = Ok pts) ->
  exists out, draw_hollow_polygon dr im poly = Ok out /\
    recoloured (fun x y => exists e, (In e (combine poly (tl poly)) \/
         e = (first, last poly first) /\ feq (fst first) (fst (last poly first)) && feq (snd first) (snd (last poly first)) = false)
       /\ on_fedge e x y) dr im out.
Proof.
  intros EP NL ID C T.
  assert (H : draw_hollow_polygon dr im poly =
      (im <- for_each (combine poly (tl poly)) (fun e im => draw_line_segment dr im (fst e) (snd e)) im ;;
      let l := last poly first in
      if feq (fst first) (fst l) && feq (snd first) (snd l) then Ok im
      else draw_line_segment dr im first l)).
  { subst poly. destruct l as [|q l]; [contradiction|]. unfold draw_hollow_polygon. rewrite windows2_combine. reflexivity. }
  rewrite H. clear H.
  destruct (for_each_draw dr on_fedge (fun e im => draw_line_segment dr im (fst e) (snd e)) (combine poly (tl poly)) im C ID)
    as (m & Em & Rm).
  - intros e x y. destruct (on_fedge_dec e x y); auto.
  - intros [p q] m He Cm. cbn [fst snd].
    assert (P : In p poly) by (eapply in_combine_l; eauto).
    assert (Q : In q poly).
    { apply in_combine_r in He. subst poly. right. exact He. }
    destruct (T p q P Q) as (pts & Ep). destruct (draw_line_ok dr m p q pts Cm Ep) as (o & Eo & Ro).
    exists o. split; [exact Eo|]. revert Ro. apply recoloured_ext. intros x y _ _. unfold on_fedge. cbn [fst snd].
    split; [eauto|]. intros (pts' & E' & I). congruence.
  - rewrite Em. cbn [bind]. cbv zeta.
    destruct (feq (fst first) (fst (last poly first)) && feq (snd first) (snd (last poly first))) eqn:EQ.
    + exists m. split; [reflexivity|]. revert Rm. apply recoloured_ext. intros x y _ _. split.
      * intros (e & I & O). eauto.
      * intros (e & [I|(_ & D)] & O); [eauto|discriminate].
    + assert (LI : In (last poly first) poly).
      { subst poly. clear. generalize first at 2. revert first. induction l as [|q l IH]; intros f g; [left; reflexivity|].
        right. apply (IH q g). }
      assert (FI : In first poly) by (subst poly; left; reflexivity).
      destruct (T first (last poly first) FI LI) as (pts & Ep).
      destruct (draw_line_ok dr m first (last poly first) pts) as (o & Eo & Ro); [eapply recoloured_cdim; eauto|exact Ep|].
      exists o. split; [exact Eo|].
      eapply recoloured_ext; [|eapply recoloured_seq_idem; [apply C|exact ID| | |exact Rm|exact Ro]].
      * intros x y _ _. split.
        -- intros [(e & I & O)|I]; [eauto|]. exists (first, last poly first). split; [auto|]. exists pts. auto.
        -- intros (e & [I|(-> & _)] & O); [eauto|]. right. destruct O as (pts' & E' & I). cbn [fst snd] in E'. congruence.
      * intros x y. destruct (Exists_dec (fun e => on_fedge e x y) (combine poly (tl poly)) (fun e => on_fedge_dec e x y)) as [H|H].
        -- left. apply Exists_exists in H. exact H.
        -- right. intros H'. apply H, Exists_exists. exact H'.
      * intros x y. apply In_pt_dec.
Qed.
