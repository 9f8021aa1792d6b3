(** C71: the comparison helpers report exactly the differences. *)
From Verif Require Import Base BaseProofs UtilsModel UtilsSpec UtilsProofs RasterProofs.
Local Ltac Zify.zify_post_hook ::= idtac.
Open Scope Z_scope.

(** Two images of the same size: the differences, in raster order. *)
Theorem c71_pixel_diffs : forall (P : Type) (a b : image P) (is_diff : Z * Z * P -> Z * Z * P -> bool),
  wf a -> wf b -> iw a = iw b -> ih a = ih b ->
  exists l, pixel_diffs a b is_diff = Ok l /\ in_raster_order l /\
    lists_exactly a b (fun x y p q => is_diff (x, y, p) (x, y, q)) l.
Proof. intros. apply pixel_diffs_ok; assumption. Qed.
Print Assumptions c71_pixel_diffs.


(** [None] exactly when the images are equal; never a panic (sides up to
    i32::MAX - 3). *)
Theorem c71_summary : forall (P : Type) (eqb : P -> P -> bool) (a b : image P),
  (forall p q, eqb p q = true <-> p = q) ->
  wf a -> wf b -> iw a < 2 ^ 31 - 2 -> ih a < 2 ^ 31 - 2 ->
  exists r, pixel_diff_summary eqb a b = Ok r /\ (r = None <-> same_image a b).
Proof.
  intros P eqb a b He Wa Wb Bw Bh. unfold pixel_diff_summary, significant_pixel_diff_summary.
  destruct (Z.eqb_spec (iw a) (iw b)) as [Ew|Ew]; [destruct (Z.eqb_spec (ih a) (ih b)) as [Eh|Eh]|]; cbn [andb negb].
  2, 3: eexists; split; [reflexivity|]; split; [discriminate|intros (? & ? & _); contradiction].
  match goal with |- context [pixel_diffs a b ?f] => destruct (pixel_diffs_ok a b f Wa Wb Ew Eh) as (l & -> & _ & Hl) end.
  cbn [bind].
  destruct l as [|d l].
  - exists None. split; [reflexivity|]. split; [intros _|reflexivity].
    unfold same_image. splits; [assumption|assumption|]. intros x y.
    destruct (get a x y) as [p|] eqn:Ga.
    + pose proof (get_inb _ _ _ _ Ga). destruct (get_some b x y Wb) as (q & Gb); [lia|lia|].
      rewrite Gb. apply f_equal. apply He. destruct (eqb p q) eqn:E; [reflexivity|]. exfalso.
      apply (Hl (mkDiff x y q p)). cbn. rewrite !Z.eqb_refl, E. auto.
    + destruct (get b x y) as [q|] eqn:Gb; [|reflexivity]. pose proof (get_inb _ _ _ _ Gb).
      destruct (get_some a x y Wa) as (p & G); [lia|lia|]. congruence.
  - destruct (describe_ok a b (d :: l) Wa Wb Ew Eh Bw Bh) as (s & Es & _).
    + intros e Hin. apply Hl in Hin. destruct Hin as (G & _). apply get_inb in G. exact G.
    + discriminate.
    + rewrite Es. cbn [bind]. exists (Some s). split; [reflexivity|]. split; [discriminate|].
      intros (_ & _ & H). destruct (proj1 (Hl d) (or_introl eq_refl)) as (Ga & Gb & E).
      cbn in E. rewrite !Z.eqb_refl in E. cbn [andb] in E.
      rewrite H, Gb in Ga. inversion Ga as [K]. rewrite K in E. rewrite (proj2 (He _ _) eq_refl) in E. discriminate.
Qed.
Print Assumptions c71_summary.

(** The summary of a difference either renders a rectangle inside the image
    that contains every difference, or lists the first five. *)
Theorem c71_description : forall (P : Type) (a b : image P) (l : list (diff P)),
  wf a -> wf b -> iw a = iw b -> ih a = ih b -> iw a < 2 ^ 31 - 2 -> ih a < 2 ^ 31 - 2 ->
  l <> [] -> (forall d, In d l -> 0 <= dx_ d < iw a /\ 0 <= dy_ d < ih a) ->
  exists d, describe_pixel_diffs a b l = Ok d /\
    match d with
    | Region x0 y0 x1 y1 => 0 <= x0 /\ x1 < iw a /\ 0 <= y0 /\ y1 < ih a /\
        forall e, In e l -> x0 <= dx_ e <= x1 /\ y0 <= dy_ e <= y1
    | Listed k => k = map (fun d => (dx_ d, dy_ d, actual_ d, expected_ d)) (firstn 5 l)
    | Dimensions => False
    end.
Proof. intros. apply describe_ok; assumption. Qed.
Print Assumptions c71_description.

(** assert_pixels_eq_within! passes exactly when the sizes agree and every
    channel is within the tolerance. *)
Theorem c71_within : forall ch tol (a b : image (list Z)),
  wf a -> wf b -> all_px (fun p => zlen p = ch) a -> all_px (fun p => zlen p = ch) b ->
  exists r, assert_pixels_eq_within tol a b = Ok r /\
    (r = true <-> (iw a = iw b /\ ih a = ih b /\
       forall x y p q, get a x y = Some p -> get b x y = Some q -> within tol p q)).
Proof.
  intros ch tol a b Wa Wb Ca Cb. unfold assert_pixels_eq_within.
  destruct (Z.eqb_spec (iw a) (iw b)) as [Ew|Ew]; [destruct (Z.eqb_spec (ih a) (ih b)) as [Eh|Eh]|]; cbn [andb negb].
  2, 3: eexists; split; [reflexivity|]; split; [discriminate|intros (? & ? & _); contradiction].
  rewrite (mapM_ok _ (fun _ => tt)).
  2: { intros [[[xx yy] p] [[x' y'] q]] Hin. pose proof (in_combine_l _ _ _ _ Hin) as H1.
       pose proof (in_combine_r _ _ _ _ Hin) as H2.
       assert (K : forall (im : image (list Z)) x y p, all_px (fun p => zlen p = ch) im -> wf im ->
                 In (x, y, p) (view_pixels im) -> zlen p = ch).
       { intros im x y r A W K. unfold view_pixels in K. apply in_map_iff in K. destruct K as ([i r'] & E & K).
         inversion E; subst. apply in_combine_r in K. apply (In_get im) in K; [|assumption].
         destruct K as (? & ? & K). eapply A; eauto. }
       rewrite (K a xx yy p Ca Wa H1), (K b x' y' q Cb Wb H2), Z.eqb_refl. reflexivity. }
  cbn [bind].
  match goal with |- context [pixel_diffs a b ?f] => destruct (pixel_diffs_ok a b f Wa Wb Ew Eh) as (l & -> & _ & Hl) end.
  cbn [bind]. eexists; split; [reflexivity|].
  assert (LD : forall x y p q, get a x y = Some p -> get b x y = Some q ->
    exists c, large_diff tol p q = Ok c /\ (c = false <-> within tol p q)).
  { intros x y p q Ga Gb. apply large_diff_ok. rewrite (Ca _ _ _ Ga), (Cb _ _ _ Gb). reflexivity. }
  destruct l as [|d l].
  - split; [intros _|reflexivity]. splits; [assumption|assumption|]. intros x y p q Ga Gb.
    destruct (LD _ _ _ _ Ga Gb) as (c & Ec & Hc). apply Hc. destruct c; [|reflexivity]. exfalso.
    apply (Hl (mkDiff x y q p)). cbn. rewrite Ec. auto.
  - split; [discriminate|]. intros (_ & _ & H).
    destruct (proj1 (Hl d) (or_introl eq_refl)) as (Ga & Gb & E).
    destruct (LD _ _ _ _ Ga Gb) as (c & Ec & Hc). cbn in E. rewrite Ec in E.
    rewrite (proj2 Hc (H _ _ _ _ Ga Gb)) in E. discriminate.
Qed.
Print Assumptions c71_within.

Definition c71_a : image (list Z) := mkImage 3 2 [[1]; [2]; [3]; [4]; [5]; [6]].
Definition c71_b : image (list Z) := mkImage 3 2 [[1]; [9]; [3]; [4]; [5]; [7]].
Example c71_nontrivial :
  pixel_diffs c71_a c71_b (fun '(_, _, p) '(_, _, q) => negb (zsum 0 1 (fun _ => match p, q with [u], [v] => u - v | _, _ => 0 end) =? 0)) =
    Ok [mkDiff 1 0 [9] [2]; mkDiff 2 1 [7] [6]] /\
  assert_pixels_eq_within 7 c71_a c71_b = Ok true /\ assert_pixels_eq_within 6 c71_a c71_b = Ok false /\
  wf c71_a /\ wf c71_b.
Proof. splits; try reflexivity; unfold wf; cbn; unfold zlen; cbn; lia. Qed.
