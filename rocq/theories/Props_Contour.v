(** C45, C46: border following. *)
From Verif Require Import Base BaseProofs RasterProofs ContourModel ContourSpec ContourProofs ContourTrace ContourMain.
Local Ltac Zify.zify_post_hook ::= idtac.

(** images the code can index: border numbers fit i32 and coordinates fit T *)
Definition traceable (tmax : Z) (im : image Z) : Prop :=
  wf im /\ iw im * ih im + 1 < 2 ^ 31 /\ iw im - 1 <= tmax /\ ih im - 1 <= tmax.

(** ** C45.  Ok means that every border following loop ends within
    8*width*height steps. *)
Theorem c45_contours : forall tmax im threshold, traceable tmax im ->
  exists cs, find_contours_with_threshold tmax im threshold = Ok cs /\
    forall i c, znth cs i = Some c ->
      closed_chain (points c) /\
      (forall p, In p (points c) -> foreground im threshold p) /\
      (forall j, parent c = Some j -> 0 <= j < i) /\
      exists x y, hd_error (points c) = Some (x, y) /\
        match border_type c with
        | Outer => 0 < x /\ ~ foreground im threshold (x - 1, y)
        | Hole => x + 1 < iw im /\ ~ foreground im threshold (x + 1, y)
        end.
Proof.
  intros tmax im t (W & H1 & H2 & H3).
  destruct (find_ok im t tmax W H1 H2 H3) as (cs & E & OK & _). exists cs. split; auto.
  intros i c Ec. destruct (OK i c Ec) as (C1 & C2 & C3 & ((x & y) & Ep & Np & Hp)). splits; auto.
  exists x, y. split; auto. unfold side in *. destruct (border_type c); cbn [fst snd] in *; split; auto; lia.
Qed.
Theorem c45_find_contours : forall tmax im, traceable tmax im ->
  exists cs, find_contours tmax im = Ok cs /\
    forall i c, znth cs i = Some c ->
      closed_chain (points c) /\ (forall p, In p (points c) -> foreground im 0 p) /\
      (forall j, parent c = Some j -> 0 <= j < i).
Proof.
  intros tmax im T. destruct (c45_contours tmax im 0 T) as (cs & E & H). exists cs. split; auto.
  intros i c Ec. destruct (H i c Ec) as (A & B & C & _). auto.
Qed.
(** a ring with a hole and a single pixel inside the hole *)
Definition c45_image : image Z := mkImage 7 5
  [0;9;9;9;9;9;0;
   0;9;0;0;0;9;0;
   0;9;0;7;0;9;0;
   0;9;0;0;0;9;0;
   0;9;9;9;9;9;0].
Example c45_nontrivial : traceable 1000 c45_image /\
  match find_contours 1000 c45_image with
  | Ok cs => map border_type cs = [Outer; Hole; Outer] /\ map parent cs = [None; Some 0; Some 1] /\
             map (fun c => zlen (points c)) cs = [16; 12; 1]
  | _ => False
  end.
Proof. split; [unfold traceable, wf; vm_compute; splits; try reflexivity; try discriminate|vm_compute; auto]. Qed.

(** ** C46 *)
Definition c46_statement : Prop := forall tmax im threshold, traceable tmax im ->
  exists cs, find_contours_with_threshold tmax im threshold = Ok cs /\
    forall q, region_first im threshold q ->
      exists i c, znth cs i = Some c /\ border_type c = Outer /\ hd_error (points c) = Some q /\
        forall j d, znth cs j = Some d -> border_type d = Outer ->
          (forall p, In p (points d) -> connected im threshold q p) -> j = i.

Definition c46_image : image Z := mkImage 1 1 [255].
Theorem c46_outer_contour_refuted : ~ c46_statement.
Proof.
  intros H. destruct (H 10 c46_image 0) as (cs & E & R).
  - unfold traceable, wf. vm_compute. splits; try reflexivity; discriminate.
  - vm_compute in E. inversion E; subst cs.
    destruct (R (0, 0)) as (i & c & Ei & _).
    + split; [exists 255; vm_compute; auto|]. intros q C. left. apply connected_fg in C as (_ & (v & G & _)).
      apply get_inb in G. change (iw c46_image) with 1 in G. change (ih c46_image) with 1 in G. destruct q; cbn [fst snd] in G.
      f_equal; lia.
    + apply znth_range in Ei. change (zlen (@nil contour)) with 0 in Ei. lia.
Qed.

(** What holds: a region whose first pixel is not in column 0 has an Outer
    contour starting at that pixel, and no other contour starts there.
    Missing: regions whose first pixel is in column 0 (false, see above), and
    that no further Outer contour of the same region starts at another pixel. *)
Theorem c46_outer_contour_partial : forall tmax im threshold, traceable tmax im ->
  exists cs, find_contours_with_threshold tmax im threshold = Ok cs /\
    forall q, region_first im threshold q -> 0 < fst q ->
      exists i c, znth cs i = Some c /\ border_type c = Outer /\ hd_error (points c) = Some q /\
        (forall p, In p (points c) -> connected im threshold q p) /\
        forall j d, znth cs j = Some d -> hd_error (points d) = Some q -> j = i.
Proof.
  intros tmax im t (W & H1 & H2 & H3).
  destruct (find_ok im t tmax W H1 H2 H3) as (cs & E & OK & RF & UQ). exists cs. split; auto.
  intros q Hq Hx. destruct (RF q Hq Hx) as (i & c & Ec & Eo & Ep). exists i, c. splits; auto.
  - intros p Hp. destruct (OK i c Ec) as (C1 & C2 & _). apply (closed_connected im t (points c)); auto.
    intros r Hr. apply fgb_iff. auto.
  - intros j d Ed Hd. apply (UQ j i d c q); auto.
Qed.
Example c46_nontrivial : region_first c45_image 0 (1, 0) /\ 0 < fst (1, 0).
Proof.
  split; [|cbn; lia]. split; [exists 9; vm_compute; auto|].
  intros q C. destruct q as (x & y). apply connected_fg in C as (_ & (v & G & L)). cbn [fst snd] in *.
  pose proof (get_inb _ _ _ _ G) as (Hx & Hy). change (iw c45_image) with 7 in Hx. change (ih c45_image) with 5 in Hy.
  unfold before; cbn [fst snd].
  destruct (Z.eq_dec y 0) as [->|]; [|right; lia].
  destruct (Z.eq_dec x 0) as [->|]; [vm_compute in G; inversion G; subst; lia|].
  destruct (Z.eq_dec x 1) as [->|]; [left; auto|right; lia].
Qed.

Print Assumptions c45_contours.
Print Assumptions c45_find_contours.
Print Assumptions c46_outer_contour_refuted.
Print Assumptions c46_outer_contour_partial.
