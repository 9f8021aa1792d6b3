(** C116: chains of geometric operations. *)
From Verif Require Import Base BaseProofs ComposeModel ComposeSpec ComposeProofs Props_Compose GeomModel GeomSpec GeomProofs Props_Geom.
Local Ltac Zify.zify_post_hook ::= idtac.

(** two shifts that do not work against each other add up *)
Definition same_direction (a b : Z) : Prop := 0 <= a /\ 0 <= b \/ a <= 0 /\ b <= 0.
Theorem c116_translations_add : forall A (zero : A) im ax ay bx by_, wf im -> 0 < iw im < 2 ^ 30 -> ih im < 2 ^ 30 ->
  Z.abs ax < 2 ^ 29 -> Z.abs ay < 2 ^ 29 -> Z.abs bx < 2 ^ 29 -> Z.abs by_ < 2 ^ 29 -> same_direction ax bx -> same_direction ay by_ ->
  bind (translate zero im ax ay) (fun o => translate zero o bx by_) = translate zero im (ax + bx) (ay + by_).
Proof.
  intros A zero im ax ay bx by_ W Hw Hh A1 A2 B1 B2 Sx Sy.
  destruct (c03_translate_replicates_border A zero im ax ay) as (o & E & Wo & D1 & D2 & G); auto; try lia; try (unfold is_i32; lia).
  rewrite E. cbn [bind].
  destruct (c03_translate_replicates_border A zero o bx by_) as (p & F & Wp & D3 & D4 & G'); auto; try lia; try (unfold is_i32; lia).
  destruct (c03_translate_replicates_border A zero im (ax + bx) (ay + by_)) as (q & K & Wq & D5 & D6 & G2); auto; try lia; try (unfold is_i32; lia).
  rewrite F, K. f_equal. apply image_ext; auto; try lia. intros x y Hx Hy. rewrite G' by lia. rewrite D1, D2.
  rewrite G by (unfold zclamp; lia). rewrite G2 by lia.
  f_equal; unfold zclamp, same_direction in *; lia.
Qed.
(** opposite shifts lose the border *)
Theorem c116_opposite_refuted : ~ (forall A (zero : A) im ax bx, wf im -> 0 < iw im < 2 ^ 30 -> ih im < 2 ^ 30 ->
  Z.abs ax < 2 ^ 29 -> Z.abs bx < 2 ^ 29 -> bind (translate zero im ax 0) (fun o => translate zero o bx 0) = translate zero im (ax + bx) 0).
Proof.
  intros H. specialize (H Z 0 (mkImage 3 1 [1; 2; 3]) 1 (-1) ltac:(unfold wf, zlen; cbn; lia) ltac:(cbn; lia) ltac:(cbn; lia) ltac:(lia) ltac:(lia)).
  vm_compute in H. discriminate.
Qed.

(** a window of a window is a window *)
Theorem c116_crop_crop : forall A (im : image A) x y w h x' y' w' h', wf im -> u32_dims im ->
  0 <= x -> 0 <= y -> x + w <= iw im -> y + h <= ih im -> 0 <= x' -> 0 <= y' -> 0 <= w' -> 0 <= h' -> x' + w' <= w -> y' + h' <= h ->
  bind (crop im x y w h) (fun o => crop o x' y' w' h') = crop im (x + x') (y + y') w' h'.
Proof.
  intros A im x y w h x' y' w' h' W (U1 & U2) Hx Hy Hw Hh Hx' Hy' Hw' Hh' Kw Kh.
  destruct (c04_crop_window A im x y w h W (conj U1 U2)) as (C & _); try lia. destruct C as (o & E & Wo & D1 & D2 & G); [lia|].
  rewrite E. cbn [bind].
  destruct (c04_crop_window A o x' y' w' h' Wo) as (C & _); try lia; [split; lia|]. destruct C as (p & F & Wp & D3 & D4 & G'); [lia|].
  destruct (c04_crop_window A im (x + x') (y + y') w' h' W (conj U1 U2)) as (C & _); try lia. destruct C as (q & K & Wq & D5 & D6 & G2); [lia|].
  rewrite F, K. f_equal. apply image_ext; auto; try lia. intros u v Hu Hv. rewrite G', G, G2 by lia. f_equal; lia.
Qed.

(** the two mirrors commute and make half a turn *)
Theorem c116_flips : forall A (im : image A), wf im ->
  bind (flip_horizontal im) flip_vertical = rotate180 im /\ bind (flip_vertical im) flip_horizontal = rotate180 im.
Proof.
  intros A im W. destruct (c02_rotate180_turns A im W) as (r & Er & Wr & R1 & R2 & R).
  destruct (c01_flip_horizontal_mirrors A im W) as (h & Eh & Wh & (H1 & H2) & H).
  destruct (c01_flip_vertical_mirrors A im W) as (v & Ev & Wv & (V1 & V2) & V).
  destruct (c01_flip_vertical_mirrors A h Wh) as (hv & Ehv & Whv & (X1 & X2) & X).
  destruct (c01_flip_horizontal_mirrors A v Wv) as (vh & Evh & Wvh & (Y1 & Y2) & Y).
  assert (R' : forall x y, 0 <= x < iw im -> 0 <= y < ih im -> get r x y = get im (iw im - 1 - x) (ih im - 1 - y)).
  { intros x y Hx Hy. rewrite <- (R (iw im - 1 - x) (ih im - 1 - y)) by lia. f_equal; lia. }
  rewrite Eh, Ev, Er. cbn [bind]. rewrite Ehv, Evh. split; f_equal; apply image_ext; auto; try lia; intros x y Hx Hy; rewrite R' by lia.
  - rewrite X by lia. rewrite H by lia. f_equal; lia.
  - rewrite Y by lia. rewrite V by lia. f_equal; lia.
Qed.

(** pasting and cutting out again gives the pasted image, away from the last row and column (see C05) *)
Theorem c116_paste_cut : forall A (bottom top : image A) x y, wf bottom -> u32_dims bottom -> wf top -> 0 <= x -> 0 <= y ->
  x + iw top < iw bottom -> y + ih top < ih bottom ->
  bind (replace bottom top x y) (fun o => crop o x y (iw top) (ih top)) = Ok top.
Proof.
  intros A b t x y Wb (U1 & U2) Wt Hx Hy Kw Kh. pose proof Wt as (T1 & T2 & _).
  destruct (c05_replace_partial A b t x y Wb Wt) as (C & _); try lia. destruct C as (o & E & Wo & (D1 & D2) & G); [lia|]. rewrite E. cbn [bind].
  destruct (c04_crop_window A o x y (iw t) (ih t) Wo) as (C & _); try lia; [split; lia|]. destruct C as (p & F & Wp & D3 & D4 & G'); [lia|].
  rewrite F. f_equal. apply image_ext; auto. intros u v Hu Hv. rewrite G' by lia.
  rewrite (proj1 (G (x + u) (y + v) ltac:(lia) ltac:(lia))) by (unfold covered; lia). f_equal; lia.
Qed.

Example c116_nontrivial :
  let im := mkImage 4 2 [1;2;3;4; 5;6;7;8] in
  bind (translate 0 im 1 0) (fun o => translate 0 o 1 (-1)) = Ok (mkImage 4 2 [5;5;5;6; 5;5;5;6]) /\
  bind (crop im 1 0 3 2) (fun o => crop o 1 1 2 1) = Ok (mkImage 2 1 [7; 8]) /\
  bind (flip_horizontal im) flip_vertical = Ok (mkImage 4 2 [8;7;6;5; 4;3;2;1]) /\
  bind (replace im (mkImage 2 1 [0; 9]) 1 0) (fun o => crop o 1 0 2 1) = Ok (mkImage 2 1 [0; 9]).
Proof. vm_compute. auto. Qed.

Print Assumptions c116_translations_add. Print Assumptions c116_opposite_refuted. Print Assumptions c116_crop_crop. Print Assumptions c116_flips. Print Assumptions c116_paste_cut.
