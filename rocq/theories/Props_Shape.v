(** C34, C35, C63, C72: rectangles, circles and crosses.
    [recoloured S dr im out] (LineSpec.v): out is im with [dr] applied once to
    each pixel of the set S inside the image, all other pixels unchanged. *)
From Verif Require Import Base BaseProofs Float FloatProofs LineModel LineSpec LineProofs.
From Verif Require Import ShapeModel ShapeSpec ShapeProofs.

(** ** C34. *)

Theorem c34_filled_rect : forall A (dr : A -> A) (im : image A) (r : rect),
  wf im -> 1 <= iw im < 2 ^ 31 -> 1 <= ih im < 2 ^ 31 -> rect_ok r ->
  exists out, draw_filled_rect dr im r = Ok out /\ recoloured (in_rect r) dr im out.
Proof. intros A dr im r W Hw Hh R. apply filled_rect_ok; auto; unfold cdim; splits; auto; lia. Qed.

(** An empty image makes draw_filled_rect panic (Rect::of_size asserts). *)
Theorem c34_filled_rect_empty_image : forall A (dr : A -> A) (im : image A) (r : rect),
  iw im = 0 \/ ih im = 0 -> draw_filled_rect dr im r = Panic.
Proof.
  intros A dr im r H. unfold draw_filled_rect, rect_at_of_size, assert.
  destruct (0 <? iw im) eqn:E1; cbn [bind]; [|reflexivity].
  replace (0 <? ih im) with false by lia. reflexivity.
Qed.

(** The outline is drawn with four f32 lines, so coordinates are kept in the
    range where f32 is exact with half a unit of slack. *)
Theorem c34_hollow_rect : forall A (dr : A -> A) (im : image A) (r : rect),
  wf im -> iw im < 2 ^ 31 -> ih im < 2 ^ 31 ->
  - 2 ^ 22 <= r_left r -> - 2 ^ 22 <= r_top r -> 1 <= r_width r -> 1 <= r_height r ->
  r_left r + r_width r <= 2 ^ 22 -> r_top r + r_height r <= 2 ^ 22 ->
  (forall a, dr (dr a) = dr a) ->
  exists out, draw_hollow_rect dr im r = Ok out /\ recoloured (on_border r) dr im out.
Proof.
  intros A dr im r W Hw Hh H1 H2 H3 H4 H5 H6 ID.
  apply hollow_rect_ok; auto; [unfold cdim; splits; auto; lia|unfold rect_small; splits; auto].
Qed.

Example c34_nontrivial :
  draw_hollow_rect (fun _ => 9) (mkImage 4 3 [0;0;0;0; 0;0;0;0; 0;0;0;0]) (mkRect 1 (-1) 3 3)
    = Ok (mkImage 4 3 [0;9;0;9; 0;9;9;9; 0;0;0;0]) /\
  draw_filled_rect (fun _ => 9) (mkImage 4 3 [0;0;0;0; 0;0;0;0; 0;0;0;0]) (mkRect 1 (-1) 7 3)
    = Ok (mkImage 4 3 [0;9;9;9; 0;9;9;9; 0;0;0;0]).
Proof. split; vm_compute; reflexivity. Qed.

(** ** C35. [on_circle r dx dy]: with a <= b the absolute offsets, b is the
    integer nearest to sqrt(r^2 - a^2). *)

Theorem c35_hollow_circle : forall A (dr : A -> A) (im : image A) cx cy r,
  wf im -> iw im < 2 ^ 31 -> ih im < 2 ^ 31 -> (forall a, dr (dr a) = dr a) ->
  0 <= r <= 2 ^ 28 -> Z.abs cx <= 2 ^ 30 -> Z.abs cy <= 2 ^ 30 ->
  exists out, draw_hollow_circle dr im (cx, cy) r = Ok out /\
    recoloured (fun x y => on_circle r (x - cx) (y - cy)) dr im out.
Proof. intros. apply hollow_circle_ok; auto. unfold cdim; auto. Qed.

(** All pixels drawn are less than half a pixel away from the true circle:
    (r - 1/2)^2 <= r^2 - r + 1 <= d^2 <= r^2 + r - 1 <= (r + 1/2)^2. *)
Theorem c35_circle_half_pixel : forall r dx dy,
  0 < r -> on_circle r dx dy -> r * r - r < dx * dx + dy * dy < r * r + r.
Proof. exact on_circle_dist. Qed.

Theorem c35_circle_symmetric : forall r dx dy, on_circle r dx dy ->
  on_circle r dy dx /\ on_circle r (- dx) dy /\ on_circle r dx (- dy).
Proof. exact on_circle_sym. Qed.

(** No gaps: every column of the first octant has a drawn pixel. *)
Theorem c35_circle_every_column : forall r a, 0 < r -> 0 <= a -> 2 * (a * a) <= r * r ->
  exists b, a <= b /\ on_circle r a b.
Proof. intros r a H1 H2 H3. destruct (circle_column r a H1 H2 H3) as (b & B1 & B2 & _). eauto. Qed.

Theorem c35_negative_radius : forall A (dr : A -> A) (im : image A) c r,
  - 2 ^ 31 + 1 < r < 0 ->
  draw_hollow_circle dr im c r = Ok im /\ draw_filled_circle dr im c r = Ok im.
Proof. intros A dr im [cx cy] r H. split; apply circle_neg; exact H. Qed.

(** The filled circle is the disc: everything between circle pixels of a row. *)
Theorem c35_filled_circle : forall A (dr : A -> A) (im : image A) cx cy r,
  wf im -> iw im < 2 ^ 31 -> ih im < 2 ^ 31 -> (forall a, dr (dr a) = dr a) ->
  0 <= r -> Z.abs cx + r < 2 ^ 22 -> Z.abs cy + r < 2 ^ 22 ->
  exists out, draw_filled_circle dr im (cx, cy) r = Ok out /\
    recoloured (fun x y => in_disc r (x - cx) (y - cy)) dr im out.
Proof. intros. apply filled_circle_ok; auto. unfold cdim; auto. Qed.

(** ... which contains every pixel half a pixel inside the circle and none half
    a pixel outside. *)
Theorem c35_disc_bounds : forall r dx dy, 0 < r ->
  (dx * dx + dy * dy <= r * r - r -> in_disc r dx dy) /\
  (in_disc r dx dy -> dx * dx + dy * dy < r * r + r).
Proof. intros r dx dy H. split; [apply in_disc_inner|apply in_disc_outer]; exact H. Qed.

Example c35_nontrivial :
  draw_hollow_circle (fun _ => 1) (mkImage 5 4 [0;0;0;0;0; 0;0;0;0;0; 0;0;0;0;0; 0;0;0;0;0]) (2, 2) 2
    = Ok (mkImage 5 4 [0;1;1;1;0; 1;0;0;0;1; 1;0;0;0;1; 1;0;0;0;1]) /\
  draw_filled_circle (fun _ => 1) (mkImage 5 4 [0;0;0;0;0; 0;0;0;0;0; 0;0;0;0;0; 0;0;0;0;0]) (2, 2) 2
    = Ok (mkImage 5 4 [0;1;1;1;0; 1;1;1;1;1; 1;1;1;1;1; 1;1;1;1;1]) /\
  on_circle 2 1 2.
Proof. splits; [vm_compute; reflexivity..|]. unfold on_circle. vm_compute. intuition congruence. Qed.

(** ** C63. *)

Theorem c63_contains : forall r x y, rect_ok r ->
  exists b, rect_contains r x y = Ok b /\ (b = true <-> in_rect r x y).
Proof. exact contains_ok. Qed.

Theorem c63_contains_f32 : forall r x y,
  rect_ok r -> Z.abs (r_left r) <= 2 ^ 23 -> Z.abs (r_top r) <= 2 ^ 23 ->
  r_width r <= 2 ^ 23 -> r_height r <= 2 ^ 23 -> Z.abs x <= 2 ^ 24 -> Z.abs y <= 2 ^ 24 ->
  exists b, rect_contains_f32 r (of_int x) (of_int y) = Ok b /\ (b = true <-> in_rect r x y).
Proof. exact contains_f32_ok. Qed.

Theorem c63_intersect : forall a b, rect_ok a -> rect_ok b ->
  exists o, rect_intersect a b = Ok o /\
    match o with
    | None => forall x y, ~ (in_rect a x y /\ in_rect b x y)
    | Some i => rect_ok i /\ (forall x y, in_rect i x y <-> in_rect a x y /\ in_rect b x y)
    end.
Proof. exact intersect_ok. Qed.

(** A one-pixel rectangle at the largest coordinate is representable but its
    own right edge is computed with an i32 overflow. *)
Theorem c63_right_edge_panics :
  rect_at_of_size (2 ^ 31 - 1) 0 1 1 = Ok (mkRect (2 ^ 31 - 1) 0 1 1) /\
  r_right (mkRect (2 ^ 31 - 1) 0 1 1) = Panic.
Proof. split; vm_compute; reflexivity. Qed.

Example c63_nontrivial :
  rect_ok (mkRect (-3) 2 5 7) /\
  rect_intersect (mkRect (-3) 2 5 7) (mkRect 1 (-4) 9 8) = Ok (Some (mkRect 1 2 1 2)) /\
  rect_contains_f32 (mkRect (-3) 2 5 7) (of_int 1) (of_int 8) = Ok true.
Proof. splits; [unfold rect_ok; cbn; lia|vm_compute; reflexivity..]. Qed.

(** ** C72. *)

Theorem c72_cross : forall A (dr : A -> A) (im : image A) x y,
  wf im -> iw im < 2 ^ 31 -> ih im < 2 ^ 31 ->
  - 2 ^ 31 < x < 2 ^ 31 - 1 -> - 2 ^ 31 < y < 2 ^ 31 - 1 ->
  exists out, draw_cross dr im x y = Ok out /\
    recoloured (fun x' y' => Z.abs (x' - x) + Z.abs (y' - y) <= 1) dr im out.
Proof. intros. apply cross_ok; auto. unfold cdim; auto. Qed.

Example c72_nontrivial :
  draw_cross (fun _ => 9) (mkImage 3 3 [1;2;3; 4;5;6; 7;8;0]) 0 1 = Ok (mkImage 3 3 [9;2;3; 9;9;6; 9;8;0]).
Proof. vm_compute. reflexivity. Qed.

Print Assumptions c34_filled_rect.
Print Assumptions c34_filled_rect_empty_image.
Print Assumptions c34_hollow_rect.
Print Assumptions c35_hollow_circle.
Print Assumptions c35_circle_half_pixel.
Print Assumptions c35_circle_symmetric.
Print Assumptions c35_circle_every_column.
Print Assumptions c35_negative_radius.
Print Assumptions c35_filled_circle.
Print Assumptions c35_disc_bounds.
Print Assumptions c63_contains.
Print Assumptions c63_contains_f32.
Print Assumptions c63_intersect.
Print Assumptions c63_right_edge_panics.
Print Assumptions c72_cross.
