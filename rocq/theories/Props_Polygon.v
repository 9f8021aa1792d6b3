(** C38: polygons.  [interior poly x y] (PolygonSpec.v): (x, y) is a crossing of
    row y with the polygon's edges, or has an odd number of crossings to its
    left (even-odd rule). *)
From Verif Require Import Base BaseProofs Float LineModel LineSpec LineProofs PolygonModel PolygonSpec PolygonProofs.

(** Every row crosses the edges of every polygon an even number of times. *)
Theorem c38_even_crossings : forall poly y, Nat.even (length (crossings poly y)) = true.
Proof. exact crossings_even. Qed.

(** draw_polygon never panics, and recolours exactly the interior of the
    polygon and the pixels of the lines drawn for its edges.  Coordinates up to
    2^22, where the f32 line drawing is exact; any number of vertices, also
    repeated, collinear or self-intersecting ones. *)
Theorem c38_draw_polygon : forall A (dr : A -> A) (im : image A) poly,
  (forall a, dr (dr a) = dr a) ->
  wf im -> iw im < 2 ^ 31 -> 1 <= ih im < 2 ^ 31 - 2 ^ 22 ->
  Forall (fun p => Z.abs (fst p) <= 2 ^ 22 /\ Z.abs (snd p) <= 2 ^ 22) poly ->
  exists out, draw_polygon dr im poly = Ok out /\
    recoloured (fun x y => interior poly x y \/
      exists p q pts, In (p, q) (poly_edges poly) /\
        bres_points (of_int (fst p), of_int (snd p)) (of_int (fst q), of_int (snd q)) = Ok pts /\
        In (x, y) pts) dr im out.
Proof.
  intros A dr im poly ID W Hw Hh SM.
  destruct (polygon_ok dr im poly ID) as (out & E & R); [unfold cdim; splits; auto; lia|exact Hh|exact SM|].
  exists out. split; [exact E|]. revert R. apply recoloured_ext. intros x y _ _. split.
  - intros [H|([p q] & I & pts & Ep & Ip)]; [auto|right]. exists p, q, pts. auto.
  - intros [H|(p & q & pts & I & Ep & Ip)]; [auto|right]. exists (p, q). split; [exact I|]. exists pts. auto.
Qed.

(** Between its end points the column at which an edge crosses a row is off by
    less than one pixel (coordinates up to 2^20). *)
Theorem c38_crossing_accuracy : forall x0 y0 x1 y1 y,
  Z.abs x0 <= 2 ^ 20 -> Z.abs y0 <= 2 ^ 20 -> Z.abs x1 <= 2 ^ 20 -> Z.abs y1 <= 2 ^ 20 ->
  y0 < y < y1 \/ y1 < y < y0 ->
  Z.abs (edge_column y ((x0, y0), (x1, y1)) * (y1 - y0) - (x0 * (y1 - y0) + (y - y0) * (x1 - x0)))
    < Z.abs (y1 - y0).
Proof. exact edge_column_accurate. Qed.

(** On an image with width but no rows draw_polygon panics. *)
Theorem c38_no_rows_panics :
  draw_polygon (fun _ => 1) (mkImage 3 0 []) [(0, 0); (2, 0); (2, 2)] = Panic.
Proof. vm_compute. reflexivity. Qed.

Example c38_nontrivial :
  draw_polygon (fun _ => 1) (new_image 7 5 0) [(1, 0); (5, 0); (5, 4); (3, 2); (1, 4)]
  = Ok (mkImage 7 5 [0;1;1;1;1;1;0; 0;1;1;1;1;1;0; 0;1;1;1;1;1;0; 0;1;1;0;1;1;0; 0;1;0;0;0;1;0]) /\
  crossings [(1, 0); (5, 0); (5, 4); (3, 2); (1, 4)] 3 = [5; 4; 2; 1] /\
  edge_column 3 ((3, 2), (0, 4)) = 2.
Proof. splits; vm_compute; reflexivity. Qed.

(** ** Hollow polygons: the lines between consecutive vertices (and back to the
    first one unless the last equals it); one single vertex panics. *)
Theorem c38_hollow_polygon : forall A (dr : A -> A) (im : image A) first rest,
  rest <> [] -> (forall a, dr (dr a) = dr a) -> wf im -> iw im < 2 ^ 31 -> ih im < 2 ^ 31 ->
  (forall p q, In p (first :: rest) -> In q (first :: rest) -> exists pts, bres_points p q = Ok pts) ->
  exists out, draw_hollow_polygon dr im (first :: rest) = Ok out /\
    recoloured (fun x y => exists e,
      (In e (combine (first :: rest) rest) \/
       e = (first, last (first :: rest) first) /\
       feq (fst first) (fst (last (first :: rest) first)) && feq (snd first) (snd (last (first :: rest) first)) = false) /\
      exists pts, bres_points (fst e) (snd e) = Ok pts /\ In (x, y) pts) dr im out.
Proof.
  intros A dr im first rest NL ID W Hw Hh T.
  exact (hollow_polygon_ok dr im (first :: rest) first rest eq_refl NL ID (conj W (conj Hw Hh)) T).
Qed.
Theorem c38_hollow_one_vertex_panics : forall A (dr : A -> A) (im : image A) p,
  draw_hollow_polygon dr im [p] = Panic.
Proof. reflexivity. Qed.

Print Assumptions c38_even_crossings.
Print Assumptions c38_draw_polygon.
Print Assumptions c38_crossing_accuracy.
Print Assumptions c38_no_rows_panics.
Print Assumptions c38_hollow_polygon.
Print Assumptions c38_hollow_one_vertex_panics.
