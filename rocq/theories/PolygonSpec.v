(** What draw_polygon is supposed to cover: the even-odd rule. *)
From Verif Require Import Base Float.

(** the closed vertex list, and the edges of the polygon *)
Definition closed (poly : list (Z * Z)) : list (Z * Z) :=
  match poly with
  | [] => []
  | p :: _ => if (fst p =? fst (last poly p)) && (snd p =? snd (last poly p)) then poly else poly ++ [p]
  end.
Definition poly_edges (poly : list (Z * Z)) : list ((Z * Z) * (Z * Z)) :=
  combine (closed poly) (tl (closed poly)).

(** the column at which the edge meets row y: the end point on that row if
    there is one, otherwise linear interpolation in f32, rounded *)
Definition edge_column (y : Z) (e : (Z * Z) * (Z * Z)) : Z :=
  let '((x0, y0), (x1, y1)) := e in
  if y0 =? y then x0 else if y1 =? y then x1
  else i32_of_f32 (fround (fadd (of_int x0 : f32)
         (fmul (fdiv (of_int (y - y0)) (of_int (y1 - y0))) (of_int (x1 - x0))))).

(** The columns where row y crosses the edge: both ends of an edge lying in the
    row; one column if exactly one end is strictly below the row (y growing
    downwards); none otherwise. *)
Definition edge_crossings (y : Z) (e : (Z * Z) * (Z * Z)) : list Z :=
  let '((x0, y0), (x1, y1)) := e in
  if (y0 =? y) && (y1 =? y) then [x0; x1]
  else if Bool.eqb (y <? y0) (y <? y1) then [] else [edge_column y e].

Definition crossings (poly : list (Z * Z)) (y : Z) : list Z :=
  flat_map (edge_crossings y) (poly_edges poly).

(** even-odd rule: (x, y) is a crossing, or has an odd number of crossings to
    its left *)
Definition interior (poly : list (Z * Z)) (x y : Z) : Prop :=
  In x (crossings poly y) \/
  Nat.odd (length (filter (fun c => c <? x) (crossings poly y))) = true.
