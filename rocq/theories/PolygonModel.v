(** Model of src/drawing/polygon.rs. *)
From Verif Require Import Base Float LineModel.

(** polygon.rs 173-196: what one edge contributes to [intersections] on scan
    line y (i32 subtractions checked, the rest in f32) *)
Definition edge_intersections (y : Z) (e : (Z * Z) * (Z * Z)) : res (list Z) :=
  let '((x0, y0), (x1, y1)) := e in
  if ((y0 <=? y) && (y <=? y1)) || ((y1 <=? y) && (y <=? y0)) then
    if y0 =? y1 then Ok [x0; x1]
    else if (y0 =? y) || (y1 =? y) then
      Ok ((if y <? y1 then [x0] else []) ++ (if y <? y0 then [x1] else []))
    else
      a <- chk_i 32 (y - y0) ;; b <- chk_i 32 (y1 - y0) ;; dx <- chk_i 32 (x1 - x0) ;;
      let fraction := fdiv (of_int a : f32) (of_int b) in
      let inter := fadd (of_int x0) (fmul fraction (of_int dx)) in
      Ok [i32_of_f32 (fround inter)]
  else Ok [].

(** polygon.rs 198: sort_unstable (an insertion sort; equal integers are
    indistinguishable, so any sort gives this result) *)
Fixpoint insert_sorted (x : Z) (l : list Z) : list Z :=
  match l with
  | [] => [x]
  | y :: t => if x <=? y then x :: l else y :: insert_sorted x t
  end.
Definition sort_z (l : list Z) : list Z := fold_right insert_sorted [] l.

(** polygon.rs 199-211: chunks(2).for_each; range[1] panics on a last chunk of
    length one *)
Fixpoint draw_spans {A} (dr : A -> A) (y : Z) (l : list Z) (im : image A) : res (image A) :=
  match l with
  | [] => Ok im
  | [_] => Panic
  | a :: b :: t =>
      let w := wrap_i32 (iw im) in
      w1 <- chk_i 32 (w - 1) ;;
      let from := Z.min a w in
      let to := Z.min b w1 in
      im <- (if (from <? w) && (0 <=? to) then
               let from := Z.max 0 from in
               let to := Z.max 0 to in
               to1 <- chk_i 32 (to + 1) ;;
               for_range from to1 (fun x im => draw_pixel dr im x y) im
             else Ok im) ;;
      draw_spans dr y t im
  end.

(** polygon.rs 163-170: close the vertex list and take its windows of two *)
Definition pt_eqb (p q : Z * Z) : bool := (fst p =? fst q) && (snd p =? snd q).
Definition close_poly (poly : list (Z * Z)) : list (Z * Z) :=
  match poly with
  | [] => []
  | first :: _ => if pt_eqb first (last poly first) then poly else poly ++ [first]
  end.
Fixpoint windows2 {X} (l : list X) : list (X * X) :=
  match l with
  | a :: ((b :: _) as t) => (a, b) :: windows2 t
  | _ => []
  end.

(** polygon.rs 173-214: one scan line *)
Definition scan_line {A} (dr : A -> A) (edges : list ((Z * Z) * (Z * Z))) (y : Z) (im : image A) : res (image A) :=
  ls <- mapM (edge_intersections y) edges ;;
  draw_spans dr y (sort_z (concat ls)) im.

(** polygon.rs 141-221 draw_polygon_with_mut with [plotter] the parameter;
    polygon.rs 14-26 draw_polygon, draw_polygon_mut pass draw_line_segment_mut. *)
Definition draw_polygon_with {A} (plotter : image A -> f32 * f32 -> f32 * f32 -> res (image A))
    (dr : A -> A) (im : image A) (poly : list (Z * Z)) : res (image A) :=
  match poly with
  | [] => Ok im
  | _ =>
      let y_min := fold_left Z.min (map snd poly) (2 ^ 31 - 1) in
      let y_max := fold_left Z.max (map snd poly) (- 2 ^ 31) in
      h1 <- chk_i 32 (wrap_i32 (ih im) - 1) ;;
      let y_min := Z.max 0 (Z.min y_min h1) in
      let y_max := Z.max 0 (Z.min y_max h1) in
      let edges := windows2 (close_poly poly) in
      y_end <- chk_i 32 (y_max + 1) ;;
      im <- for_range y_min y_end (scan_line dr edges) im ;;
      for_each edges (fun e im =>
        let '((x0, y0), (x1, y1)) := e in
        plotter im (of_int x0, of_int y0) (of_int x1, of_int y1)) im
  end.

Definition draw_polygon {A} (dr : A -> A) (im : image A) (poly : list (Z * Z)) : res (image A) :=
  draw_polygon_with (draw_line_segment dr) dr im poly.

(** polygon.rs 99-122 draw_hollow_polygon_mut (f32 vertices; [first != last]
    is IEEE inequality of either coordinate) *)
Definition draw_hollow_polygon {A} (dr : A -> A) (im : image A) (poly : list (f32 * f32)) : res (image A) :=
  match poly with
  | [] => Ok im
  | [_] => Panic
  | first :: _ =>
      im <- for_each (windows2 poly) (fun e im => draw_line_segment dr im (fst e) (snd e)) im ;;
      let l := last poly first in
      if feq (fst first) (fst l) && feq (snd first) (snd l) then Ok im
      else draw_line_segment dr im first l
  end.
