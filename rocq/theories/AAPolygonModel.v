(** Model of the antialiased polygons of src/drawing/polygon.rs. *)
From Verif Require Import Base Float LineModel PolygonModel WuModel.

(** drawing/polygon.rs 58-76 draw_antialiased_polygon_mut: the filled spans, then
    an antialiased line per edge.  An [Image] is a Canvas whose draw_pixel is
    put_pixel.  [as i32] saturates.  The non-mutating draw_antialiased_polygon
    (37-56) runs the same code on a copy (124-139). *)
Definition draw_antialiased_polygon {A} (blend : A -> A -> f32 -> A) (im : image A) (poly : list (Z * Z)) (color : A) : res (image A) :=
  draw_polygon_with (fun im start end_ =>
    draw_antialiased_line_segment blend im
      (i32_of_f32 (fst start), i32_of_f32 (snd start)) (i32_of_f32 (fst end_), i32_of_f32 (snd end_)) color)
    (fun _ => color) im poly.
