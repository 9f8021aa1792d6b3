(** What an antialiased polygon should look like. *)
From Verif Require Import Base Float PolygonSpec WuSpec.

(** [r] is what becomes of a pixel (x, y) of value [o] when antialiased lines of
    colour [color] are drawn along the edges [es], one after the other *)
Fixpoint lines_over {A} (b : A -> A -> f32 -> A) (color : A) (es : list ((Z * Z) * (Z * Z))) (x y : Z) (o r : A) : Prop :=
  match es with
  | [] => r = o
  | (p, q) :: es => exists o', wu_result b color o (line_offset p q x y) (between_ends p q x y) (Some o') /\
      lines_over b color es x y o' r
  end.
