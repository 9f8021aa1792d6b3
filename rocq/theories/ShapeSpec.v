(** What rectangles and circles are supposed to cover. *)
From Verif Require Import Base ShapeModel.

(** the pixels of a rectangle *)
Definition in_rect (r : rect) (x y : Z) : Prop :=
  r_left r <= x < r_left r + r_width r /\ r_top r <= y < r_top r + r_height r.
(** its one-pixel border *)
Definition on_border (r : rect) (x y : Z) : Prop :=
  in_rect r x y /\
  (x = r_left r \/ x = r_left r + r_width r - 1 \/ y = r_top r \/ y = r_top r + r_height r - 1).
(** a rectangle whose extent does not leave i32 *)
Definition rect_ok (r : rect) : Prop :=
  - 2 ^ 31 <= r_left r /\ - 2 ^ 31 <= r_top r /\ 1 <= r_width r < 2 ^ 31 /\ 1 <= r_height r < 2 ^ 31 /\
  r_left r + r_width r < 2 ^ 31 /\ r_top r + r_height r < 2 ^ 31.

(** The offset (dx, dy) belongs to the midpoint circle of radius r: with a <= b
    the absolute offsets, b is the integer nearest to sqrt(r^2 - a^2), i.e.
    (b - 1/2)^2 < r^2 - a^2 < (b + 1/2)^2. *)
Definition on_circle (r dx dy : Z) : Prop :=
  let a := Z.min (Z.abs dx) (Z.abs dy) in
  let b := Z.max (Z.abs dx) (Z.abs dy) in
  (0 < r /\ b * b - b < r * r - a * a <= b * b + b) \/ (r = 0 /\ b = 0).

(** The offset is on a horizontal segment between two circle points. *)
Definition in_disc (r dx dy : Z) : Prop := exists hx, 0 <= hx /\ on_circle r hx dy /\ Z.abs dx <= hx.
