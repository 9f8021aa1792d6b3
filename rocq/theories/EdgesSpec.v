(** Hysteresis thresholding, independently of the program. *)
From Verif Require Import Base Float.

Definition at_least (im : image f32) (t : f32) (x y : Z) : Prop := exists v, get im x y = Some v /\ fle t v = true.

(** strong interior pixels, and weak pixels reached from them through weak
    pixels by steps allowed by [nb] *)
Inductive linked (nb : Z -> Z -> Prop) (im : image f32) (low high : f32) : Z -> Z -> Prop :=
| l_strong x y : 1 <= x < iw im - 1 -> 1 <= y < ih im - 1 -> at_least im high x y -> linked nb im low high x y
| l_step x y x' y' : linked nb im low high x y -> nb (x' - x) (y' - y) -> at_least im low x' y' -> linked nb im low high x' y'.

(** the eight neighbours *)
Definition eight (dx dy : Z) : Prop := Z.max (Z.abs dx) (Z.abs dy) = 1.
(** all but (0, -1) and (1, -1) *)
Definition eight_but_two (dx dy : Z) : Prop := eight dx dy /\ ~ (dy = -1 /\ (dx = 0 \/ dx = 1)).

(** gradient images after suppression: zero on the border *)
Definition zero_border (im : image f32) : Prop :=
  forall x y v, get im x y = Some v -> x = 0 \/ y = 0 \/ x = iw im - 1 \/ y = ih im - 1 -> feq v (of_int 0) = true.

(** One pixel step in the direction of an angle of 0, 45, 90 or 135 degrees, x
    to the right and y downwards (as the gradients point). *)
Definition unit_step (deg : Z) : Z * Z :=
  if deg =? 0 then (1, 0) else if deg =? 45 then (1, 1) else if deg =? 90 then (0, 1) else (-1, 1).
