(** What flood_fill is supposed to recolour. *)
From Verif Require Import Base.

(** (x, y) can be reached from (sx, sy) by up/down/left/right steps, all the
    pixels on the way (both ends included) satisfying [P]. *)
Inductive reach (P : Z -> Z -> Prop) (sx sy : Z) : Z -> Z -> Prop :=
| reach_start : P sx sy -> reach P sx sy sx sy
| reach_step x y x' y' :
    reach P sx sy x y -> Z.abs (x' - x) + Z.abs (y' - y) = 1 -> P x' y' -> reach P sx sy x' y'.

(** the pixel at (x, y) exists and has the colour [c] (as decided by [eqb]) *)
Definition has_colour {A} (eqb : A -> A -> bool) (im : image A) (c : A) (x y : Z) : Prop :=
  exists p, get im x y = Some p /\ eqb p c = true.
