(** What drawing an axis-aligned ellipse is supposed to do. *)
From Coq Require Import ZArith List Bool Reals.
From Verif Require Import Base.
Import ListNotations.
Local Open Scope Z_scope.

(** The offset (dx, dy) from the centre is inside or on the ellipse with radii
    w and h: dx^2 / w^2 + dy^2 / h^2 <= 1. *)
Definition inside (w h dx dy : Z) : Prop := h * h * (dx * dx) + w * w * (dy * dy) <= w * w * (h * h).

(** Moving the offset by one pixel towards the axes, and away from the axes. *)
Definition shrink (d : Z) : Z := Z.max (Z.abs d - 1) 0.
Definition grow (d : Z) : Z := Z.abs d + 1.

(** The ellipse passes within one pixel, in each coordinate, of the offset:
    the square of side 2 around it has a point inside or on the ellipse and a
    point outside of it. *)
Definition near (w h dx dy : Z) : Prop :=
  inside w h (shrink dx) (shrink dy) /\ ~ inside w h (grow dx) (grow dy).

(** One step of a staircase going right, down or both, by one pixel. *)
Definition stair (p q : Z * Z) : Prop :=
  fst p <= fst q <= fst p + 1 /\ snd p - 1 <= snd q <= snd p /\ p <> q.
Fixpoint stairs (p : Z * Z) (l : list (Z * Z)) : Prop :=
  match l with
  | [] => True
  | q :: l => stair p q /\ stairs q l
  end.

(** The quarter of the outline with non-negative offsets: a staircase of pixels
    from the top (0, h) to the axis (e, 0), each near the ellipse and none
    beyond the radii; [e] is where it meets the axis. *)
Definition quarter (w h e : Z) (l : list (Z * Z)) : Prop :=
  stairs (0, h) l /\ last l (0, h) = (e, 0) /\
  forall dx dy, In (dx, dy) ((0, h) :: l) -> 0 <= dx <= w /\ 0 <= dy <= h /\ near w h dx dy.

(** The outline: the four mirror images of the quarter. *)
Definition on_outline (c : Z * Z) (w h : Z) (l : list (Z * Z)) (x y : Z) : Prop :=
  In (Z.abs (x - fst c), Z.abs (y - snd c)) ((0, h) :: l).
(** The filled ellipse: the rows between the two sides of the outline. *)
Definition in_outline (c : Z * Z) (w h : Z) (l : list (Z * Z)) (x y : Z) : Prop :=
  exists dx, In (dx, Z.abs (y - snd c)) ((0, h) :: l) /\ Z.abs (x - fst c) <= dx.
