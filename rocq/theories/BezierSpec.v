(** The cubic Bezier curve over the reals, and what it means to draw it. *)
From Coq Require Import Reals.
From Verif Require Import Base LineSpec.

(** one coordinate of the curve with control values p0 .. p3 *)
Definition bez (p0 p1 p2 p3 t : R) : R :=
  ((1 - t) ^ 3 * p0 + 3 * (1 - t) ^ 2 * t * p1 + 3 * (1 - t) * t ^ 2 * p2 + t ^ 3 * p3)%R.

(** the pixel p is at most d away from the point (x, y), along each axis *)
Definition close (d : R) (p : Z * Z) (x y : R) : Prop :=
  (Rabs (IZR (fst p) - x) <= d /\ Rabs (IZR (snd p) - y) <= d)%R.

(** consecutive pixels of a connected path *)
Definition touching (p q : Z * Z) : Prop := p = q \/ king_move p q.
