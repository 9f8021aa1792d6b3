(** What it means to simplify a curve. *)
From Coq Require Import Reals.
From Verif Require Import Base GeometrySpec.

(** Euclidean distance of two points, and of a point from the line through a
    chord (from the single point, if the chord has no direction) *)
Definition dist_pt (p q : Z * Z) : R :=
  sqrt (IZR ((fst p - fst q) * (fst p - fst q) + (snd p - snd q) * (snd p - snd q))).
Definition dist_chord (r p q : Z * Z) : R :=
  if (fst p =? fst q) && (snd p =? snd q) then dist_pt r p
  else (IZR (Z.abs (turn p q r)) / dist_pt p q)%R.

(** [kept] is [curve] with some interior points dropped; whatever was dropped
    between two neighbouring kept points p, q satisfies [near r p q] *)
Inductive simplifies (near : Z * Z -> Z * Z -> Z * Z -> Prop) : list (Z * Z) -> list (Z * Z) -> Prop :=
| simp_end p : simplifies near [p] [p]
| simp_step p dropped q rest kept :
    (forall r, In r dropped -> near r p q) ->
    simplifies near (q :: rest) (q :: kept) ->
    simplifies near (p :: dropped ++ q :: rest) (p :: q :: kept).
