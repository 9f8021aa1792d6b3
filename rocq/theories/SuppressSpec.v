(** What suppress_non_maximum and local_maxima should return. *)
From Verif Require Import Base.

(** (x', y') lies in the (2r+1) square block centred on (x, y). *)
Definition in_block (r x y x' y' : Z) : Prop := Z.abs (x' - x) <= r /\ Z.abs (y' - y) <= r.

(** A value v' at (x', y') is preferred to v at (x, y): greater, or equal with
    lexicographically smaller coordinates. *)
Definition preferred (v' x' y' v x y : Z) : Prop :=
  v < v' \/ (v = v' /\ (x' < x \/ (x' = x /\ y' < y))).

(** Pixel (x, y) of im, with value v, is a local maximum. *)
Definition is_local_max (im : image Z) (r x y v : Z) : Prop :=
  forall x' y' v', in_block r x y x' y' -> get im x' y' = Some v' -> ~ preferred v' x' y' v x y.

(** local_maxima: items with a position and a score; [slt] is the [<] of the
    score type (f32 in the crate).  Item c is preferred to t: greater score, or
    not smaller score and lexicographically smaller (y, x). *)
From Verif Require Import SuppressModel.
Definition item_preferred {S} (slt : S -> S -> bool) (c t : item S) : Prop :=
  slt (score t) (score c) = true \/
  (slt (score c) (score t) = false /\ (py c < py t \/ (py c = py t /\ px c < px t))).
