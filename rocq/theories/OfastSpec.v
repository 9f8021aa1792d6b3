(** What oriented FAST should return. *)
From Coq Require Import Sorted.
From Verif Require Import Base CornerSpec.

(** at least [edge] pixels from every side *)
Definition in_margin (im : image Z) (edge x y : Z) : Prop :=
  edge <= x < iw im - edge /\ edge <= y < ih im - edge.
(** (x, y, s): a FAST-9 corner for threshold t with score s *)
Definition scored_corner (im : image Z) (t edge : Z) (c : Z * Z * Z) : Prop :=
  let '(x, y, s) := c in
  in_margin im edge x y /\ fast_corner 9 im t x y /\ largest_threshold (fun t => fast_corner 9 im t x y) t s.
(** better score first, equal scores in reading order *)
Definition better (p q : Z * Z * Z) : Prop := snd q < snd p \/ snd p = snd q /\ raster_before p q.

(** [l] is the list of the best [n] corners, best first *)
Definition best_corners (im : image Z) (t edge n : Z) (l : list (Z * Z * Z)) : Prop :=
  StronglySorted better l /\ zlen l <= n /\
  (forall c, In c l -> scored_corner im t edge c) /\
  (forall c, scored_corner im t edge c -> In c l \/ zlen l = n /\ forall d, In d l -> better d c).

(** first moments of the intensities in the patch |dx|, |dy| <= r around (x, y)
    clipped to the image: coordinates relative to (x, y), y downwards *)
Definition px0 (im : image Z) (x y : Z) : Z := match get im x y with Some v => v | None => 0 end.
Definition moment_x (im : image Z) (x y r : Z) : Z :=
  zsum (y - r) (y + r + 1) (fun b => zsum (x - r) (x + r + 1) (fun a => (a - x) * px0 im a b)).
Definition moment_y (im : image Z) (x y r : Z) : Z :=
  zsum (y - r) (y + r + 1) (fun b => zsum (x - r) (x + r + 1) (fun a => (b - y) * px0 im a b)).
