(** Distances to a set of pixels, independently of the two-pass algorithm. *)
From Verif Require Import Base DistanceModel.

(** the norms of src/distance_transform.rs:12-29 (true: LInf, false: L1) *)
Definition dist (linf : bool) (x1 y1 x2 y2 : Z) : Z :=
  if linf then Z.max (Z.abs (x1 - x2)) (Z.abs (y1 - y2))
  else Z.abs (x1 - x2) + Z.abs (y1 - y2).

(** foreground: non-zero pixels; background: zero pixels *)
Definition is_fg (im : image Z) (x y : Z) : Prop := exists v, get im x y = Some v /\ v <> 0.
Definition is_bg (im : image Z) (x y : Z) : Prop := get im x y = Some 0.
Definition source (from : distance_from) (im : image Z) (x y : Z) : Prop :=
  match from with Foreground => is_fg im x y | Background => is_bg im x y end.

(** m is the distance from (x, y) to the nearest point of P *)
Definition nearest (linf : bool) (P : Z -> Z -> Prop) (x y m : Z) : Prop :=
  (exists fx fy, P fx fy /\ dist linf x y fx fy = m) /\
  (forall fx fy, P fx fy -> m <= dist linf x y fx fy).

(** some point of P lies within distance k of (x, y) *)
Definition within (linf : bool) (P : Z -> Z -> Prop) (k x y : Z) : Prop :=
  exists fx fy, P fx fy /\ dist linf x y fx fy <= k.
