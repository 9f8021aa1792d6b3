(** The FAST segment test, as documented on the [Fast] enum. *)
From Verif Require Import Base.

(** the circle of radius 3:
          15 00 01
       14          02
     13              03
     12       p      04
     11              05
       10          06
          09 08 07          *)
Definition circle_offsets : list (Z * Z) :=
  [(0, -3); (1, -3); (2, -2); (3, -1); (3, 0); (3, 1); (2, 2); (1, 3);
   (0, 3); (-1, 3); (-2, 2); (-3, 1); (-3, 0); (-3, -1); (-2, -2); (-1, -3)].
Definition on_circle (im : image Z) (x y i : Z) : option Z :=
  match znth circle_offsets (i mod 16) with Some (dx, dy) => get im (x + dx) (y + dy) | None => None end.

(** at least 3 pixels from the border *)
Definition away (im : image Z) (x y : Z) : Prop := 3 <= x < iw im - 3 /\ 3 <= y < ih im - 3.

(** circle pixel i is brighter than centre + t, darker than centre - t *)
Definition brighter_by (im : image Z) (t x y i : Z) : Prop :=
  exists c p, get im x y = Some c /\ on_circle im x y i = Some p /\ c + t < p.
Definition darker_by (im : image Z) (t x y i : Z) : Prop :=
  exists c p, get im x y = Some c /\ on_circle im x y i = Some p /\ p < c - t.

(** a contiguous section of [len] circle pixels, all brighter or all darker *)
Definition fast_corner (len : Z) (im : image Z) (t x y : Z) : Prop :=
  away im x y /\ exists start, 0 <= start < 16 /\
    ((forall k, 0 <= k < len -> brighter_by im t x y (start + k)) \/
     (forall k, 0 <= k < len -> darker_by im t x y (start + k))).

(** s is the largest threshold in t..=255 at which [corner] still holds *)
Definition largest_threshold (corner : Z -> Prop) (t s : Z) : Prop :=
  t <= s <= 255 /\ corner s /\ forall t', s < t' <= 255 -> ~ corner t'.
(** reading order of locations *)
Definition raster_before (p q : Z * Z * Z) : Prop :=
  snd (fst p) < snd (fst q) \/ snd (fst p) = snd (fst q) /\ fst (fst p) < fst (fst q).
