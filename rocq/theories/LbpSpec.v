(** Local binary patterns, as documented. *)
From Verif Require Import Base.

(** offset of the neighbour in position n:
    7 0 1
    6 p 2
    5 4 3 *)
Definition neighbour (n : Z) : Z * Z :=
  if n =? 0 then (0, -1) else if n =? 1 then (1, -1) else if n =? 2 then (1, 0) else if n =? 3 then (1, 1)
  else if n =? 4 then (0, 1) else if n =? 5 then (-1, 1) else if n =? 6 then (-1, 0) else (-1, -1).

Definition interior (im : image Z) (x y : Z) : Prop := 1 <= x < iw im - 1 /\ 1 <= y < ih im - 1.

(** the centre at (x, y) is strictly brighter than neighbour n *)
Definition brighter (im : image Z) (x y n : Z) : Prop :=
  exists c v, get im x y = Some c /\ get im (x + fst (neighbour n)) (y + snd (neighbour n)) = Some v /\ v < c.

(** the byte whose bits are those of b moved k places to the right, circularly *)
Definition rotation (k b : Z) : Z := b / 2 ^ k + (b mod 2 ^ k) * 2 ^ (8 - k).
(** number of circularly adjacent, differing bits of a byte *)
Definition transitions (b : Z) : Z :=
  zsum 0 8 (fun i => if Bool.eqb (Z.testbit b i) (Z.testbit b ((i + 1) mod 8)) then 0 else 1).
Definition least_rotation (b m : Z) : Prop :=
  (exists k, 0 <= k < 8 /\ m = rotation k b) /\ forall k, 0 <= k < 8 -> m <= rotation k b.
