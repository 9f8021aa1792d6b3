(** Window medians. *)
From Verif Require Import Base FilterSpec.

(** how many positions of the (2rx+1) x (2ry+1) window around (x, y), taken in
    the border-replicated image, hold value v in channel c *)
Definition window_count (im : image (list Z)) (rx ry x y c v : Z) : Z :=
  zsum (x - rx) (x + rx + 1) (fun a => zsum (y - ry) (y + ry + 1) (fun b =>
    if rep_chan 0 im c a b =? v then 1 else 0)).

(** m is the median of n (odd) 8-bit values, [cnt v] of which equal v: fewer
    than half of them are smaller and fewer than half are larger *)
Definition is_median (cnt : Z -> Z) (n m : Z) : Prop :=
  is_u8 m /\ 0 < cnt m /\ 2 * zsum 0 m cnt < n /\ 2 * zsum (m + 1) 256 cnt < n.
