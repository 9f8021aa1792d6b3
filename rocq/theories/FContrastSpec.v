(** Histogram transformations in terms of pixel counts. *)
From Coq Require Import Reals.
From Verif Require Import Base Float StatsSpec.
Open Scope Z_scope.

(** number of pixels at level v, at most at level v, above level v *)
Definition count_at (im : image Z) (v : Z) : Z := zlen (filter (fun p => p =? v) (idata im)).
Definition count_le (im : image Z) (v : Z) : Z := zlen (filter (fun p => p <=? v) (idata im)).
Definition count_gt (im : image Z) (v : Z) : Z := zlen (filter (fun p => v <? p) (idata im)).
(** sum of the pixels at most at level v, above level v *)
Definition lsum (l : list Z) : Z := fold_right Z.add 0 l.
Definition sum_le (im : image Z) (v : Z) : Z := lsum (filter (fun p => p <=? v) (idata im)).
Definition sum_gt (im : image Z) (v : Z) : Z := lsum (filter (fun p => v <? p) (idata im)).

(** the share of pixels at most at level v, as f32 division computes it *)
Definition share (im : image Z) (v : Z) : f32 := fdiv (of_int (count_le im v)) (of_int (iw im * ih im)).

(** between-class variance (times the squared number of pixels) of the split
    at level t: weights times squared difference of the means; 0 when a class is empty *)
Definition between_class (im : image Z) (t : Z) : R :=
  if (count_le im t =? 0) || (count_gt im t =? 0) then 0%R
  else
    (IZR (count_le im t) * IZR (count_gt im t) *
     (IZR (sum_le im t) / IZR (count_le im t) - IZR (sum_gt im t) / IZR (count_gt im t)) ^ 2)%R.
