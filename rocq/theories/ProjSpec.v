(** Specification for C66 and C82: projective maps of the real plane. *)
From Coq Require Import Reals.
From Flocq Require Import Core.
From Verif Require Import Base ProjModel.
Local Open Scope R_scope.

(** The arithmetic of the model read over the reals. *)
Definition num_R : num R :=
  mkNum R Rplus Rminus Rmult Rdiv Ropp Rabs Rlt_bool 0 1 (/ 10000000000).

(** The denominator and the image of a point under a matrix in homogeneous coordinates. *)
Definition den (m : mat R) (x y : R) : R := t20 m * x + t21 m * y + t22 m.
Definition image_of (m : mat R) (x y : R) : R * R :=
  ((t00 m * x + t01 m * y + t02 m) / den m x y, (t10 m * x + t11 m * y + t12 m) / den m x y).

Definition det (m : mat R) : R :=
  t00 m * t11 m * t22 m + t01 m * t12 m * t20 m + t02 m * t10 m * t21 m
  - t02 m * t11 m * t20 m - t01 m * t10 m * t22 m - t00 m * t12 m * t21 m.

(** An entry [e] that is compared with [v] up to 1e-10 is not a near miss. *)
Definition no_near_miss (e v : R) : Prop := e = v \/ / 10000000000 <= Rabs (e - v).
(** The matrices [from_matrix] handles as promised: the corner entry and the
    leading 2x2 minor are not 0, and after division by the corner entry the
    determinant is at least 1e-10 and no entry is almost but not quite that of
    a translation or affine map. *)
Definition regular (m : mat R) : Prop :=
  t22 m <> 0 /\ t00 m * t11 m - t01 m * t10 m <> 0 /\
  / 10000000000 <= Rabs (det m / (t22 m * t22 m * t22 m)) /\
  no_near_miss (t20 m / t22 m) 0 /\ no_near_miss (t21 m / t22 m) 0 /\
  no_near_miss (t00 m / t22 m) 1 /\ no_near_miss (t01 m / t22 m) 0 /\
  no_near_miss (t10 m / t22 m) 0 /\ no_near_miss (t11 m / t22 m) 1.

(** The projections a program can build from regular data. *)
Inductive built : projection R -> Prop :=
| built_translate tx ty : built (translate num_R tx ty)
| built_rotate s c : s * s + c * c = 1 -> built (rotate num_R s c)
| built_scale sx sy : sx <> 0 -> sy <> 0 -> built (scale num_R sx sy)
| built_matrix m p : regular m -> from_matrix num_R m = Some p -> built p
| built_compose p q : built p -> built q -> built (compose num_R p q)
| built_invert p : built p -> built (invert p).
