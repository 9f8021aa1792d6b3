(** What a union-find structure should compute, independently of forests. *)
From Coq Require Import Relations.
From Verif Require Import Base UnionFindModel.

(** the pairs united by a history *)
Fixpoint united (ops : list uf_op) : list (Z * Z) :=
  match ops with
  | [] => []
  | OpUnion i j :: ops' => (i, j) :: united ops'
  | _ :: ops' => united ops'
  end.

(** smallest equivalence relation containing the pairs *)
Definition connected (pairs : list (Z * Z)) : Z -> Z -> Prop :=
  clos_refl_sym_trans Z (fun a b => In (a, b) pairs).

Definition op_in_range (n : Z) (o : uf_op) : Prop :=
  match o with
  | OpUnion i j | OpFind i j => 0 <= i < n /\ 0 <= j < n
  | OpRoot i => 0 <= i < n
  end.

(** [merges before pairs k]: processing [pairs] left to right on top of the
    unions [before], exactly [k] of them join two different classes *)
Inductive merges : list (Z * Z) -> list (Z * Z) -> Z -> Prop :=
| merges_nil : forall before, merges before [] 0
| merges_join : forall before i j rest k,
    ~ connected before i j -> merges (before ++ [(i, j)]) rest k ->
    merges before ((i, j) :: rest) (k + 1)
| merges_skip : forall before i j rest k,
    connected before i j -> merges (before ++ [(i, j)]) rest k ->
    merges before ((i, j) :: rest) k.

(** [sets] is the partition of 0..n-1 into classes of [R] *)
Definition partition_of (n : Z) (R : Z -> Z -> Prop) (sets : list (list Z)) : Prop :=
  (forall s, In s sets -> s <> []) /\
  NoDup (concat sets) /\
  (forall i, In i (concat sets) <-> 0 <= i < n) /\
  (forall s i j, In s sets -> In i s -> 0 <= j < n -> (In j s <-> R i j)).
