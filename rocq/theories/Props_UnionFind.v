(** C09: disjoint-set forest. *)
From Coq Require Import Relations.
From Verif Require Import Base BaseProofs UnionFindModel UnionFindSpec UnionFindProofs.

(** Any in-range history of union/root/find on n elements runs to completion
    (no panic, no endless loop); afterwards
    - [find i j] answers whether i and j are related by the smallest equivalence
      containing the united pairs,
    - [num_trees] is n minus the number of unions that joined different classes,
    - [trees] lists each class exactly once. *)
Theorem c09_find_iff_connected : forall n ops,
  0 <= n -> (forall o, In o ops -> op_in_range n o) ->
  exists f, run_ops ops (forest_new n) = Ok f /\
    forall i j, 0 <= i < n -> 0 <= j < n ->
      exists b f', find f i j = Ok (b, f') /\ (b = true <-> connected (united ops) i j).
Proof.
  intros n ops Hn Hr. destruct (uf_history n ops Hn Hr) as (f & k & E & T & _).
  exists f. split; auto. intros i j Hi Hj.
  destruct (find_tracks n f _ i j T Hi Hj) as (b & f' & Ef & _ & Hb). eauto.
Qed.

Theorem c09_num_trees : forall n ops,
  0 <= n -> (forall o, In o ops -> op_in_range n o) ->
  exists f k, run_ops ops (forest_new n) = Ok f /\ merges [] (united ops) k /\ num_trees f = n - k.
Proof.
  intros n ops Hn Hr. destruct (uf_history n ops Hn Hr) as (f & k & E & _ & M & N). eauto.
Qed.

Theorem c09_trees_partition : forall n ops,
  0 <= n -> (forall o, In o ops -> op_in_range n o) ->
  exists f sets f', run_ops ops (forest_new n) = Ok f /\ trees f = Ok (sets, f') /\
    partition_of n (connected (united ops)) sets.
Proof.
  intros n ops Hn Hr. destruct (uf_history n ops Hn Hr) as (f & k & E & T & _).
  destruct (trees_ok n f _ T) as (sets & f' & Et & _ & P). eauto 6.
Qed.

(** [root] returns an in-range member of the argument's class, the same one for
    all members, and never runs out of fuel. *)
Theorem c09_root_canonical : forall n ops,
  0 <= n -> (forall o, In o ops -> op_in_range n o) ->
  exists f, run_ops ops (forest_new n) = Ok f /\
    forall i, 0 <= i < n -> exists r f', root f i = Ok (r, f') /\ 0 <= r < n /\ connected (united ops) i r /\
      forall j, 0 <= j < n -> connected (united ops) i j -> exists f'', root f j = Ok (r, f'').
Proof.
  intros n ops Hn Hr. destruct (uf_history n ops Hn Hr) as (f & k & E & T & _).
  exists f. split; auto. intros i Hi.
  destruct (root_tracks n f _ i T Hi) as (r & f' & Er & T' & Hrn & C & Hj & Ri).
  exists r, f'. split; [auto|]. split; [auto|]. split; [auto|]. intros j Hj' Cj.
  destruct (root_tracks n f _ j T Hj') as (r' & f'' & Er' & _ & _ & _ & _ & Rj).
  rewrite (froot_fun _ _ _ _ (Hj j Hj' Cj) Rj). eauto.
Qed.

(** out-of-range elements are rejected by an assertion, not by an unsafe read *)
Theorem c09_out_of_range_panics : forall f i j,
  count f <= i -> root f i = Panic /\ find f i j = Panic /\ find f j i = Panic /\
    union f i j = Panic /\ union f j i = Panic.
Proof.
  intros f i j H. unfold root, find, union, assert.
  assert (i <? count f = false) as -> by lia. rewrite andb_false_r. simpl. auto.
Qed.

(** the hypotheses hold of a history with merging and non-merging unions *)
Definition c09_history := [OpUnion 0 1; OpFind 3 4; OpUnion 2 3; OpUnion 1 3; OpRoot 0; OpUnion 0 2].
Example c09_history_ok : forall o, In o c09_history -> op_in_range 5 o.
Proof. intros o H. unfold c09_history in H; simpl in H. decompose [or] H; subst; simpl; lia || contradiction. Qed.
Example c09_history_run :
  (f <- run_ops c09_history (forest_new 5) ;;
   '(s, f') <- trees f ;; Ok (s, num_trees f)) = Ok ([[0;1;2;3];[4]], 2).
Proof. vm_compute. reflexivity. Qed.

Print Assumptions c09_find_iff_connected.
Print Assumptions c09_num_trees.
Print Assumptions c09_trees_partition.
Print Assumptions c09_root_canonical.
Print Assumptions c09_out_of_range_panics.
