(** Model of src/union_find.rs.  [usize] is Z without an upper bound (sizes
    never exceed the element count); [get_unchecked] is modelled by a checked
    access, so a theorem "does not panic" covers the unsafe accesses too. *)
From Verif Require Import Base.

(** src/union_find.rs:4-13 *)
Record forest := mkForest { count : Z; parent : list Z; tree_size : list Z }.

(** src/union_find.rs:17-25 new *)
Definition forest_new (n : Z) : forest :=
  mkForest n (zrange 0 n) (map (fun _ => 1) (zrange 0 n)).

(** src/union_find.rs:28-33 *)
Definition num_trees (f : forest) : Z :=
  fold_left (fun acc '(i, p) => acc + (if i =? p then 1 else 0))
            (combine (zrange 0 (zlen (parent f))) (parent f)) 0.

(** src/union_find.rs:40-50, the [loop]; fuel bounds the number of iterations *)
Fixpoint root_loop (fuel : nat) (par : list Z) (j : Z) : res (Z * list Z) :=
  match fuel with
  | O => Timeout
  | S fuel' =>
      p <- vget par j ;;
      pp <- vget par p ;;
      par' <- vset par j pp ;;
      if j =? p then Ok (j, par') else root_loop fuel' par' p
  end.

(** src/union_find.rs:37-52; the forest has [count] elements, and the loop is
    given fuel for [count] + 1 iterations *)
Definition root (f : forest) (i : Z) : res (Z * forest) :=
  assert (i <? count f) ;;;
  '(r, par) <- root_loop (S (Z.to_nat (count f))) (parent f) i ;;
  Ok (r, mkForest (count f) par (tree_size f)).

(** src/union_find.rs:56-59 *)
Definition find (f : forest) (i j : Z) : res (bool * forest) :=
  assert ((i <? count f) && (j <? count f)) ;;;
  '(p, f1) <- root f i ;;
  '(q, f2) <- root f1 j ;;
  Ok (p =? q, f2).

(** src/union_find.rs:62-80 *)
Definition union (f : forest) (i j : Z) : res forest :=
  assert ((i <? count f) && (j <? count f)) ;;;
  '(p, f1) <- root f i ;;
  '(q, f2) <- root f1 j ;;
  if p =? q then Ok f2
  else
    p_size <- vget (tree_size f2) p ;;
    q_size <- vget (tree_size f2) q ;;
    if p_size <? q_size then
      par <- vset (parent f2) p q ;;
      ts <- vset (tree_size f2) q (p_size + q_size) ;;
      Ok (mkForest (count f2) par ts)
    else
      par <- vset (parent f2) q p ;;
      ts <- vset (tree_size f2) p (p_size + q_size) ;;
      Ok (mkForest (count f2) par ts).

(** src/union_find.rs:83-107 [trees].  The HashMap is an association list. *)
Fixpoint assoc (m : list (Z * Z)) (k : Z) : option Z :=
  match m with
  | [] => None
  | (k', v) :: m' => if k' =? k then Some v else assoc m' k
  end.
Definition trees (f : forest) : res (list (list Z) * forest) :=
  '(sets, _, f') <- for_range 0 (count f) (fun i '(sets, root_sets, f) =>
    '(r, f1) <- root f i ;;
    match assoc root_sets r with
    | Some set_idx =>
        set <- vget sets set_idx ;;
        sets' <- vset sets set_idx (set ++ [i]) ;;
        Ok (sets', root_sets, f1)
    | None =>
        let idx := zlen sets in
        Ok (sets ++ [[i]], (r, idx) :: root_sets, f1)
    end) ([], [], f) ;;
  Ok (sets, f').

(** A history of calls on one forest. *)
Inductive uf_op := OpUnion (i j : Z) | OpRoot (i : Z) | OpFind (i j : Z).
Definition run_op (o : uf_op) (f : forest) : res forest :=
  match o with
  | OpUnion i j => union f i j
  | OpRoot i => '(_, f') <- root f i ;; Ok f'
  | OpFind i j => '(_, f') <- find f i j ;; Ok f'
  end.
Definition run_ops (ops : list uf_op) (f : forest) : res forest := for_each ops run_op f.
