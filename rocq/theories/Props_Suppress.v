(** C39, C40: non-maximum suppression. *)
From Coq Require Import Permutation Sorted.
From Verif Require Import Base BaseProofs SuppressModel SuppressSpec SuppressProofs MaximaProofs.

(** ** C39.  [is_local_max im r x y v] (SuppressSpec.v): no pixel within
    Chebyshev distance r of (x, y) is greater than v, or equal and
    lexicographically smaller in (x, y).  The size bounds exclude u32 overflow
    of x + radius + 1. *)
Theorem c39_suppress_non_maximum : forall (im : image Z) r,
  wf im -> 0 <= r -> iw im + r < 2 ^ 32 -> ih im + r < 2 ^ 32 ->
  exists out, suppress_non_maximum im r = Ok out /\ wf out /\ iw out = iw im /\ ih out = ih im /\
    forall x y v, get im x y = Some v ->
      (is_local_max im r x y v -> get out x y = Some v) /\
      (~ is_local_max im r x y v -> get out x y = Some 0).
Proof. exact suppress_ok. Qed.

Example c39_nontrivial :
  let im := mkImage 5 3 [7;0;0;0;9;  0;0;8;0;0;  0;0;0;0;9] in
  wf im /\ suppress_non_maximum im 1 = Ok (mkImage 5 3 [7;0;0;0;9; 0;0;8;0;0; 0;0;0;0;9]) /\
  suppress_non_maximum im 2 = Ok (mkImage 5 3 [0;0;0;0;9; 0;0;0;0;0; 0;0;0;0;0]).
Proof. cbv zeta. split; [|split; vm_compute; reflexivity]. vm_compute. intuition congruence. Qed.

(** ** C40.  [item_preferred slt c t] (SuppressSpec.v): c has the greater score,
    or not a smaller one and lexicographically smaller (y, x). *)
Definition c40_statement : Prop :=
  forall S (slt : S -> S -> bool) (ts : list (item S)) r, 0 <= r ->
  (forall t, In t ts -> 0 <= px t /\ px t + r < 2 ^ 32 /\ 0 <= py t /\ py t + r + 1 < 2 ^ 32) ->
  exists out, local_maxima slt ts r = Ok out /\
    forall t, In t ts ->
      (In t out <-> forall c, In c ts -> in_block r (px t) (py t) (px c) (py c) -> ~ item_preferred slt c t).

(** The last row of items is never searched. *)
Definition c40_items : list (item Z) := [mkItem 0 0 1; mkItem 1 0 2].
Theorem c40_local_maxima_refuted : ~ c40_statement.
Proof.
  intros H. destruct (H Z Z.ltb c40_items 1) as (out & E & K); [lia| |].
  { intros t [<-|[<-|[]]]; cbn; lia. }
  assert (Eo : local_maxima Z.ltb c40_items 1 = Ok c40_items) by (vm_compute; reflexivity).
  rewrite Eo in E. injection E as <-.
  apply (proj1 (K (mkItem 0 0 1) (or_introl eq_refl)) (or_introl eq_refl) (mkItem 1 0 2)).
  - right. left. reflexivity.
  - cbn. unfold in_block. lia.
  - left. reflexivity.
Qed.

(** What holds: the result is sorted by (y, x), keeps multiplicities, and t is
    kept iff every item preferred to t in its block lies in the bottom row of
    the input. *)
Theorem c40_local_maxima_partial :
  forall S (slt : S -> S -> bool) (ts : list (item S)) r, 0 <= r ->
  (forall t, In t ts -> 0 <= px t /\ px t + r < 2 ^ 32 /\ 0 <= py t /\ py t + r + 1 < 2 ^ 32) ->
  exists out (keep : item S -> bool), local_maxima slt ts r = Ok out /\
    Permutation out (filter keep ts) /\
    StronglySorted (fun a b => py a < py b \/ (py a = py b /\ px a <= px b)) out /\
    forall t, In t ts ->
      (keep t = true <->
       forall c, In c ts -> in_block r (px t) (py t) (px c) (py c) -> item_preferred slt c t ->
         forall d, In d ts -> py d <= py c).
Proof.
  intros S slt ts r Hr HB.
  exists (filter (keepb slt r (sort_items ts)) (sort_items ts)), (keepb slt r (sort_items ts)).
  split; [apply local_maxima_ok; auto|].
  pose proof (sort_items_perm ts) as PM. pose proof (sort_items_sorted ts) as SS.
  split.
  { symmetry. clear -PM. revert PM. generalize (keepb slt r (sort_items ts)) as k.
    generalize (sort_items ts) as l. intros l k PM. induction PM; cbn [filter]; auto.
    - destruct (k x); auto.
    - destruct (k x), (k y); auto. constructor.
    - etransitivity; eauto. }
  split.
  { clear -SS. revert SS. generalize (keepb slt r (sort_items ts)) as k.
    generalize (sort_items ts) as l. intros l k SS. induction SS as [|a l SS IH HF]; cbn [filter]; [constructor|].
    destruct (k a); auto. constructor; auto. rewrite Forall_forall in *.
    intros x Hx. apply filter_In in Hx as (Hx & _). apply HF. exact Hx. }
  intros t Ht. unfold keepb. rewrite forallb_forall. split.
  - intros K c Hc (Bx & By) Pc d Hd.
    specialize (K c (Permutation_in _ PM Hc)). apply negb_true_iff in K.
    apply Permutation_in with (1 := PM) in Hd. pose proof (bottom_max _ SS d Hd) as D.
    destruct (Z_lt_dec (py c) (bottom (sort_items ts))) as [L|L]; [|lia].
    exfalso. rewrite (proj2 (Z.leb_le _ _)) in K by lia. rewrite (proj2 (Z.ltb_lt _ _)) in K by lia.
    cbn [andb] in K. unfold bad in K. rewrite (proj2 (Z.leb_le _ _)) in K by lia. cbn [andb] in K.
    apply orb_false_iff in K as (K1 & K2). destruct Pc as [P|(P & Q)]; [congruence|].
    rewrite P in K2. cbn [negb andb] in K2. apply lex_lt_spec in Q. congruence.
  - intros K c Hc. apply Permutation_in with (1 := Permutation_sym PM) in Hc.
    apply negb_true_iff. apply andb_false_iff.
    destruct (Z.leb_spec (Z.abs (py c - py t)) r); [|left; reflexivity].
    destruct (Z.ltb_spec (py c) (bottom (sort_items ts))); [|left; reflexivity]. right.
    apply not_true_iff_false. intros Bd. unfold bad in Bd.
    apply andb_true_iff in Bd as (B1 & B2). apply Z.leb_le in B1.
    destruct (bottom_in (sort_items ts)) as (d & Hd & Ed).
    { intros En. rewrite En in PM. symmetry in PM. apply Permutation_nil in PM. subst. destruct Ht. }
    apply Permutation_in with (1 := Permutation_sym PM) in Hd.
    assert (py d <= py c); [|lia]. apply (K c); auto; [split; auto|].
    apply orb_true_iff in B2 as [B2|B2]; [left; auto|]. apply andb_true_iff in B2 as (B2 & B3).
    right. apply negb_true_iff in B2. apply lex_lt_spec in B3. auto.
Qed.

Example c40_nontrivial :
  local_maxima Z.ltb [mkItem 5 1 4; mkItem 0 0 1; mkItem 1 0 2; mkItem 9 3 1] 1
    = Ok [mkItem 1 0 2; mkItem 5 1 4; mkItem 9 3 1].
Proof. vm_compute. reflexivity. Qed.

Print Assumptions c39_suppress_non_maximum.
Print Assumptions c40_local_maxima_refuted.
Print Assumptions c40_local_maxima_partial.
