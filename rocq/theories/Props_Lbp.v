(** C50, C51: local binary patterns. *)
From Verif Require Import Base BaseProofs LbpModel LbpSpec.
Local Ltac Zify.zify_post_hook ::= idtac.

(** ** C50.  The n-th bit, counted from the most, and from the least, significant one *)
Definition msb (n b : Z) : bool := Z.testbit b (7 - n).
Definition lsb (n b : Z) : bool := Z.testbit b n.

Definition c50_statement (bit : Z -> Z -> bool) : Prop := forall im x y,
  wf im -> 0 <= x -> 0 <= y ->
  (~ interior im x y -> local_binary_pattern im x y = Ok None) /\
  (interior im x y -> exists b, local_binary_pattern im x y = Ok (Some b) /\ 0 <= b < 256 /\
    forall n, 0 <= n < 8 -> (bit n b = true <-> brighter im x y n)).

(** The documentation says "nth most significant bit"; the code sets the nth
    least significant one. *)
Theorem c50_documented_order_refuted : ~ c50_statement msb.
Proof.
  intros H. destruct (H (mkImage 3 3 [1; 0; 1; 1; 1; 1; 1; 1; 1]) 1 1) as [_ G]; try lia.
  - split; [|split]; cbn; lia.
  - destruct G as (b & E & _ & G); [split; cbn; lia|].
    assert (Eb : local_binary_pattern (mkImage 3 3 [1; 0; 1; 1; 1; 1; 1; 1; 1]) 1 1 = Ok (Some 1)) by (vm_compute; reflexivity).
    rewrite Eb in E. injection E as <-. destruct (G 7 ltac:(lia)) as [Q _].
    destruct (Q eq_refl) as (c & v & E1 & E2 & L). vm_compute in E1, E2. injection E1 as <-. injection E2 as <-. lia.
Qed.
Print Assumptions c50_documented_order_refuted.

Lemma lbp_bits c l : zlen l = 8 -> exists b, for_range 0 8 (fun i pattern =>
       n <- vget l i ;; Ok (Z.lor pattern (Z.shiftl (if n <? c then 1 else 0) i))) 0 = Ok b /\
  0 <= b < 256 /\ forall n, 0 <= n < 8 -> exists v, znth l n = Some v /\ Z.testbit b n = (v <? c).
Proof.
  intros L.
  destruct (for_range_ind (fun i b => 0 <= b /\ (forall n, i <= n -> Z.testbit b n = false) /\
    forall n, 0 <= n < i -> exists v, znth l n = Some v /\ Z.testbit b n = (v <? c)) 0 8
    (fun i pattern => n <- vget l i ;; Ok (Z.lor pattern (Z.shiftl (if n <? c then 1 else 0) i))) 0) as (b & E & H0 & H1 & H2).
  - lia.
  - split; [lia|]. split; [intros; apply Z.testbit_0_l|intros; lia].
  - intros i b Hi (H0 & H1 & H2). destruct (znth_some l i) as (v & Ev); [lia|].
    rewrite (proj2 (vget_ok l i v) Ev). cbn [bind]. eexists. split; [reflexivity|].
    assert (P : 0 <= Z.shiftl (if v <? c then 1 else 0) i) by (apply Z.shiftl_nonneg; destruct (v <? c); lia).
    assert (T : forall n, 0 <= n -> Z.testbit (Z.lor b (Z.shiftl (if v <? c then 1 else 0) i)) n = Z.testbit b n || ((n =? i) && (v <? c))).
    { intros n Hn. rewrite Z.lor_spec, Z.shiftl_spec by lia. f_equal.
      destruct (Z.eqb_spec n i) as [->|N].
      - rewrite Z.sub_diag. now destruct (v <? c).
      - destruct (Z_lt_dec n i); [now rewrite Z.testbit_neg_r by lia|].
        destruct (v <? c); [|apply Z.testbit_0_l]. change 1 with (2 ^ 0). rewrite Z.pow2_bits_eqb by lia.
        now destruct (Z.eqb_spec 0 (n - i)); [lia|]. }
    split; [now apply Z.lor_nonneg|]. split.
    + intros n Hn. rewrite T, H1 by lia. now destruct (Z.eqb_spec n i); [lia|].
    + intros n Hn. destruct (Z.eq_dec n i) as [->|N].
      * exists v. split; auto. rewrite T, H1, Z.eqb_refl by lia. reflexivity.
      * destruct (H2 n) as (w & Ew & Eb); [lia|]. exists w. split; auto. rewrite T, Eb by lia.
        destruct (Z.eqb_spec n i); [lia|]. now rewrite orb_false_r.
  - exists b. split; [exact E|]. split; [|exact H2]. split; [exact H0|].
    destruct (Z_lt_dec b (2 ^ 8)) as [|G]; [auto|]. exfalso.
    assert (0 < b) by lia. assert (L8 : 8 <= Z.log2 b) by (apply Z.log2_le_pow2; lia).
    pose proof (Z.bit_log2 b ltac:(lia)) as B. rewrite H1 in B by lia. discriminate.
Qed.

(** Proved: the same statement with least significant bits. *)
Theorem c50_local_binary_pattern_partial : c50_statement lsb.
Proof.
  intros im x y W Hx Hy. pose proof W as (W1 & W2 & _). split.
  - intros N. unfold local_binary_pattern. unfold interior in N.
    destruct ((iw im =? 0) || (ih im =? 0)) eqn:E1; [reflexivity|].
    destruct ((x =? 0) || (iw im - 1 <=? x) || (y =? 0) || (ih im - 1 <=? y)) eqn:E2; [reflexivity|]. exfalso. lia.
  - intros [I1 I2]. unfold local_binary_pattern.
    destruct ((iw im =? 0) || (ih im =? 0)) eqn:E1; [lia|].
    destruct ((x =? 0) || (iw im - 1 <=? x) || (y =? 0) || (ih im - 1 <=? y)) eqn:E2; [lia|].
    destruct (get_some im x y W ltac:(lia) ltac:(lia)) as (c & Ec).
    rewrite (proj2 (get_pixel_ok im x y c) Ec). cbn [bind].
    set (offs := [(0, -1); (1, -1); (1, 0); (1, 1); (0, 1); (-1, 1); (-1, 0); (-1, -1)]).
    assert (Ho : forall n, 0 <= n < 8 -> znth offs n = Some (neighbour n)).
    { intros n Hn. assert (n = 0 \/ n = 1 \/ n = 2 \/ n = 3 \/ n = 4 \/ n = 5 \/ n = 6 \/ n = 7) by lia.
      intuition; subst; reflexivity. }
    assert (Hn : forall n, -1 <= fst (neighbour n) <= 1 /\ -1 <= snd (neighbour n) <= 1).
    { intros n. unfold neighbour. repeat (match goal with |- context[if ?b then _ else _] => destruct b end); cbn [fst snd]; lia. }
    set (g := fun '(dx, dy) => match get im (x + dx) (y + dy) with Some v => v | None => 0 end).
    assert (Hg : forall n, 0 <= n < 8 -> get im (x + fst (neighbour n)) (y + snd (neighbour n)) = Some (g (neighbour n))).
    { intros n R. specialize (Hn n). unfold g. destruct (neighbour n) as [dx dy]. cbn [fst snd] in *.
      destruct (get_some im (x + dx) (y + dy) W ltac:(lia) ltac:(lia)) as (v & ->). reflexivity. }
    rewrite (mapM_ok _ g).
    2: { intros o Hi. apply In_znth in Hi. destruct Hi as (n & R & En). change (zlen offs) with 8 in R. rewrite Ho in En by auto.
      injection En as <-. specialize (Hg n R). destruct (neighbour n) as [dx dy]. now apply get_pixel_ok. }
    cbn [bind].
    destruct (lbp_bits c (map g offs) eq_refl) as (b & -> & Hb & Hbits). cbn [bind].
    exists b. split; [reflexivity|]. split; [exact Hb|]. intros n R.
    destruct (Hbits n R) as (v & Ev & Eb). unfold lsb. rewrite Eb.
    assert (Gv : get im (x + fst (neighbour n)) (y + snd (neighbour n)) = Some v).
    { rewrite Hg by auto. rewrite znth_map, Ho in Ev by auto. exact Ev. }
    unfold brighter. rewrite Gv, Ec. split.
    + intros L. exists c, v. splits; auto. lia.
    + intros (c' & v' & A & B & L). injection A as <-. injection B as <-. lia.
Qed.
Print Assumptions c50_local_binary_pattern_partial.

Example c50_nontrivial :
  local_binary_pattern (mkImage 3 3 [6; 11; 14; 9; 10; 10; 19; 0; 22]) 1 1 = Ok (Some 208) /\
  local_binary_pattern (mkImage 3 3 [6; 11; 14; 9; 10; 10; 19; 0; 22]) 2 1 = Ok None.
Proof. vm_compute. auto. Qed.

(** ** C51 The tables, for each of the 256 bytes. *)
Definition least_rotationb (b m : Z) : bool :=
  existsb (fun k => m =? rotation k b) (zrange 0 8) && forallb (fun k => m <=? rotation k b) (zrange 0 8).
Lemma least_rotationb_ok b m : least_rotationb b m = true -> least_rotation b m.
Proof.
  unfold least_rotationb. intros H. apply andb_prop in H. destruct H as [H1 H2]. split.
  - apply existsb_exists in H1. destruct H1 as (k & Hk & E). apply in_zrange in Hk. exists k. split; lia.
  - intros k Hk. rewrite forallb_forall in H2. specialize (H2 k). rewrite in_zrange in H2. specialize (H2 Hk). lia.
Qed.
Lemma bytes (P : Z -> bool) : forallb P (zrange 0 256) = true -> forall b, 0 <= b < 256 -> P b = true.
Proof. intros H b Hb. rewrite forallb_forall in H. apply H. now apply in_zrange. Qed.

Theorem c51_min_shift : forall b, 0 <= b < 256 -> least_rotation b (min_shift b) /\ znth MIN_SHIFT b = Some (min_shift b).
Proof.
  intros b Hb. split.
  - apply least_rotationb_ok. revert b Hb. apply bytes. vm_compute. reflexivity.
  - assert (H : match znth MIN_SHIFT b with Some m => m =? min_shift b | None => false end = true).
    { revert b Hb. apply bytes. vm_compute. reflexivity. }
    destruct (znth MIN_SHIFT b); [|discriminate]. f_equal. lia.
Qed.
Print Assumptions c51_min_shift.

Theorem c51_count_transitions : forall b, 0 <= b < 256 -> count_transitions b = transitions b.
Proof.
  intros b Hb. assert (H : (count_transitions b =? transitions b) = true) by (revert b Hb; apply bytes; vm_compute; reflexivity). lia.
Qed.
Print Assumptions c51_count_transitions.

Theorem c51_uniform_table : forall b, 0 <= b < 256 -> exists m, znth UNIFORM_REPRESENTATIVE_2 b = Some m /\
  (transitions b <= 2 -> least_rotation b m) /\ (2 < transitions b -> m = 170).
Proof.
  intros b Hb.
  assert (H : match znth UNIFORM_REPRESENTATIVE_2 b with
    | Some m => if transitions b <=? 2 then least_rotationb b m else m =? 170 | None => false end = true).
  { revert b Hb. apply bytes. vm_compute. reflexivity. }
  destruct (znth UNIFORM_REPRESENTATIVE_2 b) as [m|]; [|discriminate]. exists m. split; [reflexivity|].
  destruct (Z.leb_spec (transitions b) 2); split; try lia. intros _. now apply least_rotationb_ok.
Qed.
Print Assumptions c51_uniform_table.

Example c51_nontrivial : min_shift 180 = 45 /\ transitions 178 = 6 /\ znth UNIFORM_REPRESENTATIVE_2 6 = Some 3.
Proof. vm_compute. auto. Qed.
