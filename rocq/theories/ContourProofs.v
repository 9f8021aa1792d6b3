From Verif Require Import Base BaseProofs RasterProofs SuppressProofs ContourModel ContourSpec.
Local Ltac Zify.zify_post_hook ::= idtac.

(** ** Orbits of an injective function on a finite set return *)
Fixpoint iter {A} (n : nat) (f : A -> A) (a : A) : A := match n with O => a | S n => f (iter n f a) end.
Lemma iter_S {A} n (f : A -> A) a : iter n f (f a) = iter (S n) f a.
Proof. induction n as [|n IH]; [reflexivity|]. cbn [iter] in *. rewrite IH. reflexivity. Qed.
Lemma iter_add {A} n m (f : A -> A) a : iter (n + m) f a = iter n f (iter m f a).
Proof. induction n as [|n IH]; [reflexivity|]. cbn [iter Nat.add]. rewrite IH. reflexivity. Qed.

Lemma iter_inj {A} (f : A -> A) (P : A -> Prop) :
  (forall a, P a -> P (f a)) -> (forall a b, P a -> P b -> f a = f b -> a = b) ->
  forall n a b, P a -> P b -> iter n f a = iter n f b -> a = b.
Proof.
  intros HP HI. assert (HPn : forall n a, P a -> P (iter n f a)) by (induction n; cbn; auto).
  induction n as [|n IH]; intros a b Pa Pb E; [exact E|]. apply IH; auto.
Qed.

Lemma orbit_returns {A} (eqd : forall a b : A, {a = b} + {a <> b}) (f : A -> A) (P : A -> Prop) (L : list A) s :
  (forall a, P a -> In a L) -> (forall a, P a -> P (f a)) ->
  (forall a b, P a -> P b -> f a = f b -> a = b) -> P s ->
  exists n, (1 <= n <= length L)%nat /\ iter n f s = s.
Proof.
  intros HL HP HI Ps.
  assert (HPn : forall n, P (iter n f s)) by (induction n; cbn; auto).
  assert (D : (exists n, (1 <= n <= length L)%nat /\ iter n f s = s) \/
              (forall n, (1 <= n <= length L)%nat -> iter n f s <> s)).
  { induction (length L) as [|m IH]; [right; intros; lia|].
    destruct IH as [(n & Hn & E)|N]; [left; exists n; split; auto; lia|].
    destruct (eqd (iter (S m) f s) s) as [E|NE]; [left; exists (S m); split; auto; lia|].
    right. intros n Hn. destruct (Nat.eq_dec n (S m)) as [->|]; auto. apply N. lia. }
  destruct D as [D|N]; [exact D|exfalso].
  set (l := map (fun n => iter n f s) (seq 0 (length L + 1))).
  assert (ND : NoDup l).
  { unfold l. apply (NoDup_nth _ s). rewrite map_length, seq_length.
    assert (W : forall i j, (i < j < length L + 1)%nat -> iter i f s <> iter j f s).
    { intros i j Hij E. apply (N (j - i)%nat); [lia|]. symmetry. apply (iter_inj f P HP HI i); auto.
      rewrite <- iter_add. replace (i + (j - i))%nat with j by lia. exact E. }
    intros i j Hi Hj E.
    assert (NT : forall i, (i < length L + 1)%nat -> nth i (map (fun n => iter n f s) (seq 0 (length L + 1))) s = iter i f s).
    { intros m Hm. change s with (iter 0 f s) at 2. rewrite (map_nth (fun n => iter n f s)), seq_nth by lia. reflexivity. }
    rewrite !NT in E by lia.
    destruct (lt_eq_lt_dec i j) as [[Hl|]|Hl]; auto; exfalso.
    - apply (W i j); auto; lia.
    - apply (W j i); auto; lia. }
  assert (IN : incl l L). { intros a Ha. apply in_map_iff in Ha as (n & <- & _). auto. }
  pose proof (NoDup_incl_length ND IN) as Q. unfold l in Q. rewrite map_length, seq_length in Q. lia.
Qed.

(** ** Directions *)
Definition dir (k : Z) : Z * Z := nth (Z.to_nat (k mod 8)) diffs0 (0, 0).
Definition rotk (k : Z) : list (Z * Z) := map (fun i => dir (k + i)) (zrange 0 8).

Lemma mod8_cases k : exists r, 0 <= r < 8 /\ k mod 8 = r.
Proof. exists (k mod 8). split; auto. apply Z.mod_pos_bound. lia. Qed.
Lemma dir_mod k : dir (k mod 8) = dir k.
Proof. unfold dir. rewrite Z.mod_mod by lia. reflexivity. Qed.
Lemma dir_congr a b : a mod 8 = b mod 8 -> dir a = dir b.
Proof. intros H. unfold dir. rewrite H. reflexivity. Qed.
Lemma rotk_congr a b : a mod 8 = b mod 8 -> rotk a = rotk b.
Proof.
  intros H. unfold rotk. apply map_ext. intros i. apply dir_congr.
  rewrite (Z.add_mod a), (Z.add_mod b), H by lia. reflexivity.
Qed.
Ltac eight k := let r := fresh "r" in let Hr := fresh "Hr" in let E := fresh "E" in
  destruct (mod8_cases k) as (r & Hr & E);
  assert (r = 0 \/ r = 1 \/ r = 2 \/ r = 3 \/ r = 4 \/ r = 5 \/ r = 6 \/ r = 7) as [->|[->|[->|[->|[->|[->|[->| ->]]]]]]] by lia.

Lemma dir_opposite k : dir (k + 4) = (- fst (dir k), - snd (dir k)).
Proof. rewrite (dir_congr (k + 4) ((k mod 8) + 4)) by (rewrite Zplus_mod_idemp_l; auto). rewrite <- (dir_mod k).
  eight k; rewrite E; reflexivity. Qed.
Lemma dir_neq0 k : dir k <> (0, 0) /\ Z.abs (fst (dir k)) <= 1 /\ Z.abs (snd (dir k)) <= 1.
Proof. rewrite <- (dir_mod k). eight k; rewrite E; vm_compute; splits; congruence. Qed.
Lemma dir_inj a b : dir a = dir b -> a mod 8 = b mod 8.
Proof.
  rewrite <- (dir_mod a), <- (dir_mod b). destruct (mod8_cases b) as (s & Hs & Es). rewrite Es.
  assert (s = 0 \/ s = 1 \/ s = 2 \/ s = 3 \/ s = 4 \/ s = 5 \/ s = 6 \/ s = 7) as C by lia.
  eight a; rewrite E; intros D; destruct C as [->|[->|[->|[->|[->|[->|[->| ->]]]]]]]; vm_compute in D; congruence.
Qed.
Lemma dir_cover d : d <> (0, 0) -> Z.abs (fst d) <= 1 -> Z.abs (snd d) <= 1 -> exists k, 0 <= k < 8 /\ dir k = d.
Proof.
  destruct d as (a & b); cbn [fst snd]; intros N Ha Hb.
  assert (a = -1 \/ a = 0 \/ a = 1) as [->|[->| ->]] by lia;
  assert (b = -1 \/ b = 0 \/ b = 1) as [->|[->| ->]] by lia; try congruence;
  [exists 1|exists 0|exists 7|exists 2|exists 6|exists 3|exists 4|exists 5]; split; try lia; reflexivity.
Qed.

(** the deque is always a rotation of the initial one *)
Definition is_rot (l : list (Z * Z)) : Prop := exists k, 0 <= k < 8 /\ l = rotk k.
Lemma rotate_ok l k : is_rot l -> rotate_to_value l (dir k) = Ok (rotk k).
Proof.
  intros (a & Ha & ->). rewrite <- (dir_mod k), <- (rotk_congr (k mod 8) k) by (rewrite Z.mod_mod by lia; auto).
  assert (C : a = 0 \/ a = 1 \/ a = 2 \/ a = 3 \/ a = 4 \/ a = 5 \/ a = 6 \/ a = 7) by lia.
  eight k; rewrite E; destruct C as [->|[->|[->|[->|[->|[->|[->| ->]]]]]]]; reflexivity.
Qed.
Lemma is_rot_rotk k : is_rot (rotk k).
Proof.
  exists (k mod 8). split; [apply Z.mod_pos_bound; lia|]. apply rotk_congr. rewrite Z.mod_mod by lia. reflexivity.
Qed.
Lemma rev_rotk k : rev (rotk k) = map (fun j => dir (k - j)) (zrange 1 9).
Proof.
  unfold rotk. change (zrange 0 8) with [0;1;2;3;4;5;6;7]. change (zrange 1 9) with [1;2;3;4;5;6;7;8].
  cbn [map rev app].
  assert (Q : forall i, dir (k - (8 - i)) = dir (k + i)).
  { intros i. apply dir_congr. replace (k - (8 - i)) with (k + i + (-1) * 8) by lia. apply Z.mod_add. lia. }
  rewrite <- !Q. reflexivity.
Qed.

(** ** First foreground pixel in a list of directions *)
Section Fg.
  Variable fg : Z * Z -> bool.
  Fixpoint first (g : Z -> Z * Z) (l : list Z) : option Z :=
    match l with [] => None | j :: l => if fg (g j) then Some j else first g l end.
  Definition shows (vals : image Z) : Prop := forall p, nz vals p = if fg p then Some p else None.

  Lemma find_nz_first vals p (d : Z -> Z * Z) l : shows vals ->
    find_nz vals p (map d l) = option_map (fun j => padd p (d j)) (first (fun j => padd p (d j)) l).
  Proof.
    intros S. induction l as [|j l IH]; [reflexivity|]. cbn [map find_nz first]. rewrite S.
    destruct (fg (padd p (d j))); auto.
  Qed.
  Lemma first_zrange g lo hi : lo <= hi ->
    match first g (zrange lo hi) with
    | Some j => lo <= j < hi /\ fg (g j) = true /\ forall i, lo <= i < j -> fg (g i) = false
    | None => forall i, lo <= i < hi -> fg (g i) = false
    end.
  Proof.
    intros H. remember (Z.to_nat (hi - lo)) as n eqn:En. revert lo H En.
    induction n as [|n IH]; intros lo H En.
    - rewrite zrange_empty by lia. cbn. intros; lia.
    - rewrite zrange_cons by lia. cbn [first]. destruct (fg (g lo)) eqn:E.
      + splits; auto; try lia.
      + specialize (IH (lo + 1) ltac:(lia) ltac:(lia)). destruct (first g (zrange (lo + 1) hi)) as [j|].
        * destruct IH as (I1 & I2 & I3). splits; auto; try lia. intros i Hi.
          destruct (Z.eq_dec i lo) as [->|]; auto. apply I3. lia.
        * intros i Hi. destruct (Z.eq_dec i lo) as [->|]; auto. apply IH. lia.
  Qed.

  (** ** The step of border following on (position, direction of the previous one) *)
  Definition nextj (p : Z * Z) (k : Z) : Z :=
    match first (fun j => padd p (dir (k - j))) (zrange 1 9) with Some j => j | None => 8 end.
  Definition step (s : Z * Z * Z) : Z * Z * Z :=
    let '(p, k) := s in
    let j := nextj p k in (padd p (dir (k - j)), (k - j + 4) mod 8).
  Definition okst (s : Z * Z * Z) : Prop :=
    let '(p, k) := s in 0 <= k < 8 /\ fg p = true /\ fg (padd p (dir k)) = true.

  Lemma nextj_ok p k : fg (padd p (dir k)) = true ->
    first (fun j => padd p (dir (k - j))) (zrange 1 9) = Some (nextj p k) /\
    1 <= nextj p k <= 8 /\ fg (padd p (dir (k - nextj p k))) = true /\
    forall i, 1 <= i < nextj p k -> fg (padd p (dir (k - i))) = false.
  Proof.
    intros F. unfold nextj. pose proof (first_zrange (fun j => padd p (dir (k - j))) 1 9 ltac:(lia)) as Q.
    cbv beta in Q. destruct (first (fun j => padd p (dir (k - j))) (zrange 1 9)) as [j|].
    - destruct Q as (Q1 & Q2 & Q3). splits; auto; lia.
    - specialize (Q 8 ltac:(lia)). rewrite (dir_congr (k - 8) k) in Q; [congruence|].
      replace (k - 8) with (k + (-1) * 8) by lia. apply Z.mod_add. lia.
  Qed.

  Lemma padd_back p k : padd (padd p (dir k)) (dir (k + 4)) = p.
  Proof. rewrite dir_opposite. destruct p as (a & b). unfold padd. cbn [fst snd]. f_equal; lia. Qed.

  Lemma step_ok s : okst s -> okst (step s).
  Proof.
    destruct s as (p & k). intros (Hk & F1 & F2). unfold step, okst.
    destruct (nextj_ok p k F2) as (_ & _ & F3 & _). splits; auto; try (apply Z.mod_pos_bound; lia).
    rewrite dir_mod, padd_back. auto.
  Qed.

  Lemma step_inj a b : okst a -> okst b -> step a = step b -> a = b.
  Proof.
    destruct a as (p & k), b as (q & l). intros (Hk & F1 & F2) (Hl & G1 & G2). unfold step.
    destruct (nextj_ok p k F2) as (_ & J1 & F3 & F4). destruct (nextj_ok q l G2) as (_ & K1 & G3 & G4).
    set (i := nextj p k) in *. set (j := nextj q l) in *.
    intros E. assert (Ep := f_equal fst E). assert (Ed := f_equal snd E). cbn [fst snd] in Ep, Ed.
    assert (DD : dir (k - i + 4) = dir (l - j + 4)) by (apply dir_congr; auto).
    assert (EQ : p = q).
    { rewrite <- (padd_back p (k - i)), <- (padd_back q (l - j)). rewrite Ep, DD. reflexivity. }
    subst q. f_equal.
    assert (M : (k - i) mod 8 = (l - j) mod 8).
    { apply dir_inj. assert (dir (k - i + 4 + 4) = dir (l - j + 4 + 4)) as DD2 by (rewrite !(dir_opposite (_ + 4)), DD; reflexivity).
      rewrite (dir_congr (k - i) (k - i + 4 + 4)), (dir_congr (l - j) (l - j + 4 + 4)); auto.
      - replace (l - j + 4 + 4) with (l - j + 1 * 8) by lia. rewrite Z.mod_add by lia. auto.
      - replace (k - i + 4 + 4) with (k - i + 1 * 8) by lia. rewrite Z.mod_add by lia. auto. }
    assert (G : forall c d, (k - i) mod 8 = (l - j) mod 8 -> c - d = 0 \/ True) by auto. clear G.
    assert (C1 : forall n, (k - i + n) mod 8 = (l - j + n) mod 8).
    { intros n. rewrite (Z.add_mod (k - i)), (Z.add_mod (l - j)), M by lia. reflexivity. }
    destruct (Z_lt_le_dec i j) as [L|L]; [|destruct (Z_lt_le_dec j i) as [L2|L2]].
    - exfalso. specialize (G4 (j - i) ltac:(lia)). rewrite (dir_congr (l - (j - i)) k) in G4; [congruence|].
      replace (l - (j - i)) with (l - j + i) by lia. rewrite <- C1. f_equal. lia.
    - exfalso. specialize (F4 (i - j) ltac:(lia)). rewrite (dir_congr (k - (i - j)) l) in F4; [congruence|].
      replace (k - (i - j)) with (k - i + j) by lia. rewrite C1. f_equal. lia.
    - assert (i = j) as Eij by lia. specialize (C1 i). rewrite Eij in C1 at 2 3. rewrite Eij in C1 at 1.
      replace (k - j + j) with k in C1 by lia. replace (l - j + j) with l in C1 by lia.
      rewrite !Z.mod_small in C1 by lia. auto.
  Qed.

  Variables (w h : Z).
  Hypothesis fg_in : forall p, fg p = true -> 0 <= fst p < w /\ 0 <= snd p < h.

  Lemma step_returns s : okst s -> exists n, (1 <= n)%nat /\ Z.of_nat n <= 8 * (w * h) /\ iter n step s = s.
  Proof.
    intros H.
    set (L := flat_map (fun y => flat_map (fun x => map (fun k => ((x, y), k)) (zrange 0 8)) (zrange 0 w)) (zrange 0 h)).
    destruct (orbit_returns (fun a b : Z * Z * Z => ltac:(repeat decide equality)) step okst L s) as (n & Hn & E); auto.
    - intros ((x & y) & k) (Hk & F & _). apply fg_in in F. cbn [fst snd] in F. unfold L.
      apply in_flat_map. exists y. split; [apply in_zrange; lia|]. apply in_flat_map. exists x. split; [apply in_zrange; lia|].
      apply in_map_iff. exists k. split; auto. apply in_zrange; lia.
    - apply step_ok.
    - apply step_inj.
    - exists n. splits; auto; try lia.
      assert (LEN : Z.of_nat (length L) = 8 * (w * h)).
      { assert (WH : 0 <= w /\ 0 <= h) by (destruct s as (p & k), H as (_ & F & _); apply fg_in in F; lia).
        assert (CL : forall {X Y} (f : X -> list Y) l c, (forall x, In x l -> Z.of_nat (length (f x)) = c) -> Z.of_nat (length (flat_map f l)) = c * Z.of_nat (length l)).
        { intros X Y f l c. induction l as [|x l IH]; intros Hc; cbn [flat_map length]; [lia|].
          rewrite app_length, Nat2Z.inj_add, IH by (intros; apply Hc; right; auto). rewrite Hc by (left; auto). lia. }
        unfold L. rewrite (CL _ _ _ _ (8 * w)).
        - rewrite zrange_length. nia.
        - intros y _. rewrite (CL _ _ _ _ 8).
          + rewrite zrange_length. nia.
          + intros x _. rewrite map_length. reflexivity. }
      lia.
  Qed.
End Fg.
