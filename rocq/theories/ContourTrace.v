From Verif Require Import Base BaseProofs RasterProofs SuppressProofs ContourModel ContourSpec ContourProofs.
Local Ltac Zify.zify_post_hook ::= idtac.

Lemma peq_spec a b : peq a b = true <-> a = b.
Proof.
  destruct a as (a1 & a2), b as (b1 & b2). unfold peq. cbn [fst snd]. rewrite andb_true_iff, !Z.eqb_eq.
  split; [intros (-> & ->); auto|intros E; inversion E; auto].
Qed.
Lemma padd_dir_neighbours p k : neighbours p (padd p (dir k)).
Proof.
  destruct (dir_neq0 k) as (N & A & B). destruct p as (x & y). destruct (dir k) as (a & b).
  unfold neighbours, padd. cbn [fst snd] in *. splits; try lia.
  intros E. apply N. inversion E. f_equal; lia.
Qed.
Lemma psub_padd p d : psub (padd p d) p = d.
Proof. destruct p, d. unfold psub, padd. cbn [fst snd]. f_equal; lia. Qed.

Section Trace.
  Variables (fg : Z * Z -> bool) (w h : Z).
  Hypothesis fg_in : forall p, fg p = true -> 0 <= fst p < w /\ 0 <= snd p < h.

  Definition good (vals : image Z) (num : Z) : Prop :=
    wf vals /\ iw vals = w /\ ih vals = h /\ shows fg vals /\
    forall x y v, get vals x y = Some v -> Z.abs v <= num.
  Definition same_off (pts : list (Z * Z)) (vals vals' : image Z) : Prop :=
    forall p, ~ In p pts -> get vals' (fst p) (snd p) = get vals (fst p) (snd p).

  Lemma good_get vals num p : good vals num -> fg p = true ->
    exists v, get_pixel vals (fst p) (snd p) = Ok v /\ get vals (fst p) (snd p) = Some v /\ v <> 0.
  Proof.
    intros (W & Ew & Eh & S & _) F. pose proof (fg_in p F). destruct (get_some vals (fst p) (snd p)) as (v & E); auto; try lia.
    exists v. splits; auto. apply get_pixel_ok; auto.
    specialize (S p). unfold nz in S. rewrite E, F in S. destruct (Z.eqb_spec v 0); [discriminate|auto].
  Qed.
  Lemma good_put vals num p v : good vals num -> fg p = true -> v <> 0 -> Z.abs v <= num ->
    exists vals', put_pixel vals (fst p) (snd p) v = Ok vals' /\ good vals' num /\ same_off [p] vals vals'.
  Proof.
    intros (W & Ew & Eh & S & B) F N Bv. pose proof (fg_in p F). rewrite put_pixel_ok by lia.
    eexists. split; [reflexivity|].
    assert (SO : same_off [p] vals (put vals (fst p) (snd p) v)).
    { intros q Hq. rewrite get_put by (auto; lia).
      destruct (Z.eqb_spec (fst q) (fst p)), (Z.eqb_spec (snd q) (snd p)); cbn [andb]; auto.
      exfalso. apply Hq. left. destruct p, q; cbn in *; subst; auto. }
    split; [|exact SO]. unfold good. splits; [apply wf_put; auto|rewrite iw_put; auto|rewrite ih_put; auto| |].
    - intros q. unfold nz. rewrite get_put by (auto; lia).
      destruct (Z.eqb_spec (fst q) (fst p)) as [E1|], (Z.eqb_spec (snd q) (snd p)) as [E2|]; cbn [andb]; try (apply S).
      assert (q = p) as -> by (destruct p, q; cbn in *; subst; auto).
      rewrite (proj2 (Z.eqb_neq v 0)) by auto. rewrite F. reflexivity.
    - intros x y u. rewrite get_put by (auto; lia). destruct ((x =? fst p) && (y =? snd p)); [intros E; inversion E; lia|apply B].
  Qed.

  Variable tmax : Z.
  Hypothesis Htw : w - 1 <= tmax.
  Hypothesis Hth : h - 1 <= tmax.
  Lemma cast_ok p : fg p = true -> cast_t tmax p = Ok p.
  Proof.
    intros H. apply fg_in in H. unfold cast_t. rewrite (proj2 (Z.leb_le (fst p) tmax)), (proj2 (Z.leb_le (snd p) tmax)) by lia.
    reflexivity.
  Qed.
  Lemma same_off_trans a b u v t : same_off a u v -> same_off b v t -> same_off (a ++ b) u t.
  Proof.
    intros H1 H2 p Hp. rewrite H2, H1; auto; intros I; apply Hp; apply in_or_app; auto.
  Qed.

  Variables (num : Z) (curr : Z * Z) (k1 : Z).
  Hypothesis Hnum : 2 <= num.
  Hypothesis S0 : okst fg (curr, k1).

  Lemma trace_ok : forall n fuel p k vals diffs pts,
    okst fg (p, k) -> iter n (step fg) (p, k) = (curr, k1) -> (1 <= n <= fuel)%nat ->
    good vals num -> is_rot diffs ->
    exists vals' diffs' pts',
      trace fuel tmax num curr (padd curr (dir k1)) (padd p (dir k)) p vals diffs pts = Ok (vals', diffs', pts ++ pts') /\
      good vals' num /\ is_rot diffs' /\ hd_error pts' = Some p /\
      (forall q, In q pts' -> fg q = true) /\ chain pts' curr /\ same_off pts' vals vals'.
  Proof.
    induction n as [|n IH]; intros fuel p k vals diffs pts OK IT Hf G R; [lia|].
    destruct fuel as [|fuel]; [lia|]. pose proof OK as (Hk & F1 & F2).
    cbn [trace]. rewrite cast_ok by auto. cbn [bind]. rewrite psub_padd, rotate_ok by auto. cbn [bind].
    rewrite rev_rotk. pose proof G as (_ & Ew & _ & SH & _). rewrite (find_nz_first fg) by auto.
    destruct (nextj_ok fg p k F2) as (EJ & HJ & F3 & _). rewrite EJ. cbn [option_map unwrap bind].
    set (j := nextj fg p k) in *. set (p4 := padd p (dir (k - j))) in *.
    destruct (good_get vals num p G F1) as (v & -> & Ev & Nv). cbn [bind].
    match goal with |- context [bind (if ?b then _ else _) _] => set (cnd := b) end.
    assert (PUT : exists vals1, (if cnd then put_pixel vals (fst p) (snd p) (- num)
             else if v =? 1 then put_pixel vals (fst p) (snd p) num else Ok vals) = Ok vals1 /\
             good vals1 num /\ same_off [p] vals vals1).
    { destruct cnd; [apply good_put; auto; lia|]. destruct (v =? 1); [apply good_put; auto; lia|].
      exists vals. splits; auto. intros q _; auto. }
    destruct PUT as (vals1 & -> & G1 & O1). cbn [bind].
    destruct (peq p4 curr && peq p (padd curr (dir k1))) eqn:BR.
    - apply andb_true_iff in BR as (B1 & B2). apply peq_spec in B1, B2.
      exists vals1, (rotk k), [p]. splits; auto; try apply is_rot_rotk.
      + intros q [<-|[]]; auto.
      + cbn [chain]. rewrite <- B1. apply padd_dir_neighbours.
    - assert (ST : step fg (p, k) <> (curr, k1)).
      { intros E. unfold step in E. fold j p4 in E. inversion E as [[E1 E2]]. rewrite andb_false_iff in BR.
        destruct BR as [B|B]; [rewrite E1, (proj2 (peq_spec curr curr)) in B by auto; discriminate|].
        assert (p = padd curr (dir k1)); [|apply peq_spec in H; congruence].
        rewrite <- E1, <- E2, dir_mod. symmetry. unfold p4. rewrite padd_back. reflexivity. }
      assert (Hn : (1 <= n)%nat) by (destruct n; [cbn [iter] in IT; congruence|lia]).
      destruct (IH fuel p4 ((k - j + 4) mod 8) vals1 (rotk k) (pts ++ [p])) as (vals' & diffs' & pts' & ET & G' & R' & HD & FP & CH & SO); auto.
      + apply (step_ok fg (p, k) OK).
      + rewrite <- IT. rewrite <- iter_S. reflexivity.
      + lia.
      + apply is_rot_rotk.
      + exists vals', diffs', (p :: pts'). splits; auto.
        * rewrite dir_mod in ET. unfold p4 in ET at 1. rewrite padd_back in ET. rewrite ET. rewrite <- app_assoc. reflexivity.
        * intros q [<-|Hq]; auto.
        * destruct pts' as [|q pts']; [discriminate|]. cbn [hd_error] in HD. inversion HD; subst q.
          cbn [chain]. split; [apply padd_dir_neighbours|exact CH].
        * apply (same_off_trans [p]) with vals1; auto.
  Qed.
End Trace.

Section Follow.
  Variables (fg : Z * Z -> bool) (w h tmax : Z).
  Hypothesis fg_in : forall p, fg p = true -> 0 <= fst p < w /\ 0 <= snd p < h.
  Hypothesis Htw : w - 1 <= tmax.
  Hypothesis Hth : h - 1 <= tmax.

  Lemma follow_ok num curr a vals diffs fuel : 2 <= num -> fg curr = true -> good fg w h vals num -> is_rot diffs ->
    8 * (w * h) <= Z.of_nat fuel ->
    exists vals' diffs' pts, follow fuel tmax curr (padd curr (dir a)) num vals diffs = Ok (vals', diffs', pts) /\
      good fg w h vals' num /\ is_rot diffs' /\ hd_error pts = Some curr /\
      (forall q, In q pts -> fg q = true) /\ closed_chain pts /\ same_off pts vals vals'.
  Proof.
    intros Hn F G R Hf. unfold follow. rewrite psub_padd, rotate_ok by auto. cbn [bind].
    unfold rotk at 1. pose proof G as (_ & _ & _ & SH & _).
    rewrite (find_nz_first fg vals curr (fun i => dir (a + i)) (zrange 0 8) SH).
    pose proof (first_zrange fg (fun i => padd curr (dir (a + i))) 0 8 ltac:(lia)) as Q. cbv beta in *.
    destruct (first fg (fun j => padd curr (dir (a + j))) (zrange 0 8)) as [i|].
    - destruct Q as (Hi & Fi & _). cbn [option_map].
      set (k1 := (a + i) mod 8). assert (D1 : dir (a + i) = dir k1) by (unfold k1; rewrite dir_mod; auto).
      rewrite D1. rewrite D1 in Fi.
      assert (S0 : okst fg (curr, k1)) by (unfold okst; splits; auto; apply Z.mod_pos_bound; lia).
      destruct (step_returns fg w h fg_in (curr, k1) S0) as (n & N1 & N2 & N3).
      destruct (trace_ok fg w h fg_in tmax Htw Hth num curr k1 Hn n fuel curr k1 vals (rotk a) []) as
        (vals' & diffs' & pts & E & G' & R' & HD & FP & CH & SO); auto.
      + lia.
      + apply is_rot_rotk.
      + rewrite E. exists vals', diffs', pts. splits; auto.
        destruct pts as [|q pts]; [discriminate|]. inversion HD; subst q. unfold closed_chain. destruct pts; auto.
    - cbn [option_map]. rewrite (cast_ok fg w h fg_in tmax) by auto. cbn [bind].
      destruct (good_put fg w h fg_in vals num curr (- num) G F) as (vals' & -> & G' & SO); try lia.
      cbn [bind]. exists vals', (rotk a), [curr]. splits; auto; try apply is_rot_rotk; try (unfold closed_chain; exact I).
      intros q [<-|[]]; auto.
  Qed.
End Follow.
