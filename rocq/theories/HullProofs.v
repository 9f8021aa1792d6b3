(** convex_hull: the model against the exact scan. *)
From Coq Require Import Reals Lra Psatz Permutation Sorted.
From Flocq Require Import Core BinarySingleNaN.
From Verif Require Import Base BaseProofs Float FloatProofs FloatErr LineProofs GeometryModel GeometrySpec GeometryProofs.
Local Ltac Zify.zify_post_hook ::= idtac.

Lemma f64_err r : (Rabs (rnd 53 1024 r - r) <= Rabs r / 9007199254740992 + / 1267650600228229401496703205376)%R.
Proof.
  pose proof (rnd_err 53 1024 r) as H. eapply Rle_trans; [exact H|]. apply Rplus_le_compat.
  - unfold uu. change (bpow radix2 (- (53))) with (/ 9007199254740992)%R. unfold Rdiv. lra.
  - unfold eta. change (3 - 1024 - 53 - 1)%Z with (-1075)%Z.
    apply Rle_trans with (bpow radix2 (-100)); [apply bpow_le; lia|]. right. reflexivity.
Qed.

(** f64 square roots of integers up to 2^32 compare like the integers *)
Lemma sqrt_lt_int (x y : f64) m n : 0 <= m <= 2 ^ 32 -> 0 <= n <= 2 ^ 32 -> dy 0 m x -> dy 0 n y ->
  flt (fsqrt x) (fsqrt y) = (m <? n).
Proof.
  intros Hm Hn [Fx Rx] [Fy Ry].
  change (bpow radix2 0) with 1%R in Rx, Ry. rewrite Rmult_1_r in Rx, Ry.
  destruct (fsqrt_R 53 1024 x Fx) as (Fs & Rs). { rewrite Rx. apply IZR_le. lia. }
  destruct (fsqrt_R 53 1024 y Fy) as (Ft & Rt). { rewrite Ry. apply IZR_le. lia. }
  unfold flt. rewrite (Bltb_correct _ _ _ _ Fs Ft), Rs, Rt, Rx, Ry.
  destruct (Z.ltb_spec m n) as [L|L].
  - apply Rlt_bool_true.
    pose proof (f64_err (sqrt (IZR m))) as E1. pose proof (f64_err (sqrt (IZR n))) as E2.
    assert (S0 : (0 <= sqrt (IZR m))%R) by apply sqrt_pos. assert (T0 : (0 <= sqrt (IZR n))%R) by apply sqrt_pos.
    assert (SS : (sqrt (IZR m) * sqrt (IZR m) = IZR m)%R) by (apply sqrt_sqrt; apply IZR_le; lia).
    assert (TT : (sqrt (IZR n) * sqrt (IZR n) = IZR n)%R) by (apply sqrt_sqrt; apply IZR_le; lia).
    set (s := sqrt (IZR m)) in *. set (t := sqrt (IZR n)) in *.
    rewrite (Rabs_right s) in E1 by lra. rewrite (Rabs_right t) in E2 by lra.
    apply Rabs_le_inv in E1. apply Rabs_le_inv in E2.
    assert (L' : (IZR m + 1 <= IZR n)%R) by (rewrite <- plus_IZR; apply IZR_le; lia).
    assert (N' : (IZR n <= 4294967296)%R) by (apply IZR_le; lia).
    assert (T1 : (t <= 65536)%R) by nra.
    assert (ST : (s < t)%R) by nra.
    assert (D : (1 <= (t - s) * 131072)%R) by nra.
    lra.
  - apply Rlt_bool_false. apply rnd_le; try reflexivity. apply sqrt_le_1_alt. apply IZR_le. lia.
Qed.

Lemma distance_sq_ok p q b : Z.abs (fst p) <= 2 ^ 31 -> Z.abs (snd p) <= 2 ^ 31 -> Z.abs (fst q) <= 2 ^ 31 -> Z.abs (snd q) <= 2 ^ 31 ->
  0 <= b <= 2 ^ 20 -> Z.abs (fst p - fst q) <= b -> Z.abs (snd p - snd q) <= b ->
  dy 0 (dsq p q) (distance_sq p q).
Proof.
  intros H1 H2 H3 H4 Hb B1 B2. unfold distance_sq, sq, to_f64, dsq. cbn [fst snd].
  assert (D0 : dyk 53 1024 0) by (split; lia).
  assert (I : forall z, Z.abs z <= 2 ^ 31 -> dy 0 z (of_int z : f64)) by (intros; apply dy_int; [exact D0|lia]).
  assert (X : dy 0 (fst p - fst q) (fsub (of_int (fst p)) (of_int (fst q)) : f64)) by (apply dy_sub; auto; lia).
  assert (Y : dy 0 (snd p - snd q) (fsub (of_int (snd p)) (of_int (snd q)) : f64)) by (apply dy_sub; auto; lia).
  assert (M : forall a, Z.abs a <= b -> Z.abs (a * a) <= 2 ^ 20 * 2 ^ 20).
  { intros a Ha. rewrite Z.abs_mul. apply Z.mul_le_mono_nonneg; lia. }
  assert (M1 := M _ B1). assert (M2 := M _ B2).
  change 0 with (0 + 0) at 1. apply dy_add; [exact D0|lia| |]; apply dy_mul; auto; lia.
Qed.

Lemma distance_lt s a b : i32_points [s; a; b] -> spread 32767 [s; a; b] ->
  flt (distance s a) (distance s b) = (dsq s a <? dsq s b).
Proof.
  intros Hi Hs. unfold distance.
  assert (I : forall p, In p [s; a; b] -> Z.abs (fst p) <= 2 ^ 31 /\ Z.abs (snd p) <= 2 ^ 31).
  { intros p Hp. specialize (Hi p Hp). lia. }
  assert (B : forall p, In p [s; a; b] -> 0 <= dsq s p <= 2 ^ 32).
  { intros p Hp. destruct (Hs s p (or_introl eq_refl) Hp) as [B1 B2].
    split; [apply dsq_nonneg|].
    assert (M : forall z, Z.abs z <= 32767 -> Z.abs (z * z) <= 32767 * 32767).
    { intros z Hz. rewrite Z.abs_mul. apply Z.mul_le_mono_nonneg; lia. }
    unfold dsq. apply M in B1. apply M in B2. lia. }
  apply sqrt_lt_int; try (apply B; auto with datatypes);
    (apply (distance_sq_ok _ _ 32767); try (apply I; auto with datatypes); try (apply Hs; auto with datatypes); lia).
Qed.

Lemma orient_ok p q r : i32_points [p; q; r] -> spread 32767 [p; q; r] ->
  orient p q r = Ok (0 ?= turn p q r).
Proof.
  intros Hi Hs. unfold orient, to_i32, orientation.
  pose proof (Hi p) as Ip. pose proof (Hi q) as Iq. pose proof (Hi r) as Ir.
  specialize (Ip ltac:(auto with datatypes)). specialize (Iq ltac:(auto with datatypes)). specialize (Ir ltac:(auto with datatypes)).
  pose proof (Hs q p) as Spq. specialize (Spq ltac:(auto with datatypes) ltac:(auto with datatypes)).
  pose proof (Hs r q) as Sqr. specialize (Sqr ltac:(auto with datatypes) ltac:(auto with datatypes)).
  repeat (rewrite chk_i_ok by lia; cbn [bind fst snd]).
  assert (M : forall a b, Z.abs a <= 32767 -> Z.abs b <= 32767 -> Z.abs (a * b) <= 32767 * 32767).
  { intros a b Ha Hb. rewrite Z.abs_mul. apply Z.mul_le_mono_nonneg; lia. }
  assert (M1 := M _ _ (proj2 Spq) (proj1 Sqr)). assert (M2 := M _ _ (proj1 Spq) (proj2 Sqr)).
  repeat (rewrite chk_i_ok by lia; cbn [bind fst snd]).
  f_equal. rewrite Z.compare_sub. rewrite (Z.compare_sub 0). f_equal. unfold turn. ring.
Qed.

Section Hull.
  Context (pts : list pt) (Hi : i32_points pts) (Hs : spread 32767 pts).

  Lemma sub_i l : incl l pts -> i32_points l.
  Proof. intros H p Hp. auto. Qed.
  Lemma sub_s l : incl l pts -> spread 32767 l.
  Proof. intros H p q Hp Hq. auto. Qed.
  Lemma incl3 (a b c : pt) : In a pts -> In b pts -> In c pts -> incl [a; b; c] pts.
  Proof. intros ? ? ? x [<-|[<-|[<-|[]]]]; auto. Qed.
  Lemma orient_pts a b c : In a pts -> In b pts -> In c pts -> orient a b c = Ok (0 ?= turn a b c).
  Proof. intros. apply orient_ok; [apply sub_i|apply sub_s]; now apply incl3. Qed.

  Lemma pop_while_ok p : In p pts -> forall st, incl st pts -> pop_while st p = Ok (pops st p).
  Proof.
    intros Hp. induction st as [|t st IH]; intros H; [reflexivity|].
    cbn [pop_while pops]. destruct st as [|u st]; [reflexivity|].
    rewrite orient_pts by auto with datatypes. cbn [bind].
    destruct (Z.compare_spec 0 (turn u t p)); destruct (Z.ltb_spec 0 (turn u t p)); try lia; auto;
      apply IH; intros x Hx; apply H; now right.
  Qed.

  Context (s : pt) (Hins : In s pts) (Hup : forall p, In p pts -> up s p).
  Notation bef := (before s).

  Lemma angle_less_ok a b : In a pts -> In b pts ->
    exists r, angle_less s a b = Ok r /\ (r = true -> bef a b) /\ (r = false -> bef b a).
  Proof.
    intros Ha Hb. unfold angle_less. rewrite orient_pts by auto. cbn [bind].
    rewrite distance_lt by (try apply sub_i; try apply sub_s; now apply incl3).
    eexists. split; [reflexivity|]. unfold before. rewrite (cr_anti s a b).
    destruct (Z.compare_spec 0 (turn s a b)); try (destruct (Z.ltb_spec (dsq s a) (dsq s b))); split; intros E; try discriminate; try lia.
  Qed.

  Lemma insert_ok x : In x pts -> forall l, incl l pts -> StronglySorted bef l ->
    exists l', insert_by s x l = Ok l' /\ Permutation (x :: l) l' /\ StronglySorted bef l'.
  Proof.
    intros Hx. induction l as [|y l IH]; intros Hl Hsrt.
    - exists [x]. cbn [insert_by]. splits; auto. repeat constructor.
    - cbn [insert_by]. inversion Hsrt as [|? ? S1 S2]; subst.
      destruct (angle_less_ok x y) as (r & -> & Hr1 & Hr2); auto with datatypes. cbn [bind].
      destruct r.
      + exists (x :: y :: l). splits; auto. constructor; auto. constructor; [auto|].
        rewrite Forall_forall in S2 |- *. intros z Hz.
        apply (before_trans s x y z); auto with datatypes.
      + destruct IH as (l' & -> & P & S'); auto. { intros z Hz. apply Hl. now right. }
        cbn [bind]. exists (y :: l'). splits; auto.
        * rewrite perm_swap. now constructor.
        * constructor; auto. rewrite Forall_forall in S2 |- *. intros z Hz.
          apply Permutation_sym in P. apply (Permutation_in _ P) in Hz. destruct Hz as [<-|Hz]; auto.
  Qed.

  Lemma sort_ok l : incl l pts -> exists l', sort_by s l = Ok l' /\ Permutation l l' /\ StronglySorted bef l'.
  Proof.
    intros Hl. unfold sort_by.
    apply (for_each_ind (fun done acc => Permutation done acc /\ StronglySorted bef acc)).
    - split; [apply perm_nil|constructor].
    - intros done x rest acc E [P S1]. subst l.
      destruct (insert_ok x) with (l := acc) as (l' & E' & P' & S'); auto with datatypes.
      { intros z Hz. apply Hl. apply Permutation_sym in P. apply (Permutation_in _ P) in Hz. auto with datatypes. }
      exists l'. splits; auto. rewrite <- P', <- P. rewrite Permutation_app_comm. reflexivity.
  Qed.

  Lemma drop_ok l : forall p, In p pts -> incl l pts -> exists r, drop_collinear s p l = Ok r.
  Proof.
    induction l as [|q l IH]; intros p Hp Hl; cbn [drop_collinear]; [eauto|].
    rewrite orient_pts by auto with datatypes. cbn [bind].
    destruct (IH q) as (r & Er); [auto with datatypes|intros z Hz; apply Hl; now right|].
    rewrite Er. destruct (0 ?= _); cbn [bind]; eauto.
  Qed.

  Lemma sorted_prefix done x rest : StronglySorted bef (done ++ x :: rest) -> forall z, In z done -> bef z x.
  Proof.
    induction done as [|y done IH]; intros H z Hz; [destruct Hz|].
    cbn [app] in H. inversion H as [|? ? H1 H2]; subst. destruct Hz as [<-|Hz]; [|now apply IH].
    rewrite Forall_forall in H2. apply H2. auto with datatypes.
  Qed.

  Lemma scan_ok l : incl l pts -> StronglySorted bef l -> exists st, scan s l = Ok st /\ scan_inv s l st.
  Proof.
    intros Hl Hsrt. unfold scan.
    apply (for_each_ind (fun done st => scan_inv s done st)).
    - split; [|split; [intros z []|]].
      + intros z [<-|[]]. now left.
      + left. split; auto. intros z [].
    - intros done x rest st E Hinv. subst l.
      assert (Hd : incl (s :: done) pts). { intros z [<-|Hz]; auto with datatypes. }
      rewrite pop_while_ok.
      + cbn [bind]. eexists. split; [reflexivity|]. apply scan_step; auto.
        * auto with datatypes.
        * eapply sorted_prefix; eauto.
      + auto with datatypes.
      + intros z Hz. apply Hd. destruct Hinv as (H1 & _). auto.
  Qed.
End Hull.

(** ** The start point *)
Lemma start_ok p0 l : let pts := p0 :: l in exists s pos, start_of p0 pts = (s, pos) /\ znth pts pos = Some s /\
  (forall p, In p pts -> up s p).
Proof.
  intros pts. unfold start_of.
  set (f := fun '(s, pos) i => match znth pts i with
     | Some p => if (snd p <? snd s) || ((snd p =? snd s) && (fst p <? fst s)) then (p, i) else (s, pos)
     | None => (s, pos) end).
  assert (G : forall k, exists s pos, fold_left f (zrange 1 (1 + Z.of_nat k)) (p0, 0) = (s, pos) /\ znth pts pos = Some s /\
     forall j p, 0 <= j < 1 + Z.of_nat k -> znth pts j = Some p -> up s p).
  { induction k as [|k (s & pos & E & Z & U)].
    - exists p0, 0. splits; auto. intros j p Hj Ej.
      assert (j = 0) as -> by lia. injection Ej as <-. right. lia.
    - set (n := 1 + Z.of_nat (S k)). replace (1 + Z.of_nat k) with (n - 1) in * by lia.
      assert (Er : zrange 1 n = zrange 1 (n - 1) ++ [n - 1]).
      { replace n with (n - 1 + 1) at 1 by lia. apply zrange_snoc. lia. }
      rewrite Er, fold_left_app, E. cbn [fold_left].
      unfold f at 1. destruct (znth pts (n - 1)) as [p|] eqn:Ep.
      + destruct ((snd p <? snd s) || ((snd p =? snd s) && (fst p <? fst s))) eqn:B.
        * exists p, (n - 1). splits; auto. intros j q Hj Eq.
          destruct (Z.eq_dec j (n - 1)) as [->|]; [assert (q = p) as -> by congruence; right; lia|].
          specialize (U j q ltac:(lia) Eq). unfold up in *. lia.
        * exists s, pos. splits; auto. intros j q Hj Eq.
          destruct (Z.eq_dec j (n - 1)) as [->|]; [assert (q = p) as -> by congruence; unfold up; lia|].
          apply (U j q); auto. lia.
      + exists s, pos. splits; auto. intros j q Hj Eq.
        destruct (Z.eq_dec j (n - 1)) as [->|]; [congruence|]. apply (U j q); auto. lia. }
  destruct (G (length l)) as (s & pos & E & Z & U).
  replace (1 + Z.of_nat (length l)) with (zlen pts) in * by (unfold pts; rewrite zlen_cons; unfold zlen; lia).
  exists s, pos. splits; auto. intros p Hp. apply In_znth in Hp. destruct Hp as (j & Hj & Ej).
  now apply (U j p).
Qed.

(** swap(0, pos) then remove(0) *)
Lemma list_upd_perm (p0 s : pt) : forall l n, nth_error l n = Some s -> Permutation (p0 :: l) (s :: list_upd l n p0).
Proof.
  induction l as [|x l IH]; intros [|n] H; try discriminate; cbn in H |- *.
  - injection H as <-. apply perm_swap.
  - rewrite perm_swap. rewrite (IH n H). apply perm_swap.
Qed.
Lemma swap_remove p0 (l : list pt) pos s : znth (p0 :: l) pos = Some s ->
  Permutation (p0 :: l) (s :: tl (zupd (p0 :: l) pos p0)).
Proof.
  intros H. assert (R := znth_range _ _ _ H). unfold znth in H. unfold zupd.
  destruct (Z.leb_spec 0 pos); [|lia]. destruct (Z.to_nat pos) as [|n] eqn:E.
  - cbn in *. injection H as <-. reflexivity.
  - cbn [list_upd tl nth_error] in *. now apply list_upd_perm.
Qed.

(** ** From the stack to the polygon *)
Lemma zlen_rev {A} (l : list A) : zlen (rev l) = zlen l.
Proof. unfold zlen. now rewrite rev_length. Qed.
Lemma znth_rev {A} (l : list A) i : 0 <= i < zlen l -> znth (rev l) i = znth l (zlen l - 1 - i).
Proof.
  induction l as [|x l IH]; intros Hi; [unfold zlen in Hi; cbn in Hi; lia|].
  cbn [rev]. rewrite zlen_cons in *. destruct (Z.eq_dec i (zlen l)) as [->|N].
  - rewrite znth_app_r by (rewrite zlen_rev; lia). rewrite zlen_rev.
    replace (zlen l - zlen l) with 0 by lia. replace (1 + zlen l - 1 - zlen l) with 0 by lia. reflexivity.
  - rewrite znth_app_l by (rewrite zlen_rev; lia). rewrite IH by lia.
    rewrite znth_cons_S by lia. f_equal. lia.
Qed.

Definition at_ (l : list (Z * Z)) (i : Z) : Z * Z := match znth l i with Some p => p | None => (0, 0) end.
Lemma at_In l i : 0 <= i < zlen l -> In (at_ l i) l.
Proof. intros H. destruct (znth_some l i H) as (x & Ex). unfold at_. rewrite Ex. eapply znth_In; eauto. Qed.
Lemma cyc_rev st i : 0 <= i < zlen st -> cyc (rev st) i = at_ st (zlen st - 1 - i).
Proof. intros H. unfold cyc, at_. rewrite zlen_rev, Z.mod_small by lia. now rewrite znth_rev by lia. Qed.
Lemma cyc_wrap l i : 0 < zlen l -> cyc l (i + zlen l) = cyc l i.
Proof.
  intros H. unfold cyc. replace (i + zlen l) with (i + 1 * zlen l) by ring. now rewrite Z.mod_add by lia.
Qed.

Section Poly.
  Context (s : Z * Z).
  Lemma at_S x l j : 0 <= j -> at_ (x :: l) (j + 1) = at_ l j.
  Proof. intros H. unfold at_. rewrite znth_cons_S by lia. now replace (j + 1 - 1) with j by lia. Qed.
  Lemma conv_bottom st : conv s st -> at_ st (zlen st - 1) = s.
  Proof.
    induction 1 as [q N U|c b a l H IH H1 H2 H3]; [reflexivity|].
    rewrite <- IH. rewrite (zlen_cons c). replace (1 + zlen (b :: a :: l) - 1) with (zlen (b :: a :: l) - 1 + 1) by lia.
    apply at_S. rewrite !zlen_cons. pose proof (zlen_nonneg l). lia.
  Qed.
  Lemma conv_len st : conv s st -> 2 <= zlen st.
  Proof. induction 1; [cbv; congruence|]. rewrite (zlen_cons c). lia. Qed.
  Lemma conv_triple st : conv s st -> forall j, 0 <= j -> j + 2 < zlen st ->
    0 < turn (at_ st (j + 2)) (at_ st (j + 1)) (at_ st j) /\ 0 < turn s (at_ st (j + 1)) (at_ st j).
  Proof.
    induction 1 as [q N U|c b a l H IH H1 H2 H3]; intros j Hj L.
    - unfold zlen in L. cbn in L. lia.
    - destruct (Z.eq_dec j 0) as [->|N]; [split; [exact H1|exact H2]|].
      rewrite (zlen_cons c) in L.
      remember (j - 1) as k eqn:Ek. replace j with (k + 1) by lia.
      destruct (IH k ltac:(lia) ltac:(lia)) as [A B].
      replace (k + 1 + 2) with (k + 2 + 1) by lia. rewrite !(at_S c) by lia. auto.
  Qed.
  Lemma lefts_at z st : lefts st z -> forall j, 0 <= j -> j + 1 < zlen st -> 0 <= turn (at_ st (j + 1)) (at_ st j) z.
  Proof.
    induction st as [|b st IH]; intros H j Hj L; [unfold zlen in L; cbn in L; lia|].
    destruct st as [|a st]; [unfold zlen in L; cbn in L; lia|].
    destruct H as [H1 H2]. rewrite zlen_cons in L.
    destruct (Z.eq_dec j 0) as [->|N]; [exact H1|].
    remember (j - 1) as k eqn:Ek. replace j with (k + 1) by lia. rewrite !(at_S b) by lia. apply IH; auto; lia.
  Qed.
  Lemma cr_trans a b c : up s a -> up s b -> up s c -> 0 < turn s a b -> 0 < turn s b c -> 0 < turn s a c.
  Proof.
    intros Ua Ub Uc H1 H2.
    destruct (before_trans s a b c) as [|[E D]]; auto; [now left|now left|]. exfalso.
    assert (Iy : (snd b - snd s) * turn s a c = (snd a - snd s) * turn s b c + (snd c - snd s) * turn s a b) by (unfold turn; ring).
    unfold up in *. rewrite E in Iy.
    assert (0 <= snd a - snd s) by lia. assert (0 <= snd c - snd s) by lia.
    assert (snd a = snd s /\ snd c = snd s) as [Ea Ec] by (split; nia).
    unfold turn in H2. rewrite Ec in H2. assert (0 <= fst c - fst s) by lia. assert (0 <= snd b - snd s) by lia. nia.
  Qed.
  (** the second vertex is strictly before the top *)
  Lemma conv_ends st : conv s st -> 3 <= zlen st -> 0 < turn s (at_ st (zlen st - 2)) (at_ st 0).
  Proof.
    induction 1 as [q N U|c b a l H IH H1 H2 H3]; intros L; [unfold zlen in L; cbn in L; lia|].
    rewrite (zlen_cons c) in *. replace (1 + zlen (b :: a :: l) - 2) with (zlen (b :: a :: l) - 2 + 1) by lia.
    pose proof (conv_len _ H). rewrite at_S by lia.
    change (at_ (c :: b :: a :: l) 0) with c.
    destruct (Z.eq_dec (zlen (b :: a :: l)) 2) as [E|N].
    - rewrite E. exact H2.
    - apply cr_trans with b; auto.
      + apply (conv_up s _ _ H). apply at_In. lia.
      + apply (conv_up s _ _ H). now left.
      + apply IH. lia.
  Qed.

  Lemma hull_polygon pts st : conv s st -> 3 <= zlen st -> incl st pts ->
    (forall z, In z pts -> up s z /\ lefts st z /\ before s z (at_ st 0)) -> hull_of pts (rev st).
  Proof.
    intros C L I Hz. set (n := zlen st) in *. pose proof (conv_bottom _ C) as Eb. fold n in Eb.
    assert (Ln : zlen (rev st) = n) by apply zlen_rev.
    assert (Es : cyc (rev st) 0 = s) by (rewrite cyc_rev by lia; fold n; now replace (n - 1 - 0) with (n - 1) by lia).
    unfold hull_of. splits.
    - lia.
    - intros x Hx. apply in_rev in Hx. auto.
    - intros i Hi. rewrite Ln in Hi.
      assert (K : i + 2 < n \/ i = n - 2 \/ i = n - 1) by lia. destruct K as [K|[->| ->]].
      + rewrite !cyc_rev by lia. fold n.
        destruct (conv_triple _ C (n - 1 - (i + 2)) ltac:(lia) ltac:(lia)) as [T _].
        now replace (n - 1 - i) with (n - 1 - (i + 2) + 2) by lia; replace (n - 1 - (i + 1)) with (n - 1 - (i + 2) + 1) by lia.
      + replace (n - 2 + 2) with (0 + zlen (rev st)) by lia. rewrite cyc_wrap by lia. rewrite Es.
        rewrite !cyc_rev by lia. fold n.
        destruct (conv_triple _ C 0 ltac:(lia) ltac:(lia)) as [_ T].
        replace (n - 1 - (n - 2)) with (0 + 1) by lia. replace (n - 1 - (n - 2 + 1)) with 0 by lia.
        unfold turn in *. lia.
      + replace (n - 1 + 1) with (0 + zlen (rev st)) by lia. replace (n - 1 + 2) with (1 + zlen (rev st)) by lia.
        rewrite !cyc_wrap by lia. rewrite Es. rewrite !cyc_rev by lia. fold n.
        pose proof (conv_ends _ C L) as T. fold n in T.
        replace (n - 1 - (n - 1)) with 0 by lia. replace (n - 1 - 1) with (n - 2) by lia.
        unfold turn in *. lia.
    - intros i p Hi Hp. rewrite Ln in Hi. destruct (Hz p Hp) as (U & Lf & B).
      assert (K : i + 1 < n \/ i = n - 1) by lia. destruct K as [K| ->].
      + rewrite !cyc_rev by lia. fold n.
        pose proof (lefts_at p st Lf (n - 1 - (i + 1)) ltac:(lia) ltac:(fold n; lia)) as T.
        now replace (n - 1 - i) with (n - 1 - (i + 1) + 1) by lia.
      + replace (n - 1 + 1) with (0 + zlen (rev st)) by lia. rewrite cyc_wrap by lia. rewrite Es.
        rewrite cyc_rev by lia. fold n. replace (n - 1 - (n - 1)) with 0 by lia.
        apply before_cr in B. unfold turn in *. lia.
  Qed.

  (** only two points left on the stack: everything is on one ray *)
  Lemma two_collinear q a b : up s q -> q <> s -> turn s a q = 0 -> turn s b q = 0 -> turn s a b = 0.
  Proof.
    intros U N Ea Eb.
    assert (Iy : (snd q - snd s) * turn s a b = (snd a - snd s) * turn s q b + (snd b - snd s) * turn s a q) by (unfold turn; ring).
    assert (Ix : (fst q - fst s) * turn s a b = (fst a - fst s) * turn s q b + (fst b - fst s) * turn s a q) by (unfold turn; ring).
    rewrite (cr_anti s b q), Ea, Eb in *.
    destruct (Z.eq_dec (turn s a b) 0); auto. exfalso. apply N.
    assert (snd q = snd s) by nia. assert (fst q = fst s) by nia. destruct q, s; cbn [fst snd] in *; congruence.
  Qed.
End Poly.

Lemma convex_hull_ok (pts : list (Z * Z)) : i32_points pts -> spread 32767 pts ->
  (exists a b c, In a pts /\ In b pts /\ In c pts /\ ~ collinear a b c) ->
  exists hull, convex_hull pts = Ok hull /\ hull_of pts hull.
Proof.
  intros Hi Hs (a & b & c & Ha & Hb & Hc & Nc).
  destruct pts as [|p0 l]; [destruct Ha|]. set (pts := p0 :: l) in *.
  unfold convex_hull, pts at 1. fold pts.
  destruct (start_ok p0 l) as (s & pos & E & Z & U). fold pts in E, Z, U. rewrite E.
  assert (P := swap_remove p0 l pos s Z). fold pts in P. set (rem := tl (zupd pts pos p0)) in *.
  assert (Hins : In s pts) by (eapply znth_In; eauto).
  assert (Ir : incl rem pts). { intros x Hx. apply (Permutation_in _ (Permutation_sym P)). now right. }
  destruct (sort_ok pts Hi Hs s Hins U rem Ir) as (l' & -> & P' & Srt). cbn [bind].
  assert (Il : incl l' pts). { intros x Hx. apply Ir. apply (Permutation_in _ (Permutation_sym P')). auto. }
  assert (D : exists r, match l' with [] => Ok [] | p :: l => drop_collinear s p l end = Ok r).
  { destruct l' as [|p l'']; [eauto|]. apply (drop_ok pts Hi Hs s Hins); auto with datatypes.
    intros x Hx. apply Il. now right. }
  destruct D as (r & ->). cbn [bind].
  destruct (scan_ok pts Hi Hs s Hins U l' Il Srt) as (st & -> & (I & _ & Inv)). cbn [bind].
  exists (rev st). split; auto.
  assert (Hin : forall z, In z pts -> z = s \/ In z l').
  { intros z Hz. apply (Permutation_in _ P) in Hz. destruct Hz as [->|Hz]; auto. right. now apply (Permutation_in _ P'). }
  assert (TT : turn a b c = turn s a b + turn s b c - turn s a c) by (apply turn_cr).
  unfold collinear in Nc.
  destruct Inv as [[Hall _]|(t & st' & -> & C & Lf & Bf)].
  { exfalso. apply Nc. assert (X : forall z, In z pts -> z = s). { intros z Hz. destruct (Hin z Hz); auto. }
    rewrite (X a Ha), (X b Hb), (X c Hc). unfold turn. ring. }
  assert (Lf' : forall z, In z pts -> lefts (t :: st') z).
  { intros z Hz. destruct (Hin z Hz) as [->|]; auto.
    clear - C. induction C as [q N U|c b a l H IH H1 H2 H3].
    - cbn [lefts]. split; auto. rewrite cr_s'. lia.
    - change (0 <= turn b c s /\ lefts (b :: a :: l) s). split; auto. unfold turn in *. lia. }
  assert (Bf' : forall z, In z pts -> before s z t).
  { intros z Hz. destruct (Hin z Hz) as [->|]; auto. right. rewrite cr_s, dsq_0. split; auto. apply dsq_nonneg. }
  assert (L : 3 <= zlen (t :: st')).
  { inversion C as [q N U'|c' b' a' l0 H1 H2 H3 H4]; subst.
    - exfalso. apply Nc. rewrite TT.
      assert (X : forall z, In z pts -> turn s z t = 0).
      { intros z Hz. destruct (Lf' z Hz) as [L1 _]. specialize (Bf' z Hz). apply before_cr in Bf'.
        rewrite (cr_anti s z t) in L1. lia. }
      rewrite (two_collinear s t a b), (two_collinear s t b c), (two_collinear s t a c); auto.
    - rewrite !zlen_cons. pose proof (zlen_nonneg l0). lia. }
  apply (hull_polygon s); auto.
  intros x Hx. apply I in Hx. destruct Hx as [<-|Hx]; auto.
Qed.
