(** The lower envelope of parabolas, with f64 boundaries. *)
From Flocq Require Import Core BinarySingleNaN.
From Coq Require Import Reals Lra Psatz.
From Verif Require Import Base BaseProofs Float FloatProofs FloatErr ApproxProofs SuppressProofs EuclidModel EuclidSpec.
Local Ltac Zify.zify_post_hook ::= idtac.
Local Open Scope Z_scope.
Local Notation rn := (rnd 53 1024).

(** ** Exact integers *)
Definition iz (x : f64) (z : Z) : Prop := is_finite x = true /\ B2R x = IZR z.
Lemma big53 z : Z.abs z <= 2 ^ 53 -> (Rabs (IZR z) <= bpow radix2 (1024 - 1))%R.
Proof.
  intros H. rewrite <- abs_IZR. apply Rle_trans with (IZR (2 ^ 53)); [apply IZR_le; exact H|].
  change (IZR (2 ^ 53)) with (bpow radix2 53). apply bpow_le. lia.
Qed.
Lemma iz_int z : Z.abs z <= 2 ^ 53 -> iz (of_int z) z.
Proof.
  intros H. destruct (of_int_R 53 1024 z (big53 z H)) as (F & E). split; [exact F|]. rewrite E. apply (rnd_int 53 1024). exact H.
Qed.
Lemma iz_add x y a b : iz x a -> iz y b -> Z.abs (a + b) <= 2 ^ 53 -> iz (fadd x y) (a + b).
Proof.
  intros (Fx & Ex) (Fy & Ey) H. destruct (fadd_R 53 1024 x y Fx Fy) as (F & E); rewrite Ex, Ey, <- plus_IZR in *.
  - apply big53, H. - split; [exact F|]. rewrite E. apply (rnd_int 53 1024). exact H.
Qed.
Lemma iz_sub x y a b : iz x a -> iz y b -> Z.abs (a - b) <= 2 ^ 53 -> iz (fsub x y) (a - b).
Proof.
  intros (Fx & Ex) (Fy & Ey) H. destruct (fsub_R 53 1024 x y Fx Fy) as (F & E); rewrite Ex, Ey, <- minus_IZR in *.
  - apply big53, H. - split; [exact F|]. rewrite E. apply (rnd_int 53 1024). exact H.
Qed.
Lemma iz_mul x y a b : iz x a -> iz y b -> Z.abs (a * b) <= 2 ^ 53 -> iz (fmul x y) (a * b).
Proof.
  intros (Fx & Ex) (Fy & Ey) H. destruct (fmul_R 53 1024 x y Fx Fy) as (F & E); rewrite Ex, Ey, <- mult_IZR in *.
  - apply big53, H. - split; [exact F|]. rewrite E. apply (rnd_int 53 1024). exact H.
Qed.

(** ** A rounded quotient compares with whole numbers as the exact one does *)
Definition step27 : R := bpow radix2 (-27).
Lemma step27_pos : (0 < step27)%R. Proof. apply bpow_gt_0. Qed.
Lemma rn_step m : Z.abs m <= 2 ^ 53 -> rn (IZR m * step27) = (IZR m * step27)%R.
Proof. intros H. apply rnd_id. apply (dy_format 53 1024); [lia|exact H]. Qed.
Lemma quot_le a b n : 0 < b < 2 ^ 27 -> Z.abs n < 2 ^ 26 -> ((rn (IZR a / IZR b) <= IZR n)%R <-> a <= n * b).
Proof.
  intros Hb Hn. assert (Pb : (0 < IZR b)%R) by (apply IZR_lt; lia). split.
  - intros H. destruct (Z.le_gt_cases a (n * b)) as [L|L]; [exact L|exfalso].
    assert (Q : (IZR (n * 2 ^ 27 + 1) * step27 <= IZR a / IZR b)%R).
    { assert (S : (IZR (2 ^ 27) * step27 = 1)%R) by (unfold step27; change (IZR (2 ^ 27)) with (bpow radix2 27); rewrite <- bpow_plus; reflexivity).
      apply Rmult_le_reg_r with (IZR b); [exact Pb|]. replace (IZR a / IZR b * IZR b)%R with (IZR a) by (field; lra).
      rewrite plus_IZR, mult_IZR, Rmult_plus_distr_r, Rmult_assoc, S. rewrite !Rmult_1_r, Rmult_plus_distr_r, !Rmult_1_l.
      assert (IZR n * IZR b + 1 <= IZR a)%R by (rewrite <- mult_IZR, <- plus_IZR; apply IZR_le; lia).
      assert (step27 * IZR b <= 1)%R. { rewrite <- S, Rmult_comm. apply Rmult_le_compat_r; [pose proof step27_pos; lra|]. apply IZR_le. lia. }
      lra. }
    apply (rnd_le 53 1024) in Q. rewrite rn_step in Q by lia.
    assert (S : (IZR (2 ^ 27) * step27 = 1)%R) by (unfold step27; change (IZR (2 ^ 27)) with (bpow radix2 27); rewrite <- bpow_plus; reflexivity).
    rewrite plus_IZR, mult_IZR, Rmult_plus_distr_r, Rmult_assoc, S in Q. pose proof step27_pos. lra.
  - intros H. rewrite <- (rnd_int 53 1024 n) by lia. apply (rnd_le 53 1024).
    apply Rmult_le_reg_r with (IZR b); [exact Pb|]. replace (IZR a / IZR b * IZR b)%R with (IZR a) by (field; lra). rewrite <- mult_IZR. apply IZR_le. exact H.
Qed.
Lemma rn_opp r : rn (- r) = (- rn r)%R.
Proof. unfold rnd. apply round_NE_opp. Qed.
Lemma quot_ge a b n : 0 < b < 2 ^ 27 -> Z.abs n < 2 ^ 26 -> ((IZR n <= rn (IZR a / IZR b))%R <-> n * b <= a).
Proof.
  intros Hb Hn. pose proof (quot_le (- a) b (- n) Hb ltac:(lia)) as Q.
  replace (IZR (- a) / IZR b)%R with (- (IZR a / IZR b))%R in Q by (rewrite opp_IZR; unfold Rdiv; ring).
  rewrite rn_opp, opp_IZR in Q. split; intros H.
  - assert (- a <= - n * b) by (apply Q; lra). lia.
  - assert (- rn (IZR a / IZR b) <= - IZR n)%R by (apply Q; lia). lra.
Qed.

Lemma fin_flt_inf (x : f64) : is_finite x = true -> flt infinity x = false.
Proof. destruct x as [s|s| |s m e h]; try discriminate; intros _; try reflexivity; destruct s; reflexivity. Qed.
Lemma fin_fle_neg (x : f64) : is_finite x = true -> fle x neg_infinity = false.
Proof. destruct x as [s|s| |s m e h]; try discriminate; intros _; try reflexivity; destruct s; reflexivity. Qed.
Lemma fin_feq_inf (x : f64) : is_finite x = true -> feq x infinity = false.
Proof. destruct x as [s|s| |s m e h]; try discriminate; intros _; try reflexivity; destruct s; reflexivity. Qed.
Lemma fle64_R (x y : f64) : is_finite x = true -> is_finite y = true -> fle x y = Rle_bool (B2R x) (B2R y).
Proof. intros. unfold fle. now apply Bleb_correct. Qed.
Lemma fadd_inf (x : f64) : is_finite x = true -> fadd x infinity = infinity.
Proof. destruct x as [s|s| |s m e h]; try discriminate; intros _; reflexivity. Qed.

Local Notation "a <r b" := (Rlt a b) (at level 70).
Local Notation "a <=r b" := (Rle a b) (at level 70).

Section Line.
  Context (N : Z) (f : Z -> res f64) (F : Z -> f64) (c : Z -> Z).
  Context (HN : 0 < N <= 2 ^ 26) (Hf : forall i, 0 <= i < N -> f i = Ok (F i)).
  Context (HF : forall i, 0 <= i < N -> F i = infinity \/ (iz (F i) (c i) /\ 0 <= c i <= (2 ^ 26 - 1) * (2 ^ 26 - 1))).

  Definition fin (i : Z) : Prop := is_finite (F i) = true.
  Definition val (i n : Z) : Z := c i + (n - i) * (n - i).
  Definition inter (p q : Z) : f64 :=
    let pf : f64 := of_int p in let qf : f64 := of_int q in
    fdiv (fsub (fadd (F q) (fmul qf qf)) (fadd (F p) (fmul pf pf))) (fsub (fmul (of_int 2) qf) (fmul (of_int 2) pf)).
  Definition X (p q : Z) : R := B2R (inter p q).

  Lemma fin_iz i : 0 <= i < N -> fin i -> iz (F i) (c i) /\ 0 <= c i <= (2 ^ 26 - 1) * (2 ^ 26 - 1).
  Proof. intros H Hi. destruct (HF i H) as [E|E]; [|exact E]. unfold fin in Hi. rewrite E in Hi. discriminate. Qed.
  Lemma fin_dec i : 0 <= i < N -> fin i \/ F i = infinity.
  Proof. intros H. destruct (HF i H) as [E|((E & _) & _)]; [right|left]; assumption. Qed.

  Lemma sq_le a : 0 <= a < N -> 0 <= a * a <= (2 ^ 26 - 1) * (2 ^ 26 - 1).
  Proof. clear -HN. intros H. split; [nia|]. apply Z.mul_le_mono_nonneg; lia. Qed.

  Lemma inter_ok p q : 0 <= p -> p < q < N -> fin p -> fin q ->
    intersection f p q = Ok (inter p q) /\ is_finite (inter p q) = true /\
    forall n, 0 <= n < N -> ((X p q <=r IZR n) <-> val q n <= val p n) /\ ((IZR n <=r X p q) <-> val p n <= val q n).
  Proof.
    intros Hp Hq Fp Fq. destruct (fin_iz p ltac:(lia) Fp) as (Ip & Bp). destruct (fin_iz q ltac:(lia) Fq) as (Iq & Bq).
    split. { unfold intersection. rewrite !Hf by lia. reflexivity. }
    pose proof (sq_le p ltac:(lia)) as Sp. pose proof (sq_le q ltac:(lia)) as Sq.
    assert (Jp : iz (of_int p) p) by (apply iz_int; lia). assert (Jq : iz (of_int q) q) by (apply iz_int; lia).
    assert (J2 : iz (of_int 2) 2) by (apply iz_int; lia).
    assert (A1 : iz (fadd (F q) (fmul (of_int q) (of_int q))) (c q + q * q)). { apply iz_add; [exact Iq|apply iz_mul; auto; lia|lia]. }
    assert (A2 : iz (fadd (F p) (fmul (of_int p) (of_int p))) (c p + p * p)). { apply iz_add; [exact Ip|apply iz_mul; auto; lia|lia]. }
    assert (A3 := iz_sub _ _ _ _ A1 A2 ltac:(lia)).
    assert (A4 : iz (fsub (fmul (of_int 2) (of_int q)) (fmul (of_int 2) (of_int p))) (2 * q - 2 * p)).
    { apply iz_sub; [apply iz_mul; auto; lia|apply iz_mul; auto; lia|lia]. }
    unfold X, inter. cbv zeta. set (x := fsub (fadd _ _) _) in *. set (y := fsub (fmul _ _) _) in *. clearbody x y.
    destruct A3 as (Fx & Rx). destruct A4 as (Fy & Ry). set (a := c q + q * q - (c p + p * p)) in *. set (b := 2 * q - 2 * p) in *.
    assert (Pb : 0 < b < 2 ^ 27) by (unfold b; lia). assert (Ba : Z.abs a <= 2 ^ 53) by (unfold a; lia).
    destruct (fdiv_R 53 1024 x y Fx) as (Fd & Rd).
    { rewrite Ry. apply IZR_neq. lia. }
    { rewrite Rx, Ry. apply Rle_trans with (Rabs (IZR a)); [|apply big53, Ba]. unfold Rdiv. rewrite Rabs_mult.
      rewrite <- (Rmult_1_r (Rabs (IZR a))) at 2. apply Rmult_le_compat_l; [apply Rabs_pos|].
      rewrite Rabs_pos_eq. { rewrite <- Rinv_1. apply Rinv_le; [lra|]. apply IZR_le. lia. }
      left. apply Rinv_0_lt_compat. apply IZR_lt. lia. }
    split; [exact Fd|]. intros n Hn. rewrite Rd, Rx, Ry. rewrite quot_le, quot_ge by lia. unfold val, a, b. clear. split; split; nia.
  Qed.

  (** ** The envelope *)
  Record Env (k q : Z) (v : Z -> Z) (e : envelope) : Prop := {
    e_locs : zlen (locations e) = N; e_bs : zlen (boundaries e) = N + 1;
    e_k : 0 <= k < q; e_q : q <= N;
    e_v : forall j, 0 <= j <= k -> znth (locations e) j = Some (v j) /\ 0 <= v j < q;
    e_inc : forall j, 0 < j <= k -> v (j - 1) < v j;
    e_first : znth (boundaries e) 0 = Some neg_infinity;
    e_last : znth (boundaries e) (k + 1) = Some infinity;
    e_b : forall j, 0 < j <= k -> znth (boundaries e) j = Some (inter (v (j - 1)) (v j));
    e_mono : forall j, 1 < j <= k -> (X (v (j - 2)) (v (j - 1)) <r X (v (j - 1)) (v j)) }.
  Definition empty_upto (q k : Z) (v : Z -> Z) : Prop := k = 0 /\ v 0 = 0 /\ forall i, 0 <= i < q -> F i = infinity.
  Definition full_upto (q k : Z) (v : Z -> Z) : Prop :=
    (forall j, 0 <= j <= k -> fin (v j)) /\
    (forall i n, 0 <= i < q -> fin i -> 0 <= n < N -> exists j, 0 <= j <= k /\ val (v j) n <= val i n).

  Lemma pop_ok k q v e : Env k q v e -> full_upto q k v -> q < N -> fin q -> forall fuel k', 0 <= k' <= k -> (Z.to_nat k' < fuel)%nat ->
    (forall i n, 0 <= i < q -> fin i -> 0 <= n < N -> (exists j, 0 <= j <= k' /\ val (v j) n <= val i n) \/ val q n <= val i n) ->
    exists k2, pop fuel f e q k' (inter (v k') q) = Ok (k2, inter (v k2) q) /\ 0 <= k2 <= k' /\
      (forall i n, 0 <= i < q -> fin i -> 0 <= n < N -> (exists j, 0 <= j <= k2 /\ val (v j) n <= val i n) \/ val q n <= val i n) /\
      (0 < k2 -> (X (v (k2 - 1)) (v k2) <r X (v k2) q)).
  Proof.
    intros E (Fv & _) Hq Fq. induction fuel as [|fuel IH]; intros k' Hk Hfu Cov; [lia|].
    destruct (e_v _ _ _ _ E k' ltac:(lia)) as (L & Vr). destruct (inter_ok (v k') q ltac:(lia) ltac:(lia) (Fv k' ltac:(lia)) Fq) as (_ & Fi & Ci).
    cbn [pop]. destruct (Z.eq_dec k' 0) as [->|NZ].
    - rewrite (proj2 (vget_ok _ _ _) (e_first _ _ _ _ E)). cbn [bind]. rewrite fin_fle_neg by exact Fi.
      exists 0. split; [reflexivity|]. split; [lia|]. split; [exact Cov|lia].
    - rewrite (proj2 (vget_ok _ _ _) (e_b _ _ _ _ E k' ltac:(lia))). cbn [bind].
      destruct (e_v _ _ _ _ E (k' - 1) ltac:(lia)) as (L1 & V1). pose proof (e_inc _ _ _ _ E k' ltac:(lia)) as I1.
      destruct (inter_ok (v (k' - 1)) (v k') ltac:(lia) ltac:(lia) (Fv (k' - 1) ltac:(lia)) (Fv k' ltac:(lia))) as (_ & Fb & Cb).
      rewrite fle64_R by assumption. fold (X (v k') q) (X (v (k' - 1)) (v k')).
      destruct (Rle_bool_spec (X (v k') q) (X (v (k' - 1)) (v k'))) as [Le|Gt].
      + rewrite chk_u_ok by (pose proof (e_k _ _ _ _ E); pose proof (e_q _ _ _ _ E); lia). cbn [bind]. rewrite (proj2 (vget_ok _ _ _) L1). cbn [bind].
        destruct (inter_ok (v (k' - 1)) q ltac:(lia) ltac:(lia) (Fv (k' - 1) ltac:(lia)) Fq) as (-> & _ & _). cbn [bind].
        destruct (IH (k' - 1)) as (k2 & E2 & R2 & C2 & M2); [lia|lia| |exists k2; split; [exact E2|]; split; [lia|]; split; [exact C2|exact M2]].
        intros i n Hi Fi' Hn. destruct (Cov i n Hi Fi' Hn) as [(j & Hj & V)|V]; [|right; exact V].
        destruct (Z.eq_dec j k') as [->|]; [|left; exists j; split; [lia|exact V]].
        destruct (Cb n Hn) as (C1 & C1'). destruct (Ci n Hn) as (C2 & _).
        destruct (Z.le_gt_cases (val (v (k' - 1)) n) (val (v k') n)) as [G|G]; [left; exists (k' - 1); split; [lia|lia]|right].
        assert (X (v (k' - 1)) (v k') <=r IZR n) by (apply C1; lia).
        assert (val q n <= val (v k') n) by (apply C2; lra). lia.
      + exists k'. split; [reflexivity|]. split; [lia|]. split; [exact Cov|]. intros _. exact Gt.
  Qed.

  Definition Inv (q : Z) (st : Z * envelope) : Prop :=
    exists v, Env (fst st) q v (snd st) /\ (empty_upto q (fst st) v \/ full_upto q (fst st) v).

  Lemma add_ok q st : 1 <= q < N -> Inv q st -> exists st', add_parabola f q st = Ok st' /\ Inv (q + 1) st'.
  Proof.
    intros Hq (v & E & S). destruct st as (k, e). cbn [fst snd] in *. unfold add_parabola. rewrite Hf by lia. cbn [bind].
    pose proof (e_k _ _ _ _ E) as Ek. pose proof (e_locs _ _ _ _ E) as EL. pose proof (e_bs _ _ _ _ E) as EB.
    destruct (fin_dec q ltac:(lia)) as [Fq|Iq].
    2:{ rewrite Iq. change (feq infinity infinity) with true. cbv iota. eexists. split; [reflexivity|]. exists v. cbn [fst snd]. split.
        - destruct E. constructor; try assumption; try lia. intros j Hj. destruct (e_v0 j Hj). split; [assumption|lia].
        - destruct S as [(S1 & S2 & S3)|(S1 & S2)]; [left|right].
          + split; [exact S1|]. split; [exact S2|]. intros i Hi. destruct (Z.eq_dec i q) as [->|]; [exact Iq|apply S3; lia].
          + split; [exact S1|]. intros i n Hi Fi Hn. apply S2; try assumption. assert (i <> q) by (intros ->; unfold fin in Fi; rewrite Iq in Fi; discriminate). lia. }
    rewrite fin_feq_inf by exact Fq.
    destruct (e_v _ _ _ _ E k ltac:(lia)) as (Lk & Vk). rewrite (proj2 (vget_ok _ _ _) Lk). cbn [bind].
    destruct S as [(-> & V0 & S3)|S].
    - rewrite Z.eqb_refl. rewrite V0. rewrite Hf by lia. cbn [bind]. rewrite S3 by lia. change (feq infinity infinity) with true. cbv iota.
      repeat (rewrite vset_ok by (rewrite ?zupd_zlen; lia); cbn [bind]). eexists. split; [reflexivity|]. exists (fun _ => q). cbn [fst snd]. split.
      + constructor; cbn [locations boundaries]; rewrite ?zupd_zlen; try assumption; try lia.
        * intros j Hj. rewrite znth_zupd by lia. replace (j =? 0) with true by lia. split; [reflexivity|lia].
        * rewrite !znth_zupd by (rewrite ?zupd_zlen; lia). reflexivity.
        * rewrite !znth_zupd by (rewrite ?zupd_zlen; lia). reflexivity.
      + right. split; [intros; exact Fq|]. intros i n Hi Fi Hn. exists 0. split; [lia|].
        replace i with q; [lia|]. destruct (Z.eq_dec i q) as [|NE]; [auto|]. exfalso. unfold fin in Fi. rewrite S3 in Fi by lia. discriminate.
    - destruct S as (Fv & Cov). pose proof (Fv k ltac:(lia)) as Fk.
      assert (First : (if k =? 0 then fl <- f (v k) ;; Ok (feq fl infinity) else Ok false) = Ok false).
      { destruct (k =? 0); [|reflexivity]. rewrite Hf by lia. cbn [bind]. rewrite fin_feq_inf by exact Fk. reflexivity. }
      rewrite First. cbn [bind]. destruct (inter_ok (v k) q ltac:(lia) ltac:(lia) Fk Fq) as (-> & _ & _). cbn [bind].
      destruct (pop_ok k q v e E (conj Fv Cov) ltac:(lia) Fq (S (Z.to_nat k)) k ltac:(lia) ltac:(lia)) as (k2 & -> & R2 & C2 & M2).
      { intros i n Hi Fi Hn. left. destruct (Cov i n Hi Fi Hn) as (j & Hj & V). exists j. auto. }
      cbn [bind]. repeat (rewrite vset_ok by (rewrite ?zupd_zlen; lia); cbn [bind]). eexists. split; [reflexivity|].
      exists (fun j => if j =? k2 + 1 then q else v j). cbn [fst snd]. split.
      + constructor; cbn [locations boundaries]; rewrite ?zupd_zlen; try assumption; try lia.
        * intros j Hj. rewrite znth_zupd by lia. destruct (Z.eqb_spec j (k2 + 1)); [split; [reflexivity|lia]|].
          destruct (e_v _ _ _ _ E j ltac:(lia)) as (L & V). split; [exact L|lia].
        * intros j Hj. replace (j - 1 =? k2 + 1) with false by lia. destruct (Z.eqb_spec j (k2 + 1)).
          -- destruct (e_v _ _ _ _ E (j - 1) ltac:(lia)). lia.
          -- apply (e_inc _ _ _ _ E). lia.
        * rewrite !znth_zupd by (rewrite ?zupd_zlen; lia). replace (0 =? k2 + 1 + 1) with false by lia. replace (0 =? k2 + 1) with false by lia. apply (e_first _ _ _ _ E).
        * rewrite !znth_zupd by (rewrite ?zupd_zlen; lia). rewrite Z.eqb_refl. reflexivity.
        * intros j Hj. rewrite !znth_zupd by (rewrite ?zupd_zlen; lia). replace (j =? k2 + 1 + 1) with false by lia.
          replace (j - 1 =? k2 + 1) with false by lia. destruct (Z.eqb_spec j (k2 + 1)) as [->|].
          -- replace (k2 + 1 - 1) with k2 by lia. reflexivity.
          -- apply (e_b _ _ _ _ E). lia.
        * intros j Hj. replace (j - 1 =? k2 + 1) with false by lia. replace (j - 2 =? k2 + 1) with false by lia. destruct (Z.eqb_spec j (k2 + 1)) as [->|].
          -- replace (k2 + 1 - 1) with k2 by lia. replace (k2 + 1 - 2) with (k2 - 1) by lia. apply M2. lia.
          -- apply (e_mono _ _ _ _ E). lia.
      + right. split.
        * intros j Hj. destruct (Z.eqb_spec j (k2 + 1)); [exact Fq|apply Fv; lia].
        * intros i n Hi Fi Hn. assert (Q : val q n <= val i n -> exists j, 0 <= j <= k2 + 1 /\ val (if j =? k2 + 1 then q else v j) n <= val i n).
          { intros V. exists (k2 + 1). rewrite Z.eqb_refl. split; [lia|exact V]. }
          destruct (Z.eq_dec i q) as [->|NE]; [apply Q; lia|].
          destruct (C2 i n ltac:(lia) Fi Hn) as [(j & Hj & V)|V]; [|apply Q; exact V].
          exists j. replace (j =? k2 + 1) with false by lia. split; [lia|exact V].
  Qed.

  (** ** Reading the envelope *)
  Lemma mono_lt K v e j l : Env K N v e -> 0 < j -> j < l <= K -> (X (v (j - 1)) (v j) <r X (v (l - 1)) (v l)).
  Proof.
    intros E Hj Hl. replace l with (j + 1 + Z.of_nat (Z.to_nat (l - j - 1))) in * by lia. induction (Z.to_nat (l - j - 1)) as [|m IH].
    - replace (j + 1 + Z.of_nat 0) with (j + 1) by lia. pose proof (e_mono _ _ _ _ E (j + 1) ltac:(lia)) as M.
      replace (j + 1 - 2) with (j - 1) in M by lia. replace (j + 1 - 1) with j in * by lia. exact M.
    - specialize (IH ltac:(lia)). pose proof (e_mono _ _ _ _ E (j + 1 + Z.of_nat (S m)) ltac:(lia)) as M.
      replace (j + 1 + Z.of_nat (S m) - 2) with (j + 1 + Z.of_nat m - 1) in M by lia. replace (j + 1 + Z.of_nat (S m) - 1) with (j + 1 + Z.of_nat m) in * by lia. lra.
  Qed.

  Lemma advance_ok K v e n : Env K N v e -> (forall j, 0 <= j <= K -> fin (v j)) -> 0 <= n < N -> forall fuel k, 0 <= k <= K -> (Z.to_nat (K - k) < fuel)%nat ->
    (0 < k -> (X (v (k - 1)) (v k) <r IZR n)) ->
    exists k2, advance fuel e n k = Ok k2 /\ k <= k2 <= K /\ (0 < k2 -> (X (v (k2 - 1)) (v k2) <r IZR n)) /\ (k2 < K -> (IZR n <=r X (v k2) (v (k2 + 1)))).
  Proof.
    intros E Fv Hn. destruct (iz_int n ltac:(lia)) as (Fn & Rn). induction fuel as [|fuel IH]; intros k Hk Hfu M; [lia|]. cbn [advance].
    destruct (Z.eq_dec k K) as [->|NK].
    - rewrite (proj2 (vget_ok _ _ _) (e_last _ _ _ _ E)). cbn [bind]. rewrite fin_flt_inf by exact Fn. exists K. split; [reflexivity|]. split; [lia|]. split; [exact M|lia].
    - rewrite (proj2 (vget_ok _ _ _) (e_b _ _ _ _ E (k + 1) ltac:(lia))). cbn [bind]. replace (k + 1 - 1) with k by lia.
      destruct (e_v _ _ _ _ E k ltac:(lia)) as (_ & V1). destruct (e_v _ _ _ _ E (k + 1) ltac:(lia)) as (_ & V2).
      pose proof (e_inc _ _ _ _ E (k + 1) ltac:(lia)) as I1. replace (k + 1 - 1) with k in I1 by lia.
      destruct (inter_ok (v k) (v (k + 1)) ltac:(lia) ltac:(lia) (Fv k ltac:(lia)) (Fv (k + 1) ltac:(lia))) as (_ & Fi & _).
      rewrite flt_R by assumption. rewrite Rn. fold (X (v k) (v (k + 1))). destruct (Rlt_bool_spec (X (v k) (v (k + 1))) (IZR n)) as [L|G].
      + destruct (IH (k + 1)) as (k2 & E2 & R2 & A & B); [lia|lia| |exists k2; split; [exact E2|]; split; [lia|auto]].
        intros _. replace (k + 1 - 1) with k by lia. exact L.
      + exists k. split; [reflexivity|]. split; [lia|]. split; [exact M|]. intros _. exact G.
  Qed.

  Lemma best K v e n k : Env K N v e -> (forall j, 0 <= j <= K -> fin (v j)) -> 0 <= n < N -> 0 <= k <= K ->
    (0 < k -> (X (v (k - 1)) (v k) <r IZR n)) -> (k < K -> (IZR n <=r X (v k) (v (k + 1)))) ->
    forall j, 0 <= j <= K -> val (v k) n <= val (v j) n.
  Proof.
    intros E Fv Hn Hk L G.
    assert (Cmp : forall l, 0 < l <= K -> ((X (v (l - 1)) (v l) <=r IZR n) <-> val (v l) n <= val (v (l - 1)) n) /\ ((IZR n <=r X (v (l - 1)) (v l)) <-> val (v (l - 1)) n <= val (v l) n)).
    { intros l Hl. destruct (e_v _ _ _ _ E l ltac:(lia)) as (_ & V1). destruct (e_v _ _ _ _ E (l - 1) ltac:(lia)) as (_ & V2). pose proof (e_inc _ _ _ _ E l ltac:(lia)).
      destruct (inter_ok (v (l - 1)) (v l) ltac:(lia) ltac:(lia) (Fv (l - 1) ltac:(lia)) (Fv l ltac:(lia))) as (_ & _ & C). apply C, Hn. }
    assert (Dn : forall m : nat, Z.of_nat m <= k -> val (v k) n <= val (v (k - Z.of_nat m)) n).
    { induction m as [|m IH]; intros Hm; [replace (k - Z.of_nat 0) with k by lia; lia|]. specialize (IH ltac:(lia)).
      destruct (Cmp (k - Z.of_nat m) ltac:(lia)) as ((_ & _) & _). destruct (Cmp (k - Z.of_nat m) ltac:(lia)) as ((C & _) & _).
      replace (k - Z.of_nat (S m)) with (k - Z.of_nat m - 1) by lia.
      assert (val (v (k - Z.of_nat m)) n <= val (v (k - Z.of_nat m - 1)) n); [|lia]. apply C.
      destruct m as [|m']; [replace (k - Z.of_nat 0) with k by lia; left; apply L; lia|].
      pose proof (mono_lt K v e (k - Z.of_nat (S m')) k E ltac:(lia) ltac:(lia)). specialize (L ltac:(lia)). lra. }
    assert (Up : forall m : nat, k + Z.of_nat m <= K -> val (v k) n <= val (v (k + Z.of_nat m)) n).
    { induction m as [|m IH]; intros Hm; [replace (k + Z.of_nat 0) with k by lia; lia|]. specialize (IH ltac:(lia)).
      destruct (Cmp (k + Z.of_nat (S m)) ltac:(lia)) as (_ & (C & _)). replace (k + Z.of_nat (S m) - 1) with (k + Z.of_nat m) in C by lia.
      assert (val (v (k + Z.of_nat m)) n <= val (v (k + Z.of_nat (S m))) n); [|lia]. apply C.
      specialize (G ltac:(lia)). destruct m as [|m']; [replace (k + Z.of_nat 0) with k by lia; replace (k + Z.of_nat 1) with (k + 1) by lia; exact G|].
      pose proof (mono_lt K v e (k + 1) (k + Z.of_nat (S (S m'))) E ltac:(lia) ltac:(lia)) as M.
      replace (k + 1 - 1) with k in M by lia. replace (k + Z.of_nat (S (S m')) - 1) with (k + Z.of_nat (S m')) in M by lia. lra. }
    intros j Hj. destruct (Z.le_gt_cases j k).
    - specialize (Dn (Z.to_nat (k - j)) ltac:(lia)). replace (k - Z.of_nat (Z.to_nat (k - j))) with j in Dn by lia. exact Dn.
    - specialize (Up (Z.to_nat (j - k)) ltac:(lia)). replace (k + Z.of_nat (Z.to_nat (j - k))) with j in Up by lia. exact Up.
  Qed.

  (** the value written at [n] *)
  Definition good_at (n : Z) (o : f64) : Prop :=
    ((forall i, 0 <= i < N -> F i = infinity) /\ o = infinity) \/
    (exists i, 0 <= i < N /\ fin i /\ iz o (val i n) /\ forall i', 0 <= i' < N -> fin i' -> val i n <= val i' n).

  Context (pos : Z -> Z * Z) (W H : Z) (put : Z -> f64 -> image f64 -> res (image f64)).
  Context (Hput : forall n o out, put n o out = put_pixel out (fst (pos n)) (snd (pos n)) o).
  Context (Hpos : forall n, 0 <= n < N -> 0 <= fst (pos n) < W /\ 0 <= snd (pos n) < H).
  Context (Hinj : forall n m, pos n = pos m -> n = m).

  Definition Out (n : Z) (out0 out : image f64) : Prop :=
    wf out /\ iw out = W /\ ih out = H /\
    (forall m, 0 <= m < n -> exists o, get out (fst (pos m)) (snd (pos m)) = Some o /\ good_at m o) /\
    (forall x y, (forall m, 0 <= m < n -> (x, y) <> pos m) -> get out x y = get out0 x y).

  Lemma out_step n out0 out o : 0 <= n < N -> Out n out0 out -> good_at n o ->
    exists out', put n o out = Ok out' /\ Out (n + 1) out0 out'.
  Proof.
    intros Hn (Wf & Ew & Eh & O1 & O2) G. destruct (Hpos n Hn) as (P1 & P2). rewrite Hput.
    rewrite put_pixel_ok by lia. eexists. split; [reflexivity|].
    split; [apply wf_put, Wf|]. split; [exact Ew|]. split; [exact Eh|]. split.
    - intros m Hm. rewrite get_put by (assumption || lia). destruct (Z.eq_dec m n) as [->|NE].
      + rewrite !Z.eqb_refl. exists o. auto.
      + replace (_ && _) with false; [apply O1; lia|]. symmetry. apply andb_false_iff.
        destruct (Z.eqb_spec (fst (pos m)) (fst (pos n))); [|left; reflexivity]. destruct (Z.eqb_spec (snd (pos m)) (snd (pos n))); [|right; reflexivity].
        exfalso. apply NE, Hinj. destruct (pos m), (pos n). cbn in *. congruence.
    - intros x y D. rewrite get_put by (assumption || lia). replace (_ && _) with false; [apply O2; intros m Hm; apply D; lia|].
      symmetry. apply andb_false_iff. specialize (D n ltac:(lia)). destruct (pos n) as (px, py). cbn [fst snd].
      destruct (Z.eqb_spec x px); [right|left; reflexivity]. destruct (Z.eqb_spec y py); [congruence|reflexivity].
  Qed.

  Lemma line_ok m e out0 : m = N -> zlen (locations e) = N -> zlen (boundaries e) = N + 1 -> wf out0 -> iw out0 = W -> ih out0 = H ->
    exists e' out, distance_transform_1d N f m put e out0 = Ok (e', out) /\ zlen (locations e') = N /\ zlen (boundaries e') = N + 1 /\ Out N out0 out.
  Proof.
    intros -> EL EB Wf Ew Eh. unfold distance_transform_1d. rewrite EL, EB, !Z.eqb_refl. cbn [assert bind].
    replace (N =? 0) with false by lia. repeat (rewrite vset_ok by (rewrite ?zupd_zlen; lia); cbn [bind]).
    set (e0 := mkEnv _ _).
    assert (I0 : Inv 1 (0, e0)).
    { exists (fun _ => 0). cbn [fst snd]. split.
      - constructor; unfold e0; cbn [locations boundaries]; rewrite ?zupd_zlen; try assumption; try lia.
        + intros j Hj. rewrite znth_zupd by lia. replace (j =? 0) with true by lia. split; [reflexivity|lia].
        + rewrite !znth_zupd by (rewrite ?zupd_zlen; lia). reflexivity.
        + rewrite !znth_zupd by (rewrite ?zupd_zlen; lia). reflexivity.
      - destruct (fin_dec 0 ltac:(lia)) as [F0|F0]; [right|left].
        + split; [intros; exact F0|]. intros i n Hi _ _. exists 0. split; [lia|]. replace i with 0 by lia. lia.
        + split; [reflexivity|]. split; [reflexivity|]. intros i Hi. replace i with 0 by lia. exact F0. }
    clearbody e0.
    destruct (for_range_ind Inv 1 N (add_parabola f) (0, e0) ltac:(lia) I0) as ((K, e1) & -> & (v & E & S)).
    { intros i s Hi I. apply add_ok; assumption. }
    cbn [bind fst snd] in *.
    destruct (for_range_ind (fun n st => (0 <= fst st <= K /\ ((forall j, 0 <= j <= K -> fin (v j)) -> 0 < fst st -> (X (v (fst st - 1)) (v (fst st)) <r IZR n))) /\ Out n out0 (snd st))
      0 N (write_value f put e1) (0, out0) ltac:(lia)) as ((k, out) & -> & (_ & O)).
    - cbn [fst snd]. pose proof (e_k _ _ _ _ E). split; [split; [lia|lia]|]. split; [exact Wf|]. split; [exact Ew|]. split; [exact Eh|]. split; [lia|]. reflexivity.
    - intros n (k, out) Hn ((Hk & M) & O). cbn [fst snd] in *. unfold write_value.
      destruct S as [(K0 & V0 & S)|(Fv & Cov)].
      + subst K. assert (k = 0) by lia. subst k. cbn [advance]. rewrite (proj2 (vget_ok _ _ _) (e_last _ _ _ _ E)). cbn [bind].
        destruct (iz_int n ltac:(lia)) as (Fn & Rn). rewrite fin_flt_inf by exact Fn. cbn [bind].
        destruct (e_v _ _ _ _ E 0 ltac:(lia)) as (L & Vr). rewrite (proj2 (vget_ok _ _ _) L). cbn [bind]. rewrite V0. rewrite Hf by lia. cbn [bind].
        rewrite S by lia.
        assert (D : iz (fsub (of_int n) (of_int 0)) (n - 0)) by (apply iz_sub; [apply iz_int; lia|apply iz_int; lia|lia]).
        pose proof (sq_le n Hn) as Sn. assert (D2 := iz_mul _ _ _ _ D D ltac:(lia)). rewrite fadd_inf by apply D2.
        destruct (out_step n out0 out infinity Hn O) as (out' & -> & O'); [left; auto|]. cbn [bind]. eexists. split; [reflexivity|].
        cbn [fst snd]. split; [split; lia|exact O'].
      + destruct (advance_ok K v e1 n E Fv Hn (S (length (boundaries e1))) k Hk) as (k2 & -> & R2 & A & B).
        { pose proof (e_bs _ _ _ _ E). pose proof (e_k _ _ _ _ E). unfold zlen in *. lia. }
        { apply M. exact Fv. }
        cbn [bind]. destruct (e_v _ _ _ _ E k2 ltac:(lia)) as (L & Vr). rewrite (proj2 (vget_ok _ _ _) L). cbn [bind]. rewrite Hf by lia. cbn [bind].
        destruct (fin_iz (v k2) ltac:(lia) (Fv k2 ltac:(lia))) as (Ic & Bc).
        assert (D : iz (fsub (of_int n) (of_int (v k2))) (n - v k2)) by (apply iz_sub; [apply iz_int; lia|apply iz_int; lia|lia]).
        assert (Sn : 0 <= (n - v k2) * (n - v k2) <= (2 ^ 26 - 1) * (2 ^ 26 - 1)).
        { replace ((n - v k2) * (n - v k2)) with (Z.abs (n - v k2) * Z.abs (n - v k2)) by (clear; nia). apply sq_le. lia. }
        assert (D2 := iz_mul _ _ _ _ D D ltac:(lia)). assert (D3 := iz_add _ _ _ _ D2 Ic ltac:(lia)).
        destruct (out_step n out0 out (fadd (fmul (fsub (of_int n) (of_int (v k2))) (fsub (of_int n) (of_int (v k2)))) (F (v k2))) Hn O) as (out' & -> & O').
        { right. exists (v k2). split; [lia|]. split; [apply Fv; lia|]. split.
          - unfold val. rewrite Z.add_comm. exact D3.
          - intros i' Hi' Fi'. destruct (Cov i' n Hi' Fi' Hn) as (j & Hj & V).
            pose proof (best K v e1 n k2 E Fv Hn ltac:(lia) A B j Hj). lia. }
        cbn [bind]. eexists. split; [reflexivity|]. cbn [fst snd]. split; [|exact O']. split; [lia|].
        intros _ P. specialize (A P). rewrite plus_IZR. lra.
    - cbn [bind]. eexists _, _. split; [reflexivity|]. split; [apply (e_locs _ _ _ _ E)|]. split; [apply (e_bs _ _ _ _ E)|exact O].
  Qed.
End Line.
