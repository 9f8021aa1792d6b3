(** Proofs about [brief] and [match_binary_descriptors]. *)
From Verif Require Import Base BaseProofs IntegralModel IntegralSpec IntegralProofs SuppressProofs BriefModel BriefSpec BriefProofs.
Local Ltac Zify.zify_post_hook ::= idtac.

Section Mean.
Variables (im ii : image (list Z)).
Hypothesis Him : channels8 1 im.
Hypothesis Hw : iw im + 20 < 2 ^ 32.
Hypothesis Hh : ih im + 20 < 2 ^ 32.
Hypothesis Htot : rect_sum (chan im 0) 0 (iw im) 0 (ih im) < 2 ^ 31.
Hypothesis Wii : wf ii.
Hypothesis Ew : iw ii = iw im + 1.
Hypothesis Eh : ih ii = ih im + 1.
Hypothesis HG : forall x y, 0 <= x <= iw im -> 0 <= y <= ih im -> get ii x y = Some [rect_sum (chan im 0) 0 x 0 y].

Notation P x y := (rect_sum (chan im 0) 0 x 0 y).
Lemma pixel0_ok x y : 0 <= x <= iw im -> 0 <= y <= ih im -> pixel0 ii x y = Ok (P x y).
Proof.
  intros Hx Hy. unfold pixel0. rewrite (proj2 (get_pixel_ok ii x y _) (HG x y Hx Hy)). reflexivity.
Qed.
Lemma P_mono x x' y y' : 0 <= x <= x' -> 0 <= y <= y' -> P x y <= P x' y'.
Proof. intros Hx Hy. apply (rect_mono 1 im false Him 0 0 x x' 0 y y'); lia. Qed.
Lemma P_nonneg x y : 0 <= P x y.
Proof. apply (rect_nonneg 1 im false Him 0). Qed.
Lemma rect_max x0 x1 y0 y1 : x0 <= x1 -> y0 <= y1 ->
  0 <= rect_sum (chan im 0) x0 x1 y0 y1 <= 255 * ((y1 - y0) * (x1 - x0)).
Proof.
  intros Hx Hy. split; [apply (rect_nonneg 1 im false Him 0)|].
  apply Z.le_trans with (zsum y0 y1 (fun _ => (x1 - x0) * 255)).
  - apply zsum_le. intros y _. rewrite <- zsum_const by lia. apply zsum_le. intros x _.
    apply (chan_range 1 im Him).
  - rewrite zsum_const by lia. lia.
Qed.

Lemma local_ok x y : 0 <= x <= iw im + 1 -> 0 <= y <= ih im + 1 -> 1 <= iw im -> 1 <= ih im ->
  local_pixel_average ii x y 2 = Ok (patch_mean im x y).
Proof.
  intros Hx Hy Hw1 Hh1. unfold local_pixel_average, patch_mean. cbn [Z.eqb].
  rewrite Ew, Eh.
  rewrite (chk_u_ok 32 (y + 2)) by lia. cbn [bind]. rewrite (chk_u_ok 32 (y + 2 + 1)) by lia. cbn [bind].
  rewrite (chk_u_ok 32 (ih im + 1 - 1)) by lia. cbn [bind].
  rewrite (chk_u_ok 32 (x + 2)) by lia. cbn [bind]. rewrite (chk_u_ok 32 (x + 2 + 1)) by lia. cbn [bind].
  rewrite (chk_u_ok 32 (iw im + 1 - 1)) by lia. cbn [bind].
  replace (y + 2 + 1) with (y + 3) by lia. replace (x + 2 + 1) with (x + 3) by lia.
  replace (ih im + 1 - 1) with (ih im) by lia. replace (iw im + 1 - 1) with (iw im) by lia.
  set (x0 := Z.max 0 (x - 2)). set (x1 := Z.min (x + 3) (iw im)).
  set (y0 := Z.max 0 (y - 2)). set (y1 := Z.min (y + 3) (ih im)).
  assert (Rx : 0 <= x0 < x1 /\ x1 <= iw im /\ x1 - x0 <= 5) by lia.
  assert (Ry : 0 <= y0 < y1 /\ y1 <= ih im /\ y1 - y0 <= 5) by lia.
  clearbody x0 x1 y0 y1.
  rewrite (chk_u_ok 32 (y1 - y0)) by lia. cbn [bind]. rewrite (chk_u_ok 32 (x1 - x0)) by lia. cbn [bind].
  assert (1 <= (y1 - y0) * (x1 - x0) <= 25) by (clear -Rx Ry; nia).
  rewrite (chk_u_ok 32 ((y1 - y0) * (x1 - x0))) by lia. cbn [bind].
  rewrite (proj2 (Z.eqb_neq ((y1 - y0) * (x1 - x0)) 0)) by lia.
  rewrite !pixel0_ok by lia. cbn [bind].
  pose proof (P_mono x0 x1 y0 y1 ltac:(lia) ltac:(lia)) as M1.
  pose proof (P_mono x0 x1 y0 y0 ltac:(lia) ltac:(lia)) as M2.
  pose proof (P_mono x1 x1 y0 y1 ltac:(lia) ltac:(lia)) as M3.
  pose proof (P_mono x1 (iw im) y1 (ih im) ltac:(lia) ltac:(lia)) as M4.
  pose proof (P_nonneg x0 y0) as N1. pose proof (P_nonneg x0 y1) as N2. pose proof (P_nonneg x1 y0) as N3.
  pose proof (rect_diff Release 32 1 im false ltac:(discriminate) 0 x0 y0 (x1 - 1) (y1 - 1)) as D.
  replace (x1 - 1 + 1) with x1 in D by lia. replace (y1 - 1 + 1) with y1 in D by lia.
  specialize (D ltac:(lia) ltac:(lia)).
  change (rect_sum (chan im 0) x0 x1 y0 y1 = P x1 y1 + P x0 y0 - P x1 y0 - P x0 y1) in D.
  pose proof (rect_max x0 x1 y0 y1 ltac:(lia) ltac:(lia)) as RM.
  set (t := rect_sum (chan im 0) x0 x1 y0 y1) in *. set (a := P x1 y1) in *. set (b := P x0 y0) in *.
  set (c := P x1 y0) in *. set (d := P x0 y1) in *. set (tot := P (iw im) (ih im)) in *.
  set (area := (y1 - y0) * (x1 - x0)) in *. clearbody t a b c d tot area.
  rewrite (chk_u_ok 32 (a + b)) by lia. cbn [bind]. rewrite (chk_u_ok 32 (a + b - c)) by lia. cbn [bind].
  rewrite (chk_u_ok 32 (a + b - c - d)) by lia. cbn [bind]. f_equal. rewrite <- D.
  apply Z.mod_small. split; [apply Z.div_pos; lia|]. apply Z.div_lt_upper_bound; lia.
Qed.

Lemma test_ok k tp : inner im k -> in_patch tp ->
  test_at ii (fst k - 15) (snd k - 15) tp = Ok (outcome im k tp).
Proof.
  destruct k as [kx ky]. destruct tp as [[x0 y0] [x1 y1]]. unfold inner, in_patch. cbn [fst snd].
  intros Hk Hp. unfold test_at, outcome. cbn [fst snd].
  rewrite (chk_u_ok 32 (x0 + (kx - 15))) by lia. cbn [bind]. rewrite (chk_u_ok 32 (x0 + (kx - 15) + 1)) by lia. cbn [bind].
  rewrite (chk_u_ok 32 (y0 + (ky - 15))) by lia. cbn [bind]. rewrite (chk_u_ok 32 (y0 + (ky - 15) + 1)) by lia. cbn [bind].
  rewrite (chk_u_ok 32 (x1 + (kx - 15))) by lia. cbn [bind]. rewrite (chk_u_ok 32 (x1 + (kx - 15) + 1)) by lia. cbn [bind].
  rewrite (chk_u_ok 32 (y1 + (ky - 15))) by lia. cbn [bind]. rewrite (chk_u_ok 32 (y1 + (ky - 15) + 1)) by lia. cbn [bind].
  rewrite !local_ok by (auto; lia). cbn [bind].
  replace (x0 + (kx - 15) + 1) with (kx - 14 + x0) by lia. replace (y0 + (ky - 15) + 1) with (ky - 14 + y0) by lia.
  replace (x1 + (kx - 15) + 1) with (kx - 14 + x1) by lia. replace (y1 + (ky - 15) + 1) with (ky - 14 + y1) by lia.
  reflexivity.
Qed.
End Mean.

(** * Packing of the outcomes *)
Definition step (out : Z -> bool) (idx : Z) (s : list Z * Z) : list Z * Z :=
  let '(bits, chunk) := s in
  let '(bits, chunk) := if negb (idx =? 0) && (idx mod 128 =? 0) then (bits ++ [chunk], 0) else (bits, chunk) in
  (bits, ((chunk + Z.b2z (out idx)) * 2) mod 2 ^ 128).

(** state after [m] tests: [q] full words and a chunk holding [r] tests *)
Definition packed (out : Z -> bool) (q r : Z) (s : list Z * Z) : Prop :=
  let '(bits, chunk) := s in
  zlen bits = q /\ 0 <= chunk < 2 ^ 128 /\ 0 <= r <= 128 /\
  (forall j, 0 <= j < 128 -> Z.testbit chunk j = (1 <=? j) && (j <=? r) && out (128 * q + r - j)) /\
  (forall w, In w bits -> 0 <= w < 2 ^ 128) /\
  (forall c w, znth bits c = Some w -> forall j, 0 <= j < 128 ->
     Z.testbit w j = (1 <=? j) && out (128 * c + 128 - j)).

Lemma chunk_step chunk b : 0 <= chunk < 2 ^ 128 -> Z.testbit chunk 0 = false ->
  chunk + Z.b2z b < 2 ^ 128 /\ forall j, 0 <= j < 128 ->
    Z.testbit (((chunk + Z.b2z b) * 2) mod 2 ^ 128) j =
    if j =? 0 then false else if j =? 1 then b else Z.testbit chunk (j - 1).
Proof.
  intros Hc H0.
  assert (E : chunk = 2 * (chunk / 2)).
  { rewrite Z.bit0_odd in H0. rewrite (Z.div_mod chunk 2) at 1 by lia. rewrite Zmod_odd, H0. lia. }
  set (q := chunk / 2) in *.
  assert (q < 2 ^ 127) by (change (2 ^ 128) with (2 * 2 ^ 127) in Hc; lia).
  split.
  { change (2 ^ 128) with (2 * 2 ^ 127). destruct b; cbn [Z.b2z]; lia. }
  intros j Hj. rewrite Z.mod_pow2_bits_low by lia. rewrite Z.mul_comm.
  destruct (Z.eqb_spec j 0) as [->|N0].
  { apply Z.testbit_even_0. }
  replace j with (Z.succ (j - 1)) at 1 by lia. rewrite Z.testbit_even_succ by lia.
  rewrite E at 1. rewrite Z.add_comm.
  destruct (Z.eqb_spec j 1) as [->|N1].
  { change (1 - 1) with 0. apply Z.add_b2z_double_bit0. }
  replace (j - 1) with (Z.succ (j - 2)) by lia. rewrite <- !Z.div2_bits by lia.
  rewrite Z.add_b2z_double_div2. unfold q. rewrite <- Z.div2_div. reflexivity.
Qed.

Lemma chunk_bit0 out q r s : packed out q r s -> Z.testbit (snd s) 0 = false.
Proof. destruct s as [bits chunk]. intros (_ & _ & _ & H & _). cbn [snd]. rewrite H by lia. reflexivity. Qed.

Lemma step_pack out q r s : 0 <= q -> 1 <= r <= 128 -> packed out q r s ->
  let m := 128 * q + r in
  packed out (m / 128) (m mod 128 + 1) (step out m s) /\ fst (step out m s) ++ [] = fst (step out m s).
Proof.
  intros Hq Hr HP m. split; [|apply app_nil_r]. destruct s as [bits chunk].
  unfold step. rewrite (proj2 (Z.eqb_neq m 0)) by lia. cbn [negb andb].
  destruct (Z.eqb_spec (m mod 128) 0) as [E|E].
  - assert (R : r = 128).
    { destruct (Z.eq_dec r 128); auto. exfalso. unfold m in E. rewrite Z.add_comm, Z.mul_comm, Z.mod_add in E by lia.
      rewrite Z.mod_small in E by lia. lia. }
    subst r. assert (Em : m / 128 = q + 1).
    { unfold m. replace (128 * q + 128) with ((q + 1) * 128) by lia. apply Z.div_mul. lia. }
    rewrite E, Em. destruct HP as (L & C & _ & B & W & F).
    destruct (chunk_step 0 (out m)) as [_ S]; [lia|reflexivity|].
    unfold packed. splits.
    + rewrite zlen_app, L. reflexivity.
    + apply Z.mod_pos_bound. lia.
    + apply Z.mod_pos_bound. lia.
    + lia.
    + lia.
    + intros j Hj. rewrite S by auto. change (0 + 1) with 1.
      destruct (Z.eqb_spec j 0) as [->|]; [reflexivity|]. destruct (Z.eqb_spec j 1) as [->|].
      * cbn [Z.leb Z.compare Pos.compare Pos.compare_cont andb]. f_equal. unfold m. lia.
      * rewrite Z.bits_0. rewrite (proj2 (Z.leb_gt j 1)) by lia. rewrite Bool.andb_false_r. reflexivity.
    + intros w Hw. apply in_app_or in Hw. destruct Hw as [Hw|[<-|[]]]; auto.
    + intros c w Hc j Hj. destruct (Z.lt_ge_cases c (zlen bits)) as [Lc|Lc].
      * rewrite znth_app_l in Hc by auto. apply (F c w Hc j Hj).
      * rewrite znth_app_r in Hc by auto. pose proof (znth_range _ _ _ Hc) as [A A'].
        change (zlen [chunk]) with 1 in A'. replace (c - zlen bits) with 0 in Hc by lia.
        rewrite znth_cons_0 in Hc. injection Hc as <-. rewrite B by auto. rewrite (proj2 (Z.leb_le j 128)) by lia.
        rewrite Bool.andb_true_r. f_equal. f_equal. lia.
  - assert (R : r < 128).
    { destruct (Z.eq_dec r 128) as [->|]; [|lia]. exfalso. apply E. unfold m.
      replace (128 * q + 128) with ((q + 1) * 128) by lia. apply Z.mod_mul. lia. }
    assert (Em : m / 128 = q /\ m mod 128 = r).
    { unfold m. rewrite Z.add_comm, Z.mul_comm. rewrite Z.div_add, Z.mod_add, Z.div_small, Z.mod_small by lia. lia. }
    destruct Em as [Em1 Em2]. rewrite Em1, Em2.
    pose proof (chunk_bit0 out q r (bits, chunk) HP) as B0. cbn [snd] in B0.
    destruct HP as (L & C & _ & B & W & F).
    destruct (chunk_step chunk (out m)) as [_ S]; [auto|auto|].
    split; [exact L|split; [apply Z.mod_pos_bound; lia|split; [lia|split; [|split; [exact W|exact F]]]]].
    intros j Hj. rewrite S by auto. destruct (Z.eqb_spec j 0) as [->|]; [reflexivity|].
      rewrite (proj2 (Z.leb_le 1 j)) by lia. cbn [andb].
      destruct (Z.eqb_spec j 1) as [->|].
      * rewrite (proj2 (Z.leb_le 1 (r + 1))) by lia. cbn [andb]. f_equal. unfold m. lia.
      * rewrite B by lia. rewrite (proj2 (Z.leb_le 1 (j - 1))) by lia. cbn [andb].
        destruct (Z.leb_spec (j - 1) r), (Z.leb_spec j (r + 1)); try lia; auto. cbn [andb]. f_equal. lia.
Qed.

Lemma step_first out s : s = ([], 0) -> packed out 0 1 (step out 0 s).
Proof.
  intros ->. unfold step. cbn [Z.eqb negb andb].
  destruct (chunk_step 0 (out 0)) as [_ S]; [lia|reflexivity|].
  split; [reflexivity|split; [apply Z.mod_pos_bound; lia|split; [lia|split; [|split]]]].
  - intros j Hj. rewrite S by auto. destruct (Z.eqb_spec j 0) as [->|]; [reflexivity|].
    destruct (Z.eqb_spec j 1) as [->|]; [reflexivity|]. rewrite Z.bits_0, (proj2 (Z.leb_gt j 1)) by lia.
    rewrite Bool.andb_false_r. reflexivity.
  - intros w [].
  - intros c w Hc. pose proof (znth_range _ _ _ Hc) as [A B]. rewrite zlen_nil' in B. lia.
Qed.

Lemma packed_chk out q r s b : packed out q r s -> chk_u 128 (snd s + Z.b2z b) = Ok (snd s + Z.b2z b).
Proof.
  intros H. pose proof (chunk_bit0 _ _ _ _ H) as B0. destruct s as [bits chunk]. cbn [snd] in *.
  destruct H as (_ & C & _). destruct (chunk_step chunk b C B0) as [A _].
  apply chk_u_ok. destruct b; cbn [Z.b2z] in *; lia.
Qed.

Lemma combine_mid {X} (l : list X) : forall k done idx x rest,
  combine (zrange k (k + zlen l)) l = done ++ (idx, x) :: rest ->
  idx = k + zlen done /\ znth l (zlen done) = Some x.
Proof.
  induction l as [|a l IH]; intros k done idx x rest E.
  - rewrite zlen_nil', Z.add_0_r, zrange_empty in E by lia. cbn [combine] in E. destruct done; discriminate.
  - rewrite zlen_cons in E. pose proof (zlen_nonneg l). rewrite zrange_cons in E by lia. cbn [combine] in E.
    replace (k + (1 + zlen l)) with (k + 1 + zlen l) in E by lia. remember (k + 1) as k1 eqn:Ek.
    destruct done as [|d done]; cbn [app] in E.
    + injection E as E1 E2 _. subst. rewrite zlen_nil', znth_cons_0. split; [lia|auto].
    + injection E as _ E. apply IH in E.
      destruct E as [E1 E2]. rewrite zlen_cons. pose proof (zlen_nonneg done). split; [lia|].
      rewrite znth_cons_S by lia. replace (1 + zlen done - 1) with (zlen done) by lia. exact E2.
Qed.

(** the loop over the tests, with known outcomes *)
Definition outs (out : test_pair -> bool) (pairs : list test_pair) (i : Z) : bool :=
  match znth pairs i with Some tp => out tp | None => false end.
Lemma describe_fold (tst : test_pair -> res bool) (out : test_pair -> bool) pairs :
  (forall tp, In tp pairs -> tst tp = Ok (out tp)) ->
  exists s, for_each (combine (zrange 0 (zlen pairs)) pairs) (fun '(idx, tp) '(bits, chunk) =>
    let '(bits, chunk) := if negb (idx =? 0) && (idx mod 128 =? 0) then (bits ++ [chunk], 0) else (bits, chunk) in
    b <- tst tp ;;
    chunk <- chk_u 128 (chunk + Z.b2z b) ;;
    Ok (bits, (chunk * 2) mod 2 ^ 128)) ([], 0) = Ok s /\
  (zlen pairs = 0 /\ s = ([], 0) \/
   1 <= zlen pairs /\ packed (outs out pairs) ((zlen pairs - 1) / 128) ((zlen pairs - 1) mod 128 + 1) s).
Proof.
  intros Ht.
  set (Q := fun (done : list (Z * test_pair)) s => zlen done = 0 /\ s = ([], 0) \/
      1 <= zlen done /\ packed (outs out pairs) ((zlen done - 1) / 128) ((zlen done - 1) mod 128 + 1) s).
  set (L := combine (zrange 0 (zlen pairs)) pairs).
  assert (EL : zlen L = zlen pairs).
  { unfold L, zlen at 1. rewrite combine_length. pose proof (zlen_zrange 0 (zlen pairs)).
    pose proof (zlen_nonneg pairs). unfold zlen in *. lia. }
  match goal with |- exists s, for_each L ?b ?s0 = _ /\ _ => destruct (for_each_ind Q L b s0) as (s & E & H) end.
  - left. split; reflexivity.
  - intros done [idx tp] rest s EL' HQ. unfold L in EL'. rewrite <- (Z.add_0_l (zlen pairs)) in EL'.
    apply combine_mid in EL'. destruct EL' as [Ei Et]. rewrite Z.add_0_l in Ei. subst idx.
    assert (Eo : out tp = outs out pairs (zlen done)) by (unfold outs; rewrite Et; reflexivity).
    assert (It : In tp pairs) by (eapply znth_In; eassumption).
    exists (step (outs out pairs) (zlen done) s).
    assert (N : packed (outs out pairs) (zlen done / 128) (zlen done mod 128 + 1) (step (outs out pairs) (zlen done) s)).
    { destruct HQ as [[E0 ->]|[E1 HP]].
      - rewrite E0. apply step_first. reflexivity.
      - pose proof (Z.mod_pos_bound (zlen done - 1) 128 ltac:(lia)).
        assert (0 <= (zlen done - 1) / 128) by (apply Z.div_pos; lia).
        destruct (step_pack _ _ ((zlen done - 1) mod 128 + 1) s H0 ltac:(lia) HP) as [A _].
        replace (128 * ((zlen done - 1) / 128) + ((zlen done - 1) mod 128 + 1)) with (zlen done) in A
          by (pose proof (Z.div_mod (zlen done - 1) 128 ltac:(lia)); lia).
        exact A. }
    assert (C : forall s0, s0 = (if negb (zlen done =? 0) && (zlen done mod 128 =? 0) then (fst s ++ [snd s], 0) else s) ->
       chk_u 128 (snd s0 + Z.b2z (out tp)) = Ok (snd s0 + Z.b2z (out tp))).
    { intros s0 ->. destruct (negb (zlen done =? 0) && (zlen done mod 128 =? 0)).
      - cbn [snd]. apply chk_u_ok. destruct (out tp); cbn [Z.b2z]; lia.
      - destruct HQ as [[_ ->]|[_ HP]].
        + apply chk_u_ok. cbn [snd]. destruct (out tp); cbn [Z.b2z]; lia.
        + apply (packed_chk _ _ _ _ _ HP). }
    specialize (C _ eq_refl). destruct s as [bits chunk]. cbn [fst snd] in C. unfold step in *. rewrite <- Eo in *.
    split.
    + destruct (negb (zlen done =? 0) && (zlen done mod 128 =? 0)); cbn [snd] in C; rewrite (Ht tp It); cbn [bind];
        rewrite C; reflexivity.
    + right. rewrite zlen_app. change (zlen [(zlen done, tp)]) with 1. pose proof (zlen_nonneg done).
      split; [lia|]. replace (zlen done + 1 - 1) with (zlen done) by lia. exact N.
  - exists s. split; [exact E|]. unfold Q in H. rewrite EL in H. exact H.
Qed.

(** the bits of a descriptor produced from outcomes *)
Definition coded (out : Z -> bool) (len : Z) (d : list Z) : Prop :=
  128 * zlen d = len /\ (forall w, In w d -> 0 <= w < 2 ^ 128) /\
  forall i, 0 <= i < len -> lbit d i = (1 <=? i mod 128) && out (128 * (i / 128) + 128 - i mod 128).

Lemma packed_coded out len s : 0 < len -> len mod 128 = 0 -> packed out ((len - 1) / 128) ((len - 1) mod 128 + 1) s ->
  coded out len (fst s ++ [snd s]).
Proof.
  intros Hl Hm HP. destruct s as [bits chunk]. cbn [fst snd].
  pose proof (Z.div_mod len 128 ltac:(lia)) as D. set (k := len / 128) in *. rewrite Hm, Z.add_0_r in D.
  assert (E1 : (len - 1) / 128 = k - 1).
  { replace (len - 1) with (127 + (k - 1) * 128) by lia. rewrite Z.div_add by lia. reflexivity. }
  assert (E2 : (len - 1) mod 128 = 127).
  { replace (len - 1) with (127 + (k - 1) * 128) by lia. rewrite Z.mod_add by lia. reflexivity. }
  rewrite E1, E2 in HP. destruct HP as (L & C & _ & B & W & F).
  assert (LL : zlen (bits ++ [chunk]) = k) by (rewrite zlen_app; change (zlen [chunk]) with 1; lia).
  split; [lia|]. split.
  { intros w Hw. apply in_app_or in Hw. destruct Hw as [Hw|[<-|[]]]; auto. }
  intros i Hi. unfold lbit. pose proof (Z.mod_pos_bound i 128 ltac:(lia)) as Mi.
  assert (Di : 0 <= i / 128 < k) by (split; [apply Z.div_pos; lia|apply Z.div_lt_upper_bound; lia]).
  destruct (Z.lt_ge_cases (i / 128) (k - 1)) as [Lt|Ge].
  - destruct (znth_some bits (i / 128)) as (w & Ew); [lia|].
    rewrite znth_app_l by lia. rewrite Ew. apply (F _ _ Ew). lia.
  - rewrite znth_app_r by lia. replace (i / 128 - zlen bits) with 0 by lia. rewrite znth_cons_0.
    rewrite B by lia. rewrite (proj2 (Z.leb_le (i mod 128) (127 + 1))) by lia. rewrite Bool.andb_true_r.
    f_equal. f_equal. lia.
Qed.

Section Brief.
Variables (im : image (list Z)).
Hypothesis Him : channels8 1 im.
Hypothesis Hw : iw im + 20 < 2 ^ 32.
Hypothesis Hh : ih im + 20 < 2 ^ 32.
Hypothesis Htot : rect_sum (chan im 0) 0 (iw im) 0 (ih im) < 2 ^ 31.

Lemma describe_all_ok ii pairs : wf ii -> iw ii = iw im + 1 -> ih ii = ih im + 1 ->
  (forall x y, 0 <= x <= iw im -> 0 <= y <= ih im -> get ii x y = Some [rect_sum (chan im 0) 0 x 0 y]) ->
  0 < zlen pairs -> zlen pairs mod 128 = 0 -> (forall tp, In tp pairs -> in_patch tp) ->
  forall ks acc, (forall k, In k ks -> inner im k) ->
  exists ds, describe_all ii pairs ks acc = Ok (Some (acc ++ ds)) /\
    Forall2 (fun k d => dcorner d = k /\ coded (outs (outcome im k) pairs) (zlen pairs) (dbits d)) ks ds.
Proof.
  intros Wii Ew Eh HG Hl Hm Hp ks. induction ks as [|[kx ky] ks IH]; intros acc Hk.
  - exists []. cbn [describe_all]. rewrite app_nil_r. split; auto.
  - pose proof (Hk _ (or_introl eq_refl)) as Ik. pose proof Ik as Ik'. unfold inner in Ik'. cbn [fst snd] in Ik'.
    cbn [describe_all]. unfold BRIEF_PATCH_RADIUS.
    rewrite (chk_u_ok 32 (kx + 15)) by lia. cbn [bind]. rewrite (chk_u_ok 32 (ky + 15)) by lia. cbn [bind].
    rewrite Ew, Eh.
    rewrite (proj2 (Z.leb_gt kx 15)), (proj2 (Z.leb_gt ky 15)), (proj2 (Z.leb_gt (iw im + 1) (kx + 15))), (proj2 (Z.leb_gt (ih im + 1) (ky + 15))) by lia.
    cbn [orb]. unfold describe.
    destruct (describe_fold (test_at ii (kx - 15) (ky - 15)) (outcome im (kx, ky)) pairs) as (s & E & HP).
    { intros tp It. apply (test_ok im ii Him Hw Hh Htot Ew Eh HG (kx, ky) tp Ik (Hp tp It)). }
    rewrite E. cbn [bind]. destruct HP as [[? _]|[_ HP]]; [lia|].
    apply packed_coded in HP; [|lia|auto]. destruct s as [bits chunk]. cbn [fst snd] in HP.
    destruct (IH (acc ++ [mkDescriptor (bits ++ [chunk]) (kx, ky)])) as (ds & Ed & Hd).
    { intros k Hk'. apply Hk. right; auto. }
    exists (mkDescriptor (bits ++ [chunk]) (kx, ky) :: ds). rewrite Ed, <- app_assoc. split; [reflexivity|].
    constructor; auto.
Qed.
End Brief.
