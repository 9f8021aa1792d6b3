(** Proofs about orientation histograms: one pixel. *)
From Flocq Require Import Core BinarySingleNaN.
From Coq Require Import Reals Lra Psatz.
From Verif Require Import Base BaseProofs Float FloatProofs FloatErr TemplateProofs WuProofs WarpProofs HogModel HogProofs HogCellsModel HogCellsSpec HogCellsProofs HogCellsProofs2.
Local Ltac Zify.zify_post_hook ::= idtac.
Local Open Scope R_scope.
Local Notation rn := (rnd 24 128).

Lemma unit_mul a b : 0 <= a <= 1 -> 0 <= b <= 1 -> 0 <= a * b <= 1.
Proof. intros. nra. Qed.
Lemma fmul_unit (f g : f32) : is_finite f = true -> is_finite g = true -> 0 <= B2R f <= 1 -> 0 <= B2R g <= 1 ->
  is_finite (fmul f g) = true /\ 0 <= B2R (fmul f g) <= 1 /\ Rabs (B2R (fmul f g) - B2R f * B2R g) <= / 16000000 /\
  (B2R f * B2R g = 0 -> B2R (fmul f g) = 0).
Proof.
  intros Ff Fg Bf Bg. pose proof (unit_mul _ _ Bf Bg) as B.
  destruct (fmul_R 24 128 f g Ff Fg) as (F & R). { rewrite Rabs_pos_eq by lra. pose proof f32_big. lra. }
  split; [exact F|]. rewrite R. split; [|split].
  - split; [rewrite <- (rnd_0 24 128); apply (rnd_le 24 128); lra|].
    replace 1 with (rn 1) by (apply (rnd_int 24 128 1); lia). apply (rnd_le 24 128). lra.
  - eapply Rle_trans; [apply f32_err|]. rewrite Rabs_pos_eq by lra. lra.
  - intros ->. apply rnd_0.
Qed.

(** the update of one entry *)
Lemma update_err (wy wx wo m ar V : f32) A B :
  is_finite wy = true -> is_finite wx = true -> is_finite wo = true -> is_finite m = true -> is_finite V = true ->
  0 <= B2R wy <= 1 -> 0 <= B2R wx <= 1 -> 0 <= B2R wo <= 1 -> 0 <= B2R m <= 1444 -> B2R ar = A -> 1 <= A -> Rabs (B2R V) <= B -> B <= 19000 ->
  let up := fdiv (fmul (fmul (fmul wy wx) wo) m) ar in
  let D := B2R wy * B2R wx * B2R wo * B2R m / A in
  is_finite (fadd V up) = true /\ 0 <= D <= 1444 /\
  Rabs (B2R (fadd V up) - (B2R V + D)) <= nonzero (B2R wy) * nonzero (B2R wx) / 512.
Proof.
  intros Fy Fx Fo Fm FV By Bx Bo Bm RA A1 BV BB. cbv zeta.
  destruct (fmul_unit wy wx Fy Fx By Bx) as (F1 & B1 & E1 & Z1).
  destruct (fmul_unit _ wo F1 Fo B1 Bo) as (F2 & B2 & E2 & Z2).
  set (t1 := B2R (fmul wy wx)) in *. set (t2 := B2R (fmul (fmul wy wx) wo)) in *.
  assert (T3 : 0 <= t2 * B2R m <= 1444) by nra.
  destruct (fmul_R 24 128 _ m F2 Fm) as (F3 & R3). { fold t2. rewrite Rabs_pos_eq by lra. pose proof f32_big. lra. }
  fold t2 in R3. set (f3 := fmul (fmul (fmul wy wx) wo) m) in *.
  assert (E3 : Rabs (B2R f3 - t2 * B2R m) <= 1444 / 16000000).
  { rewrite R3. eapply Rle_trans; [apply f32_err|]. rewrite Rabs_pos_eq by lra. lra. }
  assert (B3 : 0 <= B2R f3 <= 1444).
  { rewrite R3. split; [rewrite <- (rnd_0 24 128); apply (rnd_le 24 128); lra|].
    replace 1444 with (rn 1444) by (apply (rnd_int 24 128 1444); lia). apply (rnd_le 24 128). lra. }
  assert (IA : 0 < / A <= 1). { split; [apply Rinv_0_lt_compat; lra|]. rewrite <- Rinv_1. apply Rinv_le; lra. }
  assert (B4 : 0 <= B2R f3 / A <= 1444) by (unfold Rdiv; clear - B3 IA; nra).
  destruct (fdiv_R 24 128 f3 ar F3) as (F4 & R4); [lra| |]. { rewrite RA, Rabs_pos_eq by lra. pose proof f32_big. lra. }
  rewrite RA in R4. set (up := fdiv f3 ar) in *.
  assert (E4 : Rabs (B2R up - B2R f3 / A) <= 1444 / 16000000).
  { rewrite R4. eapply Rle_trans; [apply f32_err|]. rewrite Rabs_pos_eq by lra. lra. }
  assert (B5 : 0 <= B2R up <= 1444).
  { rewrite R4. split; [rewrite <- (rnd_0 24 128); apply (rnd_le 24 128); lra|].
    replace 1444 with (rn 1444) by (apply (rnd_int 24 128 1444); lia). apply (rnd_le 24 128). lra. }
  destruct (fadd_R 24 128 V up FV F4) as (F5 & R5).
  { apply Rabs_le_inv in BV. apply Rabs_le. pose proof f32_big. lra. }
  assert (U : 0 <= B2R wy * B2R wx * B2R wo <= 1) by (apply unit_mul; [apply unit_mul; assumption|assumption]).
  set (D := B2R wy * B2R wx * B2R wo * B2R m / A).
  assert (BD : 0 <= D <= 1444). { unfold D, Rdiv. assert (0 <= B2R wy * B2R wx * B2R wo * B2R m <= 1444) by nra. clear - IA H. nra. }
  split; [exact F5|]. split; [exact BD|].
  destruct (Req_EM_T (B2R wy) 0) as [Y|Y]; [|destruct (Req_EM_T (B2R wx) 0) as [X|X]].
  1, 2: assert (P : B2R wy * B2R wx = 0) by (rewrite ?Y, ?X; ring);
    pose proof (Z1 P) as T10; assert (T20 : t2 = 0) by (apply Z2; rewrite T10; ring);
    assert (U0 : B2R up = 0) by (rewrite R4, R3, T20, Rmult_0_l, rnd_0; unfold Rdiv; rewrite Rmult_0_l; apply rnd_0);
    assert (D0 : D = 0) by (unfold D; rewrite P; unfold Rdiv; ring);
    rewrite R5, U0, D0, !Rplus_0_r, rnd_idF, Rminus_diag_eq, Rabs_R0 by reflexivity;
    destruct (nonzero_b (B2R wy)) as [-> | ->], (nonzero_b (B2R wx)) as [-> | ->]; lra.
  assert (N1 : nonzero (B2R wy) = 1) by (unfold nonzero; destruct (Req_EM_T (B2R wy) 0); [contradiction|reflexivity]).
  assert (N2 : nonzero (B2R wx) = 1) by (unfold nonzero; destruct (Req_EM_T (B2R wx) 0); [contradiction|reflexivity]).
  rewrite N1, N2.
  assert (E5 : Rabs (B2R (fadd V up) - (B2R V + B2R up)) <= 20500 / 16777216).
  { rewrite R5. eapply Rle_trans; [apply f32_err|]. assert (Rabs (B2R V + B2R up) <= 20444) by (apply Rabs_le_inv in BV; apply Rabs_le; lra). lra. }
  assert (E6 : Rabs (t2 - B2R wy * B2R wx * B2R wo) <= 2 / 16000000).
  { replace (t2 - B2R wy * B2R wx * B2R wo) with ((t2 - t1 * B2R wo) + (t1 - B2R wy * B2R wx) * B2R wo) by ring.
    eapply Rle_trans; [apply Rabs_triang|]. rewrite Rabs_mult, (Rabs_pos_eq (B2R wo)) by lra.
    assert (Rabs (t1 - B2R wy * B2R wx) * B2R wo <= / 16000000 * 1) by (apply Rmult_le_compat; [apply Rabs_pos|lra|exact E1|lra]). lra. }
  assert (E7 : Rabs (B2R f3 - B2R wy * B2R wx * B2R wo * B2R m) <= 3 * 1444 / 16000000).
  { replace (B2R f3 - B2R wy * B2R wx * B2R wo * B2R m) with ((B2R f3 - t2 * B2R m) + (t2 - B2R wy * B2R wx * B2R wo) * B2R m) by ring.
    eapply Rle_trans; [apply Rabs_triang|]. rewrite Rabs_mult, (Rabs_pos_eq (B2R m)) by lra.
    assert (Rabs (t2 - B2R wy * B2R wx * B2R wo) * B2R m <= 2 / 16000000 * 1444) by (apply Rmult_le_compat; [apply Rabs_pos|lra|exact E6|lra]). lra. }
  assert (E8 : Rabs (B2R f3 / A - D) <= 3 * 1444 / 16000000).
  { unfold D. replace (B2R f3 / A - B2R wy * B2R wx * B2R wo * B2R m / A) with ((B2R f3 - B2R wy * B2R wx * B2R wo * B2R m) * / A) by (unfold Rdiv; ring).
    rewrite Rabs_mult, (Rabs_pos_eq (/ A)) by lra. pose proof (Rabs_pos (B2R f3 - B2R wy * B2R wx * B2R wo * B2R m)). clear - E7 IA H. nra. }
  apply Rabs_le_inv in E4. apply Rabs_le_inv in E5. apply Rabs_le_inv in E8. apply Rabs_le. lra.
Qed.

Section Pixel.
  Context (s : hog_spec).
  Let n := orientations (options s).
  Let cw := cells_wide s.
  Let ch := cells_high s.
  Context (Hn : (1 <= n)%Z) (Hcw : (0 <= cw)%Z) (Hch : (0 <= ch)%Z) (HL : (n * cw * ch < 2 ^ 64)%Z).

  Definition at_pos (o cx cy : Z) : Z := ((cy * cw + cx) * n + o)%Z.
  Definition in_grid (o cx cy : Z) : Prop := (0 <= o < n /\ 0 <= cx < cw /\ 0 <= cy < ch)%Z.
  Lemma at_pos_in o cx cy : in_grid o cx cy -> (0 <= at_pos o cx cy < n * cw * ch)%Z.
  Proof.
    intros (A & B & C). unfold at_pos. assert (0 <= cy * cw + cx)%Z by nia. assert (cy * cw + cx + 1 <= cw * ch)%Z by nia. nia.
  Qed.
  Lemma at_pos_inj o cx cy o' cx' cy' : in_grid o cx cy -> in_grid o' cx' cy' -> at_pos o cx cy = at_pos o' cx' cy' -> o = o' /\ cx = cx' /\ cy = cy'.
  Proof.
    intros (A & B & C) (A' & B' & C') E. unfold at_pos in E.
    assert (K : (cy * cw + cx = cy' * cw + cx')%Z /\ o = o').
    { destruct (Z.lt_trichotomy (cy * cw + cx) (cy' * cw + cx')) as [L|[L|L]]; [exfalso; nia|split; [exact L|nia]|exfalso; nia]. }
    destruct K as (K & ->). split; [reflexivity|].
    destruct (Z.lt_trichotomy cy cy') as [L|[L|L]]; [exfalso; nia|subst; split; lia|exfalso; nia].
  Qed.
  Lemma offset_in o cx cy : in_grid o cx cy -> offset n cw o cx cy = Ok (at_pos o cx cy).
  Proof.
    intros H. pose proof (at_pos_in o cx cy H) as P. destruct H as (A & B & C). unfold offset, at_pos in *.
    assert (0 <= cy * cw)%Z by nia. assert (0 <= cx * n)%Z by nia. assert (cy * cw <= cy * cw * n)%Z by nia. assert (cx * n <= cw * n)%Z by nia.
    rewrite (usz_ok (cy * cw)) by lia. cbn [bind]. rewrite (usz_ok (cy * cw * n)) by lia. cbn [bind]. rewrite (usz_ok (cx * n)) by lia. cbn [bind].
    rewrite usz_ok by lia. cbn [bind]. rewrite usz_ok by lia. f_equal. ring.
  Qed.

  (** grids whose entries are finite and at most B *)
  Definition bounded (g : list f32) (B : R) : Prop := zlen g = (n * cw * ch)%Z /\
    forall e v, znth g e = Some v -> is_finite v = true /\ Rabs (B2R v) <= B.
  (** entry (o, cx, cy) has grown by D, up to C / 512 *)
  Definition grown (g g' : list f32) (D C : Z -> Z -> Z -> R) : Prop :=
    forall o cx cy, in_grid o cx cy -> exists v v', znth g (at_pos o cx cy) = Some v /\ znth g' (at_pos o cx cy) = Some v' /\
      Rabs (B2R v' - (B2R v + D o cx cy)) <= C o cx cy / 512.

  Lemma grown_trans g g' g'' D C D' C' : grown g g' D C -> grown g' g'' D' C' ->
    grown g g'' (fun o cx cy => D o cx cy + D' o cx cy) (fun o cx cy => C o cx cy + C' o cx cy).
  Proof.
    intros H H' o cx cy I. destruct (H o cx cy I) as (v & v' & E1 & E2 & K). destruct (H' o cx cy I) as (w & w' & E3 & E4 & K').
    rewrite E2 in E3. injection E3 as <-. exists v, w'. split; [exact E1|]. split; [exact E4|].
    apply Rabs_le_inv in K. apply Rabs_le_inv in K'. apply Rabs_le. lra.
  Qed.
  Lemma grown_ext g g' D C D' C' : grown g g' D C -> (forall o cx cy, in_grid o cx cy -> D o cx cy = D' o cx cy) ->
    (forall o cx cy, in_grid o cx cy -> C o cx cy = C' o cx cy) -> grown g g' D' C'.
  Proof.
    intros H HD HC o cx cy I. rewrite <- HD, <- HC by exact I. apply H, I.
  Qed.

  Definition hit (po px py o cx cy : Z) : R := ind (po =? o)%Z * ind (px =? cx)%Z * ind (py =? cy)%Z.

  Lemma one_update (g : list f32) B (wy wx wo m ar : f32) A po px py :
    bounded g B -> B <= 19000 ->
    is_finite wy = true -> is_finite wx = true -> is_finite wo = true -> is_finite m = true ->
    0 <= B2R wy <= 1 -> 0 <= B2R wx <= 1 -> 0 <= B2R wo <= 1 -> 0 <= B2R m <= 1444 -> B2R ar = A -> 1 <= A ->
    (0 <= po < n)%Z -> (0 <= px)%Z -> (0 <= py)%Z ->
    exists g', (if (px <? cells_wide s)%Z && (py <? cells_high s)%Z then
            pos <- offset n (cells_wide s) po px py ;; current <- vget g pos ;; vset g pos (fadd current (fdiv (fmul (fmul (fmul wy wx) wo) m) ar))
          else Ok g) = Ok g' /\ bounded g' (B + 1446) /\
      grown g g' (fun o cx cy => hit po px py o cx cy * (B2R wy * B2R wx * B2R wo * B2R m / A))
        (fun o cx cy => hit po px py o cx cy * (nonzero (B2R wy) * nonzero (B2R wx))).
  Proof.
    intros (Lg & Fg) BB Fy Fx Fo Fm By Bx Bo Bm RA A1 Hpo Hpx Hpy. fold cw ch.
    destruct ((px <? cw)%Z && (py <? ch)%Z) eqn:IN.
    - assert (I : in_grid po px py) by (unfold in_grid; lia). cbv zeta. rewrite (offset_in po px py I). cbn [bind].
      pose proof (at_pos_in po px py I) as P. destruct (znth_some g (at_pos po px py)) as (V & EV); [lia|].
      rewrite (proj2 (vget_ok g (at_pos po px py) V) EV). cbn [bind].
      destruct (Fg _ _ EV) as (FV & BV).
      destruct (update_err wy wx wo m ar V A B Fy Fx Fo Fm FV By Bx Bo Bm RA A1 BV BB) as (FU & BD & EU). cbv zeta in FU, BD, EU.
      set (U := fadd V (fdiv (fmul (fmul (fmul wy wx) wo) m) ar)) in *. set (D := B2R wy * B2R wx * B2R wo * B2R m / A) in *.
      assert (NN : 0 <= nonzero (B2R wy) * nonzero (B2R wx) <= 1) by (destruct (nonzero_b (B2R wy)) as [-> | ->], (nonzero_b (B2R wx)) as [-> | ->]; lra).
      rewrite vset_ok by lia. eexists. split; [reflexivity|]. split.
      + split; [rewrite zupd_zlen; exact Lg|]. intros e v E. assert (He : (0 <= e < zlen g)%Z) by (apply znth_range in E; rewrite zupd_zlen in E; exact E).
        rewrite znth_zupd in E by lia. destruct (Z.eqb_spec e (at_pos po px py)) as [Q|Q].
        * injection E as <-. split; [exact FU|]. apply Rabs_le_inv in EU. apply Rabs_le_inv in BV. apply Rabs_le. lra.
        * destruct (Fg e v E) as (F & Bv). split; [exact F|]. lra.
      + intros o cx cy J. pose proof (at_pos_in o cx cy J) as PJ. destruct (znth_some g (at_pos o cx cy)) as (v & Ev); [lia|].
        exists v. rewrite znth_zupd by lia. unfold hit. destruct (Z.eqb_spec (at_pos o cx cy) (at_pos po px py)) as [Q|Q].
        * destruct (at_pos_inj _ _ _ _ _ _ J I Q) as (-> & -> & ->). exists U. split; [exact Ev|]. split; [reflexivity|].
          rewrite EV in Ev. injection Ev as <-. rewrite !Z.eqb_refl. unfold ind. rewrite !Rmult_1_l. exact EU.
        * exists v. split; [exact Ev|]. split; [exact Ev|].
          assert (H0 : ind (po =? o)%Z * ind (px =? cx)%Z * ind (py =? cy)%Z = 0).
          { unfold ind. destruct (Z.eqb_spec po o), (Z.eqb_spec px cx), (Z.eqb_spec py cy); try lra. exfalso. apply Q. congruence. }
          rewrite H0, !Rmult_0_l, Rplus_0_r, Rminus_diag_eq, Rabs_R0 by reflexivity. lra.
    - exists g. split; [reflexivity|]. split.
      + split; [exact Lg|]. intros e v E. destruct (Fg e v E) as (F & Bv). split; [exact F|lra].
      + intros o cx cy J. pose proof (at_pos_in o cx cy J) as PJ. destruct (znth_some g (at_pos o cx cy)) as (v & Ev); [lia|].
        exists v, v. split; [exact Ev|]. split; [exact Ev|]. destruct J as (_ & J1 & J2). unfold hit.
        assert (H0 : ind (po =? o)%Z * ind (px =? cx)%Z * ind (py =? cy)%Z = 0).
        { unfold ind. destruct (Z.eqb_spec px cx), (Z.eqb_spec py cy); try (destruct (po =? o)%Z; lra). exfalso. lia. }
        rewrite H0, !Rmult_0_l, Rplus_0_r, Rminus_diag_eq, Rabs_R0 by reflexivity. lra.
  Qed.

  Lemma two_steps {S} (f : Z -> S -> res S) st : for_range 0 2 f st = (s1 <- f 0%Z st ;; f 1%Z s1).
  Proof.
    rewrite for_range_cons by lia. destruct (f 0%Z st) as [s1| |]; cbn [bind]; try reflexivity.
    rewrite for_range_cons by lia. change (0 + 1)%Z with 1%Z. destruct (f 1%Z s1) as [s2| |]; cbn [bind]; try reflexivity.
  Qed.

  Ltac nextp := rewrite ?two_steps; cbv beta; rewrite ?two_steps; cbv beta; rewrite ?two_steps; cbv beta;
    repeat match goal with |- context [index_at ?a 0%Z] => change (index_at a 0%Z) with (index0 a) | |- context [index_at ?a 1%Z] => change (index_at a 1%Z) with (index1 a)
    | |- context [weight_at ?a 0%Z] => change (weight_at a 0%Z) with (weight0 a) | |- context [weight_at ?a 1%Z] => change (weight_at a 1%Z) with (weight1 a) end.

  Lemma add_pixel_ok (g : list f32) (m ar : f32) A yi xi oi :
    bounded g 7500 -> good yi -> good xi -> good oi -> (index0 oi < n)%Z -> (index1 oi < n)%Z ->
    is_finite m = true -> 0 <= B2R m <= 1444 -> B2R ar = A -> 1 <= A ->
    exists g', add_pixel s ar m yi xi oi g = Ok g' /\ bounded g' 19068 /\
      grown g g' (fun o cx cy => given yi cy * given xi cx * given oi o * (B2R m / A))
        (fun o cx cy => entries yi cy * entries xi cx * (ind (index0 oi =? o)%Z + ind (index1 oi =? o)%Z)).
  Proof.
    intros Bg (Y1 & Y2 & Y3 & Y4 & Y5 & Y6) (X1 & X2 & X3 & X4 & X5 & X6) (O1 & O2 & O3 & O4 & O5 & O6) N0 N1 Fm Bm RA A1.
    unfold add_pixel. fold n. cbv zeta. nextp.
    destruct (one_update g 7500 (weight0 yi) (weight0 xi) (weight0 oi) m ar A (index0 oi) (index0 xi) (index0 yi)) as (g1 & E1 & B1 & G1); auto; try lra.
    rewrite E1. cbn [bind]. nextp.
    destruct (one_update g1 (7500 + 1446) (weight0 yi) (weight0 xi) (weight1 oi) m ar A (index1 oi) (index0 xi) (index0 yi)) as (g2 & E2 & B2 & G2); auto; try lra.
    rewrite E2. cbn [bind]. nextp.
    destruct (one_update g2 (7500 + 1446 + 1446) (weight0 yi) (weight1 xi) (weight0 oi) m ar A (index0 oi) (index1 xi) (index0 yi)) as (g3 & E3 & B3 & G3); auto; try lra.
    rewrite E3. cbn [bind]. nextp.
    destruct (one_update g3 (7500 + 1446 + 1446 + 1446) (weight0 yi) (weight1 xi) (weight1 oi) m ar A (index1 oi) (index1 xi) (index0 yi)) as (g4 & E4 & B4 & G4); auto; try lra.
    rewrite E4. cbn [bind]. nextp.
    destruct (one_update g4 (7500 + 1446 + 1446 + 1446 + 1446) (weight1 yi) (weight0 xi) (weight0 oi) m ar A (index0 oi) (index0 xi) (index1 yi)) as (g5 & E5 & B5 & G5); auto; try lra.
    rewrite E5. cbn [bind]. nextp.
    destruct (one_update g5 (7500 + 1446 + 1446 + 1446 + 1446 + 1446) (weight1 yi) (weight0 xi) (weight1 oi) m ar A (index1 oi) (index0 xi) (index1 yi)) as (g6 & E6 & B6 & G6); auto; try lra.
    rewrite E6. cbn [bind]. nextp.
    destruct (one_update g6 (7500 + 1446 + 1446 + 1446 + 1446 + 1446 + 1446) (weight1 yi) (weight1 xi) (weight0 oi) m ar A (index0 oi) (index1 xi) (index1 yi)) as (g7 & E7 & B7 & G7); auto; try lra.
    rewrite E7. cbn [bind]. nextp.
    destruct (one_update g7 (7500 + 1446 + 1446 + 1446 + 1446 + 1446 + 1446 + 1446) (weight1 yi) (weight1 xi) (weight1 oi) m ar A (index1 oi) (index1 xi) (index1 yi)) as (g8 & E8 & B8 & G8); auto; try lra.
    exists g8. split; [exact E8|]. split.
    { destruct B8 as (L & F). split; [exact L|]. intros e v E. destruct (F e v E). split; [assumption|lra]. }
    eapply grown_ext; [eapply grown_trans; [eapply grown_trans; [eapply grown_trans; [eapply grown_trans; [eapply grown_trans; [eapply grown_trans; [eapply grown_trans; [exact G1|exact G2]|exact G3]|exact G4]|exact G5]|exact G6]|exact G7]|exact G8]| |].
    - intros o cx cy _. unfold hit, given. unfold Rdiv. ring.
    - intros o cx cy _. unfold hit, entries. ring.
  Qed.
End Pixel.
