From Verif Require Import Base BaseProofs RasterProofs SuppressProofs ContourModel ContourSpec ContourProofs ContourTrace.
Local Ltac Zify.zify_post_hook ::= idtac.

Lemma neighbours_sym p q : neighbours p q -> neighbours q p.
Proof. intros (N & A & B). unfold neighbours. splits; [congruence|lia|lia]. Qed.
Lemma connected_fg im t p q : connected im t p q -> foreground im t p /\ foreground im t q.
Proof. induction 1; tauto. Qed.
Lemma connected_trans im t p q r : connected im t p q -> connected im t q r -> connected im t p r.
Proof. intros H1 H2. induction H2 as [|a b c H2 IH N F]; auto. apply conn_step with b; auto. Qed.
Lemma connected_sym im t p q : connected im t p q -> connected im t q p.
Proof.
  induction 1 as [|p q r H1 IH N F]; [constructor; auto|].
  apply connected_trans with q; auto. apply conn_step with r; [constructor; auto|apply neighbours_sym; auto|].
  apply connected_fg in H1. tauto.
Qed.

Section Main.
  Variables (im : image Z) (thr tmax : Z).
  Hypothesis (W : wf im) (Hsz : iw im * ih im + 1 < 2 ^ 31).
  Hypothesis Htw : iw im - 1 <= tmax.
  Hypothesis Hth : ih im - 1 <= tmax.
  Local Notation w := (iw im).
  Local Notation h := (ih im).

  Definition fgb (p : Z * Z) : bool :=
    match get im (fst p) (snd p) with Some v => thr <? v | None => false end.
  Lemma fgb_iff p : fgb p = true <-> foreground im thr p.
  Proof.
    unfold fgb, foreground. destruct (get im (fst p) (snd p)) as [v|].
    - rewrite Z.ltb_lt. split; [intros; exists v; auto|intros (u & E & H); inversion E; subst; auto].
    - split; [discriminate|intros (u & E & _); discriminate].
  Qed.
  Lemma fgb_in p : fgb p = true -> 0 <= fst p < w /\ 0 <= snd p < h.
  Proof. unfold fgb. destruct (get im (fst p) (snd p)) eqn:E; [|discriminate]. intros _. apply get_inb in E. auto. Qed.

  Lemma init_good : good fgb w h (binarise im thr) 1.
  Proof.
    unfold good, binarise. splits; auto; try reflexivity.
    - apply wf_map_data; auto.
    - intros p. unfold nz, fgb. rewrite get_map_data. destruct (get im (fst p) (snd p)) as [v|]; cbn [option_map]; auto.
      destruct (thr <? v); reflexivity.
    - intros x y v. rewrite get_map_data. destruct (get im x y) as [u|]; cbn [option_map]; [|discriminate].
      intros E. inversion E. destruct (thr <? u); lia.
  Qed.
  Lemma init_one p v : fgb p = true -> get (binarise im thr) (fst p) (snd p) = Some v -> v = 1.
  Proof.
    unfold fgb, binarise. rewrite get_map_data. destruct (get im (fst p) (snd p)) as [u|]; [|discriminate].
    cbn [option_map]. intros -> E. inversion E. auto.
  Qed.
  Lemma good_mono vals n m : good fgb w h vals n -> n <= m -> good fgb w h vals m.
  Proof. intros (A & B & C & D & E) H. unfold good. splits; auto. intros x y v Hv. specialize (E x y v Hv). lia. Qed.

  Lemma chain_connected : forall l p q last, chain (p :: l) last -> (forall r, In r (p :: l) -> fgb r = true) ->
    In q (p :: l) -> connected im thr p q.
  Proof.
    induction l as [|a l IH]; intros p q last CH F Hq.
    - destruct Hq as [<-|[]]. constructor. apply fgb_iff. apply F. left; auto.
    - change (neighbours p a /\ chain (a :: l) last) in CH. destruct CH as (N & CH).
      assert (Fp : foreground im thr p) by (apply fgb_iff, F; left; auto).
      destruct Hq as [<-|Hq]; [constructor; auto|].
      apply connected_trans with a.
      + apply conn_step with p; auto; [constructor; auto|]. apply fgb_iff, F. right; left; auto.
      + apply (IH a q last); auto. intros r Hr. apply F. right; auto.
  Qed.
  Lemma closed_connected l p q : closed_chain l -> hd_error l = Some p -> (forall r, In r l -> fgb r = true) ->
    In q l -> connected im thr p q.
  Proof.
    destruct l as [|a l]; [discriminate|]. intros C E F Hq. inversion E; subst a.
    destruct l as [|b l].
    - destruct Hq as [<-|[]]. constructor. apply fgb_iff, F. left; auto.
    - apply (chain_connected (b :: l) p q p); auto.
  Qed.

  (** the neighbour at which the border was noticed *)
  Definition side (c : contour) (p : Z * Z) : Z * Z :=
    match border_type c with Outer => (fst p - 1, snd p) | Hole => (fst p + 1, snd p) end.
  Definition contour_ok (i : Z) (c : contour) : Prop :=
    closed_chain (points c) /\ (forall q, In q (points c) -> foreground im thr q) /\
    (forall p, parent c = Some p -> 0 <= p < i) /\
    (exists p, hd_error (points c) = Some p /\ ~ foreground im thr (side c p) /\ 0 <= fst (side c p) < w).

  Definition Inv (x y : Z) (st : state) : Prop :=
    let '(vals, diffs, contours, num) := st in
    good fgb w h vals num /\ is_rot diffs /\ zlen contours = num - 1 /\ 1 <= num <= 1 + y * w + x /\
    (forall i c, znth contours i = Some c -> contour_ok i c) /\
    (forall q v, fgb q = true -> get vals (fst q) (snd q) = Some v -> v <> 1 ->
       exists r, connected im thr r q /\ before r (x, y)) /\
    (forall q, region_first im thr q -> before q (x, y) -> 0 < fst q ->
       exists i c, znth contours i = Some c /\ border_type c = Outer /\ hd_error (points c) = Some q) /\
    (forall i c p, znth contours i = Some c -> hd_error (points c) = Some p -> before p (x, y)) /\
    (forall i j c d p, znth contours i = Some c -> znth contours j = Some d ->
       hd_error (points c) = Some p -> hd_error (points d) = Some p -> i = j).

  Lemma before_S x y q : before q (x, y) -> before q (x + 1, y).
  Proof. unfold before. cbn [fst snd]. lia. Qed.
  Lemma before_last x y q : before q (x + 1, y) -> before q (x, y) \/ q = (x, y).
  Proof. destruct q as (a & b). unfold before. cbn [fst snd]. intros H. destruct (Z.eq_dec a x) as [->|]; [destruct (Z.eq_dec b y) as [->|]|]; auto; left; lia. Qed.

  Lemma parent_ok contours t pn num : zlen contours = num - 1 -> 1 <= pn <= num ->
    (forall i c, znth contours i = Some c -> contour_ok i c) ->
    exists par, parent_of contours t pn = Ok par /\ forall p, par = Some p -> 0 <= p < num - 1.
  Proof.
    intros L B H. unfold parent_of. destruct (Z.ltb_spec 1 pn).
    - destruct (znth_some contours (pn - 2)) as (c & Ec); [lia|].
      rewrite (proj2 (vget_ok _ _ _) Ec). cbn [bind]. destruct (xorb _ _).
      + eexists. split; [reflexivity|]. intros p E. inversion E. lia.
      + eexists. split; [reflexivity|]. intros p E. destruct (H _ _ Ec) as (_ & _ & P & _). specialize (P p E). lia.
    - eexists. split; [reflexivity|]. discriminate.
  Qed.

  Lemma val_fg vals num q v : good fgb w h vals num -> get vals (fst q) (snd q) = Some v -> (v <> 0 <-> fgb q = true).
  Proof.
    intros (_ & _ & _ & S & _) E. specialize (S q). unfold nz in S. rewrite E in S.
    destruct (Z.eqb_spec v 0), (fgb q); try discriminate; intuition congruence.
  Qed.

  Lemma border_start_ok vals num x y pn v : good fgb w h vals num -> 1 <= pn <= num ->
    get vals x y = Some v -> v <> 0 ->
    exists start pn', border_start vals x y pn = Ok (start, pn') /\ 1 <= pn' <= num /\
      match start with
      | Some (adj, t) => (t = Outer /\ adj = padd (x, y) (dir 0) \/ t = Hole /\ adj = padd (x, y) (dir 4)) /\
          fgb adj = false /\ 0 <= fst adj < w
      | None => True
      end /\
      (v = 1 -> 0 < x -> fgb (x - 1, y) = false -> exists adj, start = Some (adj, Outer)).
  Proof.
    intros G Hpn Ev Nv. pose proof G as (Wv & Ew & Eh & _ & B). pose proof (get_inb _ _ _ _ Ev) as (Hx & Hy). rewrite Ew, Eh in *.
    unfold border_start. rewrite (proj2 (get_pixel_ok _ _ _ _) Ev). cbn [bind].
    assert (ZF : forall a u, get vals a y = Some u -> (u = 0 <-> fgb (a, y) = false)).
    { intros a u E. pose proof (val_fg vals num (a, y) u G E) as V. destruct (fgb (a, y)); intuition; try congruence; try lia.
      all: destruct (Z.eq_dec u 0); auto; tauto. }
    assert (LL : exists l, (if 0 <? x then l <- get_pixel vals (x - 1) y;; Ok (Some l) else Ok None) = Ok l /\
       (l = Some 0 <-> 0 < x /\ fgb (x - 1, y) = false)).
    { destruct (Z.ltb_spec 0 x).
      - destruct (get_some vals (x - 1) y Wv) as (l & El); [lia|lia|]. rewrite (proj2 (get_pixel_ok _ _ _ _) El). cbn [bind].
        exists (Some l). split; auto. rewrite <- (ZF _ _ El). split; [intros E; inversion E; auto|intros (_ & ->); auto].
      - exists None. split; auto. split; [discriminate|lia]. }
    destruct LL as (l & -> & HL). cbn [bind].
    destruct ((v =? 1) && match l with Some l => l =? 0 | None => false end) eqn:C1.
    - apply andb_true_iff in C1 as (C1 & C2). apply Z.eqb_eq in C1. destruct l as [l|]; [|discriminate]. apply Z.eqb_eq in C2. subst l.
      destruct (proj1 HL eq_refl) as (P1 & P2).
      eexists _, _. split; [reflexivity|]. split; [auto|]. split; [|intros; eexists; reflexivity].
      split; [left; split; auto|split; [exact P2|cbn [fst]; lia]].
      change (dir 0) with (-1, 0). unfold padd. cbn [fst snd]. f_equal; lia.
    - assert (NO : v = 1 -> 0 < x -> fgb (x - 1, y) = false -> False).
      { intros -> P1 P2. rewrite (proj2 HL) in C1 by auto. cbn in C1. discriminate. }
      assert (RR : exists r, (if (0 <? v) && (x + 1 <? iw vals) then r <- get_pixel vals (x + 1) y;; Ok (Some r) else Ok None) = Ok r /\
        (r = Some 0 -> 0 < v /\ x + 1 < w /\ fgb (x + 1, y) = false)).
      { rewrite Ew. destruct (Z.ltb_spec 0 v), (Z.ltb_spec (x + 1) w); cbn [andb]; try (exists None; split; [reflexivity|discriminate]).
        destruct (get_some vals (x + 1) y Wv) as (r & Er); [lia|lia|]. rewrite (proj2 (get_pixel_ok _ _ _ _) Er). cbn [bind].
        exists (Some r). split; auto. intros E. inversion E; subst r. splits; auto. apply (ZF _ _ Er). auto. }
      destruct RR as (r & -> & HR). cbn [bind].
      assert (D : r = Some 0 \/ r <> Some 0) by (destruct r as [[]|]; [left; auto|right; discriminate..]).
      destruct D as [->|D].
      + destruct (HR eq_refl) as (P0 & P1 & P2). specialize (B x y v Ev).
        eexists _, _. split; [reflexivity|]. split; [destruct (Z.ltb_spec 1 v); lia|].
        split; [|intros A1 A2 A3; destruct (NO A1 A2 A3)].
        split; [right; split; auto|split; [exact P2|cbn [fst]; lia]].
        change (dir 4) with (1, 0). unfold padd. cbn [fst snd]. f_equal; lia.
      + eexists None, pn. split; [destruct r as [[]|]; try reflexivity; congruence|].
        split; [auto|]. split; [exact I|]. intros A1 A2 A3; destruct (NO A1 A2 A3).
  Qed.

  Lemma visit_ok fuel x y st pn : 8 * (w * h) <= Z.of_nat fuel -> 0 <= x < w -> 0 <= y < h ->
    Inv x y st -> (let '(_, _, _, num) := st in 1 <= pn <= num) ->
    exists st' pn', visit fuel tmax x y (st, pn) = Ok (st', pn') /\ Inv (x + 1) y st' /\
      (let '(_, _, _, num) := st' in 1 <= pn' <= num).
  Proof.
    intros Hf Hx Hy. destruct st as (((vals & diffs) & contours) & num).
    intros (G & R & L & Bn & CO & IA & IB & IC & ID) Hpn. pose proof G as (Wv & Ew & Eh & SH & BV).
    unfold visit. destruct (get_some vals x y Wv) as (v & Ev); try lia.
    rewrite (proj2 (get_pixel_ok _ _ _ _) Ev). cbn [bind].
    pose proof (val_fg vals num (x, y) v G Ev) as VF.
    destruct (Z.eqb_spec v 0) as [->|Nv].
    - assert (F0 : fgb (x, y) = false) by (destruct (fgb (x, y)); auto; exfalso; apply (proj2 VF); auto).
      exists (vals, diffs, contours, num), pn. split; [reflexivity|]. split; [|auto].
      unfold Inv. splits; auto; try lia.
      + intros q u Fq Eq Nq. destruct (IA q u Fq Eq Nq) as (r & C & B). exists r. split; auto. apply before_S; auto.
      + intros q RF Bq Hq. apply before_last in Bq as [Bq| ->]; [apply IB; auto|].
        exfalso. destruct RF as (FQ & _). apply fgb_iff in FQ. congruence.
      + intros i c p Ec Ep. apply before_S. eapply IC; eauto.
    - assert (F1 : fgb (x, y) = true) by (apply VF; auto).
      destruct (border_start_ok vals num x y pn v G Hpn Ev Nv) as (start & pn' & -> & Hpn' & HS & HO). cbn [bind].
      assert (FIRST : region_first im thr (x, y) -> 0 < x -> exists adj, start = Some (adj, Outer)).
      { intros (FQ & RF) Hx0. apply HO; auto.
        - destruct (Z.eq_dec v 1) as [|N1]; auto. destruct (IA (x, y) v F1 Ev N1) as (r & C & B).
          apply connected_sym in C. destruct (RF r C) as [->|B2]; unfold before in *; cbn [fst snd] in *; lia.
        - destruct (fgb (x - 1, y)) eqn:FL; auto. exfalso.
          assert (C : connected im thr (x, y) (x - 1, y)).
          { apply conn_step with (x, y); [constructor; auto| |apply fgb_iff; auto].
            unfold neighbours. cbn [fst snd]. splits; try lia. intros E. inversion E. lia. }
          destruct (RF _ C) as [E|B2]; [inversion E; lia|]. unfold before in B2; cbn [fst snd] in B2; lia. }
      assert (BODY : exists vals1 diffs1 contours1 num1,
        match start with
        | Some (adj, t) =>
          num <- chk_i 32 (num + 1) ;;
          par <- parent_of contours t pn' ;;
          ' r <- follow fuel tmax (x, y) adj num vals diffs ;;
          let '(vals, diffs, pts) := r in
          Ok (vals, diffs, contours ++ [mkContour pts t par], num)
        | None => Ok (vals, diffs, contours, num)
        end = Ok (vals1, diffs1, contours1, num1) /\ Inv (x + 1) y (vals1, diffs1, contours1, num1) /\ 1 <= pn' <= num1).
      { destruct start as [(adj & t)|].
        - destruct HS as (HT & Fadj & Hadj).
          assert (NUM : num + 1 < 2 ^ 31) by nia.
          assert (CK : chk_i 32 (num + 1) = Ok (num + 1)).
          { unfold chk_i, i_fits. change (2 ^ (32 - 1)) with (2 ^ 31).
            rewrite (proj2 (Z.leb_le (- 2 ^ 31) (num + 1))), (proj2 (Z.ltb_lt (num + 1) (2 ^ 31))) by lia. reflexivity. }
          rewrite CK. cbn [bind].
          destruct (parent_ok contours t pn' num L Hpn' CO) as (par & -> & HP). cbn [bind].
          assert (AD : exists a, adj = padd (x, y) (dir a)) by (destruct HT as [(_ & ->)|(_ & ->)]; eauto).
          destruct AD as (a & AD). 
          destruct (follow_ok fgb w h tmax fgb_in Htw Hth (num + 1) (x, y) a vals diffs fuel) as
            (vals1 & diffs1 & pts & EF & G1 & R1 & HD & FP & CC & SO); auto; try lia.
          { apply good_mono with num; auto; lia. }
          rewrite AD, EF. cbn [bind]. eexists _, _, _, _. split; [reflexivity|]. split; [|lia].
          assert (NEW : forall i c, znth (contours ++ [mkContour pts t par]) i = Some c ->
             znth contours i = Some c \/ (i = num - 1 /\ c = mkContour pts t par)).
          { intros i c E. pose proof (znth_range _ _ _ E) as RG. rewrite zlen_app in RG. change (zlen [mkContour pts t par]) with 1 in RG.
            destruct (Z_lt_le_dec i (zlen contours)).
            - rewrite znth_app_l in E by lia. auto.
            - right. assert (i = num - 1) as -> by lia. rewrite znth_app_r in E by lia.
              replace (num - 1 - zlen contours) with 0 in E by lia. rewrite znth_cons_0 in E. inversion E. auto. }
          assert (NEWC : znth (contours ++ [mkContour pts t par]) (num - 1) = Some (mkContour pts t par)).
          { rewrite znth_app_r by lia. replace (num - 1 - zlen contours) with 0 by lia. apply znth_cons_0. }
          unfold Inv. splits; auto; try lia.
          + rewrite zlen_app. change (zlen [mkContour pts t par]) with 1. lia.
          + intros i c E. destruct (NEW i c E) as [E1|(-> & ->)]; [apply CO; auto|].
            unfold contour_ok, side. cbn [points parent border_type]. splits; auto.
            * intros q Hq. apply fgb_iff, FP; auto.
            * exists (x, y). split; auto. assert (EA : adj = match t with Outer => (x - 1, y) | Hole => (x + 1, y) end).
              { destruct HT as [(-> & ->)|(-> & ->)]; [change (dir 0) with (-1, 0)|change (dir 4) with (1, 0)]; unfold padd; cbn [fst snd]; f_equal; lia. }
              destruct t; cbn [fst snd]; rewrite <- EA; (split; [rewrite <- fgb_iff; congruence|rewrite EA in Hadj; exact Hadj]).
          + intros q u Fq Eq Nq. destruct (in_dec (fun a b : Z * Z => ltac:(repeat decide equality)) q pts) as [Iq|Iq].
            * exists (x, y). split; [apply (closed_connected pts); auto|]. unfold before; cbn [fst snd]; lia.
            * rewrite (SO q Iq) in Eq. destruct (IA q u Fq Eq Nq) as (r & C & B). exists r. split; auto. apply before_S; auto.
          + intros q RF Bq Hq. apply before_last in Bq as [Bq| ->].
            * destruct (IB q RF Bq Hq) as (i & c & E1 & E2 & E3). exists i, c. splits; auto.
              rewrite znth_app_l; auto. apply znth_range in E1. lia.
            * destruct (FIRST RF Hq) as (adj' & E). inversion E; subst. exists (num - 1), (mkContour pts Outer par). auto.
          + intros i c p Ec Ep. destruct (NEW i c Ec) as [E1|(-> & ->)]; [apply before_S; eapply IC; eauto|].
            cbn [points] in Ep. rewrite HD in Ep. inversion Ep. unfold before; cbn [fst snd]; lia.
          + assert (NB : ~ before (x, y) (x, y)) by (unfold before; cbn [fst snd]; lia).
            intros i j c d p Ec Ed Hc Hd. destruct (NEW i c Ec) as [E1|(-> & ->)], (NEW j d Ed) as [E2|(-> & ->)]; auto.
            * eapply ID; eauto.
            * cbn [points] in Hd. rewrite HD in Hd. inversion Hd; subst p. destruct (NB (IC _ _ _ E1 Hc)).
            * cbn [points] in Hc. rewrite HD in Hc. inversion Hc; subst p. destruct (NB (IC _ _ _ E2 Hd)).
        - eexists _, _, _, _. split; [reflexivity|]. split; [|lia].
          unfold Inv. splits; auto; try lia.
          + intros q u Fq Eq Nq. destruct (IA q u Fq Eq Nq) as (r & C & B). exists r. split; auto. apply before_S; auto.
          + intros q RF Bq Hq. apply before_last in Bq as [Bq| ->]; [apply IB; auto|].
            destruct (FIRST RF Hq) as (adj & E). discriminate.
          + intros i c p Ec Ep. apply before_S. eapply IC; eauto. }
      destruct BODY as (vals1 & diffs1 & contours1 & num1 & -> & I1 & Hp1). cbn [bind].
      pose proof I1 as ((W1 & Ew1 & Eh1 & S1 & B1) & _).
      destruct (get_some vals1 x y W1) as (v1 & Ev1); try lia.
      rewrite (proj2 (get_pixel_ok _ _ _ _) Ev1). cbn [bind].
      eexists _, _. split; [reflexivity|]. split; [exact I1|].
      assert (v1 <> 0).
      { specialize (S1 (x, y)). unfold nz in S1. cbn [fst snd] in S1. rewrite Ev1, F1 in S1. destruct (Z.eqb_spec v1 0); [discriminate|auto]. }
      specialize (B1 x y v1 Ev1). destruct (Z.eqb_spec v1 1); lia.
  Qed.

  Lemma find_ok : exists contours, find_contours_with_threshold tmax im thr = Ok contours /\
    (forall i c, znth contours i = Some c -> contour_ok i c) /\
    (forall q, region_first im thr q -> 0 < fst q ->
       exists i c, znth contours i = Some c /\ border_type c = Outer /\ hd_error (points c) = Some q) /\
    (forall i j c d p, znth contours i = Some c -> znth contours j = Some d ->
       hd_error (points c) = Some p -> hd_error (points d) = Some p -> i = j).
  Proof.
    unfold find_contours_with_threshold. pose proof W as (W1 & W2 & _).
    set (fuel := Z.to_nat (8 * (w * h))). assert (Hfuel : 8 * (w * h) <= Z.of_nat fuel) by lia. clearbody fuel.
    destruct (for_range_ind (fun y st => Inv 0 y st) 0 h (fun y st =>
      ' r <- for_range 0 w (fun x st => visit fuel tmax x y st) (st, 1) ;;
      let '(st, _) := r in Ok st) (binarise im thr, diffs0, [], 1)) as ((((vals & diffs) & contours) & num) & -> & I1); auto.
    - unfold Inv. splits; auto; try lia.
      + apply init_good.
      + exists 0. split; [lia|reflexivity].
      + intros i c E. apply znth_range in E. change (zlen (@nil contour)) with 0 in E. lia.
      + intros q v F E N. destruct (N (init_one q v F E)).
      + intros q (F & _) B _. apply fgb_iff, fgb_in in F. unfold before in B; cbn [fst snd] in B; lia.
      + intros i c p E. apply znth_range in E. change (zlen (@nil contour)) with 0 in E. lia.
      + intros i j c d p E. apply znth_range in E. change (zlen (@nil contour)) with 0 in E. lia.
    - intros y st Hy I0.
      destruct (for_range_ind (fun x (s : state * Z) => Inv x y (fst s) /\
         let '(_, _, _, num) := fst s in 1 <= snd s <= num) 0 w (fun x st => visit fuel tmax x y st) (st, 1)) as ((s1 & pn1) & -> & (I1 & _)); auto.
      + cbn [fst snd]. split; auto. destruct st as (((vals & diffs) & contours) & num). destruct I0 as (_ & _ & _ & B & _). lia.
      + intros x (s & pn) Hx (Is & Hp). cbn [fst snd] in *.
        destruct (visit_ok fuel x y s pn Hfuel Hx Hy Is Hp) as (s' & pn' & -> & I' & Hp'). exists (s', pn'). auto.
      + cbn [bind fst] in *. exists s1. split; [reflexivity|].
        destruct s1 as (((vals & diffs) & contours) & num). unfold Inv in *. 
        destruct I1 as (G & R & L & Bn & CO & IA & IB & IC & ID). splits; auto; try lia.
        * intros q v F E N. destruct (IA q v F E N) as (r & C & B). exists r. split; auto.
          unfold before in *; cbn [fst snd] in *; lia.
        * intros q RF B Hq. apply IB; auto. destruct RF as (F & _). apply fgb_iff, fgb_in in F. unfold before in *; cbn [fst snd] in *; lia.
        * intros i c p E1 E2. specialize (IC i c p E1 E2). unfold before in *; cbn [fst snd] in *; lia.
    - cbn [bind]. exists contours. destruct I1 as (G & R & L & Bn & CO & IA & IB & IC & ID). splits; auto.
      intros q RF Hq. apply IB; auto. destruct RF as (F & _). apply fgb_iff, fgb_in in F. unfold before; cbn [fst snd]; lia.
  Qed.
End Main.
