From Verif Require Import Base BaseProofs SuppressProofs SeamDrawProofs CornerModel CornerSpec.
Local Ltac Zify.zify_post_hook ::= idtac.

(** ** search_span only looks at 16 bits *)
Fixpoint span_bits (length : Z) (bs : list bool) (nb_ok : Z) (st : option Z) : res bool :=
  match bs with
  | [] => s <- unwrap st ;; Ok (length <=? nb_ok + s)
  | b :: bs => if b then (if nb_ok + 1 =? length then Ok true else span_bits length bs (nb_ok + 1) st)
               else span_bits length bs 0 (match st with None => Some nb_ok | s => s end)
  end.
Lemma span_loop_bits f len c : forall nb st, span_loop f len c nb st = span_bits len (map f c) nb st.
Proof. induction c as [|x c IH]; intros nb st; [reflexivity|]. cbn [span_loop map span_bits]. rewrite !IH. reflexivity. Qed.

Definition bit (bs : list bool) (i : Z) : bool := match znth bs (i mod 16) with Some b => b | None => false end.
Definition run (len : Z) (bs : list bool) : bool :=
  existsb (fun s => forallb (fun b => b) (firstn (Z.to_nat len) (skipn s (bs ++ bs)))) (seq 0 16).

Fixpoint all_bits (n : nat) : list (list bool) :=
  match n with O => [[]] | S n => map (cons true) (all_bits n) ++ map (cons false) (all_bits n) end.
Lemma in_all_bits bs : In bs (all_bits (length bs)).
Proof.
  induction bs as [|b bs IH]; [now left|]. cbn [length all_bits]. apply in_or_app.
  destruct b; [left|right]; now apply in_map.
Qed.

Definition span_check (bs : list bool) : bool :=
  (match span_bits 9 bs 0 None with Ok b => Bool.eqb b (run 9 bs) | _ => false end) &&
  (match span_bits 12 bs 0 None with Ok b => Bool.eqb b (run 12 bs) | _ => false end) &&
  (implb (run 9 bs) ((bit bs 12 || bit bs 4) && (bit bs 8 || bit bs 0))) &&
  (implb (run 12 bs) (bit bs 4 || bit bs 12)).
Lemma span_checked : forallb span_check (all_bits 16) = true.
Proof. vm_cast_no_check (@eq_refl bool true). Qed.
Lemma span_facts bs : length bs = 16%nat ->
  span_bits 9 bs 0 None = Ok (run 9 bs) /\ span_bits 12 bs 0 None = Ok (run 12 bs) /\
  (run 9 bs = true -> (bit bs 12 || bit bs 4) && (bit bs 8 || bit bs 0) = true) /\
  (run 12 bs = true -> bit bs 4 || bit bs 12 = true).
Proof.
  intros L. pose proof span_checked as H. rewrite forallb_forall in H.
  specialize (H bs). pose proof (in_all_bits bs) as I. rewrite L in I. specialize (H I). clear I. unfold span_check in H.
  apply andb_prop in H. destruct H as [H H4]. apply andb_prop in H. destruct H as [H H3]. apply andb_prop in H. destruct H as [H1 H2].
  splits.
  - destruct (span_bits 9 bs 0 None) as [b| |]; try discriminate. apply eqb_prop in H1. now rewrite H1.
  - destruct (span_bits 12 bs 0 None) as [b| |]; try discriminate. apply eqb_prop in H2. now rewrite H2.
  - intros R. now rewrite R in H3.
  - intros R. now rewrite R in H4.
Qed.

Lemma nth_skipn {A} (l : list A) : forall s k, nth_error (skipn s l) k = nth_error l (s + k).
Proof. induction l as [|x l IH]; intros [|s] k; cbn [skipn Nat.add nth_error]; auto. now destruct k. Qed.
Lemma nth_firstn {A} (l : list A) : forall n k, (k < n)%nat -> nth_error (firstn n l) k = nth_error l k.
Proof. induction l as [|x l IH]; intros [|n] [|k] H; cbn; auto; try lia. apply IH. lia. Qed.
Lemma all_true (l : list bool) : forallb (fun b => b) l = true <-> forall k, (k < length l)%nat -> nth_error l k = Some true.
Proof.
  rewrite forallb_forall. split.
  - intros H k Hk. destruct (nth_error l k) as [b|] eqn:E; [|apply nth_error_None in E; lia].
    f_equal. apply H. now apply nth_error_In in E.
  - intros H b Hb. apply In_nth_error in Hb. destruct Hb as (k & E). rewrite H in E; [congruence|].
    apply nth_error_Some. congruence.
Qed.
Lemma run_spec len bs : length bs = 16%nat -> 0 <= len <= 16 ->
  run len bs = true <-> exists s, 0 <= s < 16 /\ forall k, 0 <= k < len -> bit bs (s + k) = true.
Proof.
  intros L Hl.
  assert (B : forall s k, (s < 16)%nat -> (k < 16)%nat -> nth_error (bs ++ bs) (s + k) = Some (bit bs (Z.of_nat s + Z.of_nat k))).
  { intros s k Hs Hk. unfold bit. rewrite znth_nth_error by (apply Z.mod_pos_bound; lia).
    destruct (lt_dec (s + k) 16).
    - rewrite nth_error_app1 by lia. rewrite Z.mod_small by lia. replace (Z.to_nat _) with (s + k)%nat by lia.
      destruct (nth_error bs (s + k)) eqn:E; [reflexivity|]. apply nth_error_None in E. lia.
    - rewrite nth_error_app2 by lia. replace ((Z.of_nat s + Z.of_nat k) mod 16) with (Z.of_nat (s + k - 16)).
      2:{ apply Z.mod_unique with 1; lia. }
      rewrite Nat2Z.id, L. destruct (nth_error bs (s + k - 16)) eqn:E; [reflexivity|]. apply nth_error_None in E. lia. }
  assert (F : forall s, (s < 16)%nat -> forallb (fun b => b) (firstn (Z.to_nat len) (skipn s (bs ++ bs))) = true <->
     forall k, 0 <= k < len -> bit bs (Z.of_nat s + k) = true).
  { intros s Hs. rewrite all_true. rewrite firstn_length, skipn_length, app_length, L.
    replace (Nat.min (Z.to_nat len) (16 + 16 - s)) with (Z.to_nat len) by lia. split.
    - intros H k Hk. specialize (H (Z.to_nat k) ltac:(lia)). rewrite nth_firstn, nth_skipn, B in H by lia.
      rewrite Z2Nat.id in H by lia. congruence.
    - intros H k Hk. rewrite nth_firstn, nth_skipn, B by lia. now rewrite H by lia. }
  unfold run. rewrite existsb_exists. split.
  - intros (s & Hs & H). apply in_seq in Hs. exists (Z.of_nat s). split; [lia|]. apply F; auto. lia.
  - intros (s & Hs & H). exists (Z.to_nat s). split; [apply in_seq; lia|]. apply F; [lia|]. now rewrite Z2Nat.id by lia.
Qed.

Lemma search_ok len f c : length c = 16%nat -> len = 9 \/ len = 12 -> search_span c len f = Ok (run len (map f c)).
Proof.
  intros L [->| ->]; unfold search_span; (destruct (Z.ltb_spec 16 9); [lia|]) || (destruct (Z.ltb_spec 16 12); [lia|]);
    rewrite span_loop_bits; destruct (span_facts (map f c)) as (H1 & H2 & _); auto; now rewrite map_length.
Qed.

(** ** The circle *)
Section Circle.
  Context (im : image Z) (W : wf im) (Wd : iw im < 2 ^ 32) (Hd : ih im < 2 ^ 32) (x y : Z).
  Definition pixv (i : Z) : Z := match on_circle im x y i with Some p => p | None => 0 end.
  Definition circ : list Z := map pixv (zrange 0 16).

  Lemma off_bound o : In o circle_offsets -> -3 <= fst o <= 3 /\ -3 <= snd o <= 3.
  Proof. unfold circle_offsets. cbn [In]. intros H. intuition; subst; cbn [fst snd]; lia. Qed.

  Hypothesis A : away im x y.
  Lemma border_false : near_border im x y = false.
  Proof. unfold away in A. unfold near_border. lia. Qed.
  Lemma on_circle_some i : on_circle im x y i = Some (pixv i).
  Proof.
    unfold pixv. destruct (on_circle im x y i) as [p|] eqn:E; [reflexivity|]. exfalso.
    unfold on_circle in E. assert (0 <= i mod 16 < 16) by (apply Z.mod_pos_bound; lia).
    destruct (znth_some circle_offsets (i mod 16)) as ([dx dy] & Eo); [exact H|]. rewrite Eo in E.
    apply znth_In in Eo. apply off_bound in Eo. cbn [fst snd] in Eo. unfold away in A.
    destruct (get_some im (x + dx) (y + dy) W ltac:(lia) ltac:(lia)) as (v & Ev). congruence.
  Qed.
  Lemma pix_read i o : znth circle_offsets i = Some o -> 0 <= i < 16 -> get_pixel im (x + fst o) (y + snd o) = Ok (pixv i).
  Proof.
    intros Eo Hi. apply get_pixel_ok. pose proof (on_circle_some i) as E. unfold on_circle in E.
    rewrite Z.mod_small in E by lia. rewrite Eo in E. destruct o. exact E.
  Qed.
  Lemma bit_circ f i : bit (map f circ) i = f (pixv i).
  Proof.
    assert (0 <= i mod 16 < 16) by (apply Z.mod_pos_bound; lia).
    unfold bit, circ. rewrite !znth_map, znth_zrange by lia. cbn [option_map].
    f_equal. unfold pixv, on_circle. replace ((0 + i mod 16) mod 16) with (i mod 16); [reflexivity|].
    now rewrite Z.add_0_l, Z.mod_mod by lia.
  Qed.
  Lemma circle_ok : get_circle im x y (pixv 0) (pixv 4) (pixv 8) (pixv 12) = Ok circ.
  Proof.
    unfold get_circle.
    assert (R : forall i dx dy X Y, znth circle_offsets i = Some (dx, dy) -> 0 <= i < 16 -> X = x + dx -> Y = y + dy -> get_pixel im X Y = Ok (pixv i)).
    { intros i dx dy X Y E Hi -> ->. exact (pix_read i (dx, dy) E Hi). }
    rewrite (R 1 1 (-3)) by (reflexivity || lia). cbn [bind].
    rewrite (R 2 2 (-2)) by (reflexivity || lia). cbn [bind].
    rewrite (R 3 3 (-1)) by (reflexivity || lia). cbn [bind].
    rewrite (R 5 3 1) by (reflexivity || lia). cbn [bind].
    rewrite (R 6 2 2) by (reflexivity || lia). cbn [bind].
    rewrite (R 7 1 3) by (reflexivity || lia). cbn [bind].
    rewrite (R 9 (-1) 3) by (reflexivity || lia). cbn [bind].
    rewrite (R 10 (-2) 2) by (reflexivity || lia). cbn [bind].
    rewrite (R 11 (-3) 1) by (reflexivity || lia). cbn [bind].
    rewrite (R 13 (-3) (-1)) by (reflexivity || lia). cbn [bind].
    rewrite (R 14 (-2) (-2)) by (reflexivity || lia). cbn [bind].
    rewrite (R 15 (-1) (-3)) by (reflexivity || lia). cbn [bind].
    reflexivity.
  Qed.
  Lemma reads : get_pixel im x (y - 3) = Ok (pixv 0) /\ get_pixel im (x + 3) y = Ok (pixv 4) /\
    get_pixel im x (y + 3) = Ok (pixv 8) /\ get_pixel im (x - 3) y = Ok (pixv 12).
  Proof.
    pose proof (pix_read 0 (0, -3) eq_refl ltac:(lia)) as R0. pose proof (pix_read 4 (3, 0) eq_refl ltac:(lia)) as R4.
    pose proof (pix_read 8 (0, 3) eq_refl ltac:(lia)) as R8. pose proof (pix_read 12 (-3, 0) eq_refl ltac:(lia)) as R12.
    cbn [fst snd] in *. rewrite !Z.add_0_r in *. splits; auto.
  Qed.

  Context (t c : Z) (Ec : get im x y = Some c).
  Notation bright := (map (fun p => c + t <? p) circ).
  Notation dark := (map (fun p => p <? c - t) circ).

  Lemma fast9_runs : is_corner_fast9 im t x y = Ok (run 9 bright || run 9 dark).
  Proof.
    unfold is_corner_fast9. rewrite border_false. rewrite (proj2 (get_pixel_ok im x y c) Ec). cbn [bind]. cbv zeta.
    destruct reads as (-> & -> & -> & ->). cbn [bind].
    destruct (span_facts bright) as (_ & _ & Q1 & _); [reflexivity|].
    destruct (span_facts dark) as (_ & _ & Q2 & _); [reflexivity|].
    rewrite !bit_circ in Q1, Q2.
    set (above := ((c + t <? pixv 12) || (c + t <? pixv 4)) && ((c + t <? pixv 8) || (c + t <? pixv 0))) in *.
    set (below := ((pixv 12 <? c - t) || (pixv 4 <? c - t)) && ((pixv 8 <? c - t) || (pixv 0 <? c - t))) in *.
    clearbody above below.
    assert (S1 : has_bright_span circ 9 (c + t) = Ok (run 9 bright)) by (apply search_ok; auto).
    assert (S2 : has_dark_span circ 9 (c - t) = Ok (run 9 dark)) by (apply search_ok; auto).
    rewrite circle_ok. cbn [bind]. rewrite S1, S2.
    destruct above, below; cbn [negb andb bind];
      destruct (run 9 bright), (run 9 dark); try reflexivity;
      try (specialize (Q1 eq_refl); discriminate); try (specialize (Q2 eq_refl); discriminate).
  Qed.

  Lemma fast12_runs : 0 <= t -> is_corner_fast12 im t x y =
    Ok ((run 12 bright && ((c + t <? pixv 0) && (c + t <? pixv 8))) || (run 12 dark && ((pixv 0 <? c - t) && (pixv 8 <? c - t)))).
  Proof.
    intros Ht. unfold is_corner_fast12. rewrite border_false. rewrite (proj2 (get_pixel_ok im x y c) Ec). cbn [bind]. cbv zeta.
    destruct reads as (-> & -> & -> & ->). cbn [bind].
    destruct (span_facts bright) as (_ & _ & _ & Q1); [reflexivity|].
    destruct (span_facts dark) as (_ & _ & _ & Q2); [reflexivity|].
    rewrite !bit_circ in Q1, Q2.
    assert (X : (c + t <? pixv 0) && (c + t <? pixv 8) = true -> (pixv 0 <? c - t) && (pixv 8 <? c - t) = true -> False) by lia.
    set (above := (c + t <? pixv 0) && (c + t <? pixv 8)) in *.
    set (below := (pixv 0 <? c - t) && (pixv 8 <? c - t)) in *.
    clearbody above below.
    assert (S1 : has_bright_span circ 12 (c + t) = Ok (run 12 bright)) by (apply search_ok; auto).
    assert (S2 : has_dark_span circ 12 (c - t) = Ok (run 12 dark)) by (apply search_ok; auto).
    rewrite circle_ok. cbn [bind]. rewrite S1, S2.
    set (u := (c + t <? pixv 4) || (c + t <? pixv 12)) in *. set (v := (pixv 4 <? c - t) || (pixv 12 <? c - t)) in *.
    clearbody u v.
    destruct above, below; try (exfalso; now apply X); cbn [negb andb bind];
      destruct u, v; cbn [negb andb bind]; rewrite ?andb_true_r, ?andb_false_r, ?orb_false_r; cbn [orb];
      destruct (run 12 bright), (run 12 dark); try reflexivity;
      try (specialize (Q1 eq_refl); discriminate); try (specialize (Q2 eq_refl); discriminate).
  Qed.

  Lemma bright_iff i : brighter_by im t x y i <-> (c + t <? pixv i) = true.
  Proof.
    unfold brighter_by. rewrite Ec, on_circle_some. split.
    - intros (c' & p & E1 & E2 & L). injection E1 as <-. injection E2 as <-. lia.
    - intros L. exists c, (pixv i). splits; auto. lia.
  Qed.
  Lemma dark_iff i : darker_by im t x y i <-> (pixv i <? c - t) = true.
  Proof.
    unfold darker_by. rewrite Ec, on_circle_some. split.
    - intros (c' & p & E1 & E2 & L). injection E1 as <-. injection E2 as <-. lia.
    - intros L. exists c, (pixv i). splits; auto. lia.
  Qed.
  Lemma bright_run len : 0 <= len <= 16 -> run len bright = true <-> exists s, 0 <= s < 16 /\ forall k, 0 <= k < len -> brighter_by im t x y (s + k).
  Proof.
    intros Hl. rewrite run_spec by (reflexivity || exact Hl). split; intros (s & Hs & H); exists s; (split; [auto|]); intros k Hk; specialize (H k Hk).
    - rewrite bit_circ in H. now apply bright_iff.
    - rewrite bit_circ. now apply bright_iff.
  Qed.
  Lemma dark_run len : 0 <= len <= 16 -> run len dark = true <-> exists s, 0 <= s < 16 /\ forall k, 0 <= k < len -> darker_by im t x y (s + k).
  Proof.
    intros Hl. rewrite run_spec by (reflexivity || exact Hl). split; intros (s & Hs & H); exists s; (split; [auto|]); intros k Hk; specialize (H k Hk).
    - rewrite bit_circ in H. now apply dark_iff.
    - rewrite bit_circ. now apply dark_iff.
  Qed.
End Circle.

Lemma not_away im v t x y : ~ away im x y -> is_corner v im t x y = Ok false.
Proof.
  intros N. assert (B : near_border im x y = true) by (unfold near_border, away in *; lia).
  destruct v; cbn [is_corner]; unfold is_corner_fast9, is_corner_fast12; now rewrite B.
Qed.

(** what each variant of the code decides *)
Definition code_corner (v : fast) (im : image Z) (t x y : Z) : Prop :=
  match v with
  | Nine => fast_corner 9 im t x y
  | Twelve => away im x y /\ exists start, 0 <= start < 16 /\
     ((forall k, 0 <= k < 12 -> brighter_by im t x y (start + k)) /\ brighter_by im t x y 0 /\ brighter_by im t x y 8 \/
      (forall k, 0 <= k < 12 -> darker_by im t x y (start + k)) /\ darker_by im t x y 0 /\ darker_by im t x y 8)
  end.

Lemma is_corner_ok v im t x y : wf im -> iw im < 2 ^ 32 -> ih im < 2 ^ 32 -> 0 <= t ->
  exists b, is_corner v im t x y = Ok b /\ (b = true <-> code_corner v im t x y).
Proof.
  intros W W1 W2 Ht. 
  assert (D : away im x y \/ ~ away im x y) by (unfold away; lia). destruct D as [A|A].
  - pose proof A as [A1 A2]. destruct (get_some im x y W ltac:(lia) ltac:(lia)) as (c & Ec). destruct v; cbn [is_corner].
    + rewrite (fast9_runs im W W1 W2 x y A t c Ec). eexists. split; [reflexivity|].
      rewrite orb_true_iff, (bright_run im W x y A t c Ec), (dark_run im W x y A t c Ec) by lia.
      unfold code_corner, fast_corner. split.
      * intros [(s & Hs & H)|(s & Hs & H)]; (split; [exact A|]); exists s; auto.
      * intros (_ & s & Hs & [H|H]); [left|right]; eauto.
    + rewrite (fast12_runs im W W1 W2 x y A t c Ec Ht). eexists. split; [reflexivity|].
      rewrite orb_true_iff, !andb_true_iff, (bright_run im W x y A t c Ec), (dark_run im W x y A t c Ec) by lia.
      rewrite <- !(bright_iff im W x y A t c Ec), <- !(dark_iff im W x y A t c Ec).
      unfold code_corner. split.
      * intros [((s & Hs & H) & H2)|((s & Hs & H) & H2)]; (split; [exact A|]); exists s; auto.
      * intros (_ & s & Hs & [(H & H2)|(H & H2)]); [left|right]; eauto.
  - rewrite not_away by auto. exists false. split; [reflexivity|]. split; [discriminate|].
    destruct v; intros [H _]; contradiction.
Qed.

(** ** Scores *)
Lemma code_corner_mono v im t t' x y : t <= t' -> code_corner v im t' x y -> code_corner v im t x y.
Proof.
  intros L.
  assert (B : forall i, brighter_by im t' x y i -> brighter_by im t x y i).
  { intros i (c & p & H1 & H2 & H3). exists c, p. splits; auto. lia. }
  assert (D : forall i, darker_by im t' x y i -> darker_by im t x y i).
  { intros i (c & p & H1 & H2 & H3). exists c, p. splits; auto. lia. }
  destruct v; cbn [code_corner].
  - intros (A & s & Hs & [H|H]); (split; [exact A|]); exists s; (split; [exact Hs|]); [left|right]; auto.
  - intros (A & s & Hs & [(H & H0 & H8)|(H & H0 & H8)]); (split; [exact A|]); exists s; (split; [exact Hs|]); [left|right]; splits; auto.
Qed.

Lemma score_loop_ok v im x y : wf im -> iw im < 2 ^ 32 -> ih im < 2 ^ 32 -> forall fuel mx mn,
  0 <= mn <= mx -> mx <= 255 -> mx - mn < Z.of_nat fuel ->
  exists s, score_loop fuel im x y v mx mn = Ok s /\ mn <= s <= mx /\
    (mn < s -> code_corner v im s x y) /\ (forall t, s < t <= mx -> ~ code_corner v im t x y).
Proof.
  intros W W1 W2. induction fuel as [|fuel IH]; intros mx mn H1 H2 HF; [lia|].
  cbn [score_loop]. destruct (Z.eqb_spec mx mn) as [->|N].
  - exists mn. splits; auto; try lia. 
  -     assert (C : chk_u 8 (mn + 1) = Ok (mn + 1)). { unfold chk_u, u_fits. destruct (andb _ _) eqn:E; [reflexivity|]. lia. }
    rewrite C. cbn [bind]. set (probe := if mx =? mn + 1 then mx else (mx + mn) / 2).
    assert (P : mn < probe <= mx).
    { unfold probe. destruct (Z.eqb_spec mx (mn + 1)); [lia|].
      split; [apply Z.lt_le_trans with (mn + 1); [lia|]; apply Z.div_le_lower_bound; lia|apply Z.div_le_upper_bound; lia]. }
    clearbody probe.
    destruct (is_corner_ok v im probe x y W W1 W2 ltac:(lia)) as (b & -> & Hb). cbn [bind]. destruct b.
    + destruct (IH mx probe) as (s & E & R & C1 & C2); try lia. exists s. splits; auto; try lia.
      intros _. destruct (Z.eq_dec s probe) as [->|]; [now apply Hb|apply C1; lia].
    + assert (C' : chk_u 8 (probe - 1) = Ok (probe - 1)). { unfold chk_u, u_fits. destruct (andb _ _) eqn:E; [reflexivity|]. lia. }
      rewrite C'. cbn [bind]. destruct (IH (probe - 1) mn) as (s & E & R & C1 & C2); try lia.
      exists s. splits; auto; try lia. intros t Ht Hc. destruct (Z_le_dec t (probe - 1)).
      * apply (C2 t); auto. lia.
      * apply (code_corner_mono v im probe t) in Hc; [|lia]. apply Hb in Hc. discriminate.
Qed.

Lemma score_ok v im t x y : wf im -> iw im < 2 ^ 32 -> ih im < 2 ^ 32 -> 0 <= t <= 255 ->
  exists s, fast_corner_score im t x y v = Ok s /\ t <= s <= 255 /\
    (t < s -> code_corner v im s x y) /\ (forall t', s < t' <= 255 -> ~ code_corner v im t' x y).
Proof. intros W W1 W2 Ht. unfold fast_corner_score. apply score_loop_ok; auto; lia. Qed.
Lemma score_corner v im t x y : wf im -> iw im < 2 ^ 32 -> ih im < 2 ^ 32 -> 0 <= t <= 255 -> code_corner v im t x y ->
  exists s, fast_corner_score im t x y v = Ok s /\ largest_threshold (fun t => code_corner v im t x y) t s.
Proof.
  intros W W1 W2 Ht C. destruct (score_ok v im t x y W W1 W2 Ht) as (s & E & R & C1 & C2). exists s. split; [exact E|].
  unfold largest_threshold. splits; auto; try lia. destruct (Z.eq_dec s t) as [->|]; [exact C|apply C1; lia].
Qed.
Lemma largest_unique P t s s' : largest_threshold P t s -> largest_threshold P t s' -> s = s'.
Proof.
  intros (R & C & N) (R' & C' & N'). destruct (Z.lt_trichotomy s s') as [L|[E|L]]; [|exact E|].
  - exfalso. apply (N s'); [lia|exact C'].
  - exfalso. apply (N' s); [lia|exact C].
Qed.

(** ** All corners of an image *)
From Coq Require Import Sorted.
Lemma sorted_snoc {A} (R : A -> A -> Prop) l a : StronglySorted R l -> (forall b, In b l -> R b a) -> StronglySorted R (l ++ [a]).
Proof.
  induction l as [|b l IH]; intros S H; cbn [app].
  - constructor; constructor.
  - inversion S; subst. constructor.
    + apply IH; auto. intros c Hc. apply H. now right.
    + rewrite Forall_forall in *. intros c Hc. apply in_app_or in Hc. destruct Hc as [Hc|[<-|[]]]; auto. apply H. now left.
Qed.

Lemma corners_ok v im t : wf im -> iw im < 2 ^ 32 -> ih im < 2 ^ 32 -> 0 <= t <= 255 ->
  exists l, corners_fast v im t = Ok l /\ StronglySorted raster_before l /\
    forall x y s, In (x, y, s) l <-> code_corner v im t x y /\ largest_threshold (fun t => code_corner v im t x y) t s.
Proof.
  intros W W1 W2 Ht. pose proof W as (Wa & Wb & _). unfold corners_fast.
  assert (IN : forall t x y, code_corner v im t x y -> 0 <= x < iw im /\ 0 <= y < ih im).
  { intros t0 x y C. destruct v; destruct C as [A _]; unfold away in A; lia. }
  pose (Q (y0 x0 : Z) (l : list (Z * Z * Z)) := StronglySorted raster_before l /\
    forall x y s, In (x, y, s) l <-> (y < y0 \/ y = y0 /\ x < x0) /\
      code_corner v im t x y /\ largest_threshold (fun t => code_corner v im t x y) t s).
  match goal with |- context [for_range 0 (ih im) ?b ?s] =>
    destruct (for_range_ind (fun y l => Q y 0 l) 0 (ih im) b s) as (l & E & S1 & S2) end; try lia.
  - split; [constructor|]. intros x y s. cbn [In]. split; [tauto|]. intros (H & C & _). apply IN in C. lia.
  - intros y l Hy HQ.
    match goal with |- context [for_range 0 (iw im) ?b ?s] =>
      destruct (for_range_ind (fun x l => Q y x l) 0 (iw im) b s) as (l' & E & S1 & S2) end; try lia; [exact HQ| |].
    + intros x acc Hx (S1 & S2).
      destruct (is_corner_ok v im t x y W W1 W2 ltac:(lia)) as (b & -> & Hb). cbn [bind]. destruct b.
      * destruct (score_corner v im t x y W W1 W2 Ht ltac:(now apply Hb)) as (s & -> & LT). cbn [bind].
        eexists. split; [reflexivity|]. split.
        { apply sorted_snoc; [exact S1|]. intros [[x' y'] s'] H. apply S2 in H. unfold raster_before. cbn [fst snd]. lia. }
        intros x' y' s'. rewrite in_app_iff. cbn [In]. rewrite S2. split.
        { intros [(H & H')|[H|[]]]; [split; [lia|exact H']|]. injection H as <- <- <-. split; [lia|]. split; [now apply Hb|exact LT]. }
        { intros (H & C & L). assert (D : (y' < y \/ y' = y /\ x' < x) \/ (y' = y /\ x' = x)) by lia.
          destruct D as [D|(-> & ->)]; [left; auto|]. right. left. now rewrite (largest_unique _ _ _ _ L LT). }
      * exists acc. split; [reflexivity|]. split; [exact S1|]. intros x' y' s'. rewrite S2. split.
        { intros (H & H'). split; [lia|exact H']. }
        { intros (H & C & L). split; [|auto]. assert (D : (y' < y \/ y' = y /\ x' < x) \/ (y' = y /\ x' = x)) by lia.
          destruct D as [D|(-> & ->)]; [exact D|]. apply Hb in C. discriminate. }
    + exists l'. split; [exact E|]. split; [exact S1|]. intros x' y' s'. rewrite S2. split; intros (H & C & L); (split; [|auto]); apply IN in C; lia.
  - exists l. split; [exact E|]. split; [exact S1|]. intros x y s. rewrite S2. split; [tauto|]. intros (C & L). splits; auto. apply IN in C. lia.
Qed.
