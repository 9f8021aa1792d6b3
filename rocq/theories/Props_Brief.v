(** C56-C58: binary descriptors. *)
From Verif Require Import Base BaseProofs IntegralModel IntegralSpec IntegralProofs SuppressProofs BriefModel BriefSpec BriefProofs BriefMain BriefMatch.
Local Ltac Zify.zify_post_hook ::= idtac.

(** * C56 *)
(** the images, keypoints and test pairs of the property *)
Definition brief_input (im : image (list Z)) (ks : list (Z * Z)) (len : Z) (pairs : list test_pair) : Prop :=
  channels8 1 im /\ iw im + 20 < 2 ^ 32 /\ ih im + 20 < 2 ^ 32 /\
  rect_sum (chan im 0) 0 (iw im) 0 (ih im) < 2 ^ 31 /\
  (forall k, In k ks -> inner im k) /\ (forall tp, In tp pairs -> in_patch tp) /\
  zlen pairs = len /\ len mod 128 = 0.

(** the full property *)
Definition c56_statement : Prop := forall im ks len pairs, brief_input im ks len pairs ->
  exists ds, brief im ks len pairs = Ok (Some (ds, pairs)) /\
    Forall2 (fun k d => dcorner d = k /\ nbits d = len) ks ds /\
    forall d d', In d ds -> In d' ds ->
      (exists tp, In tp pairs /\ outcome im (dcorner d) tp <> outcome im (dcorner d') tp) ->
      dbits d <> dbits d'.

Lemma integral_one im : channels8 1 im -> iw im + 20 < 2 ^ 32 -> ih im + 20 < 2 ^ 32 ->
  rect_sum (chan im 0) 0 (iw im) 0 (ih im) < 2 ^ 31 ->
  exists ii, integral_image Debug 32 1 im = Ok ii /\ wf ii /\ iw ii = iw im + 1 /\ ih ii = ih im + 1 /\
    forall x y, 0 <= x <= iw im -> 0 <= y <= ih im -> get ii x y = Some [rect_sum (chan im 0) 0 x 0 y].
Proof.
  intros Him Hw Hh Ht.
  destruct (integral_ok Debug 32 1 im false) as (out & E & Wo & Ew & Eh & HG); auto; try lia.
  { intros _ c Hc. assert (c = 0) as -> by lia. unfold S. change (F im false 0) with (chan im 0). lia. }
  exists out. splits; auto. 
Qed.

(** What holds: the descriptors have the requested length, and bit j >= 1 of word
    c is the outcome of test 128 c + 128 - j.  Bit 0 of every word is 0: the
    first outcome of every 128 is shifted out, so exactly the other outcomes
    distinguish descriptors. *)
Theorem c56_brief_partial : forall im ks len pairs, brief_input im ks len pairs -> 0 < len ->
  exists ds, brief im ks len pairs = Ok (Some (ds, pairs)) /\
    Forall2 (fun k d => dcorner d = k /\ nbits d = len) ks ds /\
    (forall d, In d ds -> words d /\ forall c j, 0 <= c < len / 128 -> 0 <= j < 128 ->
       bit_of d (128 * c + j) =
       if j =? 0 then false
       else match znth pairs (128 * c + 128 - j) with Some tp => outcome im (dcorner d) tp | None => false end) /\
    (forall d d', In d ds -> In d' ds ->
      (dbits d <> dbits d' <->
       exists i tp, znth pairs i = Some tp /\ i mod 128 <> 0 /\ outcome im (dcorner d) tp <> outcome im (dcorner d') tp)).
Proof.
  intros im ks len pairs (Him & Hw & Hh & Ht & Hk & Hp & El & Em) Hl.
  destruct (integral_one im Him Hw Hh Ht) as (ii & E & Wi & Ew & Eh & HG).
  destruct (describe_all_ok im Him Hw Hh Ht ii pairs Wi Ew Eh HG ltac:(lia) ltac:(rewrite El; auto) Hp ks [] Hk) as (ds & Ed & HF).
  rewrite El in HF.
  assert (CD : forall d, In d ds -> coded (outs (outcome im (dcorner d)) pairs) len (dbits d)).
  { clear -HF. induction HF as [|k d ks ds [E H] HF IH]; intros d' H'; [destruct H'|].
    destruct H' as [<-|H']; [subst k; exact H|apply IH; exact H']. }
  exists ds. split; [|split; [|split]].
  - unfold brief, brief_impl. rewrite E. cbn [bind]. rewrite Em, El. cbn [Z.eqb negb].
    rewrite Z.eqb_refl. cbn [negb]. rewrite Ed. reflexivity.
  - clear -HF. induction HF as [|k d ks ds [E H] HF IH]; constructor; auto. split; auto. apply H.
  - intros d Hd. destruct (CD d Hd) as (A & B & C). split; [exact B|]. intros c j Hc Hj.
    pose proof (Z.div_mod len 128 ltac:(lia)). 
    change (lbit (dbits d) (128 * c + j) = if j =? 0 then false else outs (outcome im (dcorner d)) pairs (128 * c + 128 - j)).
    rewrite C by lia. replace (128 * c + j) with (j + c * 128) by lia.
    rewrite Z.mod_add, Z.div_add, Z.mod_small, Z.div_small, Z.add_0_l by lia.
    destruct (Z.eqb_spec j 0) as [->|]; [reflexivity|]. rewrite (proj2 (Z.leb_le 1 j)) by lia. reflexivity.
  - intros d d' Hd Hd'. destruct (CD d Hd) as (A & B & C). destruct (CD d' Hd') as (A' & B' & C'). split.
    + intros N. 
      destruct (bounded_dec (fun i => lbit (dbits d) i = lbit (dbits d') i) 0 len) as [D|(i & Hi & D)].
      { intros i _. destruct (Bool.bool_dec (lbit (dbits d) i) (lbit (dbits d') i)); auto. }
      * exfalso. apply N. apply lbit_ext; auto; [lia|]. rewrite A. exact D.
      * rewrite C, C' in D by auto. pose proof (Z.mod_pos_bound i 128 ltac:(lia)) as Mi.
        destruct (Z.leb_spec 1 (i mod 128)) as [L|L]; [|cbn [andb] in D; congruence].
        cbn [andb] in D. set (t := 128 * (i / 128) + 128 - i mod 128) in *.
        assert (Rt : 0 <= t < zlen pairs).
        { pose proof (Z.div_mod i 128 ltac:(lia)). pose proof (Z.div_mod len 128 ltac:(lia)).
          assert (i / 128 < len / 128) by (apply Z.div_lt_upper_bound; lia).
          assert (0 <= i / 128) by (apply Z.div_pos; lia). unfold t. lia. }
        destruct (znth_some pairs t Rt) as (tp & Et). exists t, tp. split; [exact Et|]. split.
        -- unfold t. replace (128 * (i / 128) + 128 - i mod 128) with ((128 - i mod 128) + (i / 128) * 128) by lia.
           rewrite Z.mod_add, Z.mod_small by lia. lia.
        -- unfold outs in D. rewrite Et in D. exact D.
    + intros (t & tp & Et & Mt & D) Eq. apply D. rewrite Eq in C.
      pose proof (znth_range _ _ _ Et) as Rt.
      pose proof (Z.mod_pos_bound t 128 ltac:(lia)) as Mi. pose proof (Z.div_mod t 128 ltac:(lia)).
      set (i := 128 * (t / 128) + (128 - t mod 128)).
      assert (Ri : 0 <= i < len).
      { pose proof (Z.div_mod len 128 ltac:(lia)). assert (t / 128 < len / 128) by (apply Z.div_lt_upper_bound; lia).
        assert (0 <= t / 128) by (apply Z.div_pos; lia). unfold i. lia. }
      specialize (C i Ri). rewrite (C' i Ri) in C.
      assert (Ei : i mod 128 = 128 - t mod 128 /\ i / 128 = t / 128).
      { unfold i. replace (128 * (t / 128) + (128 - t mod 128)) with ((128 - t mod 128) + (t / 128) * 128) by lia.
        rewrite Z.mod_add, Z.mod_small, Z.div_add, Z.div_small by lia. lia. }
      destruct Ei as [E1 E2]. rewrite E1, E2 in C. rewrite (proj2 (Z.leb_le 1 (128 - t mod 128))) in C by lia.
      cbn [andb] in C. replace (128 * (t / 128) + 128 - (128 - t mod 128)) with t in C by lia.
      unfold outs in C. rewrite Et in C. symmetry. exact C.
Qed.

(** a 40 x 40 image with a bright corner, two keypoints, 128 tests of which only
    the first tells the keypoints apart *)
Definition corner40 : image (list Z) := gen 40 40 (fun x y => if (x <? 6) && (y <? 6) then [255] else [0]).
Definition pairs128 : list test_pair := ((20, 0), (0, 0)) :: repeat ((0, 0), (0, 0)) 127.
Lemma gen_channels8 w h f : 0 <= w -> 0 <= h -> (forall x y, exists v, f x y = [v] /\ is_u8 v) -> channels8 1 (gen w h f).
Proof.
  intros Hw Hh H. split; [apply wf_gen; auto|]. intros x y p E. pose proof (get_inb _ _ _ _ E) as R.
  cbn [gen iw ih] in R. rewrite get_gen_in in E by lia. injection E as <-. destruct (H x y) as (v & -> & V).
  split; [reflexivity|]. intros u [<-|[]]. exact V.
Qed.
Lemma corner40_input : brief_input corner40 [(16, 16); (24, 16)] 128 pairs128.
Proof.
  unfold brief_input. split.
  { apply gen_channels8; [lia|lia|]. intros x y. destruct ((x <? 6) && (y <? 6)); eexists; (split; [reflexivity|]); unfold is_u8; lia. }
  split; [reflexivity|]. split; [reflexivity|]. split; [vm_compute; reflexivity|]. split.
  { intros k [<-|[<-|[]]]; unfold inner; cbn; lia. }
  split; [|split; reflexivity].
  intros tp [<-|Ht]; [cbn; lia|]. apply repeat_spec in Ht. subst tp. cbn; lia.
Qed.
Example c56_nontrivial : brief_input corner40 [(16, 16); (24, 16)] 128 pairs128 /\
  outcome corner40 (16, 16) ((20, 0), (0, 0)) = true /\ outcome corner40 (24, 16) ((20, 0), (0, 0)) = false.
Proof. split; [apply corner40_input|]. split; vm_compute; reflexivity. Qed.

(** The full property is false: the outcome of the first test is lost. *)
Theorem c56_brief_refuted : ~ c56_statement.
Proof.
  intros H. destruct (H _ _ _ _ corner40_input) as (ds & E & _ & D).
  assert (Eb : brief corner40 [(16, 16); (24, 16)] 128 pairs128 =
    Ok (Some ([mkDescriptor [0] (16, 16); mkDescriptor [0] (24, 16)], pairs128))) by (vm_compute; reflexivity).
  rewrite Eb in E. injection E as <-.
  apply (D (mkDescriptor [0] (16, 16)) (mkDescriptor [0] (24, 16))); [left; auto|right; left; auto| |reflexivity].
  exists ((20, 0), (0, 0)). split; [left; auto|]. cbn [dcorner].
  destruct c56_nontrivial as (_ & -> & ->). discriminate.
Qed.

(** The length is refused unless it is a multiple of 128 and the number of pairs;
    a keypoint near the edge makes the whole call fail. *)
Theorem c56_rejects : forall im ks len pairs,
  channels8 1 im -> iw im + 20 < 2 ^ 32 -> ih im + 20 < 2 ^ 32 ->
  rect_sum (chan im 0) 0 (iw im) 0 (ih im) < 2 ^ 31 -> (forall tp, In tp pairs -> in_patch tp) ->
  (forall k, In k ks -> 0 <= fst k <= iw im /\ 0 <= snd k <= ih im) -> 0 < len ->
  len mod 128 <> 0 \/ zlen pairs <> len \/ (exists k, In k ks /\ ~ inner im k) ->
  brief im ks len pairs = Ok None.
Proof.
  intros im ks len pairs Him Hw Hh Ht Hp Hk Hl Hbad.
  destruct (integral_one im Him Hw Hh Ht) as (ii & E & Wi & Ew & Eh & HG).
  unfold brief, brief_impl. rewrite E. cbn [bind].
  destruct (Z.eqb_spec (len mod 128) 0) as [Em|]; [|reflexivity]. cbn [negb].
  destruct (Z.eqb_spec len (zlen pairs)) as [El|]; [|reflexivity]. cbn [negb].
  destruct Hbad as [|[|(k & Ik & Nk)]]; [lia|lia|].
  assert (G : forall ks acc, (forall k, In k ks -> 0 <= fst k <= iw im /\ 0 <= snd k <= ih im) ->
     (exists k, In k ks /\ ~ inner im k) -> describe_all ii pairs ks acc = Ok None).
  { clear k Ik Nk Hk ks. induction ks as [|[kx ky] ks IH]; intros acc Hk (k & Ik & Nk); [destruct Ik|].
    pose proof (Hk _ (or_introl eq_refl)) as R. cbn [fst snd] in R.
    cbn [describe_all]. unfold BRIEF_PATCH_RADIUS.
    rewrite (chk_u_ok 32 (kx + 15)) by lia. cbn [bind]. rewrite (chk_u_ok 32 (ky + 15)) by lia. cbn [bind].
    rewrite Ew, Eh.
    destruct ((kx <=? 15) || (iw im + 1 <=? kx + 15) || (ky <=? 15) || (ih im + 1 <=? ky + 15)) eqn:Eb; [reflexivity|].
    assert (I : inner im (kx, ky)) by (unfold inner; cbn [fst snd]; lia).
    unfold describe.
    destruct (describe_fold (test_at ii (kx - 15) (ky - 15)) (outcome im (kx, ky)) pairs) as ([bits chunk] & Es & _).
    { intros tp It. apply (test_ok im ii Him Hw Hh Ht Ew Eh HG (kx, ky) tp I (Hp tp It)). }
    rewrite Es. cbn [bind]. apply IH.
    - intros k' Hk'. apply Hk. right; auto.
    - destruct Ik as [<-|Ik]; [contradiction|]. exists k. auto. }
  rewrite (G ks []); [reflexivity|auto|]. exists k. auto.
Qed.
(** length 0 is accepted and yields descriptors of 128 bits, all zero *)
Theorem c56_zero_length : forall im ks,
  brief_input im ks 0 [] -> brief im ks 0 [] = Ok (Some (map (fun k => mkDescriptor [0] k) ks, [])).
Proof.
  intros im ks (Him & Hw & Hh & Ht & Hk & _ & _ & _).
  destruct (integral_one im Him Hw Hh Ht) as (ii & E & Wi & Ew & Eh & HG).
  unfold brief, brief_impl. rewrite E. cbn [bind]. cbn [Z.eqb negb Z.modulo Z.div_eucl]. change (zlen (@nil test_pair)) with 0. cbn [Z.eqb negb].
  assert (G : forall ks acc, (forall k, In k ks -> inner im k) -> describe_all ii [] ks acc = Ok (Some (acc ++ map (fun k => mkDescriptor [0] k) ks))).
  { clear Hk ks. induction ks as [|[kx ky] ks IH]; intros acc Hk.
    - cbn [describe_all map]. rewrite app_nil_r. reflexivity.
    - pose proof (Hk _ (or_introl eq_refl)) as Ik. unfold inner in Ik. cbn [fst snd] in Ik.
      cbn [describe_all]. unfold BRIEF_PATCH_RADIUS.
      rewrite (chk_u_ok 32 (kx + 15)) by lia. cbn [bind]. rewrite (chk_u_ok 32 (ky + 15)) by lia. cbn [bind].
      rewrite Ew, Eh.
      rewrite (proj2 (Z.leb_gt kx 15)), (proj2 (Z.leb_gt ky 15)), (proj2 (Z.leb_gt (iw im + 1) (kx + 15))), (proj2 (Z.leb_gt (ih im + 1) (ky + 15))) by lia.
      cbn [orb]. unfold describe. change (zlen (@nil test_pair)) with 0. rewrite zrange_empty by lia. cbn [combine for_each bind app].
      rewrite IH by (intros k Hk'; apply Hk; right; auto). rewrite <- app_assoc. reflexivity. }
  rewrite G by auto. reflexivity.
Qed.

(** * C57 *)
Theorem c57_descriptor_distance : forall n a b, zlen (dbits a) = n -> zlen (dbits b) = n -> 128 * n < 2 ^ 32 ->
  words a -> words b ->
  exists d, hamming_distance a b = Ok d /\ d = differing (128 * n) (bit_of a) (bit_of b) /\
    0 <= d <= nbits a /\ (d = 0 <-> dbits a = dbits b) /\ hamming_distance b a = Ok d.
Proof.
  intros n a b Ea Eb Hn Wa Wb. exists (differing (128 * n) (bit_of a) (bit_of b)).
  pose proof (zlen_nonneg (dbits a)).
  rewrite hamming_ok by (unfold nbits; lia). rewrite (hamming_ok b a) by (unfold nbits; lia). unfold nbits. rewrite Ea, Eb.
  split; [reflexivity|]. split; [reflexivity|]. split; [split; [apply differing_nonneg|apply differing_le; lia]|].
  split; [|f_equal; apply differing_sym].
  rewrite differing_0. split.
  - intros H'. apply lbit_ext; auto; [lia|]. rewrite Ea. exact H'.
  - intros E i _. unfold bit_of. rewrite E. reflexivity.
Qed.
Theorem c57_descriptor_triangle : forall n a b c ab bc ac,
  zlen (dbits a) = n -> zlen (dbits b) = n -> zlen (dbits c) = n -> 128 * n < 2 ^ 32 ->
  hamming_distance a b = Ok ab -> hamming_distance b c = Ok bc -> hamming_distance a c = Ok ac -> ac <= ab + bc.
Proof.
  intros n a b c ab bc ac Ea Eb Ec Hn.
  rewrite (hamming_ok a b), (hamming_ok b c), (hamming_ok a c) by (unfold nbits; lia). unfold nbits. rewrite Ea, Eb.
  intros [= <-] [= <-] [= <-]. apply differing_tri.
Qed.
(** different lengths: the call panics *)
Theorem c57_length_mismatch : forall a b, nbits a < 2 ^ 32 -> nbits b < 2 ^ 32 ->
  zlen (dbits a) <> zlen (dbits b) -> hamming_distance a b = Panic.
Proof.
  intros a b Ha Hb N. unfold hamming_distance, get_size, nbits in *.
  pose proof (zlen_nonneg (dbits a)). pose proof (zlen_nonneg (dbits b)).
  rewrite !Z.mod_small by lia. rewrite (proj2 (Z.eqb_neq _ _)) by lia. reflexivity.
Qed.
Theorem c57_hash_distance : forall a b c, 0 <= a < 2 ^ 64 -> 0 <= b < 2 ^ 64 -> 0 <= c < 2 ^ 64 ->
  hash_distance a b = differing 64 (Z.testbit a) (Z.testbit b) /\
  0 <= hash_distance a b <= 64 /\ (hash_distance a b = 0 <-> a = b) /\
  hash_distance a b = hash_distance b a /\ hash_distance a c <= hash_distance a b + hash_distance b c.
Proof.
  intros a b c Ha Hb Hc. unfold hash_distance. rewrite !count_xor by lia.
  split; [reflexivity|]. split; [split; [apply differing_nonneg|apply differing_le; lia]|].
  split; [|split; [apply differing_sym|apply differing_tri]].
  rewrite differing_0. split; [|intros ->; auto]. apply (word_ext 64); auto; lia.
Qed.
(** a hash is built from 64 booleans without losing any of them *)
Theorem c57_hash_bits : forall bs, zlen bs = 64 ->
  exists v, bits64_new bs = Ok v /\ 0 <= v < 2 ^ 64 /\ to_bitarray v = Ok bs.
Proof.
  intros bs H. destruct (bits64_new_ok bs H) as (v & E & R & B). exists v. split; [exact E|]. split; [exact R|].
  unfold to_bitarray. rewrite (mapM_ok _ (Z.testbit v)) by (intros i Hi; apply in_zrange in Hi; apply bit_at_ok; lia).
  f_equal. apply znth_ext.
    rewrite map_length, zrange_length. unfold zlen in H. lia.
  - intros i Hi. rewrite zlen_map, zlen_zrange in Hi. rewrite znth_map, znth_zrange by lia. cbn [option_map].
    destruct (znth_some bs i) as (b & Eb); [lia|]. rewrite Eb. f_equal. rewrite Z.add_0_l. apply B. exact Eb.
Qed.
Theorem c57_hash_bits_panic : forall bs, zlen bs <> 64 -> bits64_new bs = Panic.
Proof.
  intros bs H. unfold bits64_new. pose proof (zlen_nonneg bs).
  destruct (Z.lt_ge_cases (zlen bs) 64) as [L|L].
  - destruct (bits64_fold bs 0 0) as (v & E & _); [lia|lia|lia|]. rewrite E. cbn [bind].
    rewrite (proj2 (Z.eqb_neq (0 + zlen bs) 64)) by lia. reflexivity.
  - rewrite <- (firstn_skipn 64 bs). rewrite for_each_app.
    assert (L1 : zlen (firstn 64 bs) = 64) by (unfold zlen in *; rewrite firstn_length; lia).
    destruct (bits64_fold (firstn 64 bs) 0 0) as (v & E & _); [lia|lia|lia|]. rewrite E. cbn [bind]. rewrite L1.
    destruct (skipn 64 bs) as [|b l] eqn:Es.
    + exfalso. assert (length (skipn 64 bs) = 0%nat) by (rewrite Es; reflexivity). rewrite skipn_length in *. unfold zlen in *. lia.
    + cbn [for_each]. change (0 + 64) with 64. destruct b; reflexivity.
Qed.

Definition da := mkDescriptor [5; 0] (1, 1).
Definition db := mkDescriptor [6; 2 ^ 127] (2, 2).
Example c57_nontrivial : words da /\ words db /\ hamming_distance da db = Ok 3 /\ hash_distance 5 (2 ^ 63 + 4) = 2.
Proof.
  split; [|split; [|split; vm_compute; reflexivity]]; intros w H; cbn in H; 
  repeat (destruct H as [<-|H]; [split; [discriminate|reflexivity]|]); destruct H.
Qed.

(** * C58 *)
(** the full property *)
Definition c58_statement : Prop := forall n d1 d2 t draws,
  0 <= n -> 128 * n < 2 ^ 32 - 1 -> descs n d1 -> descs n d2 -> zlen draws = 3 -> draws_ok n draws -> 0 < t < 2 ^ 32 ->
  exists ms, match_binary_descriptors d1 d2 t draws = Ok ms /\
    (forall a b, In (a, b) ms -> In a d1 /\ In b d2 /\ hdist n a b < t) /\
    (forall a, In a d1 -> (exists b, In b d2 /\ dbits a = dbits b) -> exists b, In (a, b) ms /\ dbits a = dbits b).

(** The reported pairs, exactly: for every element of the shorter list (the
    first one on ties), in order, the nearest element of the other list that
    collides with it in a table, if nearer than the threshold. *)
Theorem c58_matches : forall n d1 d2 t draws,
  0 <= n -> 128 * n < 2 ^ 32 - 1 -> descs n d1 -> descs n d2 -> draws_ok n draws -> 0 <= t < 2 ^ 32 ->
  d1 <> [] -> d2 <> [] ->
  exists os,
    if zlen d2 <? zlen d1 then
      Forall2 (nearest n draws d1 t) d2 os /\
      match_binary_descriptors d1 d2 t draws =
        Ok (flat_map (fun qo => match snd qo with Some b => [(b, fst qo)] | None => [] end) (combine d2 os))
    else
      Forall2 (nearest n draws d2 t) d1 os /\
      match_binary_descriptors d1 d2 t draws =
        Ok (flat_map (fun qo => match snd qo with Some b => [(fst qo, b)] | None => [] end) (combine d1 os)).
Proof.
  intros n d1 d2 t draws Hn Hn2 H1 H2 Hd Ht N1 N2. unfold match_binary_descriptors.
  assert (Z1 : zlen d1 <> 0) by (destruct d1; [congruence|rewrite zlen_cons; pose proof (zlen_nonneg d1); lia]).
  assert (Z2 : zlen d2 <> 0) by (destruct d2; [congruence|rewrite zlen_cons; pose proof (zlen_nonneg d2); lia]).
  rewrite (proj2 (Z.eqb_neq (zlen d1) 0)), (proj2 (Z.eqb_neq (zlen d2) 0)) by auto. cbn [orb].
  destruct (zlen d2 <? zlen d1).
  - destruct (tables_ok n d1 draws H1 Hd) as (ts & Et & Ft). rewrite Et. cbn [bind].
    destruct (matches_ok n d1 draws Hn Hn2 H1 Hd d2 t (fun q b => (b, q)) ts H2 Ht Ft []) as (os & E & F).
    exists os. split; [exact F|]. rewrite E. reflexivity.
  - destruct (tables_ok n d2 draws H2 Hd) as (ts & Et & Ft). rewrite Et. cbn [bind].
    destruct (matches_ok n d2 draws Hn Hn2 H2 Hd d1 t (fun q b => (q, b)) ts H1 Ht Ft []) as (os & E & F).
    exists os. split; [exact F|]. rewrite E. reflexivity.
Qed.
Theorem c58_empty : forall d1 d2 t draws, d1 = [] \/ d2 = [] -> match_binary_descriptors d1 d2 t draws = Ok [].
Proof.
  intros d1 d2 t draws [->| ->]; unfold match_binary_descriptors; change (zlen (@nil descriptor)) with 0; cbn [Z.eqb orb]; auto.
  rewrite Bool.orb_true_r. reflexivity.
Qed.

Lemma combine_in {X Y} (P : X -> Y -> Prop) l l' q o : Forall2 P l l' -> In (q, o) (combine l l') -> In q l /\ P q o.
Proof.
  intros H. induction H as [|a b l l' Hab H IH]; intros I; [destruct I|].
  destruct I as [E|I]; [injection E as <- <-; split; [left; auto|auto]|].
  destruct (IH I). split; [right; auto|auto].
Qed.
Lemma in_combine' {X Y} (P : X -> Y -> Prop) l l' q : Forall2 P l l' -> In q l -> exists o, In (q, o) (combine l l') /\ P q o.
Proof.
  intros H. induction H as [|a b l l' Hab H IH]; intros I; [destruct I|].
  destruct I as [->|I]; [exists b; split; [left; auto|auto]|].
  destruct (IH I) as (o & A & B). exists o. split; [right; auto|auto].
Qed.
Lemma nearest_dup n draws db t q o : 0 <= n -> draws <> [] -> 0 < t -> descs n db -> zlen (dbits q) = n /\ words q ->
  nearest n draws db t q o -> (exists b, In b db /\ dbits q = dbits b) -> exists b, o = Some b /\ dbits q = dbits b.
Proof.
  intros Hn Nd Ht Hdb [Lq Wq] H (b & Ib & Eb).
  assert (C : collide draws q b).
  { destruct draws as [|bits draws]; [congruence|]. exists bits. split; [left; auto|].
    intros i _. unfold bit_of. rewrite Eb. reflexivity. }
  assert (Z0 : hdist n q b = 0).
  { apply differing_0. intros i _. unfold bit_of. rewrite Eb. reflexivity. }
  destruct o as [d|]; cbn [nearest] in H.
  - destruct H as (Id & _ & _ & M). specialize (M b Ib C). exists d. split; [auto|].
    assert (E0 : hdist n q d = 0) by (pose proof (differing_nonneg (128 * n) (bit_of q) (bit_of d)); unfold hdist in *; lia).
    destruct (Hdb d Id) as [Ld Wd]. apply lbit_ext; auto; [lia|]. rewrite Lq. apply (proj1 (differing_0 _ _ _)). exact E0.
  - specialize (H b Ib C). lia.
Qed.

(** What holds: soundness always, and completeness for the elements of the
    shorter list. *)
Theorem c58_matching_partial : forall n d1 d2 t draws,
  0 <= n -> 128 * n < 2 ^ 32 - 1 -> descs n d1 -> descs n d2 -> zlen draws = 3 -> draws_ok n draws -> 0 < t < 2 ^ 32 ->
  exists ms, match_binary_descriptors d1 d2 t draws = Ok ms /\
    (forall a b, In (a, b) ms -> In a d1 /\ In b d2 /\ hdist n a b < t) /\
    (zlen d1 <= zlen d2 ->
     forall a, In a d1 -> (exists b, In b d2 /\ dbits a = dbits b) -> exists b, In (a, b) ms /\ dbits a = dbits b) /\
    (zlen d2 < zlen d1 ->
     forall b, In b d2 -> (exists a, In a d1 /\ dbits a = dbits b) -> exists a, In (a, b) ms /\ dbits a = dbits b).
Proof.
  intros n d1 d2 t draws Hn Hn2 H1 H2 L3 Hd Ht.
  assert (Nd : draws <> []) by (intros ->; discriminate).
  destruct d1 as [|a1 d1].
  { exists []. rewrite c58_empty by auto. split; [auto|]. split; [intros ? ? []|]. split; [intros _ ? []|].
    intros _ b _ (a & [] & _). }
  destruct d2 as [|a2 d2].
  { exists []. rewrite c58_empty by auto. split; [auto|]. split; [intros ? ? []|]. split; [|intros _ ? []].
    intros _ a _ (b & [] & _). }
  destruct (c58_matches n (a1 :: d1) (a2 :: d2) t draws Hn Hn2 H1 H2 Hd ltac:(lia) ltac:(discriminate) ltac:(discriminate)) as (os & H).
  destruct (Z.ltb_spec (zlen (a2 :: d2)) (zlen (a1 :: d1))) as [L|L]; destruct H as [F E]; rewrite E; eexists; (split; [reflexivity|]); split; [|split| |split].
  - intros a b I. apply in_flat_map in I. destruct I as ([q o] & I1 & I2). cbn [fst snd] in I2.
    destruct o as [d|]; [|destruct I2]. destruct I2 as [E2|[]]. injection E2 as <- <-.
    destruct (combine_in _ _ _ _ _ F I1) as [Iq (Id & _ & Lt & _)]. split; [auto|]. split; [auto|].
    unfold hdist in *. rewrite differing_sym. exact Lt.
  - lia.
  - intros _ b Ib (a & Ia & Ea). destruct (in_combine' _ _ _ _ F Ib) as (o & Io & No).
    destruct (nearest_dup n draws _ t b o Hn Nd ltac:(lia) H1 (H2 b Ib) No) as (d & -> & Ed).
    { exists a. auto. }
    exists d. split; [|auto]. apply in_flat_map. exists (b, Some d). split; [auto|]. left. reflexivity.
  - intros a b I. apply in_flat_map in I. destruct I as ([q o] & I1 & I2). cbn [fst snd] in I2.
    destruct o as [d|]; [|destruct I2]. destruct I2 as [E2|[]]. injection E2 as <- <-.
    destruct (combine_in _ _ _ _ _ F I1) as [Iq (Id & _ & Lt & _)]. auto.
  - intros _ a Ia (b & Ib & Eb). destruct (in_combine' _ _ _ _ F Ia) as (o & Io & No).
    destruct (nearest_dup n draws _ t a o Hn Nd ltac:(lia) H2 (H1 a Ia) No) as (d & -> & Ed).
    { exists b. auto. }
    exists d. split; [|auto]. apply in_flat_map. exists (a, Some d). split; [auto|]. left. reflexivity.
  - lia.
Qed.

Definition dp := mkDescriptor [9] (1, 1).
Definition dq := mkDescriptor [9] (2, 2).
Definition dr := mkDescriptor [9] (3, 3).
Lemma descs1 l : Forall (fun d => dbits d = [9]) l -> descs 1 l.
Proof.
  intros H d Hd. rewrite Forall_forall in H. specialize (H d Hd). rewrite H. split; [reflexivity|].
  intros w. rewrite H. intros [<-|[]]. split; [discriminate|reflexivity].
Qed.
Lemma draws_one : draws_ok 1 [[3]; [0]; [127]].
Proof. intros bits [<-|[<-|[<-|[]]]]; (split; [discriminate|]); intros b [<-|[]]; lia. Qed.
Example c58_nontrivial : descs 1 [dp; dq] /\ descs 1 [dr] /\ draws_ok 1 [[3]; [0]; [127]] /\
  match_binary_descriptors [dp; dq] [dr] 5 [[3]; [0]; [127]] = Ok [(dp, dr)].
Proof.
  split; [apply descs1; repeat constructor|]. split; [apply descs1; repeat constructor|]. split; [apply draws_one|].
  vm_compute; reflexivity.
Qed.

(** The full property is false: with two equal descriptors in the first list and
    one in the second, only one of the two is matched. *)
Theorem c58_matching_refuted : ~ c58_statement.
Proof.
  intros H. destruct c58_nontrivial as (A & B & C & D).
  destruct (H 1 [dp; dq] [dr] 5 [[3]; [0]; [127]] ltac:(lia) ltac:(lia) A B eq_refl C ltac:(lia)) as (ms & E & _ & K).
  rewrite D in E. injection E as <-.
  destruct (K dq) as (b & I & _); [right; left; auto|exists dr; split; [left; auto|reflexivity]|].
  destruct I as [I|[]]. discriminate I.
Qed.

Print Assumptions c56_brief_partial.
Print Assumptions c56_brief_refuted.
Print Assumptions c56_rejects.
Print Assumptions c56_zero_length.
Print Assumptions c57_descriptor_distance.
Print Assumptions c57_descriptor_triangle.
Print Assumptions c57_length_mismatch.
Print Assumptions c57_hash_distance.
Print Assumptions c57_hash_bits.
Print Assumptions c57_hash_bits_panic.
Print Assumptions c58_matches.
Print Assumptions c58_empty.
Print Assumptions c58_matching_partial.
Print Assumptions c58_matching_refuted.
