(** Proofs about [match_binary_descriptors]. *)
From Verif Require Import Base BaseProofs SuppressProofs BriefModel BriefSpec BriefProofs.
Local Ltac Zify.zify_post_hook ::= idtac.

(** * Hashes *)
Fixpoint code (acc : Z) (l : list bool) : Z :=
  match l with [] => acc | b :: l => code (acc * 2 + Z.b2z b) l end.
Lemma code_inj l : forall l' a a', length l = length l' -> code a l = code a' l' -> a = a' /\ l = l'.
Proof.
  induction l as [|b l IH]; intros [|b' l'] a a' E H; try discriminate E; cbn [code] in H; [auto|].
  injection E as E. apply IH in H; auto. destruct H as [H ->].
  destruct b, b'; cbn [Z.b2z] in H; split; try lia; reflexivity.
Qed.
Lemma subset_fold d bits : forall n acc k, zlen (dbits d) = n -> (forall b, In b bits -> 0 <= b < 128 * n) ->
  0 <= k -> k + zlen bits <= 128 -> 0 <= acc < 2 ^ k ->
  for_each bits (fun b subset => w <- vget (dbits d) (b / 128) ;;
    chk_u 128 ((subset * 2) mod 2 ^ 128 + Z.shiftr w (b mod 128) mod 2)) acc = Ok (code acc (map (bit_of d) bits)).
Proof.
  induction bits as [|b bits IH]; intros n acc k En Hb Hk Hl Ha; [reflexivity|].
  cbn [for_each map code]. rewrite zlen_cons in Hl. pose proof (zlen_nonneg bits).
  pose proof (Hb b (or_introl eq_refl)) as B.
  assert (Di : 0 <= b / 128 < n) by (split; [apply Z.div_pos; lia|apply Z.div_lt_upper_bound; lia]).
  pose proof (Z.mod_pos_bound b 128 ltac:(lia)) as Mb.
  destruct (znth_some (dbits d) (b / 128)) as (w & Ew); [lia|].
  rewrite (proj2 (vget_ok _ _ _) Ew). cbn [bind].
  assert (Et : Z.shiftr w (b mod 128) mod 2 = Z.b2z (bit_of d b)).
  { unfold bit_of. rewrite Ew. rewrite Z.testbit_spec' by lia. rewrite Z.shiftr_div_pow2 by lia. reflexivity. }
  rewrite Et.
  assert (P1 : 2 ^ (k + 1) <= 2 ^ 128) by (apply Z.pow_le_mono_r; lia).
  rewrite Z.pow_add_r in P1 by lia. change (2 ^ 1) with 2 in P1.
  rewrite Z.mod_small by lia.
  assert (R : 0 <= acc * 2 + Z.b2z (bit_of d b) < 2 ^ (k + 1)).
  { rewrite Z.pow_add_r by lia. change (2 ^ 1) with 2. destruct (bit_of d b); cbn [Z.b2z]; lia. }
  rewrite chk_u_ok by (rewrite Z.pow_add_r in R by lia; change (2 ^ 1) with 2 in R; lia). cbn [bind].
  apply (IH n _ (k + 1)); auto; try lia. intros b' Hb'. apply Hb. right; auto.
Qed.
Definition hash (bits : list Z) (d : descriptor) : Z := code 0 (map (bit_of d) bits).
Lemma subset_ok d bits n : zlen (dbits d) = n -> zlen bits <= 128 -> (forall b, In b bits -> 0 <= b < 128 * n) ->
  get_bit_subset d bits = Ok (hash bits d).
Proof.
  intros En Hl Hb. unfold get_bit_subset. rewrite (proj2 (Z.leb_le (zlen bits) 128)) by lia. cbn [assert bind].
  apply (subset_fold d bits n 0 0); auto; lia.
Qed.
Lemma hash_eq bits q d : hash bits q = hash bits d <-> forall b, In b bits -> bit_of q b = bit_of d b.
Proof.
  unfold hash. split.
  - intros H. apply code_inj in H; [|rewrite !map_length; reflexivity]. destruct H as [_ H].
    intros b Hb. clear -H Hb. induction bits as [|a bits IH]; [destruct Hb|].
    cbn [map] in H. injection H as H1 H2. destruct Hb as [->|Hb]; auto.
  - intros H. f_equal. apply map_ext_in. exact H.
Qed.

(** * Tables *)
Lemma bucket_push_get h d m k :
  bucket_get k (bucket_push h d m) =
  if k =? h then Some (match bucket_get h m with Some v => v ++ [d] | None => [d] end) else bucket_get k m.
Proof.
  induction m as [|[h' v] m IH]; cbn [bucket_push bucket_get].
  - destruct (Z.eqb_spec k h); reflexivity.
  - destruct (Z.eqb_spec h h') as [<-|N].
    + cbn [bucket_get]. destruct (Z.eqb_spec k h); reflexivity.
    + cbn [bucket_get]. rewrite IH. destruct (Z.eqb_spec k h') as [->|N'].
      * destruct (Z.eqb_spec h' h); [lia|]. reflexivity.
      * reflexivity.
Qed.
Definition bucket (m : list (Z * list descriptor)) (h : Z) : list descriptor :=
  match bucket_get h m with Some v => v | None => [] end.
Lemma bucket_push_bucket h d m k : bucket (bucket_push h d m) k = bucket m k ++ (if k =? h then [d] else []).
Proof.
  unfold bucket. rewrite bucket_push_get. destruct (Z.eqb_spec k h) as [->|].
  - destruct (bucket_get h m); reflexivity.
  - rewrite app_nil_r. reflexivity.
Qed.
Lemma build_table_ok n db bits : descs n db -> zlen bits <= 128 -> (forall b, In b bits -> 0 <= b < 128 * n) ->
  exists m, build_table db bits = Ok m /\ forall h, bucket m h = filter (fun d => h =? hash bits d) db.
Proof.
  intros Hd Hl Hb. unfold build_table.
  apply (for_each_ind (fun done m => forall h, bucket m h = filter (fun d => h =? hash bits d) done)).
  - intros h. reflexivity.
  - intros done d rest m E H. exists (bucket_push (hash bits d) d m). split.
    + rewrite (subset_ok d bits n); [reflexivity| |auto|auto]. apply Hd. rewrite E. apply in_or_app. right; left; auto.
    + intros h. rewrite bucket_push_bucket, H, filter_app. cbn [filter]. destruct (h =? hash bits d); reflexivity.
Qed.

Section Match.
Variables (n : Z) (db : list descriptor) (draws : list (list Z)).
Hypothesis (Hn : 0 <= n) (Hn2 : 128 * n < 2 ^ 32 - 1).
Hypothesis (Hdb : descs n db) (Hdr : draws_ok n draws).

Definition is_table (bits : list Z) (t : list Z * list (Z * list descriptor)) : Prop :=
  fst t = bits /\ forall h, bucket (snd t) h = filter (fun d => h =? hash bits d) db.
Lemma tables_ok : exists ts, mapM (fun bits => t <- build_table db bits ;; Ok (bits, t)) draws = Ok ts /\ Forall2 is_table draws ts.
Proof.
  apply mapM_exists. intros bits Hb. destruct (Hdr bits Hb) as [Hl Hr].
  destruct (build_table_ok n db bits Hdb Hl Hr) as (m & E & H). exists (bits, m). rewrite E. split; [reflexivity|]. split; auto.
Qed.
Lemma candidates_ok ts q : Forall2 is_table draws ts -> zlen (dbits q) = n ->
  exists cs, candidates ts q = Ok cs /\ forall d, In d cs <-> In d db /\ collide draws q d.
Proof.
  intros HF Hq.
  assert (G : forall dr acc, (forall b, In b dr -> In b draws) -> Forall2 is_table dr acc -> forall ds0,
    exists cs, for_each acc (fun '(bits, table) acc =>
      h <- get_bit_subset q bits ;; Ok (acc ++ match bucket_get h table with Some m => m | None => [] end)) ds0 = Ok (ds0 ++ cs) /\
      forall d, In d cs <-> In d db /\ collide dr q d).
  { intros dr acc Hin F. revert Hin. induction F as [|bits [bits' m] dr ts' [E1 E2] F IH]; intros Hin ds0.
    - exists []. cbn [for_each]. rewrite app_nil_r. split; [auto|]. intros d. split; [intros []|].
      intros (_ & b & [] & _).
    - cbn [fst snd] in E1, E2. subst bits'. destruct (Hdr bits) as [Hl Hr]; [apply Hin; left; auto|].
      cbn [for_each]. rewrite (subset_ok q bits n) by auto. cbn [bind].
      fold (bucket m (hash bits q)). rewrite E2.
      destruct (IH ltac:(intros; apply Hin; right; auto) (ds0 ++ filter (fun d => hash bits q =? hash bits d) db)) as (cs & E & H).
      exists (filter (fun d => hash bits q =? hash bits d) db ++ cs). rewrite E, app_assoc. split; [auto|].
      intros d. rewrite in_app_iff, filter_In, H, Z.eqb_eq, hash_eq. split.
      + intros [[A B]|(A & b & B & C)].
        * split; auto. exists bits. split; [left; auto|exact B].
        * split; auto. exists b. split; [right; auto|exact C].
      + intros (A & b & [<-|B] & C); [left; auto|]. right. split; auto. exists b. auto. }
  destruct (G draws ts (fun b H => H) HF []) as (cs & E & H). exists cs. split; [exact E|exact H].
Qed.

Lemma scan_ok q cs : zlen (dbits q) = n -> (forall c, In c cs -> zlen (dbits c) = n) ->
  exists best, scan q cs = Ok best /\
  match best with
  | (s, None) => cs = [] /\ s = 2 ^ 32 - 1
  | (s, Some c) => In c cs /\ s = hdist n q c /\ forall c', In c' cs -> s <= hdist n q c'
  end.
Proof.
  intros Hq Hc. unfold scan.
  apply (for_each_ind (fun done best => match best with
    | (s, None) => done = [] /\ s = 2 ^ 32 - 1
    | (s, Some c) => In c done /\ s = hdist n q c /\ forall c', In c' done -> s <= hdist n q c' end)).
  - auto.
  - intros done c rest [s best] E H.
    assert (Ec : zlen (dbits c) = n) by (apply Hc; rewrite E; apply in_or_app; right; left; auto).
    rewrite (hamming_ok q c) by (unfold nbits; lia). cbn [bind].
    unfold nbits. rewrite Hq. fold (hdist n q c).
    assert (B : 0 <= hdist n q c <= 128 * n) by (split; [apply differing_nonneg|apply differing_le; lia]).
    eexists. split; [reflexivity|]. destruct (Z.ltb_spec (hdist n q c) s) as [L|L].
    + split; [apply in_or_app; right; left; auto|]. split; [auto|].
      intros c' H'. apply in_app_or in H'. destruct H' as [H'|[<-|[]]]; [|lia].
      destruct best as [b|].
      * destruct H as (_ & _ & M). specialize (M c' H'). lia.
      * destruct H as [-> _]. destruct H'.
    + destruct best as [b|].
      * destruct H as (I & Es & M). split; [apply in_or_app; left; auto|]. split; [auto|].
        intros c' H'. apply in_app_or in H'. destruct H' as [H'|[<-|[]]]; auto.
      * exfalso. destruct H as [_ ->]. lia.
Qed.

Lemma matches_ok (qs : list descriptor) t (mkp : descriptor -> descriptor -> descriptor * descriptor) ts : descs n qs -> 0 <= t < 2 ^ 32 ->
  Forall2 is_table draws ts -> forall acc,
  exists os, for_each qs (fun query matches =>
      cs <- candidates ts query ;;
      ' (best_score, best) <- scan query cs ;;
      if best_score <? t then b <- unwrap best ;; Ok (matches ++ [mkp query b]) else Ok matches) acc
    = Ok (acc ++ flat_map (fun qo => match snd qo with Some b => [mkp (fst qo) b] | None => [] end) (combine qs os)) /\
    Forall2 (nearest n draws db t) qs os.
Proof.
  intros Hqs Ht HF. induction qs as [|q qs IH]; intros acc.
  - exists []. cbn. rewrite app_nil_r. split; auto.
  - destruct (Hqs q (or_introl eq_refl)) as [Hq _].
    destruct (candidates_ok ts q HF Hq) as (cs & Ec & Hc).
    destruct (scan_ok q cs Hq) as ([s best] & Es & Hs).
    { intros c Ic. apply Hc in Ic. destruct Ic as [Ic _]. apply Hdb. auto. }
    assert (Hqs' : descs n qs) by (intros d Hd; apply Hqs; right; auto).
    cbn [for_each]. rewrite Ec. cbn [bind]. rewrite Es. cbn [bind].
    destruct best as [b|].
    + destruct Hs as (I & E & M). destruct (Z.ltb_spec s t) as [L|L].
      * cbn [unwrap bind]. destruct (IH Hqs' (acc ++ [mkp q b])) as (os & Eo & Ho).
        exists (Some b :: os). rewrite Eo. cbn [combine flat_map fst snd]. rewrite <- app_assoc. split; [auto|].
        constructor; auto. apply Hc in I. destruct I as [I1 I2]. cbn [nearest].
        split; [auto|]. split; [auto|]. split; [lia|]. intros d' H1 H2. rewrite <- E. apply M. apply Hc. auto.
      * cbn [bind]. destruct (IH Hqs' acc) as (os & Eo & Ho). exists (None :: os). rewrite Eo. cbn [combine flat_map snd app]. split; [auto|].
        constructor; auto. cbn [nearest]. intros d' H1 H2. assert (s <= hdist n q d') by (apply M; apply Hc; auto). lia.
    + destruct Hs as (E & ->). rewrite (proj2 (Z.ltb_ge (2 ^ 32 - 1) t)) by lia. cbn [bind].
      destruct (IH Hqs' acc) as (os & Eo & Ho). exists (None :: os). rewrite Eo. cbn [combine flat_map snd app]. split; [auto|].
      constructor; auto. cbn [nearest]. intros d' H1 H2. exfalso. assert (I : In d' cs) by (apply Hc; auto). rewrite E in I. destruct I.
Qed.
End Match.
