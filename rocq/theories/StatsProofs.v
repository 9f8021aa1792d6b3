From Verif Require Import Base BaseProofs GeomProofs IntegralSpec IntegralProofs StatsModel StatsSpec.
Ltac Zify.zify_post_hook ::= Z.div_mod_to_equations.

Notation mapz n f := (map f (zrange 0 n)).

Lemma zupd_mapz {A} n (f : Z -> A) i a : 0 <= i < n ->
  zupd (mapz n f) i a = mapz n (fun k => if k =? i then a else f k).
Proof.
  intros Hi. apply znth_ext.
  - pose proof (zupd_zlen (mapz n f) i a) as L. unfold zlen in L. rewrite !map_length in *. lia.
  - intros j Hj. rewrite zupd_zlen, zlen_map, zlen_zrange in Hj.
    rewrite znth_zupd by (rewrite zlen_map, zlen_zrange; lia).
    rewrite !znth_map, !znth_zrange by lia. cbn [option_map]. rewrite !Z.add_0_l.
    destruct (j =? i); auto.
Qed.

Lemma vget_mapz {A} n (f : Z -> A) i : 0 <= i < n -> vget (mapz n f) i = Ok (f i).
Proof. intros Hi. unfold vget. rewrite znth_map, znth_zrange by lia. reflexivity. Qed.

Lemma vset_mapz {A} n (f : Z -> A) i a : 0 <= i < n ->
  vset (mapz n f) i a = Ok (mapz n (fun k => if k =? i then a else f k)).
Proof. intros Hi. rewrite vset_ok by (rewrite zlen_map, zlen_zrange; lia). f_equal. apply zupd_mapz; auto. Qed.

Lemma combine_index (p : list Z) : combine (zrange 0 (zlen p)) p =
  map (fun i => (i, match znth p i with Some v => v | None => 0 end)) (zrange 0 (zlen p)).
Proof.
  rewrite (list_as_map p (zlen p) eq_refl) at 2. rewrite <- (map_id (zrange 0 (zlen p))) at 1.
  rewrite combine_map. reflexivity.
Qed.

Lemma for_each_map {X Y St} (g : X -> Y) l (body : Y -> St -> res St) s :
  for_each (map g l) body s = for_each l (fun x s => body (g x) s) s.
Proof. revert s; induction l as [|x l IH]; intros s; simpl; auto. destruct (body (g x) s); simpl; auto. Qed.

Lemma for_each_zrange {St} lo hi (body : Z -> St -> res St) s :
  for_each (zrange lo hi) body s = for_range lo hi body s.
Proof.
  unfold zrange, for_range. generalize (Z.to_nat (hi - lo)) as n. intros n; revert lo s.
  induction n as [|n IH]; intros lo s; simpl; auto. destruct (body lo s); simpl; auto.
Qed.

Lemma filter_snoc {A} (f : A -> bool) l x : zlen (filter f (l ++ [x])) = zlen (filter f l) + (if f x then 1 else 0).
Proof. rewrite filter_app, zlen_app. simpl. destruct (f x); unfold zlen; simpl; lia. Qed.

Lemma filter_le {A} (f : A -> bool) l : zlen (filter f l) <= zlen l.
Proof. induction l as [|a l IH]; simpl; [lia|]. destruct (f a); rewrite ?zlen_cons; lia. Qed.

(** ** histogram *)
Definition ok_px (ch : Z) (p : list Z) : Prop := zlen p = ch /\ forall v, In v p -> is_u8 v.

Lemma hist_pixel_ok ch p (cnt : Z -> Z -> Z) :
  ok_px ch p -> (forall c v, 0 <= cnt c v < 2 ^ 32 - 1) ->
  hist_pixel p (mapz ch (fun c => mapz 256 (fun v => cnt c v))) =
  Ok (mapz ch (fun c => mapz 256 (fun v => cnt c v + (if has_level c v p then 1 else 0)))).
Proof.
  intros (Lp & Hp) Hc. unfold hist_pixel. rewrite combine_index, for_each_map, for_each_zrange, Lp.
  assert (Hch : 0 <= ch) by (rewrite <- Lp; apply zlen_nonneg).
  match goal with |- for_range 0 ch ?b ?st = _ =>
  destruct (for_range_ind (fun k s => s = mapz ch (fun c => mapz 256 (fun v =>
     cnt c v + (if (c <? k) && has_level c v p then 1 else 0)))) 0 ch b st) as (s & E & HP) end; auto.
  - apply map_ext_in. intros c Hc'. apply in_zrange in Hc'. apply map_ext_in. intros v _.
    assert (c <? 0 = false) as -> by lia. simpl. lia.
  - intros i s Hi ->. destruct (znth_some p i) as (u & Eu); [lia|]. rewrite Eu.
    assert (Hu : 0 <= u < 256) by (apply znth_In in Eu; apply Hp in Eu; unfold is_u8 in Eu; lia).
    rewrite vget_mapz by auto. cbn [bind]. rewrite vget_mapz by auto. cbn [bind].
    assert (i <? i = false) as -> by lia. simpl andb. cbv iota.
    unfold chk_u, u_fits. specialize (Hc i u).
    assert ((0 <=? cnt i u + 0 + 1) && (cnt i u + 0 + 1 <? 2 ^ 32) = true) as -> by lia. cbn [bind].
    rewrite vset_mapz by auto. cbn [bind]. rewrite vset_mapz by auto.
    eexists; split; [reflexivity|].
    apply map_ext_in. intros c Hc'. apply in_zrange in Hc'.
    destruct (Z.eqb_spec c i) as [->|Hne].
    + apply map_ext_in. intros v Hv. apply in_zrange in Hv.
      unfold has_level. rewrite Eu. assert (i <? i + 1 = true) as -> by lia. try (assert (i <? i = false) as -> by lia).
      simpl. rewrite (Z.eqb_sym u v). destruct (Z.eqb_spec v u) as [->|]; lia.
    + apply map_ext_in. intros v Hv. destruct (Z.ltb_spec c i); destruct (Z.ltb_spec c (i + 1)); auto; lia.
  - rewrite E, HP. f_equal. apply map_ext_in. intros c Hc'. apply in_zrange in Hc'.
    assert (c <? ch = true) as -> by lia. reflexivity.
Qed.

Definition img_ok (ch : Z) (im : image (list Z)) : Prop :=
  0 <= ch /\ (forall p, In p (idata im) -> ok_px ch p) /\ zlen (idata im) < 2 ^ 32.

Lemma histogram_ok ch im : img_ok ch im ->
  histogram ch im = Ok (mapz ch (fun c => mapz 256 (fun v => count_px im (has_level c v)))).
Proof.
  intros (Hch & Hp & Hl). unfold histogram.
  match goal with |- for_each _ ?b ?st = _ =>
  destruct (for_each_ind (fun l s => s = mapz ch (fun c => mapz 256 (fun v => zlen (filter (has_level c v) l))))
     (idata im) b st) as (s & E & HP) end; auto.
  - intros dn x rest s El ->. 
    rewrite (hist_pixel_ok ch x (fun c v => zlen (filter (has_level c v) dn))).
    + eexists; split; [reflexivity|]. apply map_ext. intros c. apply map_ext. intros v. rewrite filter_snoc. lia.
    + apply Hp. rewrite El. apply in_or_app; right; left; auto.
    + intros c v. pose proof (filter_le (has_level c v) dn). pose proof (zlen_nonneg (filter (has_level c v) dn)).
      rewrite El, zlen_app, zlen_cons in Hl. pose proof (zlen_nonneg rest). lia.
  - rewrite E, HP. reflexivity.
Qed.

(** ** cumulative histogram *)
Lemma cumulate_ok (f : Z -> Z) :
  (forall i, 0 <= f i) -> zsum 0 256 f < 2 ^ 32 ->
  cumulate (mapz 256 f) = Ok (mapz 256 (fun i => zsum 0 (i + 1) f)).
Proof.
  intros Hf Hs. unfold cumulate. rewrite zlen_map, zlen_zrange. change (Z.max 0 (256 - 0)) with 256.
  match goal with |- for_range 1 ?hi ?b ?st = _ =>
  destruct (for_range_ind (fun k s => s = mapz 256 (fun i => if i <? k then zsum 0 (i + 1) f else f i)) 1 256 b st) as (s & E & HP) end; try lia.
  - apply map_ext_in. intros i Hi. apply in_zrange in Hi. destruct (i <? 1) eqn:E1; auto.
    assert (i = 0) by lia. subst. unfold zsum, zrange; simpl. lia.
  - intros i s Hi ->. rewrite vget_mapz by lia. cbn [bind]. rewrite vget_mapz by lia. cbn [bind].
    assert (i <? i = false) as -> by lia. assert (i - 1 <? i = true) as -> by lia.
    replace (i - 1 + 1) with i by lia.
    assert (Es : f i + zsum 0 i f = zsum 0 (i + 1) f) by (rewrite zsum_snoc by lia; lia). rewrite Es.
    assert (0 <= zsum 0 (i + 1) f) by (apply zsum_nonneg; auto).
    assert (zsum 0 (i + 1) f <= zsum 0 256 f).
    { rewrite (zsum_split 0 (i + 1) 256) by lia. assert (0 <= zsum (i + 1) 256 f) by (apply zsum_nonneg; auto). lia. }
    unfold chk_u, u_fits. assert ((0 <=? zsum 0 (i + 1) f) && (zsum 0 (i + 1) f <? 2 ^ 32) = true) as -> by lia.
    cbn [bind]. rewrite vset_mapz by lia. eexists; split; [reflexivity|].
    apply map_ext_in. intros j Hj. destruct (Z.eqb_spec j i) as [->|].
    + assert (i <? i + 1 = true) as -> by lia. auto.
    + destruct (Z.ltb_spec j i); destruct (Z.ltb_spec j (i + 1)); auto; lia.
  - rewrite E, HP. apply f_equal. apply map_ext_in. intros i Hi. apply in_zrange in Hi.
    assert (i <? 256 = true) as -> by lia. auto.
Qed.

Lemma at_most_sum ch im c v : img_ok ch im -> 0 <= c < ch -> 0 <= v < 256 ->
  zsum 0 (v + 1) (fun u => count_px im (has_level c u)) = count_px im (at_most c v).
Proof.
  intros (_ & Hp & _) Hc Hv. unfold count_px. revert Hp. induction (idata im) as [|p l IH]; intros Hp.
  - simpl. rewrite (zsum_ext _ _ _ (fun _ => 0 * 0)) by auto. rewrite zsum_scal. reflexivity.
  - assert (E : zsum 0 (v + 1) (fun u => zlen (filter (has_level c u) (p :: l))) =
       zsum 0 (v + 1) (fun u => (if has_level c u p then 1 else 0)) + zsum 0 (v + 1) (fun u => zlen (filter (has_level c u) l))).
    { rewrite <- zsum_plus. apply zsum_ext. intros u _. simpl. destruct (has_level c u p); rewrite ?zlen_cons; lia. }
    rewrite E, IH by (intros; apply Hp; right; auto).
    destruct (Hp p) as (Lp & Hu); [left; auto|].
    destruct (znth_some p c) as (q & Eq); [lia|].
    assert (Hq : 0 <= q <= 255) by (apply znth_In in Eq; apply Hu in Eq; exact Eq).
    assert (E2 : zsum 0 (v + 1) (fun u => if has_level c u p then 1 else 0) = if at_most c v p then 1 else 0).
    { unfold has_level, at_most. rewrite Eq. clear -Hq Hv.
      destruct (Z.leb_spec q v).
      - rewrite (zsum_split 0 q (v + 1)) by lia. rewrite (zsum_cons q) by lia. rewrite Z.eqb_refl.
        rewrite (zsum_ext 0 q _ (fun _ => 0)) by (intros i Hi; destruct (Z.eqb_spec q i); lia).
        rewrite (zsum_ext (q + 1) (v + 1) _ (fun _ => 0)) by (intros i Hi; destruct (Z.eqb_spec q i); lia).
        rewrite !zsum_const by lia. lia.
      - rewrite (zsum_ext 0 (v + 1) _ (fun _ => 0)) by (intros i Hi; destruct (Z.eqb_spec q i); lia).
        rewrite zsum_const by lia. lia. }
    rewrite E2. simpl. destruct (at_most c v p); rewrite ?zlen_cons; lia.
Qed.

Lemma at_most_255 ch im c : img_ok ch im -> 0 <= c < ch -> count_px im (at_most c 255) = zlen (idata im).
Proof.
  intros (_ & Hp & _) Hc. unfold count_px. induction (idata im) as [|p l IH]; auto.
  simpl. destruct (Hp p) as (Lp & Hu); [left; auto|].
  destruct (znth_some p c) as (q & Eq); [lia|]. pose proof Eq as Eq'. apply znth_In in Eq'. apply Hu in Eq'. unfold is_u8 in Eq'.
  unfold at_most at 1. rewrite Eq. assert (q <=? 255 = true) as -> by lia.
  rewrite !zlen_cons, IH; auto. intros; apply Hp; right; auto.
Qed.

Lemma cumulative_ok ch im : img_ok ch im ->
  cumulative_histogram ch im = Ok (mapz ch (fun c => mapz 256 (fun v => count_px im (at_most c v)))).
Proof.
  intros Hi. pose proof Hi as (Hch & Hp & Hl). unfold cumulative_histogram. rewrite histogram_ok by auto. cbn [bind].
  rewrite zlen_map, zlen_zrange. replace (Z.max 0 (ch - 0)) with ch by lia.
  match goal with |- for_range 0 ch ?b ?st = _ =>
  destruct (for_range_ind (fun k s => s = mapz ch (fun c => mapz 256 (fun v =>
     if c <? k then count_px im (at_most c v) else count_px im (has_level c v)))) 0 ch b st) as (s & E & HP) end; auto.
  - apply map_ext_in. intros c Hc. apply in_zrange in Hc. assert (c <? 0 = false) as -> by lia. auto.
  - intros c s Hc ->. rewrite vget_mapz by auto. cbn [bind]. assert (c <? c = false) as -> by lia.
    rewrite cumulate_ok.
    + cbn [bind]. rewrite vset_mapz by auto. eexists; split; [reflexivity|].
      apply map_ext_in. intros c' Hc'. destruct (Z.eqb_spec c' c) as [->|].
      * assert (c <? c + 1 = true) as -> by lia. apply map_ext_in. intros v Hv. apply in_zrange in Hv.
        apply (at_most_sum ch); auto.
      * destruct (Z.ltb_spec c' c); destruct (Z.ltb_spec c' (c + 1)); auto; lia.
    + intros i. apply zlen_nonneg.
    + change 256 with (255 + 1). rewrite (at_most_sum ch) by (auto; lia). rewrite (at_most_255 ch) by auto. auto.
  - rewrite E, HP. f_equal. apply map_ext_in. intros c Hc. apply in_zrange in Hc. assert (c <? ch = true) as -> by lia. auto.
Qed.

(** ** percentile *)
Lemma percentile_scan_ok (cum : Z -> Z) total p : 0 < total -> forall fuel i,
  0 <= i -> i + Z.of_nat fuel = 256 ->
  match percentile_scan fuel i (mapz 256 cum) total p with
  | Ok r => i <= r <= 255 /\ p * total <= 100 * cum r /\ forall j, i <= j < r -> 100 * cum j < p * total
  | Panic => forall j, i <= j < 256 -> 100 * cum j < p * total
  | Timeout => False
  end.
Proof.
  intros Ht. induction fuel as [|fuel IH]; intros i Hi Hf; cbn [percentile_scan].
  - intros; lia.
  - rewrite vget_mapz by lia. cbn [bind]. unfold assert. assert (negb (total =? 0) = true) as -> by lia. cbn [bind].
    destruct (p <=? 100 * cum i / total) eqn:E.
    + splits; try lia. apply Z.leb_le in E. assert (p * total <= 100 * cum i / total * total) by nia.
      pose proof (Z.mul_div_le (100 * cum i) total Ht). lia.
    + apply Z.leb_gt in E. assert (100 * cum i < p * total).
      { destruct (Z_lt_dec (100 * cum i) (p * total)); auto. exfalso.
        assert (p <= 100 * cum i / total) by (apply Z.div_le_lower_bound; lia). lia. }
      specialize (IH (i + 1) ltac:(lia) ltac:(lia)).
      destruct (percentile_scan fuel (i + 1) (mapz 256 cum) total p).
      * destruct IH as (I1 & I2 & I3). splits; try lia. intros j Hj. destruct (Z.eq_dec j i) as [->|]; auto. apply I3; lia.
      * intros j Hj. destruct (Z.eq_dec j i) as [->|]; auto. apply IH; lia.
      * auto.
Qed.

(** ** min_max *)
Definition rng_upd (r : option (Z * Z)) (c : Z) : option (Z * Z) :=
  Some match r with
       | None => (c, c)
       | Some (mn, mx) => ((if c <? mn then c else mn), (if mx <? c then c else mx))
       end.

Lemma min_max_pixel_ok ch p (r : Z -> option (Z * Z)) : zlen p = ch ->
  min_max_pixel p (mapz ch r) =
  Ok (mapz ch (fun c => rng_upd (r c) (match znth p c with Some v => v | None => 0 end))).
Proof.
  intros Lp. unfold min_max_pixel. rewrite combine_index, for_each_map, for_each_zrange, Lp.
  assert (Hch : 0 <= ch) by (rewrite <- Lp; apply zlen_nonneg).
  match goal with |- for_range 0 ch ?b ?st = _ =>
  destruct (for_range_ind (fun k s => s = mapz ch (fun c => if c <? k then rng_upd (r c) (match znth p c with Some v => v | None => 0 end) else r c))
    0 ch b st) as (s & E & HP) end; auto.
  - apply map_ext_in. intros c Hc. apply in_zrange in Hc. assert (c <? 0 = false) as -> by lia. auto.
  - intros i s Hi ->. rewrite vget_mapz by auto. cbn [bind]. rewrite vset_mapz by auto.
    eexists; split; [reflexivity|]. apply map_ext_in. intros c Hc. destruct (Z.eqb_spec c i) as [->|].
    + assert (i <? i + 1 = true) as -> by lia. assert (i <? i = false) as -> by lia. reflexivity.
    + destruct (Z.ltb_spec c i); destruct (Z.ltb_spec c (i + 1)); auto; lia.
  - rewrite E, HP. f_equal. apply map_ext_in. intros c Hc. apply in_zrange in Hc. assert (c <? ch = true) as -> by lia. auto.
Qed.

(** r describes exactly the range of channel c over l *)
Definition is_range (c : Z) (l : list (list Z)) (r : option (Z * Z)) : Prop :=
  match r with
  | None => l = []
  | Some (mn, mx) =>
      (exists p, In p l /\ znth p c = Some mn) /\ (exists p, In p l /\ znth p c = Some mx) /\
      (forall p v, In p l -> znth p c = Some v -> mn <= v <= mx)
  end.

Lemma is_range_snoc c l r p v : is_range c l r -> znth p c = Some v -> is_range c (l ++ [p]) (rng_upd r v).
Proof.
  intros H E. destruct r as [(mn & mx)|]; simpl in *.
  - destruct H as ((p1 & I1 & E1) & (p2 & I2 & E2) & HB).
    assert (B1 := HB _ _ I1 E1). splits.
    + destruct (v <? mn); [exists p|exists p1]; split; auto; apply in_or_app; simpl; auto.
    + destruct (mx <? v); [exists p|exists p2]; split; auto; apply in_or_app; simpl; auto.
    + intros q u Hin Eq. apply in_app_or in Hin. destruct Hin as [Hin|[<-|[]]].
      * specialize (HB q u Hin Eq). destruct (Z.ltb_spec v mn); destruct (Z.ltb_spec mx v); lia.
      * assert (u = v) by congruence. subst. destruct (Z.ltb_spec v mn); destruct (Z.ltb_spec mx v); lia.
  - subst l. simpl. splits; try (exists p; auto).
    intros q u [<-|[]] Eq. assert (u = v) by congruence. lia.
Qed.

Lemma min_max_ok ch im :
  0 <= ch -> (forall p, In p (idata im) -> zlen p = ch) -> idata im <> [] ->
  exists rs, min_max ch im = Ok rs /\ zlen rs = ch /\
    forall c, 0 <= c < ch -> exists mm, znth rs c = Some mm /\ is_range c (idata im) (Some mm).
Proof.
  intros Hch Hp Hne. unfold min_max, assert.
  assert (zlen (idata im) =? 0 = false) as ->.
  { destruct (idata im); [congruence|]. rewrite zlen_cons. pose proof (zlen_nonneg l0). lia. }
  cbn [negb bind].
  match goal with |- context [for_each _ ?b ?st] =>
  destruct (for_each_ind (fun l s => exists r : Z -> option (Z * Z), s = mapz ch r /\ forall c, 0 <= c < ch -> is_range c l (r c))
     (idata im) b st) as (s & E & HP) end; auto.
  - exists (fun _ => None). split; auto. intros; reflexivity.
  - intros dn x rest s El (r & -> & Hr). assert (Lx : zlen x = ch) by (apply Hp; rewrite El; apply in_or_app; right; left; auto).
    rewrite (min_max_pixel_ok ch) by auto. eexists; split; [reflexivity|]. eexists; split; [reflexivity|].
    intros c Hc. cbv beta. destruct (znth_some x c) as (v & Ev); [lia|]. rewrite Ev. apply is_range_snoc; auto.
  - rewrite E. cbn [bind]. destruct HP as (r & -> & Hr).
    exists (mapz ch (fun c => match r c with Some mm => mm | None => (0, 0) end)). splits.
    + apply mapM_map. intros c Hc. apply in_zrange in Hc. specialize (Hr c Hc).
      destruct (r c) as [mm|]; auto. simpl in Hr. congruence.
    + rewrite zlen_map, zlen_zrange. lia.
    + intros c Hc. specialize (Hr c Hc). rewrite znth_map, znth_zrange by lia. cbn [option_map]. rewrite Z.add_0_l.
      destruct (r c) as [mm|]; [eauto|simpl in Hr; congruence].
Qed.
