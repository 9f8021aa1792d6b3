(** Lemmas about the shared conventions of [Base]. *)
From Verif Require Import Base.
Ltac Zify.zify_post_hook ::= Z.div_mod_to_equations.

(** ** res *)
Lemma bind_ok {A B} (m : res A) (k : A -> res B) b :
  bind m k = Ok b <-> exists a, m = Ok a /\ k a = Ok b.
Proof.
  destruct m as [a| |]; simpl; split; intros H; try discriminate.
  - exists a; auto.
  - destruct H as (a' & Ha & Hk); inversion Ha; subst; auto.
  - destruct H as (a' & Ha & _); discriminate.
  - destruct H as (a' & Ha & _); discriminate.
Qed.

Lemma bind_assoc {A B C} (m : res A) (k : A -> res B) (l : B -> res C) :
  bind (bind m k) l = bind m (fun a => bind (k a) l).
Proof. destruct m; reflexivity. Qed.

(** ** zseq / zrange *)
Lemma zseq_length i n : length (zseq i n) = n.
Proof. revert i; induction n as [|n IH]; intros i; simpl; auto. Qed.

Lemma zrange_length lo hi : length (zrange lo hi) = Z.to_nat (hi - lo).
Proof. apply zseq_length. Qed.

Lemma zseq_nth i n k : (k < n)%nat -> nth_error (zseq i n) k = Some (i + Z.of_nat k).
Proof.
  revert i k; induction n as [|n IH]; intros i k Hk; [lia|].
  destruct k as [|k]; simpl.
  - f_equal; lia.
  - rewrite IH by lia. f_equal; lia.
Qed.

Lemma in_zseq i n x : In x (zseq i n) <-> i <= x < i + Z.of_nat n.
Proof.
  revert i; induction n as [|n IH]; intros i; simpl; [lia|].
  rewrite IH. lia.
Qed.

Lemma in_zrange lo hi x : In x (zrange lo hi) <-> lo <= x < hi.
Proof. unfold zrange; rewrite in_zseq. lia. Qed.

Lemma NoDup_zseq i n : NoDup (zseq i n).
Proof.
  revert i; induction n as [|n IH]; intros i; simpl; constructor.
  - rewrite in_zseq; lia.
  - apply IH.
Qed.
Lemma NoDup_zrange lo hi : NoDup (zrange lo hi).
Proof. apply NoDup_zseq. Qed.

Lemma zseq_app i n m : zseq i (n + m) = zseq i n ++ zseq (i + Z.of_nat n) m.
Proof.
  revert i; induction n as [|n IH]; intros i; simpl.
  - f_equal; lia.
  - f_equal. rewrite IH. do 2 f_equal; lia.
Qed.

Lemma zrange_split lo mid hi :
  lo <= mid <= hi -> zrange lo hi = zrange lo mid ++ zrange mid hi.
Proof.
  intros H; unfold zrange.
  replace (Z.to_nat (hi - lo)) with (Z.to_nat (mid - lo) + Z.to_nat (hi - mid))%nat by lia.
  rewrite zseq_app. do 2 f_equal; lia.
Qed.

Lemma zrange_empty lo hi : hi <= lo -> zrange lo hi = [].
Proof. intros H; unfold zrange; replace (Z.to_nat (hi - lo)) with 0%nat by lia; reflexivity. Qed.

Lemma zrange_cons lo hi : lo < hi -> zrange lo hi = lo :: zrange (lo + 1) hi.
Proof.
  intros H; unfold zrange.
  replace (Z.to_nat (hi - lo)) with (S (Z.to_nat (hi - (lo + 1)))) by lia. reflexivity.
Qed.

Lemma zrange_snoc lo hi : lo <= hi -> zrange lo (hi + 1) = zrange lo hi ++ [hi].
Proof.
  intros H; rewrite (zrange_split lo hi (hi + 1)) by lia.
  f_equal. rewrite zrange_cons by lia. rewrite zrange_empty by lia. reflexivity.
Qed.

(** ** for loops *)
Lemma for_up_ind {S} (P : Z -> S -> Prop) n : forall i body s,
  P i s ->
  (forall j s, i <= j < i + Z.of_nat n -> P j s ->
     exists s', body j s = Ok s' /\ P (j + 1) s') ->
  exists s', for_up n i body s = Ok s' /\ P (i + Z.of_nat n) s'.
Proof.
  induction n as [|n IH]; intros i body s H0 Hs.
  - exists s; split; [reflexivity|]. replace (i + Z.of_nat 0) with i by lia; auto.
  - destruct (Hs i s) as (s1 & E1 & P1); [lia|auto|].
    destruct (IH (i + 1) body s1 P1) as (s2 & E2 & P2).
    { intros j s' Hj; apply Hs; lia. }
    exists s2; split.
    + cbn [for_up]; rewrite E1; exact E2.
    + replace (i + Z.of_nat (Datatypes.S n)) with (i + 1 + Z.of_nat n) by lia; auto.
Qed.

Lemma for_range_ind {S} (P : Z -> S -> Prop) lo hi body s :
  lo <= hi -> P lo s ->
  (forall i s, lo <= i < hi -> P i s -> exists s', body i s = Ok s' /\ P (i + 1) s') ->
  exists s', for_range lo hi body s = Ok s' /\ P hi s'.
Proof.
  intros Hle H0 Hs. unfold for_range.
  destruct (for_up_ind P (Z.to_nat (hi - lo)) lo body s H0) as (s' & E & HP).
  { intros j s' Hj; apply Hs; lia. }
  exists s'; split; auto. replace hi with (lo + Z.of_nat (Z.to_nat (hi - lo))) by lia; auto.
Qed.

Lemma for_range_empty {S} lo hi (body : Z -> S -> res S) s :
  hi <= lo -> for_range lo hi body s = Ok s.
Proof. intros H; unfold for_range; replace (Z.to_nat (hi - lo)) with 0%nat by lia; reflexivity. Qed.

Lemma for_range_cons {S} lo hi (body : Z -> S -> res S) s :
  lo < hi -> for_range lo hi body s = (s' <- body lo s ;; for_range (lo + 1) hi body s').
Proof.
  intros H; unfold for_range.
  replace (Z.to_nat (hi - lo)) with (Datatypes.S (Z.to_nat (hi - (lo + 1)))) by lia. reflexivity.
Qed.

Lemma for_up_app {S} n m i (body : Z -> S -> res S) s :
  for_up (n + m) i body s = (s' <- for_up n i body s ;; for_up m (i + Z.of_nat n) body s').
Proof.
  revert i s; induction n as [|n IH]; intros i s.
  - simpl. f_equal; lia.
  - cbn [for_up Nat.add]. rewrite bind_assoc. destruct (body i s) as [s1| |]; simpl; auto.
    rewrite IH. destruct (for_up n (i + 1) body s1); simpl; auto. f_equal; lia.
Qed.

Lemma for_range_split {S} lo mid hi (body : Z -> S -> res S) s :
  lo <= mid <= hi ->
  for_range lo hi body s = (s' <- for_range lo mid body s ;; for_range mid hi body s').
Proof.
  intros H; unfold for_range.
  replace (Z.to_nat (hi - lo)) with (Z.to_nat (mid - lo) + Z.to_nat (hi - mid))%nat by lia.
  rewrite for_up_app. destruct (for_up _ lo body s); simpl; auto. f_equal; lia.
Qed.

Lemma for_range_snoc {S} lo hi (body : Z -> S -> res S) s :
  lo <= hi -> for_range lo (hi + 1) body s = (s' <- for_range lo hi body s ;; body hi s').
Proof.
  intros H. rewrite (for_range_split lo hi) by lia.
  destruct (for_range lo hi body s); simpl; auto.
  rewrite for_range_cons by lia. destruct (body hi a); simpl; auto.
  apply for_range_empty; lia.
Qed.

Lemma for_up_ext {S} n : forall i (b1 b2 : Z -> S -> res S) s,
  (forall j s, i <= j < i + Z.of_nat n -> b1 j s = b2 j s) ->
  for_up n i b1 s = for_up n i b2 s.
Proof.
  induction n as [|n IH]; intros i b1 b2 s H; [reflexivity|].
  cbn [for_up]. rewrite H by lia. destruct (b2 i s); simpl; auto. apply IH; intros; apply H; lia.
Qed.

Lemma for_range_ext {S} lo hi (b1 b2 : Z -> S -> res S) s :
  (forall j s, lo <= j < hi -> b1 j s = b2 j s) ->
  for_range lo hi b1 s = for_range lo hi b2 s.
Proof. intros H; apply for_up_ext; intros; apply H; lia. Qed.

(** Downward loop: [P i s] holds before processing index [i - 1]. *)
Lemma for_range_rev_ind {S} (P : Z -> S -> Prop) lo hi body s :
  lo <= hi -> P hi s ->
  (forall i s, lo <= i < hi -> P (i + 1) s -> exists s', body i s = Ok s' /\ P i s') ->
  exists s', for_range_rev lo hi body s = Ok s' /\ P lo s'.
Proof.
  intros Hle H0 Hs. unfold for_range_rev.
  assert (G : forall n s, Z.of_nat n <= hi - lo -> P (lo + Z.of_nat n) s ->
     exists s', for_down n lo body s = Ok s' /\ P lo s').
  { induction n as [|n IH]; intros s1 Hn H1.
    - exists s1; split; [reflexivity|]. replace lo with (lo + Z.of_nat 0) by lia; auto.
    - destruct (Hs (lo + Z.of_nat n) s1) as (s2 & E2 & P2); [lia| |].
      { replace (lo + Z.of_nat n + 1) with (lo + Z.of_nat (Datatypes.S n)) by lia; auto. }
      destruct (IH s2) as (s3 & E3 & P3); [lia|auto|].
      exists s3; split; auto. cbn [for_down]; rewrite E2; exact E3. }
  apply G; [lia|]. replace (lo + Z.of_nat (Z.to_nat (hi - lo))) with hi by lia; auto.
Qed.

Lemma for_each_ind {X S} (P : list X -> S -> Prop) (l : list X) body s :
  P [] s ->
  (forall done x rest s, l = done ++ x :: rest -> P done s ->
     exists s', body x s = Ok s' /\ P (done ++ [x]) s') ->
  exists s', for_each l body s = Ok s' /\ P l s'.
Proof.
  intros H0 Hs.
  assert (G : forall rest done s, l = done ++ rest -> P done s ->
     exists s', for_each rest body s = Ok s' /\ P l s').
  { induction rest as [|x rest IH]; intros done s1 E H1.
    - exists s1; split; [reflexivity|]. rewrite E, app_nil_r; auto.
    - destruct (Hs done x rest s1 E H1) as (s2 & E2 & P2).
      destruct (IH (done ++ [x]) s2) as (s3 & E3 & P3).
      { rewrite E, <- app_assoc; reflexivity. }
      { auto. }
      exists s3; split; auto. cbn [for_each]; rewrite E2; exact E3. }
  apply (G l []); auto.
Qed.

Lemma for_each_app {X S} (l1 l2 : list X) (body : X -> S -> res S) s :
  for_each (l1 ++ l2) body s = (s' <- for_each l1 body s ;; for_each l2 body s').
Proof.
  revert s; induction l1 as [|x l1 IH]; intros s; [reflexivity|].
  cbn [for_each app]. rewrite bind_assoc. destruct (body x s); simpl; auto.
Qed.

(** ** list update *)
Lemma list_upd_length {A} (l : list A) n a : length (list_upd l n a) = length l.
Proof. revert n; induction l as [|b l IH]; intros [|n]; simpl; auto. Qed.

Lemma list_upd_nth {A} (l : list A) n m a :
  (n < length l)%nat ->
  nth_error (list_upd l n a) m = if Nat.eqb m n then Some a else nth_error l m.
Proof.
  revert n m; induction l as [|b l IH]; intros n m Hn; simpl in Hn; [lia|].
  destruct n as [|n], m as [|m]; simpl; auto.
  apply IH; lia.
Qed.

Lemma zupd_length {A} (l : list A) i a : length (zupd l i a) = length l.
Proof. unfold zupd; destruct (0 <=? i); auto using list_upd_length. Qed.

Lemma zupd_zlen {A} (l : list A) i a : zlen (zupd l i a) = zlen l.
Proof. unfold zlen; rewrite zupd_length; auto. Qed.

Lemma znth_zupd {A} (l : list A) i j a :
  0 <= i < zlen l -> znth (zupd l i a) j = if j =? i then Some a else znth l j.
Proof.
  unfold znth, zupd, zlen; intros H.
  destruct (0 <=? i) eqn:Ei; [|lia].
  destruct (0 <=? j) eqn:Ej.
  - rewrite list_upd_nth by lia.
    destruct (Nat.eqb_spec (Z.to_nat j) (Z.to_nat i)); destruct (Z.eqb_spec j i); auto; lia.
  - destruct (Z.eqb_spec j i); auto; lia.
Qed.

Lemma znth_some {A} (l : list A) i : 0 <= i < zlen l -> exists a, znth l i = Some a.
Proof.
  unfold znth, zlen; intros H. destruct (0 <=? i) eqn:E; [|lia].
  destruct (nth_error l (Z.to_nat i)) as [a|] eqn:En; [eauto|].
  apply nth_error_None in En; lia.
Qed.

Lemma znth_none {A} (l : list A) i : ~ (0 <= i < zlen l) -> znth l i = None.
Proof.
  unfold znth, zlen; intros H. destruct (0 <=? i) eqn:E; auto.
  apply nth_error_None; lia.
Qed.

Lemma znth_range {A} (l : list A) i a : znth l i = Some a -> 0 <= i < zlen l.
Proof.
  intros H. destruct (Z_le_dec 0 i) as [H0|H0]; [destruct (Z_lt_dec i (zlen l))|]; auto;
  rewrite znth_none in H by lia; discriminate.
Qed.

Lemma znth_ext {A} (l1 l2 : list A) :
  length l1 = length l2 -> (forall i, 0 <= i < zlen l1 -> znth l1 i = znth l2 i) -> l1 = l2.
Proof.
  revert l2; induction l1 as [|a l1 IH]; intros [|b l2] HL H; simpl in HL; try discriminate; auto.
  f_equal.
  - specialize (H 0); unfold znth, zlen in H; simpl in H.
    assert (Some a = Some b) as E by (apply H; lia). inversion E; auto.
  - apply IH; [lia|]. intros i Hi. specialize (H (i + 1)). unfold znth, zlen in *.
    simpl length in *. destruct (0 <=? i) eqn:E1; [|lia]. destruct (0 <=? i + 1) eqn:E2; [|lia].
    replace (Z.to_nat (i + 1)) with (S (Z.to_nat i)) in H by lia. apply H. lia.
Qed.

Lemma znth_app_l {A} (l1 l2 : list A) i : i < zlen l1 -> znth (l1 ++ l2) i = znth l1 i.
Proof.
  unfold znth, zlen; intros H. destruct (0 <=? i) eqn:E; auto.
  rewrite nth_error_app1 by lia; auto.
Qed.

Lemma znth_app_r {A} (l1 l2 : list A) i :
  zlen l1 <= i -> znth (l1 ++ l2) i = znth l2 (i - zlen l1).
Proof.
  unfold znth, zlen; intros H. destruct (0 <=? i) eqn:E1; [|lia].
  destruct (0 <=? i - Z.of_nat (length l1)) eqn:E2; [|lia].
  rewrite nth_error_app2 by lia. f_equal; lia.
Qed.

Lemma zlen_app {A} (l1 l2 : list A) : zlen (l1 ++ l2) = zlen l1 + zlen l2.
Proof. unfold zlen; rewrite app_length; lia. Qed.

Lemma zlen_nonneg {A} (l : list A) : 0 <= zlen l.
Proof. unfold zlen; lia. Qed.

Lemma zlen_cons {A} (a : A) l : zlen (a :: l) = 1 + zlen l.
Proof. unfold zlen; simpl length; lia. Qed.

Lemma zlen_map {A B} (f : A -> B) l : zlen (map f l) = zlen l.
Proof. unfold zlen; rewrite map_length; auto. Qed.

Lemma znth_map {A B} (f : A -> B) l i : znth (map f l) i = option_map f (znth l i).
Proof.
  unfold znth; destruct (0 <=? i); auto. rewrite nth_error_map. reflexivity.
Qed.

Lemma znth_zrange lo hi i : 0 <= i < hi - lo -> znth (zrange lo hi) i = Some (lo + i).
Proof.
  intros H; unfold znth, zrange. destruct (0 <=? i) eqn:E; [|lia].
  rewrite zseq_nth by lia. f_equal; lia.
Qed.

Lemma zlen_zrange lo hi : zlen (zrange lo hi) = Z.max 0 (hi - lo).
Proof. unfold zlen; rewrite zrange_length; lia. Qed.

Lemma znth_cons_0 {A} (a : A) l : znth (a :: l) 0 = Some a.
Proof. reflexivity. Qed.
Lemma znth_cons_S {A} (a : A) l i : 0 < i -> znth (a :: l) i = znth l (i - 1).
Proof.
  intros H; unfold znth. destruct (0 <=? i) eqn:E1; [|lia]. destruct (0 <=? i - 1) eqn:E2; [|lia].
  replace (Z.to_nat i) with (S (Z.to_nat (i - 1))) by lia. reflexivity.
Qed.

Lemma znth_In {A} (l : list A) i a : znth l i = Some a -> In a l.
Proof. unfold znth; destruct (0 <=? i); [apply nth_error_In|discriminate]. Qed.

Lemma In_znth {A} (l : list A) a : In a l -> exists i, 0 <= i < zlen l /\ znth l i = Some a.
Proof.
  intros H; apply In_nth_error in H; destruct H as (n & Hn).
  exists (Z.of_nat n). assert ((n < length l)%nat) by (apply nth_error_Some; congruence).
  split; [unfold zlen; lia|]. unfold znth. destruct (0 <=? Z.of_nat n) eqn:E; [|lia].
  rewrite Nat2Z.id; auto.
Qed.

Lemma vget_ok {A} (l : list A) i a : vget l i = Ok a <-> znth l i = Some a.
Proof. unfold vget, unwrap; destruct (znth l i); split; intros H; inversion H; auto. Qed.

Lemma vset_ok {A} (l : list A) i a : 0 <= i < zlen l -> vset l i a = Ok (zupd l i a).
Proof.
  unfold vset, zlen; intros H. destruct ((0 <=? i) && (i <? Z.of_nat (length l))) eqn:E; auto; lia.
Qed.

(** ** images *)
Lemma inb_spec {A} (im : image A) x y :
  inb im x y = true <-> (0 <= x < iw im /\ 0 <= y < ih im).
Proof. unfold inb; lia. Qed.

Lemma inb_false {A} (im : image A) x y :
  inb im x y = false <-> ~ (0 <= x < iw im /\ 0 <= y < ih im).
Proof. unfold inb; lia. Qed.

Lemma idx_range w h x y : 0 <= x < w -> 0 <= y < h -> 0 <= y * w + x < w * h.
Proof. nia. Qed.

Lemma idx_inj w x y x' y' :
  0 <= x < w -> 0 <= x' < w -> y * w + x = y' * w + x' -> x = x' /\ y = y'.
Proof.
  intros Hx Hx' E.
  assert (y = y') by nia. subst. split; lia.
Qed.

Lemma get_some {A} (im : image A) x y :
  wf im -> 0 <= x < iw im -> 0 <= y < ih im -> exists a, get im x y = Some a.
Proof.
  intros (Hw & Hh & HL) Hx Hy. unfold get.
  destruct (inb im x y) eqn:E; [|unfold inb in E; lia].
  apply znth_some. rewrite HL. apply idx_range; auto.
Qed.

Lemma get_none {A} (im : image A) x y :
  ~ (0 <= x < iw im /\ 0 <= y < ih im) -> get im x y = None.
Proof. intros H; unfold get. rewrite (proj2 (inb_false im x y) H). reflexivity. Qed.

Lemma get_inb {A} (im : image A) x y a :
  get im x y = Some a -> 0 <= x < iw im /\ 0 <= y < ih im.
Proof.
  unfold get; destruct (inb im x y) eqn:E; [|discriminate].
  intros _; apply inb_spec; auto.
Qed.

Lemma get_pixel_ok {A} (im : image A) x y a :
  get_pixel im x y = Ok a <-> get im x y = Some a.
Proof. unfold get_pixel, unwrap; destruct (get im x y); split; intros H; inversion H; auto. Qed.

Lemma get_pixel_panic {A} (im : image A) x y :
  get_pixel im x y = Panic <-> get im x y = None.
Proof. unfold get_pixel, unwrap; destruct (get im x y); split; intros H; inversion H; auto. Qed.

(** the image after a successful [put_pixel] *)
Definition put {A} (im : image A) x y a : image A :=
  mkImage (iw im) (ih im) (zupd (idata im) (y * iw im + x) a).

Lemma put_pixel_ok {A} (im : image A) x y a :
  0 <= x < iw im -> 0 <= y < ih im -> put_pixel im x y a = Ok (put im x y a).
Proof. intros Hx Hy; unfold put_pixel. rewrite (proj2 (inb_spec im x y)); auto. Qed.

Lemma put_pixel_panic {A} (im : image A) x y a :
  ~ (0 <= x < iw im /\ 0 <= y < ih im) -> put_pixel im x y a = Panic.
Proof. intros H; unfold put_pixel. rewrite (proj2 (inb_false im x y) H). reflexivity. Qed.

Lemma iw_put {A} (im : image A) x y a : iw (put im x y a) = iw im.
Proof. reflexivity. Qed.
Lemma ih_put {A} (im : image A) x y a : ih (put im x y a) = ih im.
Proof. reflexivity. Qed.

Lemma wf_put {A} (im : image A) x y a : wf im -> wf (put im x y a).
Proof. unfold wf, put; simpl. rewrite zupd_zlen. auto. Qed.

Lemma get_put {A} (im : image A) x y a x' y' :
  wf im -> 0 <= x < iw im -> 0 <= y < ih im ->
  get (put im x y a) x' y' = if (x' =? x) && (y' =? y) then Some a else get im x' y'.
Proof.
  intros (Hw & Hh & HL) Hx Hy. unfold get, inb, put; simpl.
  fold (inb im x' y').
  destruct (inb im x' y') eqn:E.
  - apply inb_spec in E. rewrite znth_zupd by (rewrite HL; apply idx_range; auto).
    destruct (Z.eqb_spec (y' * iw im + x') (y * iw im + x)) as [Ei|Ei].
    + apply idx_inj in Ei; try lia. destruct Ei; subst.
      rewrite !Z.eqb_refl; reflexivity.
    + destruct (Z.eqb_spec x' x); destruct (Z.eqb_spec y' y); simpl; auto. subst; lia.
  - apply inb_false in E.
    destruct (Z.eqb_spec x' x); destruct (Z.eqb_spec y' y); simpl; auto. subst; lia.
Qed.

(** generated images *)
Lemma gen_data_len {A} w (f : Z -> Z -> A) ys :
  0 <= w ->
  zlen (flat_map (fun y => map (fun x => f x y) (zrange 0 w)) ys) = w * zlen ys.
Proof.
  intros Hw; induction ys as [|y ys IH].
  - unfold zlen; simpl; lia.
  - cbn [flat_map]. rewrite zlen_app, IH, zlen_map, zlen_zrange, zlen_cons. nia.
Qed.

Lemma wf_gen {A} w h (f : Z -> Z -> A) : 0 <= w -> 0 <= h -> wf (gen w h f).
Proof.
  intros Hw Hh; unfold wf, gen; simpl. repeat split; auto.
  rewrite gen_data_len, zlen_zrange by auto. nia.
Qed.

Lemma gen_data_nth {A} w (f : Z -> Z -> A) ys x k y :
  0 <= w -> 0 <= x < w -> 0 <= k -> znth ys k = Some y ->
  znth (flat_map (fun y => map (fun x => f x y) (zrange 0 w)) ys) (k * w + x) = Some (f x y).
Proof.
  intros Hw Hx; revert k; induction ys as [|y0 ys IH]; intros k Hk Hy.
  - rewrite znth_none in Hy by (unfold zlen; simpl; lia). discriminate.
  - cbn [flat_map]. destruct (Z.eq_dec k 0) as [->|Hk0].
    + rewrite znth_cons_0 in Hy; inversion Hy; subst.
      rewrite znth_app_l by (rewrite zlen_map, zlen_zrange; lia).
      rewrite znth_map, znth_zrange by lia. simpl. do 2 f_equal; lia.
    + rewrite znth_cons_S in Hy by lia.
      rewrite znth_app_r by (rewrite zlen_map, zlen_zrange; nia).
      rewrite zlen_map, zlen_zrange.
      replace (k * w + x - Z.max 0 (w - 0)) with ((k - 1) * w + x) by nia.
      apply IH; auto; lia.
Qed.

Lemma get_gen {A} w h (f : Z -> Z -> A) x y :
  get (gen w h f) x y =
  if (0 <=? x) && (x <? w) && (0 <=? y) && (y <? h) then Some (f x y) else None.
Proof.
  unfold get, inb; simpl.
  destruct ((0 <=? x) && (x <? w) && (0 <=? y) && (y <? h)) eqn:E; auto.
  apply gen_data_nth; try lia.
  rewrite znth_zrange by lia. f_equal; lia.
Qed.

Lemma get_gen_in {A} w h (f : Z -> Z -> A) x y :
  0 <= x < w -> 0 <= y < h -> get (gen w h f) x y = Some (f x y).
Proof.
  intros; rewrite get_gen.
  destruct ((0 <=? x) && (x <? w) && (0 <=? y) && (y <? h)) eqn:E; auto; lia.
Qed.

(** two well-formed images with the same size and pixels are equal *)
Lemma image_ext {A} (a b : image A) :
  wf a -> wf b -> iw a = iw b -> ih a = ih b ->
  (forall x y, 0 <= x < iw a -> 0 <= y < ih a -> get a x y = get b x y) -> a = b.
Proof.
  intros (Ha1 & Ha2 & Ha3) (Hb1 & Hb2 & Hb3) Ew Eh H.
  destruct a as [w h d], b as [w' h' d']; simpl in *; subst w' h'. f_equal.
  apply znth_ext.
  - unfold zlen in *; lia.
  - intros i Hi. rewrite Ha3 in Hi. assert (0 < w) by nia.
    set (x := i mod w). set (y := i / w).
    assert (Ei : i = y * w + x) by (unfold x, y; lia).
    assert (0 <= x < w) by (apply Z.mod_pos_bound; auto).
    assert (0 <= y < h) by (split; [apply Z.div_pos; lia | apply Z.div_lt_upper_bound; nia]).
    specialize (H x y). unfold get, inb in H; simpl in H.
    destruct ((0 <=? x) && (x <? w) && (0 <=? y) && (y <? h)) eqn:E; [|lia].
    rewrite Ei. apply H; auto.
Qed.

Lemma gen_ext {A} w h (f g : Z -> Z -> A) :
  (forall x y, 0 <= x < w -> 0 <= y < h -> f x y = g x y) -> gen w h f = gen w h g.
Proof.
  intros H; unfold gen; f_equal.
  rewrite !flat_map_concat_map. f_equal. apply map_ext_in. intros y Hy.
  apply map_ext_in. intros x Hx. apply H; apply in_zrange; auto.
Qed.

(** ** mapM / gen_res *)
Lemma mapM_ok {X Y} (f : X -> res Y) (g : X -> Y) l :
  (forall x, In x l -> f x = Ok (g x)) -> mapM f l = Ok (map g l).
Proof.
  induction l as [|x l IH]; intros H; [reflexivity|].
  cbn [mapM map]. rewrite H by (left; auto). simpl. rewrite IH by (intros; apply H; right; auto).
  reflexivity.
Qed.

Lemma gen_res_ok {A} w h (f : Z -> Z -> res A) (g : Z -> Z -> A) :
  (forall x y, 0 <= x < w -> 0 <= y < h -> f x y = Ok (g x y)) ->
  gen_res w h f = Ok (gen w h g).
Proof.
  intros H. unfold gen_res.
  rewrite (mapM_ok _ (fun y => map (fun x => g x y) (zrange 0 w))).
  - simpl. unfold gen. rewrite flat_map_concat_map. reflexivity.
  - intros y Hy. apply mapM_ok. intros x Hx. apply H; apply in_zrange; auto.
Qed.

(** [gen_res] when the closure succeeds everywhere, with a relational result *)
Lemma mapM_exists {X Y} (f : X -> res Y) (Q : X -> Y -> Prop) l :
  (forall x, In x l -> exists y, f x = Ok y /\ Q x y) ->
  exists ys, mapM f l = Ok ys /\ Forall2 Q l ys.
Proof.
  induction l as [|x l IH]; intros H; [exists []; auto|].
  destruct (H x) as (y & Ey & Qy); [left; auto|].
  destruct IH as (ys & Eys & Qys); [intros; apply H; right; auto|].
  exists (y :: ys); split; auto. cbn [mapM]. rewrite Ey; simpl; rewrite Eys; reflexivity.
Qed.

Lemma mapM_length {X Y} (f : X -> res Y) l ys : mapM f l = Ok ys -> length ys = length l.
Proof.
  revert ys; induction l as [|x l IH]; intros ys H; cbn [mapM] in H.
  - inversion H; auto.
  - apply bind_ok in H; destruct H as (y & _ & H). apply bind_ok in H; destruct H as (ys' & E & H).
    inversion H; subst; simpl; auto.
Qed.

Lemma mapM_nth {X Y} (f : X -> res Y) l ys i x :
  mapM f l = Ok ys -> znth l i = Some x -> exists y, znth ys i = Some y /\ f x = Ok y.
Proof.
  revert ys i; induction l as [|x0 l IH]; intros ys i H Hx; cbn [mapM] in H.
  - apply znth_range in Hx; unfold zlen in Hx; simpl in Hx; lia.
  - apply bind_ok in H; destruct H as (y & Ey & H). apply bind_ok in H; destruct H as (ys' & E & H).
    inversion H; subst; clear H.
    destruct (Z.eq_dec i 0) as [->|Hi].
    + rewrite znth_cons_0 in Hx; inversion Hx; subst. exists y; rewrite znth_cons_0; auto.
    + assert (0 < i) by (apply znth_range in Hx; lia).
      rewrite znth_cons_S in Hx by lia. rewrite znth_cons_S by lia. apply (IH _ _ E Hx).
Qed.

(** ** sums *)
Lemma zsum_empty lo hi f : hi <= lo -> zsum lo hi f = 0.
Proof. intros H; unfold zsum; rewrite zrange_empty by auto; reflexivity. Qed.

Lemma fold_right_plus_app {X} (f : X -> Z) l1 l2 :
  fold_right (fun i acc => f i + acc) 0 (l1 ++ l2) =
  fold_right (fun i acc => f i + acc) 0 l1 + fold_right (fun i acc => f i + acc) 0 l2.
Proof. induction l1; cbn [app fold_right]; lia. Qed.

Lemma zsum_split lo mid hi f : lo <= mid <= hi -> zsum lo hi f = zsum lo mid f + zsum mid hi f.
Proof. intros H; unfold zsum; rewrite (zrange_split lo mid hi) by auto. apply fold_right_plus_app. Qed.

Lemma zsum_snoc lo hi f : lo <= hi -> zsum lo (hi + 1) f = zsum lo hi f + f hi.
Proof.
  intros H; unfold zsum; rewrite zrange_snoc by auto. rewrite fold_right_plus_app.
  cbn [fold_right]; lia.
Qed.

Lemma zsum_cons lo hi f : lo < hi -> zsum lo hi f = f lo + zsum (lo + 1) hi f.
Proof. intros H; unfold zsum; rewrite zrange_cons by auto. reflexivity. Qed.

Lemma fold_right_plus_ext {X} (f g : X -> Z) l :
  (forall i, In i l -> f i = g i) ->
  fold_right (fun i acc => f i + acc) 0 l = fold_right (fun i acc => g i + acc) 0 l.
Proof.
  induction l as [|i l IH]; intros H; cbn [fold_right]; auto.
  rewrite IH by (intros; apply H; right; auto). rewrite H by (left; auto). reflexivity.
Qed.

Lemma zsum_ext lo hi f g : (forall i, lo <= i < hi -> f i = g i) -> zsum lo hi f = zsum lo hi g.
Proof. intros H; unfold zsum; apply fold_right_plus_ext. intros i Hi; apply H; apply in_zrange; auto. Qed.

Lemma zsum_plus lo hi f g : zsum lo hi (fun i => f i + g i) = zsum lo hi f + zsum lo hi g.
Proof. unfold zsum; induction (zrange lo hi); cbn [fold_right]; lia. Qed.

Lemma zsum_scal lo hi c f : zsum lo hi (fun i => c * f i) = c * zsum lo hi f.
Proof. unfold zsum; induction (zrange lo hi) as [|a l IH]; cbn [fold_right]; [lia|]. rewrite IH; lia. Qed.

Lemma zsum_const lo hi c : lo <= hi -> zsum lo hi (fun _ => c) = (hi - lo) * c.
Proof.
  intros H. unfold zsum. assert (E : zlen (zrange lo hi) = hi - lo) by (rewrite zlen_zrange; lia).
  rewrite <- E. clear. induction (zrange lo hi) as [|a l IH]; cbn [fold_right].
  - unfold zlen; simpl; lia.
  - rewrite IH, zlen_cons; lia.
Qed.

Lemma zsum_nonneg lo hi f : (forall i, lo <= i < hi -> 0 <= f i) -> 0 <= zsum lo hi f.
Proof.
  intros H; unfold zsum. assert (G : forall i, In i (zrange lo hi) -> 0 <= f i)
    by (intros i Hi; apply H; apply in_zrange; auto).
  clear H; induction (zrange lo hi) as [|a l IH]; cbn [fold_right]; [lia|].
  assert (0 <= f a) by (apply G; left; auto).
  assert (0 <= fold_right (fun i acc => f i + acc) 0 l) by (apply IH; intros; apply G; right; auto). lia.
Qed.

Lemma zsum_le lo hi f g : (forall i, lo <= i < hi -> f i <= g i) -> zsum lo hi f <= zsum lo hi g.
Proof.
  intros H. assert (0 <= zsum lo hi (fun i => g i + - f i)).
  { apply zsum_nonneg. intros i Hi; specialize (H i Hi); lia. }
  rewrite zsum_plus in H0.
  rewrite (zsum_ext lo hi (fun i => - f i) (fun i => (-1) * f i)) in H0 by (intros; lia).
  rewrite zsum_scal in H0. lia.
Qed.

Lemma zsum_shift lo hi k f : zsum lo hi (fun i => f (i + k)) = zsum (lo + k) (hi + k) f.
Proof.
  unfold zsum, zrange. replace (hi + k - (lo + k)) with (hi - lo) by lia.
  generalize (Z.to_nat (hi - lo)) as n. intros n; revert lo; induction n as [|n IH]; intros lo; auto.
  cbn [zseq fold_right]. rewrite IH. replace (lo + k + 1) with (lo + 1 + k) by lia. reflexivity.
Qed.

Lemma zsum_swap a b c d (f : Z -> Z -> Z) :
  zsum a b (fun i => zsum c d (fun j => f i j)) = zsum c d (fun j => zsum a b (fun i => f i j)).
Proof.
  assert (G : forall l, zsum c d (fun j => fold_right (fun i acc => f i j + acc) 0 l) =
     fold_right (fun i acc => zsum c d (fun j => f i j) + acc) 0 l).
  { induction l as [|i l IH]; cbn [fold_right].
    - unfold zsum; induction (zrange c d); cbn [fold_right]; lia.
    - rewrite <- IH. rewrite <- zsum_plus. reflexivity. }
  symmetry. exact (G (zrange a b)).
Qed.

(** case split on every boolean test, keep the arithmetic facts *)
Ltac ifs :=
  repeat match goal with
  | |- context [if ?b then _ else _] => let E := fresh "E" in destruct b eqn:E
  end.
Ltac ifs_in H :=
  repeat match type of H with
  | context [if ?b then _ else _] => let E := fresh "E" in destruct b eqn:E
  end.
(** split conjunctions without unfolding definitions *)
Ltac splits := repeat match goal with |- _ /\ _ => split end.
Ltac get_eq := first [ reflexivity | congruence | lia | (f_equal; lia) | (exfalso; lia) ].

(** Invariant rule for  for y in y0..y1 { for x in x0..x1 { body } } where the
    inner bounds may be computed from the state. *)
Lemma raster_ind {S} (P : Z -> Z -> S -> Prop) y0 y1 x0 (x1 : S -> Z) X1 (body : Z -> Z -> S -> res S) s :
  y0 <= y1 -> x0 <= X1 -> P x0 y0 s ->
  (forall x y s, P x y s -> x1 s = X1) ->
  (forall x y s, x0 <= x < X1 -> y0 <= y < y1 -> P x y s ->
     exists s', body y x s = Ok s' /\ P (x + 1) y s') ->
  (forall y s, y0 <= y < y1 -> P X1 y s -> P x0 (y + 1) s) ->
  exists s', for_range y0 y1 (fun y s => for_range x0 (x1 s) (fun x s => body y x s) s) s = Ok s'
             /\ P x0 y1 s'.
Proof.
  intros Hy Hx H0 Hx1 Hb Hr.
  apply (for_range_ind (fun y s => P x0 y s)); auto.
  intros y s1 Hy1 HP. rewrite (Hx1 _ _ _ HP).
  destruct (for_range_ind (fun x s => P x y s) x0 X1 (fun x s => body y x s) s1) as (s2 & E2 & P2); auto.
  exists s2; split; auto.
Qed.

(** ** Partial-correctness rules for loops whose body may panic *)
Definition okp {A} (P : A -> Prop) (m : res A) : Prop :=
  match m with Ok a => P a | Panic => True | Timeout => False end.

Lemma okp_bind {A B} (P : A -> Prop) (Q : B -> Prop) m k :
  okp P m -> (forall a, P a -> okp Q (k a)) -> okp Q (bind m k).
Proof. destruct m; simpl; auto; tauto. Qed.

Lemma okp_imp {A} (P Q : A -> Prop) m : okp P m -> (forall a, P a -> Q a) -> okp Q m.
Proof. destruct m; simpl; auto. Qed.

Lemma okp_ok {A} (P : A -> Prop) m a : okp P m -> m = Ok a -> P a.
Proof. intros H ->. exact H. Qed.

Lemma for_range_okp {S} (P : Z -> S -> Prop) lo hi body s :
  lo <= hi -> P lo s ->
  (forall i s, lo <= i < hi -> P i s -> okp (P (i + 1)) (body i s)) ->
  okp (P hi) (for_range lo hi body s).
Proof.
  intros Hle H0 Hb. unfold for_range.
  assert (G : forall n i s, i + Z.of_nat n = hi -> lo <= i -> P i s -> okp (P hi) (for_up n i body s)).
  { induction n as [|n IH]; intros i s1 Hi Hl HP; cbn [for_up].
    - simpl. replace hi with i by lia. auto.
    - eapply okp_bind; [apply Hb; auto; lia|]. intros s2 H2. apply IH; auto; lia. }
  apply G; auto; lia.
Qed.

Lemma for_each_okp {X S} (P : list X -> S -> Prop) (l : list X) body s :
  P [] s ->
  (forall pre x post s, l = pre ++ x :: post -> P pre s -> okp (P (pre ++ [x])) (body x s)) ->
  okp (P l) (for_each l body s).
Proof.
  intros H0 Hb.
  assert (G : forall post pre s, l = pre ++ post -> P pre s -> okp (P l) (for_each post body s)).
  { induction post as [|x post IH]; intros pre s1 E HP; cbn [for_each].
    - rewrite app_nil_r in E; subst; auto.
    - eapply okp_bind; [eapply Hb; eauto|]. intros s2 H2. apply (IH (pre ++ [x])); auto.
      rewrite E, <- app_assoc. reflexivity. }
  apply (G l []); auto.
Qed.

Lemma raster_okp {S} (P : Z -> Z -> S -> Prop) y0 y1 x0 x1 (body : Z -> Z -> S -> res S) s :
  y0 <= y1 -> x0 <= x1 -> P x0 y0 s ->
  (forall x y s, x0 <= x < x1 -> y0 <= y < y1 -> P x y s -> okp (P (x + 1) y) (body y x s)) ->
  (forall y s, y0 <= y < y1 -> P x1 y s -> P x0 (y + 1) s) ->
  okp (P x0 y1) (for_range y0 y1 (fun y s => for_range x0 x1 (fun x s => body y x s) s) s).
Proof.
  intros Hy Hx H0 Hb Hr.
  apply (for_range_okp (fun y s => P x0 y s)); auto.
  intros y s1 Hy1 HP. eapply okp_imp; [|intros s2 H2; apply Hr; [auto|exact H2]].
  apply (for_range_okp (fun x s => P x y s)); auto.
Qed.

Lemma bounded_dec (P : Z -> Prop) lo hi :
  (forall i, lo <= i < hi -> P i \/ ~ P i) ->
  (forall i, lo <= i < hi -> P i) \/ (exists i, lo <= i < hi /\ ~ P i).
Proof.
  intros D. destruct (Z_le_dec lo hi) as [H|H]; [|left; intros; lia].
  assert (G : forall k, (k <= Z.to_nat (hi - lo))%nat ->
    (forall i, lo <= i < lo + Z.of_nat k -> P i) \/ (exists i, lo <= i < lo + Z.of_nat k /\ ~ P i)).
  { induction k as [|k IH]; intros Hk; [left; intros; lia|].
    destruct IH as [IH|(i & Hi & Hn)]; [lia| |right; exists i; split; auto; lia].
    destruct (D (lo + Z.of_nat k)) as [Y|N]; [lia| |].
    - left. intros i Hi. destruct (Z.eq_dec i (lo + Z.of_nat k)) as [->|]; auto. apply IH; lia.
    - right. eexists; split; [|exact N]. lia. }
  specialize (G (Z.to_nat (hi - lo)) (le_n _)). rewrite Z2Nat.id in G by lia.
  replace (lo + (hi - lo)) with hi in G by lia. auto.
Qed.
