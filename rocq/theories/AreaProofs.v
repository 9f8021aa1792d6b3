(** contour_area: the f64 accumulation is exact for moderate coordinates, and the
    shoelace sum obeys the area laws. *)
From Coq Require Import Reals Lra.
From Flocq Require Import Core BinarySingleNaN.
From Verif Require Import Base BaseProofs Float FloatProofs GeometryModel GeometrySpec HullProofs.
Local Ltac Zify.zify_post_hook ::= idtac.

Definition cross (p q : Z * Z) : Z := fst p * snd q - snd p * fst q.
(** sum of cross products along a path that starts at [p] *)
Fixpoint path (p : Z * Z) (l : list (Z * Z)) : Z :=
  match l with [] => 0 | q :: l => cross p q + path q l end.
Definition ring_sum (l : list (Z * Z)) : Z :=
  match l with [] => 0 | p :: _ => path (List.last l (0, 0)) l end.

Lemma last_cons {A} (p : A) l d : List.last (p :: l) d = List.last l p.
Proof. revert p d. induction l as [|q l IH]; intros; [reflexivity|]. change (List.last (q :: l) d = List.last (q :: l) p). now rewrite !IH. Qed.
Lemma last_snoc {A} (l : list A) x d : List.last (l ++ [x]) d = x.
Proof. apply List.last_last. Qed.

Lemma path_app p l1 l2 : path p (l1 ++ l2) = path p l1 + path (List.last l1 p) l2.
Proof.
  revert p. induction l1 as [|q l1 IH]; intros p; [reflexivity|].
  cbn [app path]. rewrite IH, last_cons. ring.
Qed.

Lemma ring_path p l : ring_sum (p :: l) = path p (l ++ [p]).
Proof. unfold ring_sum. rewrite last_cons, path_app. cbn [path]. ring. Qed.

Lemma ring_rot1 p l : ring_sum (l ++ [p]) = ring_sum (p :: l).
Proof.
  destruct l as [|q l]; [reflexivity|].
  rewrite ring_path. cbn [app]. rewrite ring_path. rewrite <- !app_assoc. cbn [app path].
  rewrite !path_app. cbn [path]. ring.
Qed.
Lemma ring_rot l1 l2 : ring_sum (l1 ++ l2) = ring_sum (l2 ++ l1).
Proof.
  revert l2. induction l1 as [|p l1 IH]; intros l2; [now rewrite app_nil_r|].
  change ((p :: l1) ++ l2) with (p :: (l1 ++ l2)). rewrite <- ring_rot1.
  rewrite <- app_assoc, IH, <- app_assoc. reflexivity.
Qed.

Lemma path_snoc p l x : path p (l ++ [x]) = path p l + cross (List.last l p) x.
Proof. rewrite path_app. cbn [path]. ring. Qed.
Lemma cross_anti p q : cross q p = - cross p q.
Proof. unfold cross. ring. Qed.
(** a path walked backwards *)
Lemma path_back p l x : path x (rev l ++ [p]) = - path p (l ++ [x]).
Proof.
  revert p x. induction l as [|q l IH]; intros p x; cbn [rev app path].
  - rewrite (cross_anti p x). ring.
  - rewrite <- app_assoc. cbn [app]. replace (rev l ++ [q; p]) with ((rev l ++ [q]) ++ [p]) by (rewrite <- app_assoc; reflexivity).
    rewrite path_snoc, IH, last_snoc, (cross_anti p q). ring.
Qed.
Lemma ring_rev l : ring_sum (rev l) = - ring_sum l.
Proof.
  destruct l as [|p l]; [reflexivity|]. cbn [rev]. rewrite ring_rot1, !ring_path.
  apply path_back.
Qed.

Lemma path_shift dx dy p l : path (fst p + dx, snd p + dy) (map (fun q => (fst q + dx, snd q + dy)) l) =
  path p l + dx * (snd (List.last l p) - snd p) - dy * (fst (List.last l p) - fst p).
Proof.
  revert p. induction l as [|q l IH]; intros p; cbn [map path].
  - cbn [List.last]. ring.
  - rewrite IH, last_cons. unfold cross. cbn [fst snd]. ring.
Qed.
Lemma ring_shift dx dy l : ring_sum (map (fun q => (fst q + dx, snd q + dy)) l) = ring_sum l.
Proof.
  destruct l as [|p l]; [reflexivity|]. cbn [map]. rewrite !ring_path.
  change [(fst p + dx, snd p + dy)] with (map (fun q : Z * Z => (fst q + dx, snd q + dy)) [p]).
  rewrite <- map_app, path_shift, last_snoc. ring.
Qed.

(** the specification's sum *)
Lemma path_zsum l : forall p, path p l = zsum 0 (zlen l) (fun i => cross (at_ (p :: l) i) (at_ (p :: l) (i + 1))).
Proof.
  induction l as [|q l IH]; intros p; [reflexivity|].
  cbn [path]. rewrite IH, zlen_cons. pose proof (zlen_nonneg l). rewrite (zsum_cons 0 (1 + zlen l)) by lia. f_equal.
  replace (1 + zlen l) with (zlen l + 1) by lia.
  rewrite <- (zsum_shift 0 (zlen l) 1 (fun i => cross (at_ (p :: q :: l) i) (at_ (p :: q :: l) (i + 1)))).
  apply zsum_ext. intros i Hi. now rewrite !(at_S p) by lia.
Qed.
Lemma shoelace_ring l : shoelace l = ring_sum l.
Proof.
  destruct l as [|p l]; [reflexivity|]. rewrite ring_path, path_zsum. unfold shoelace.
  assert (L : zlen (l ++ [p]) = zlen (p :: l)) by (unfold zlen; rewrite app_length; cbn [length]; lia).
  rewrite L. apply zsum_ext. intros i Hi. unfold cross.
  assert (A : forall k, 0 <= k <= zlen (p :: l) -> at_ (p :: l ++ [p]) k = cyc (p :: l) k).
  { intros k Hk. unfold at_, cyc. rewrite app_comm_cons. destruct (Z.eq_dec k (zlen (p :: l))) as [->|N].
    - rewrite Z_mod_same_full, znth_app_r by lia. now replace (zlen (p :: l) - zlen (p :: l)) with 0 by lia.
    - rewrite Z.mod_small by lia. now rewrite znth_app_l by lia. }
  rewrite !A by lia. ring.
Qed.

(** ** f64 *)
Definition area_fits (l : list (Z * Z)) : Prop :=
  exists B, 0 <= B <= 2 ^ 26 /\ 2 * B * B * zlen l <= 2 ^ 53 /\
    forall p, In p l -> Z.abs (fst p) <= B /\ Z.abs (snd p) <= B.

Lemma abs_mul_le a b B : Z.abs a <= B -> Z.abs b <= B -> Z.abs (a * b) <= B * B.
Proof. intros. rewrite Z.abs_mul. apply Z.mul_le_mono_nonneg; lia. Qed.

Lemma fold_exact B l : 0 <= B <= 2 ^ 26 -> forall acc a prev k,
  (forall p, In p (prev :: l) -> Z.abs (fst p) <= B /\ Z.abs (snd p) <= B) ->
  dy 0 a acc -> Z.abs a <= k -> k + 2 * B * B * zlen l <= 2 ^ 53 ->
  dy 0 (a + path prev l) (fst (fold_left (fun '(acc, prev) p =>
       let p := to_f64 p in
       (fadd acc (fsub (fmul (fst prev) (snd p)) (fmul (snd prev) (fst p))), p)) l (acc, to_f64 prev))).
Proof.
  intros HB. induction l as [|q l IH]; intros acc a prev k Hp Ha Hk HS; cbn [fold_left path].
  - now replace (a + 0) with a by lia.
  - replace (a + (cross prev q + path q l)) with (a + cross prev q + path q l) by ring.
    destruct (Hp prev (or_introl eq_refl)) as [P1 P2]. destruct (Hp q (or_intror (or_introl eq_refl))) as [Q1 Q2].
    rewrite zlen_cons in HS. pose proof (zlen_nonneg l).
    assert (C1 : Z.abs (fst prev * snd q) <= B * B) by (apply abs_mul_le; auto).
    assert (C2 : Z.abs (snd prev * fst q) <= B * B) by (apply abs_mul_le; auto).
    assert (CC : Z.abs (cross prev q) <= 2 * B * B) by (unfold cross; lia).
    assert (B2 : 0 <= 2 * B * B) by nia. assert (BB : 0 <= 2 * B * B * zlen l) by (now apply Z.mul_nonneg_nonneg).
    apply (IH _ _ _ (k + 2 * B * B)).
    + intros p [<-|H1]; auto with datatypes.
    + assert (D0 : dyk 53 1024 0) by (split; lia).
      assert (I : forall z, Z.abs z <= 2 ^ 26 -> dy 0 z (of_int z : f64)) by (intros; apply dy_int; [exact D0|lia]).
      cbn [to_f64 fst snd]. change 0 with (0 + 0) at 1. apply dy_add; [exact D0|lia|exact Ha|].
      unfold cross. apply dy_sub; [exact D0|unfold cross in CC; lia| |]; apply dy_mul; try (apply I; lia); try exact D0; lia.
    + lia.
    + lia.
Qed.

Lemma area_exact l : area_fits l -> dy (-1) (shoelace l) (oriented_contour_area l).
Proof.
  intros (B & HB & HS & Hp). rewrite shoelace_ring. unfold oriented_contour_area.
  assert (D0 : dyk 53 1024 0) by (split; lia). assert (D1 : dyk 53 1024 (-1)) by (split; lia).
  destruct (Z.ltb_spec (zlen l) 3) as [L|L].
  - assert (E : ring_sum l = 0).
    { destruct l as [|p [|q [|r l]]]; try reflexivity.
      - unfold ring_sum. cbn [List.last path]. unfold cross. ring.
      - unfold ring_sum. cbn [List.last path]. unfold cross. ring.
      - rewrite !zlen_cons in L. pose proof (zlen_nonneg l). lia. }
    rewrite E. destruct (dy_scale 53 1024 0 1 0 (of_int 0)) as [F R]; [lia|apply dy_int; [exact D0|lia]|].
    split; [exact F|exact R].
  - assert (N : l <> []). { intros ->. unfold zlen in L. cbn in L. lia. }
    assert (IL : In (List.last l (0, 0)) l).
    { destruct (exists_last N) as (l' & x & ->). rewrite last_snoc. apply in_or_app. right. now left. }
    assert (A := fold_exact B l HB (of_int 0) 0 (List.last l (0, 0)) 0).
    destruct (fold_left _ l (of_int 0, to_f64 (List.last l (0, 0)))) as [acc pv]. cbn [fst] in A.
    assert (A' : dy 0 (ring_sum l) acc).
    { replace (ring_sum l) with (0 + path (List.last l (0, 0)) l).
      - apply A; [|apply dy_int; [exact D0|lia]|lia|lia]. intros p [<-|H]; auto.
      - destruct l; [congruence|reflexivity]. }
    assert (HH : dy (-1) 1 (of_dyadic 1 (-1) : f64)) by (apply dy_dyadic; [exact D1|lia]).
    replace (ring_sum l) with (1 * ring_sum l) by lia. change (-1) with (-1 + 0) at 1.
    apply dy_mul; auto. 
    assert (BD : forall m p, (forall q, In q (p :: m) -> Z.abs (fst q) <= B /\ Z.abs (snd q) <= B) -> Z.abs (path p m) <= 2 * B * B * zlen m).
    { induction m as [|q m IH]; intros p Hq; cbn [path]; [unfold zlen; cbn; lia|].
      destruct (Hq p (or_introl eq_refl)) as [P1 P2]. destruct (Hq q (or_intror (or_introl eq_refl))) as [Q1 Q2].
      specialize (IH q ltac:(intros; apply Hq; now right)). rewrite zlen_cons.
      assert (C1 : Z.abs (fst p * snd q) <= B * B) by (apply abs_mul_le; auto).
      assert (C2 : Z.abs (snd p * fst q) <= B * B) by (apply abs_mul_le; auto). unfold cross. lia. }
    specialize (BD l (List.last l (0, 0)) ltac:(intros q [<-|Hq]; auto)).
    unfold ring_sum. destruct l; [congruence|]. lia.
Qed.
