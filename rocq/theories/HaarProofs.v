(** Proofs about Haar-like features. *)
From Coq Require FinFun.
From Verif Require Import Base BaseProofs IntegralSpec IntegralModel IntegralProofs SuppressProofs LineProofs HaarModel HaarSpec.
Local Ltac Zify.zify_post_hook ::= idtac.

(** * Evaluation *)
(** an interval cut into k blocks of length s *)
Lemma zsum_blocks a k s g : 0 <= k -> 0 <= s ->
  zsum a (a + k * s) g = zsum 0 k (fun i => zsum (a + i * s) (a + (i + 1) * s) g).
Proof.
  intros Hk Hs. revert k Hk. refine (natlike_ind _ _ _).
  - rewrite !zsum_empty by lia. reflexivity.
  - intros k Hk IH. unfold Z.succ. rewrite zsum_snoc by lia. rewrite <- IH. apply zsum_split. nia.
Qed.

Section Eval.
Variables (im ii : image (list Z)) (f : feature).
Hypothesis Him : channels8 1 im.
Hypothesis Hii : forall x y, 0 <= x <= iw im -> 0 <= y <= ih im -> get ii x y = Some [rect_sum (chan im 0) 0 x 0 y].
Hypothesis Hw : iw ii = iw im + 1.
Hypothesis Hh : ih ii = ih im + 1.
Hypothesis Hv : valid (iw im) (ih im) f.
Hypothesis Hl : left f + feature_width f <= 255.
Hypothesis Ht : top f + feature_height f <= 255.
Let bw := block_width f.
Let bh := block_height f.
Let sw := fst (shape (ftype f)).
Let sh := snd (shape (ftype f)).

Definition corner i j := rect_sum (chan im 0) 0 (left f + i * block_width f) 0 (top f + j * block_height f).

Lemma valid_facts : 1 <= bw /\ 1 <= bh /\ 0 <= left f /\ 0 <= top f /\
  left f + sw * bw <= iw im /\ top f + sh * bh <= ih im /\ left f + sw * bw <= 255 /\ top f + sh * bh <= 255.
Proof. clear - Hv Hl Ht. destruct Hv as (A & B & C & D & E & F). unfold feature_width, feature_height in *. unfold bw, bh, sw, sh. lia. Qed.

Lemma bb_ok i j : 0 <= i <= sw -> 0 <= j <= sh -> block_boundary f i j = Ok (left f + i * bw, top f + j * bh).
Proof.
  intros Hi Hj. destruct valid_facts as (A & B & C & D & E & F & G & I). unfold block_boundary. fold bw bh.
  assert (0 <= i * bw <= sw * bw) by nia. assert (0 <= j * bh <= sh * bh) by nia.
  rewrite chk_u_ok by lia. cbn [bind]. rewrite chk_u_ok by lia. cbn [bind].
  rewrite chk_u_ok by lia. cbn [bind]. rewrite chk_u_ok by lia. reflexivity.
Qed.
Lemma corner_range i j : 0 <= i <= sw -> 0 <= j <= sh -> 0 <= corner i j <= 16581375.
Proof.
  intros Hi Hj. destruct valid_facts as (A & B & C & D & E & F & G & I). unfold corner. fold bw bh.
  assert (0 <= i * bw <= sw * bw) by nia. assert (0 <= j * bh <= sh * bh) by nia.
  set (X := left f + i * bw) in *. set (Y := top f + j * bh) in *.
  assert (0 <= X <= 255) by lia. assert (0 <= Y <= 255) by lia.
  split; [apply (rect_nonneg 1 im false Him)|].
  unfold rect_sum. apply Z.le_trans with (zsum 0 Y (fun _ => X * 255)).
  - apply zsum_le. intros y _. apply Z.le_trans with (zsum 0 X (fun _ => 255)).
    + apply zsum_le. intros x _. apply (chan_range 1 im Him).
    + rewrite zsum_const; lia.
  - rewrite zsum_const by lia. nia.
Qed.
Lemma read_ok i j : 0 <= i <= sw -> 0 <= j <= sh -> read ii (left f + i * bw, top f + j * bh) = Ok (corner i j).
Proof.
  intros Hi Hj. pose proof (corner_range i j Hi Hj) as Hc.
  destruct valid_facts as (A & B & C & D & E & F & G & I).
  assert (0 <= i * bw <= sw * bw) by nia. assert (0 <= j * bh <= sh * bh) by nia.
  unfold read. cbn [fst snd]. rewrite (proj2 (get_pixel_ok ii _ _ _) (Hii (left f + i * bw) (top f + j * bh) ltac:(lia) ltac:(lia))). cbn [bind].
  change (rect_sum (chan im 0) 0 (left f + i * bw) 0 (top f + j * bh)) with (corner i j).
  change (vget [corner i j] 0) with (Ok (corner i j)). cbn [bind].
  rewrite (proj2 (Z.ltb_lt (corner i j) (2 ^ 31))) by lia. reflexivity.
Qed.

(** the sum over one block in terms of its corners *)
Lemma block_sum i j : 0 <= i < sw -> 0 <= j < sh ->
  zsum (top f + j * bh) (top f + (j + 1) * bh) (fun y => zsum (left f + i * bw) (left f + (i + 1) * bw)
    (fun x => if positive f x y then chan im 0 x y else - chan im 0 x y)) =
  (if Bool.eqb (Z.even (i + j)) (match fsign f with Positive => true | Negative => false end) then 1 else -1) *
  (corner (i + 1) (j + 1) + corner i j - corner (i + 1) j - corner i (j + 1)).
Proof.
  intros Hi Hj. destruct valid_facts as (A & B & C & D & E & F & G & I).
  set (c := if Bool.eqb (Z.even (i + j)) _ then 1 else -1).
  pose proof (rect_diff Release 32 1 im false ltac:(discriminate) 0 (left f + i * bw) (top f + j * bh) (left f + (i + 1) * bw - 1) (top f + (j + 1) * bh - 1)) as RD.
  rewrite !Z.sub_add in RD. change (IntegralProofs.F im false 0) with (chan im 0) in RD. unfold IntegralProofs.S in RD.
  change (IntegralProofs.F im false 0) with (chan im 0) in RD. fold (corner (i + 1) (j + 1)) in RD.
  change (rect_sum (chan im 0) 0 (left f + i * bw) 0 (top f + j * bh)) with (corner i j) in RD.
  change (rect_sum (chan im 0) 0 (left f + (i + 1) * bw) 0 (top f + (j + 1) * bh)) with (corner (i + 1) (j + 1)) in RD.
  change (rect_sum (chan im 0) 0 (left f + (i + 1) * bw) 0 (top f + j * bh)) with (corner (i + 1) j) in RD.
  change (rect_sum (chan im 0) 0 (left f + i * bw) 0 (top f + (j + 1) * bh)) with (corner i (j + 1)) in RD.
  rewrite <- RD by nia. unfold rect_sum. rewrite <- zsum_scal. apply zsum_ext. intros y Hy. rewrite <- zsum_scal. apply zsum_ext. intros x Hx.
  assert (E1 : (x - left f) / bw = i) by (symmetry; apply (Z.div_unique _ _ _ (x - left f - i * bw)); nia).
  assert (E2 : (y - top f) / bh = j) by (symmetry; apply (Z.div_unique _ _ _ (y - top f - j * bh)); nia).
  unfold positive. fold bw bh. rewrite E1, E2. unfold c. destruct (Bool.eqb _ _); lia.
Qed.
Lemma value_blocks : feature_value f im = zsum 0 sh (fun j => zsum 0 sw (fun i =>
  (if Bool.eqb (Z.even (i + j)) (match fsign f with Positive => true | Negative => false end) then 1 else -1) *
  (corner (i + 1) (j + 1) + corner i j - corner (i + 1) j - corner i (j + 1)))).
Proof.
  destruct valid_facts as (A & B & C & D & E & F & G & I).
  assert (K : 1 <= sw <= 3 /\ 1 <= sh <= 3) by (unfold sw, sh; destruct (ftype f); cbn; lia).
  unfold feature_value, rect_sum, feature_height, feature_width. fold bw bh sw sh.
  rewrite zsum_blocks by lia. apply zsum_ext. intros j Hj.
  rewrite (zsum_ext _ _ _ (fun y => zsum 0 sw (fun i => zsum (left f + i * bw) (left f + (i + 1) * bw)
    (fun x => if positive f x y then chan im 0 x y else - chan im 0 x y)))).
  2:{ intros y _. apply zsum_blocks; lia. }
  rewrite zsum_swap. apply zsum_ext. intros i Hi. apply block_sum; assumption.
Qed.

Lemma plus_ok a k v : 1 <= k <= 4 -> 0 <= v <= 16581375 -> -1000000000 <= a <= 1000000000 -> plus a k v = Ok (a + k * v).
Proof. clear. intros. unfold plus. rewrite chk_i_ok by nia. cbn [bind]. apply chk_i_ok. nia. Qed.
Lemma minus_ok a k v : 1 <= k <= 4 -> 0 <= v <= 16581375 -> -1000000000 <= a <= 1000000000 -> minus a k v = Ok (a - k * v).
Proof. clear. intros. unfold minus. rewrite chk_i_ok by nia. cbn [bind]. apply chk_i_ok. nia. Qed.

Ltac fin := match goal with SG : forall z : Z, _, f : feature |- _ =>
  repeat ((first [rewrite plus_ok by lia | rewrite minus_ok by lia]); cbn [bind]);
  rewrite SG by lia; apply f_equal; unfold zsum;
  change (zrange 0 1) with [0]; change (zrange 0 2) with [0; 1]; change (zrange 0 3) with [0; 1; 2]; cbn [fold_right];
  change (0 + 0) with 0; change (0 + 1) with 1; change (1 + 0) with 1; change (1 + 1) with 2; change (2 + 0) with 2; change (2 + 1) with 3; change (0 + 2) with 2;
  cbn [Z.even]; destruct (fsign f); cbn [Bool.eqb]; lia end.
Lemma evaluate_ok : evaluate f ii = Ok (feature_value f im).
Proof.
  rewrite value_blocks. destruct valid_facts as (A & B & C & D & E & F & G & I).
  unfold evaluate, feature_size. fold bw bh sw sh.
  assert (K : 1 <= sw <= 3 /\ 1 <= sh <= 3) by (unfold sw, sh; destruct (ftype f); cbn; lia).
  assert (0 <= sw * bw) by nia. assert (0 <= sh * bh) by nia.
  rewrite chk_u_ok by lia. cbn [bind]. rewrite chk_u_ok by lia. cbn [bind fst snd].
  rewrite (proj2 (Z.ltb_lt _ (iw ii))) by lia. cbn [assert bind].
  rewrite (proj2 (Z.ltb_lt _ (ih ii))) by lia. cbn [assert bind].
  rewrite (bb_ok 0 0), (bb_ok 1 0), (bb_ok 0 1), (bb_ok 1 1) by lia. cbn [bind].
  pose proof corner_range as CR. pose proof bb_ok as BB. pose proof read_ok as RD.
  assert (SG : forall z, -1000000000 <= z <= 1000000000 ->
    chk_i 32 (z * match fsign f with Positive => 1 | Negative => -1 end) = Ok (z * match fsign f with Positive => 1 | Negative => -1 end)).
  { intros z Hz. apply chk_i_ok. destruct (fsign f); lia. }
  unfold sw, sh in CR, BB, RD |- *. clear - CR BB RD SG.
  destruct (ftype f); cbn [shape fst snd] in *;
    rewrite ?(BB 2 0), ?(BB 2 1), ?(BB 3 0), ?(BB 3 1), ?(BB 0 2), ?(BB 1 2), ?(BB 2 2), ?(BB 0 3), ?(BB 1 3) by lia; cbn [bind];
    rewrite ?(RD 0 0), ?(RD 1 0), ?(RD 2 0), ?(RD 3 0), ?(RD 0 1), ?(RD 1 1), ?(RD 2 1), ?(RD 3 1), ?(RD 0 2), ?(RD 1 2), ?(RD 2 2),
      ?(RD 0 3), ?(RD 1 3) by lia; cbn [bind].
  - pose proof (CR 0 0 ltac:(lia) ltac:(lia)); pose proof (CR 0 1 ltac:(lia) ltac:(lia)); pose proof (CR 1 0 ltac:(lia) ltac:(lia)); pose proof (CR 1 1 ltac:(lia) ltac:(lia)); pose proof (CR 2 0 ltac:(lia) ltac:(lia)); pose proof (CR 2 1 ltac:(lia) ltac:(lia)). clear CR BB RD. fin.
  - pose proof (CR 0 0 ltac:(lia) ltac:(lia)); pose proof (CR 0 1 ltac:(lia) ltac:(lia)); pose proof (CR 1 0 ltac:(lia) ltac:(lia)); pose proof (CR 1 1 ltac:(lia) ltac:(lia)); pose proof (CR 2 0 ltac:(lia) ltac:(lia)); pose proof (CR 2 1 ltac:(lia) ltac:(lia)); pose proof (CR 3 0 ltac:(lia) ltac:(lia)); pose proof (CR 3 1 ltac:(lia) ltac:(lia)). clear CR BB RD. fin.
  - pose proof (CR 0 0 ltac:(lia) ltac:(lia)); pose proof (CR 1 0 ltac:(lia) ltac:(lia)); pose proof (CR 0 1 ltac:(lia) ltac:(lia)); pose proof (CR 1 1 ltac:(lia) ltac:(lia)); pose proof (CR 0 2 ltac:(lia) ltac:(lia)); pose proof (CR 1 2 ltac:(lia) ltac:(lia)). clear CR BB RD. fin.
  - pose proof (CR 0 0 ltac:(lia) ltac:(lia)); pose proof (CR 1 0 ltac:(lia) ltac:(lia)); pose proof (CR 0 1 ltac:(lia) ltac:(lia)); pose proof (CR 1 1 ltac:(lia) ltac:(lia)); pose proof (CR 0 2 ltac:(lia) ltac:(lia)); pose proof (CR 1 2 ltac:(lia) ltac:(lia)); pose proof (CR 0 3 ltac:(lia) ltac:(lia)); pose proof (CR 1 3 ltac:(lia) ltac:(lia)). clear CR BB RD. fin.
  - pose proof (CR 0 0 ltac:(lia) ltac:(lia)); pose proof (CR 0 1 ltac:(lia) ltac:(lia)); pose proof (CR 0 2 ltac:(lia) ltac:(lia)); pose proof (CR 1 0 ltac:(lia) ltac:(lia)); pose proof (CR 1 1 ltac:(lia) ltac:(lia)); pose proof (CR 1 2 ltac:(lia) ltac:(lia)); pose proof (CR 2 0 ltac:(lia) ltac:(lia)); pose proof (CR 2 1 ltac:(lia) ltac:(lia)); pose proof (CR 2 2 ltac:(lia) ltac:(lia)). clear CR BB RD. fin.
Qed.
End Eval.

(** * Enumeration *)
Lemma for_each_append {X Y} (g : X -> list Y) (body : X -> list Y -> res (list Y)) l s :
  (forall x s, In x l -> body x s = Ok (s ++ g x)) -> for_each l body s = Ok (s ++ flat_map g l).
Proof.
  revert s; induction l as [|x l IH]; intros s H; cbn [for_each flat_map].
  - rewrite app_nil_r. reflexivity.
  - rewrite H by (left; reflexivity). cbn [bind]. rewrite IH by (intros; apply H; right; assumption). rewrite <- app_assoc. reflexivity.
Qed.
Lemma NoDup_flat_map {X Y} (g : X -> list Y) (key : Y -> X) l :
  NoDup l -> (forall x, In x l -> NoDup (g x)) -> (forall x y, In y (g x) -> key y = x) -> NoDup (flat_map g l).
Proof.
  intros Hl Hg Hk. induction l as [|x l IH]; cbn [flat_map]; [constructor|].
  inversion Hl as [|x' l' Hx Hl']; subst.
  assert (G : NoDup (flat_map g l)) by (apply IH; [exact Hl'|intros; apply Hg; right; assumption]).
  assert (D : forall y, In y (g x) -> ~ In y (flat_map g l)).
  { intros y Hy Hy'. apply in_flat_map in Hy'. destruct Hy' as (x2 & H2 & Hy2). apply Hk in Hy, Hy2. subst. contradiction. }
  specialize (Hg x (or_introl eq_refl)). clear - G D Hg. induction (g x) as [|y ys IH2]; cbn [app]; [exact G|].
  inversion Hg; subst. constructor.
  - rewrite in_app_iff. intros [K|K]; [contradiction|]. apply (D y); [left; reflexivity|exact K].
  - apply IH2; [assumption|]. intros; apply D; right; assumption.
Qed.
Lemma list_prod_flat {X Y} (l1 : list X) (l2 : list Y) : list_prod l1 l2 = flat_map (fun x => map (pair x) l2) l1.
Proof. induction l1 as [|x l1 IH]; cbn [list_prod flat_map]; [reflexivity|]. rewrite IH. reflexivity. Qed.
Lemma NoDup_prod {X Y} (l1 : list X) (l2 : list Y) : NoDup l1 -> NoDup l2 -> NoDup (list_prod l1 l2).
Proof.
  intros H1 H2. rewrite list_prod_flat. apply (NoDup_flat_map _ fst); auto.
  - intros x _. apply FinFun.Injective_map_NoDup; [|exact H2]. intros a b E. congruence.
  - intros x y Hy. apply in_map_iff in Hy. destruct Hy as (b & <- & _). reflexivity.
Qed.
Lemma zlen_flat {X} (g : Z -> list X) a b : a <= b -> zlen (flat_map g (zrange a b)) = zsum a b (fun i => zlen (g i)).
Proof. intros _. unfold zsum. induction (zrange a b) as [|x l IH]; cbn [flat_map fold_right]; [reflexivity|]. rewrite zlen_app, IH. reflexivity. Qed.
Lemma zlen_flat_prod {X} (g : Z * Z -> list X) a b c d :
  zlen (flat_map g (list_prod (zrange a b) (zrange c d))) = zsum a b (fun x => zsum c d (fun y => zlen (g (x, y)))).
Proof.
  unfold zsum. induction (zrange a b) as [|x l IH]; cbn [list_prod flat_map fold_right]; [reflexivity|].
  rewrite flat_map_app, zlen_app, IH. f_equal. clear. induction (zrange c d) as [|y l IH]; cbn [map flat_map fold_right]; [reflexivity|].
  rewrite zlen_app, IH. reflexivity.
Qed.

(** the features of one type, as a list *)
Definition features (t : feature_type) (w h : Z) : list feature :=
  flat_map (fun '(bw, bh) => flat_map (fun '(l, tp) => [mkFeature Positive t bw bh l tp; mkFeature Negative t bw bh l tp])
    (list_prod (zrange 0 (w - fst (shape t) * bw + 1)) (zrange 0 (h - snd (shape t) * bh + 1))))
    (list_prod (zrange 1 (w / fst (shape t) + 1)) (zrange 1 (h / snd (shape t) + 1))).

Lemma shape_range t : 1 <= fst (shape t) <= 3 /\ 1 <= snd (shape t) <= 3.
Proof. destruct t; cbn; lia. Qed.

Lemma div_le w k bw : 1 <= k -> 1 <= bw -> (bw < w / k + 1 <-> k * bw <= w).
Proof.
  intros Hk Hb. split; intros H.
  - pose proof (Z.mul_div_le w k ltac:(lia)). nia.
  - assert (bw <= w / k) by (apply Z.div_le_lower_bound; lia). lia.
Qed.

Lemma positions_ok inner outer : 1 <= inner <= outer -> outer <= 255 -> start_positions inner outer = Ok (zrange 0 (outer - inner + 1)).
Proof.
  intros H1 H2. unfold start_positions. rewrite (proj2 (Z.ltb_ge outer inner)) by lia.
  rewrite chk_u_ok by lia. cbn [bind]. rewrite chk_u_ok by lia. reflexivity.
Qed.

Lemma of_type_ok t w h : 0 <= w <= 255 -> 0 <= h <= 255 -> w / fst (shape t) <= 254 -> h / snd (shape t) <= 254 ->
  haar_features_of_type t w h = Ok (features t w h).
Proof.
  intros Hw Hh Dw Dh. pose proof (shape_range t) as (K1 & K2). unfold haar_features_of_type, block_sizes.
  assert (B1 : 0 <= w / fst (shape t) <= w) by (split; [apply Z.div_pos; lia|apply Z.div_le_upper_bound; nia]).
  assert (B2 : 0 <= h / snd (shape t) <= h) by (split; [apply Z.div_pos; lia|apply Z.div_le_upper_bound; nia]).
  rewrite chk_u_ok by lia. cbn [bind]. rewrite chk_u_ok by lia. cbn [bind].
  rewrite (for_each_append (fun '(bw, bh) => flat_map (fun '(l, tp) => [mkFeature Positive t bw bh l tp; mkFeature Negative t bw bh l tp])
    (list_prod (zrange 0 (w - fst (shape t) * bw + 1)) (zrange 0 (h - snd (shape t) * bh + 1))))).
  - reflexivity.
  - intros (bw, bh) s Hin. apply in_prod_iff in Hin. destruct Hin as (I1 & I2). apply in_zrange in I1, I2.
    assert (L1 : fst (shape t) * bw <= w) by (apply div_le; lia). assert (L2 : snd (shape t) * bh <= h) by (apply div_le; lia).
    unfold feature_size. rewrite chk_u_ok by nia. cbn [bind]. rewrite chk_u_ok by nia. cbn [bind].
    unfold feature_positions. cbn [fst snd]. rewrite positions_ok by nia. cbn [bind]. rewrite positions_ok by nia. cbn [bind].
    apply (for_each_append (fun '(l, tp) => [mkFeature Positive t bw bh l tp; mkFeature Negative t bw bh l tp])).
    intros (l, tp) s1 _. cbn [for_each bind]. rewrite <- app_assoc. reflexivity.
Qed.

Lemma in_features t w h f : 0 <= w -> 0 <= h -> (In f (features t w h) <-> ftype f = t /\ valid w h f).
Proof.
  intros Hw Hh. pose proof (shape_range t) as (K1 & K2). unfold features. rewrite in_flat_map. split.
  - intros ((bw, bh) & Hin & Hf). apply in_prod_iff in Hin. destruct Hin as (I1 & I2). apply in_zrange in I1, I2.
    apply in_flat_map in Hf. destruct Hf as ((l, tp) & Hp & Hf). apply in_prod_iff in Hp. destruct Hp as (J1 & J2). apply in_zrange in J1, J2.
    assert (E : exists sg, f = mkFeature sg t bw bh l tp) by (destruct Hf as [<-|[<-|[]]]; eexists; reflexivity).
    destruct E as (sg & ->). split; [reflexivity|]. unfold valid, feature_width, feature_height. cbn [block_width block_height left top ftype]. lia.
  - intros (Et & V1 & V2 & V3 & V4 & V5 & V6). unfold feature_width, feature_height in *. rewrite Et in *.
    exists (block_width f, block_height f). split.
    + apply in_prod_iff. rewrite !in_zrange. split; (split; [lia|]); apply div_le; nia.
    + apply in_flat_map. exists (left f, top f). split; [apply in_prod_iff; rewrite !in_zrange; lia|].
      destruct f as [[] ? ? ? ? ?]; cbn in Et |- *; subst; auto.
Qed.

Lemma NoDup_features t w h : NoDup (features t w h).
Proof.
  unfold features. apply (NoDup_flat_map _ (fun f => (block_width f, block_height f))).
  - apply NoDup_prod; apply NoDup_zrange.
  - intros (bw, bh) _. apply (NoDup_flat_map _ (fun f => (left f, top f))).
    + apply NoDup_prod; apply NoDup_zrange.
    + intros (l, tp) _. constructor; [intros [E|[]]; discriminate E|]. constructor; [intros []|constructor].
    + intros (l, tp) f [<-|[<-|[]]]; reflexivity.
  - intros (bw, bh) f Hf. apply in_flat_map in Hf. destruct Hf as ((l, tp) & _ & Hf). destruct Hf as [<-|[<-|[]]]; reflexivity.
Qed.

(** positions of an interval of k blocks of any size in a side of length w *)
Definition placements (w k : Z) : Z := zsum 1 (w / k + 1) (fun s => w - k * s + 1).

Lemma len_features t w h : 0 <= w -> 0 <= h ->
  zlen (features t w h) = 2 * (placements w (fst (shape t)) * placements h (snd (shape t))).
Proof.
  intros Hw Hh. pose proof (shape_range t) as (K1 & K2). unfold features. rewrite zlen_flat_prod.
  assert (E : forall x y, 1 <= x < w / fst (shape t) + 1 -> 1 <= y < h / snd (shape t) + 1 ->
    zlen ((fun '(bw, bh) => flat_map (fun '(l, tp) => [mkFeature Positive t bw bh l tp; mkFeature Negative t bw bh l tp])
      (list_prod (zrange 0 (w - fst (shape t) * bw + 1)) (zrange 0 (h - snd (shape t) * bh + 1)))) (x, y)) =
    2 * (w - fst (shape t) * x + 1) * (h - snd (shape t) * y + 1)).
  { intros x y Hx Hy. rewrite zlen_flat_prod.
    assert (fst (shape t) * x <= w) by (apply div_le; lia). assert (snd (shape t) * y <= h) by (apply div_le; lia).
    rewrite (zsum_ext _ _ _ (fun _ => (h - snd (shape t) * y + 1) * 2)).
    - rewrite zsum_const by lia. ring.
    - intros i _. rewrite (zsum_ext _ _ _ (fun _ => 2)) by reflexivity. rewrite zsum_const by lia. ring. }
  unfold placements.
  rewrite (zsum_ext _ _ _ (fun x => (2 * (zsum 1 (h / snd (shape t) + 1) (fun s => h - snd (shape t) * s + 1))) * (w - fst (shape t) * x + 1))).
  - rewrite zsum_scal. ring.
  - intros x Hx. rewrite (zsum_ext _ _ _ (fun y => (2 * (w - fst (shape t) * x + 1)) * (h - snd (shape t) * y + 1))).
    + rewrite zsum_scal. ring.
    + intros y Hy. apply E; assumption.
Qed.

Lemma placements_closed w k : 0 <= w -> 1 <= k -> 2 * placements w k = 2 * (w / k * (w + 1)) - k * (w / k * (w / k + 1)).
Proof.
  intros Hw Hk. unfold placements. assert (G : forall m, 0 <= m -> 2 * zsum 1 (m + 1) (fun s => w - k * s + 1) = 2 * (m * (w + 1)) - k * (m * (m + 1))).
  { refine (natlike_ind _ _ _).
    - rewrite zsum_empty by lia. lia.
    - intros m Hm IH. unfold Z.succ. rewrite zsum_snoc by lia. lia. }
  apply G. apply Z.div_pos; lia.
Qed.

Lemma placements_range w k : 0 <= w <= 255 -> 1 <= k -> 0 <= placements w k <= 255 * 255.
Proof.
  intros Hw Hk. assert (B : 0 <= w / k <= w) by (split; [apply Z.div_pos; lia|apply Z.div_le_upper_bound; nia]).
  split.
  - apply zsum_nonneg. intros s Hs. assert (k * s <= w) by (apply div_le; lia). lia.
  - unfold placements. apply Z.le_trans with (zsum 1 (w / k + 1) (fun _ => 255)).
    + apply zsum_le. intros s Hs. nia.
    + rewrite zsum_const by lia. nia.
Qed.

Lemma num_features_ok w k : 0 <= w <= 255 -> 1 <= k <= 3 -> num_features w k = Ok (placements w k).
Proof.
  intros Hw Hk. pose proof (placements_closed w k ltac:(lia) ltac:(lia)) as PC. pose proof (placements_range w k Hw ltac:(lia)) as PR.
  assert (B : 0 <= w / k <= w) by (split; [apply Z.div_pos; lia|apply Z.div_le_upper_bound; nia]).
  unfold num_features. set (m := w / k) in *. clearbody m.
  assert (EV : exists q, m * (m + 1) = 2 * q).
  { destruct (Z.Even_or_Odd m) as [(q & E)|(q & E)]; [exists (q * (m + 1))|exists (m * (q + 1))]; rewrite E; ring. }
  destruct EV as (q & Eq). assert (Q : 0 <= q <= 32640) by nia.
  assert (0 <= m * (w + 1) <= 65280) by nia.
  rewrite chk_u_ok by lia. cbn [bind]. rewrite chk_u_ok by lia. cbn [bind]. rewrite chk_u_ok by lia. cbn [bind].
  rewrite chk_u_ok by lia. cbn [bind]. rewrite Eq. replace (2 * q / 2) with q by (rewrite Z.mul_comm, Z.div_mul; lia).
  assert (0 <= k * q <= 97920) by nia. rewrite chk_u_ok by lia. cbn [bind].
  assert (P : placements w k = m * (w + 1) - k * q) by nia.
  rewrite P in *. apply chk_u_ok. lia.
Qed.

Definition num_total (w h : Z) : Z :=
  2 * (placements w 2 * placements h 1 + placements w 3 * placements h 1 + placements w 1 * placements h 2 +
       placements w 1 * placements h 3 + placements w 2 * placements h 2).

(** sharper bounds, so that the total is seen to fit 32 bits *)
Lemma placements_bounds w : 0 <= w <= 255 ->
  0 <= placements w 1 <= 32640 /\ 0 <= placements w 2 <= 16256 /\ 0 <= placements w 3 <= 10795.
Proof.
  intros Hw. pose proof (placements_closed w 1 ltac:(lia) ltac:(lia)) as P1. pose proof (placements_closed w 2 ltac:(lia) ltac:(lia)) as P2.
  pose proof (placements_closed w 3 ltac:(lia) ltac:(lia)) as P3.
  pose proof (placements_range w 1 Hw ltac:(lia)). pose proof (placements_range w 2 Hw ltac:(lia)). pose proof (placements_range w 3 Hw ltac:(lia)).
  rewrite Z.div_1_r in P1.
  pose proof (Z.div_mod w 2 ltac:(lia)). pose proof (Z.mod_pos_bound w 2 ltac:(lia)).
  pose proof (Z.div_mod w 3 ltac:(lia)). pose proof (Z.mod_pos_bound w 3 ltac:(lia)).
  set (m2 := w / 2) in *. set (m3 := w / 3) in *. clearbody m2 m3.
  split; [nia|]. split.
  - split; [lia|]. assert (placements w 2 = m2 * (w - m2)) by nia. assert (m2 <= 127) by lia. assert (w - m2 <= 128) by lia. nia.
  - split; [lia|]. assert (E : 2 * placements w 3 = m3 * (2 * w - 1 - 3 * m3)) by nia.
    assert (0 <= m3 <= 85) by lia. destruct (Z.eq_dec m3 85) as [->|]; [lia|]. assert (0 <= 2 * w - 1 - 3 * m3 + 1 <= 256) by lia. nia.
Qed.

Lemma number_ok w h : 0 <= w <= 255 -> 0 <= h <= 255 -> number_of_haar_features w h = Ok (num_total w h).
Proof.
  intros Hw Hh. destruct (placements_bounds w Hw) as (A1 & A2 & A3). destruct (placements_bounds h Hh) as (B1 & B2 & B3).
  unfold number_of_haar_features, num_total.
  rewrite (num_features_ok w 1), (num_features_ok w 2), (num_features_ok w 3), (num_features_ok h 1), (num_features_ok h 2), (num_features_ok h 3) by lia.
  cbn [bind].
  set (a1 := placements w 1) in *; set (a2 := placements w 2) in *; set (a3 := placements w 3) in *;
  set (b1 := placements h 1) in *; set (b2 := placements h 2) in *; set (b3 := placements h 3) in *. clearbody a1 a2 a3 b1 b2 b3.
  assert (M : forall x y p q, 0 <= x <= p -> 0 <= y <= q -> 0 <= x * y <= p * q).
  { intros x y p q Hx Hy. split; [apply Z.mul_nonneg_nonneg; lia|apply Z.mul_le_mono_nonneg; lia]. }
  pose proof (M _ _ _ _ A2 B1) as M1. pose proof (M _ _ _ _ A3 B1) as M2. pose proof (M _ _ _ _ A1 B2) as M3.
  pose proof (M _ _ _ _ A1 B3) as M4. pose proof (M _ _ _ _ A2 B2) as M5. clear - M1 M2 M3 M4 M5.
  set (t1 := a2 * b1) in *; set (t2 := a3 * b1) in *; set (t3 := a1 * b2) in *; set (t4 := a1 * b3) in *; set (t5 := a2 * b2) in *. clearbody t1 t2 t3 t4 t5.
  repeat (rewrite chk_u_ok by lia; cbn [bind]). f_equal. lia.
Qed.

Lemma enumerate_ok w h : 0 <= w <= 254 -> 0 <= h <= 254 ->
  exists l, enumerate_haar_features w h = Ok l /\ NoDup l /\ (forall f, In f l <-> valid w h f) /\ zlen l = num_total w h.
Proof.
  intros Hw Hh. exists (flat_map (fun t => features t w h) feature_types).
  unfold enumerate_haar_features. rewrite (mapM_ok _ (fun t => features t w h)) by (intros t _; pose proof (shape_range t); apply of_type_ok; try lia; apply Z.div_le_upper_bound; nia). cbn [bind].
  split; [|split; [|split]].
  - rewrite flat_map_concat_map. reflexivity.
  - apply (NoDup_flat_map _ ftype).
    + repeat (constructor; [cbn [In]; intuition discriminate|]). constructor.
    + intros t _. apply NoDup_features.
    + intros t f Hf. apply in_features in Hf; [tauto|lia|lia].
  - intros f. rewrite in_flat_map. split.
    + intros (t & _ & Hf). apply in_features in Hf; [tauto|lia|lia].
    + intros Hv. exists (ftype f). split; [destruct (ftype f); cbn; tauto|]. apply in_features; [lia|lia|]. auto.
  - unfold feature_types. cbn [flat_map]. rewrite !zlen_app. rewrite !len_features by lia. cbn [shape fst snd]. change (zlen (@nil feature)) with 0.
    unfold num_total. ring.
Qed.

Lemma enumerate_255 w h : 0 <= w <= 255 -> 0 <= h <= 255 -> w = 255 \/ h = 255 -> enumerate_haar_features w h = Panic.
Proof.
  intros Hw Hh H. unfold enumerate_haar_features, feature_types.
  assert (D : forall z, 255 < z -> chk_u 8 z = Panic).
  { intros z Hz. unfold chk_u, u_fits. rewrite (proj2 (Z.ltb_ge z (2 ^ 8))) by lia. rewrite Bool.andb_false_r. reflexivity. }
  destruct (Z.eq_dec h 255) as [->|Nh].
  - cbn [mapM]. unfold haar_features_of_type at 1, block_sizes. cbn [shape fst snd].
    rewrite chk_u_ok by (split; [pose proof (Z.div_pos w 2 ltac:(lia) ltac:(lia)); lia|pose proof (Z.div_lt_upper_bound w 2 200 ltac:(lia) ltac:(lia)); lia]).
    cbn [bind]. rewrite (D (255 / 1 + 1)) by (rewrite Z.div_1_r; lia). reflexivity.
  - assert (w = 255) by (destruct H; [assumption|contradiction]). subst w.
    assert (OKH : forall k, 1 <= k <= 3 -> 0 <= h / k <= 254) by (intros; split; [apply Z.div_pos; lia|apply Z.div_le_upper_bound; nia]).
    unfold mapM. rewrite (of_type_ok TwoRegionHorizontal), (of_type_ok ThreeRegionHorizontal); cbn [shape fst snd]; try lia; try (apply OKH; lia);
      try (change (255 / 2) with 127; lia); try (change (255 / 3) with 85; lia).
    cbn [bind]. unfold haar_features_of_type at 1, block_sizes. cbn [shape fst snd].
    rewrite (D (255 / 1 + 1)) by (rewrite Z.div_1_r; lia). reflexivity.
Qed.

(** * Drawing *)
(** [im1] is [im0] with the pixels of Q replaced by c *)
Definition paints {P} (Q : Z -> Z -> bool) (c : Z -> Z -> P) (im0 im1 : image P) : Prop :=
  wf im1 /\ iw im1 = iw im0 /\ ih im1 = ih im0 /\
  forall a b, get im1 a b = if Q a b then Some (c a b) else get im0 a b.

Lemma paint_loop {P} (Q : Z -> Z -> Z -> bool) (c : Z -> Z -> P) lo hi body W H im : lo <= hi -> wf im -> iw im = W -> ih im = H ->
  (forall i im0, lo <= i < hi -> wf im0 -> iw im0 = W -> ih im0 = H -> exists im1, body i im0 = Ok im1 /\ paints (Q i) c im0 im1) ->
  exists im1, for_range lo hi body im = Ok im1 /\ paints (fun a b => existsb (fun i => Q i a b) (zrange lo hi)) c im im1.
Proof.
  intros Hl Hwf HW HH Hb.
  apply (for_range_ind (fun i im1 => paints (fun a b => existsb (fun i => Q i a b) (zrange lo i)) c im im1)); [exact Hl| |].
  - split; [exact Hwf|]. split; [reflexivity|]. split; [reflexivity|]. intros a b. rewrite zrange_empty by lia. reflexivity.
  - intros i im0 Hi (P1 & P2 & P3 & P4). destruct (Hb i im0 Hi P1) as (im1 & E & (Q1 & Q2 & Q3 & Q4)); [congruence|congruence|].
    exists im1. split; [exact E|]. split; [exact Q1|]. split; [congruence|]. split; [congruence|].
    intros a b. rewrite Q4, P4. rewrite zrange_snoc by lia. rewrite existsb_app. cbn [existsb]. rewrite Bool.orb_false_r.
    destruct (Q i a b), (existsb _ _); reflexivity.
Qed.

Section Draw.
Context {P : Type} (white black : P) (im : image P) (f : feature).
Hypothesis Hwf : wf im.
Hypothesis Hv : valid (iw im) (ih im) f.
Hypothesis Hl : left f + feature_width f <= 255.
Hypothesis Ht : top f + feature_height f <= 255.
Let bw := block_width f.
Let bh := block_height f.
Let sw := fst (shape (ftype f)).
Let sh := snd (shape (ftype f)).

Definition inside (a b : Z) : bool :=
  (left f <=? a) && (a <? left f + feature_width f) && (top f <=? b) && (b <? top f + feature_height f).

Lemma draw_facts : 1 <= bw /\ 1 <= bh /\ 0 <= left f /\ 0 <= top f /\
  left f + sw * bw <= iw im /\ top f + sh * bh <= ih im /\ left f + sw * bw <= 255 /\ top f + sh * bh <= 255 /\ 1 <= sw /\ 1 <= sh.
Proof.
  clear - Hv Hl Ht. pose proof (shape_range (ftype f)). destruct Hv as (A & B & C & D & E & F). unfold feature_width, feature_height in *. unfold bw, bh, sw, sh. lia.
Qed.

Lemma draw_ok : exists out, draw_haar_feature_mut white black im f = Ok out /\
  paints inside (fun x y => if positive f x y then white else black) im out.
Proof.
  destruct draw_facts as (A & B & C & D & E & F & G & I & J & K).
  set (c := fun x y => if positive f x y then white else black).
  unfold draw_haar_feature_mut. fold bw bh sw sh.
  destruct (paint_loop (fun i a b => existsb (fun j => existsb (fun x => existsb (fun y => (a =? left f + i * bw + x) && (b =? top f + j * bh + y)) (zrange 0 bh)) (zrange 0 bw)) (zrange 0 sh))
    c 0 sw (fun w im => for_range 0 sh (fun h im =>
      let color := if (w + h + match fsign f with Positive => 0 | Negative => 1 end) mod 2 =? 0 then white else black in
      for_range 0 bw (fun x im => for_range 0 bh (fun y im =>
          t <- chk_u 8 (w * bw) ;; t <- chk_u 8 (left f + t) ;; px <- chk_u 8 (t + x) ;;
          t <- chk_u 8 (h * bh) ;; t <- chk_u 8 (top f + t) ;; py <- chk_u 8 (t + y) ;;
          put_pixel im px py color) im) im) im) (iw im) (ih im) im) as (out & EO & PO); auto; [lia| |].
  - intros i im0 Hi W0 X0 Y0. refine (paint_loop _ c 0 sh _ (iw im) (ih im) im0 ltac:(lia) W0 X0 Y0 _).
    clear im0 W0 X0 Y0. intros j im0 Hj W0 X0 Y0. cbv zeta. refine (paint_loop _ c 0 bw _ (iw im) (ih im) im0 ltac:(lia) W0 X0 Y0 _).
    clear im0 W0 X0 Y0. intros x im0 Hx W0 X0 Y0. refine (paint_loop _ c 0 bh _ (iw im) (ih im) im0 ltac:(lia) W0 X0 Y0 _).
    clear im0 W0 X0 Y0. intros y im0 Hy W0 X0 Y0.
    assert (0 <= i * bw /\ i * bw + bw <= sw * bw) by nia. assert (0 <= j * bh /\ j * bh + bh <= sh * bh) by nia.
    repeat (rewrite chk_u_ok by lia; cbn [bind]).
    rewrite put_pixel_ok by lia. eexists. split; [reflexivity|].
    assert (EC : (if (i + j + match fsign f with Positive => 0 | Negative => 1 end) mod 2 =? 0 then white else black) = c (left f + i * bw + x) (top f + j * bh + y)).
    { unfold c, positive. fold bw bh. replace (left f + i * bw + x - left f) with (i * bw + x) by ring. replace (top f + j * bh + y - top f) with (j * bh + y) by ring.
      rewrite !Z.div_add_l by lia. rewrite (Z.div_small x bw), (Z.div_small y bh) by lia. rewrite !Z.add_0_r.
      rewrite Zmod_even. destruct (fsign f).
      - rewrite Z.add_0_r. destruct (Z.even (i + j)); reflexivity.
      - rewrite (Z.even_add (i + j) 1). cbn [Z.even]. destruct (Z.even (i + j)); reflexivity. }
    split; [apply wf_put; exact W0|]. split; [apply iw_put|]. split; [apply ih_put|].
    intros a b. rewrite get_put by (assumption || lia).
    destruct (Z.eqb_spec a (left f + i * bw + x)) as [->|Na]; cbn [andb]; [|reflexivity].
    destruct (Z.eqb_spec b (top f + j * bh + y)) as [->|Nb].
    + rewrite EC. reflexivity.
    + reflexivity.
  - exists out. split; [exact EO|]. destruct PO as (P1 & P2 & P3 & P4). split; [exact P1|]. split; [exact P2|]. split; [exact P3|].
    intros a b. rewrite P4.
    match goal with |- (if ?u then _ else _) = (if ?v then _ else _) => assert (Eq : u = v) end.
    { apply Bool.eq_iff_eq_true. unfold inside, feature_width, feature_height. fold bw bh sw sh. rewrite existsb_exists. split.
      - intros (i & Hi & Q1). apply existsb_exists in Q1. destruct Q1 as (j & Hj & Q1). apply existsb_exists in Q1. destruct Q1 as (x & Hx & Q1).
        apply existsb_exists in Q1. destruct Q1 as (y & Hy & Q1). apply in_zrange in Hi, Hj, Hx, Hy. apply Bool.andb_true_iff in Q1.
        assert (0 <= i * bw /\ i * bw + bw <= sw * bw) by nia. assert (0 <= j * bh /\ j * bh + bh <= sh * bh) by nia. lia.
      - intros Q1. assert (Ha : 0 <= a - left f < sw * bw) by lia. assert (Hb : 0 <= b - top f < sh * bh) by lia.
        pose proof (Z.div_mod (a - left f) bw ltac:(lia)). pose proof (Z.mod_pos_bound (a - left f) bw ltac:(lia)).
        pose proof (Z.div_mod (b - top f) bh ltac:(lia)). pose proof (Z.mod_pos_bound (b - top f) bh ltac:(lia)).
        exists ((a - left f) / bw). split; [apply in_zrange; split; [apply Z.div_pos; lia|apply Z.div_lt_upper_bound; lia]|].
        apply existsb_exists. exists ((b - top f) / bh). split; [apply in_zrange; split; [apply Z.div_pos; lia|apply Z.div_lt_upper_bound; lia]|].
        apply existsb_exists. exists ((a - left f) mod bw). split; [apply in_zrange; lia|].
        apply existsb_exists. exists ((b - top f) mod bh). split; [apply in_zrange; lia|]. lia. }
    rewrite Eq. reflexivity.
Qed.
End Draw.
