From Flocq Require Import Core BinarySingleNaN.
From Coq Require Import Reals Lra.
From Verif Require Import EuclidProofs Base BaseProofs RasterProofs GeomProofs FilterModel FilterSpec FilterProofs Props_Filter.
From Verif Require Import Float FloatProofs FloatErr SuppressProofs SharpenModel SharpenSpec.
Local Ltac Zify.zify_post_hook ::= idtac.

(** * 3x3 filters *)
Lemma oadd_ok n a b : i_fits n (a + b) = true -> oadd n (Some a) (Some b) = Some (a + b).
Proof. intros H. cbn. rewrite H. reflexivity. Qed.
Lemma omul_ok n a b : i_fits n (a * b) = true -> omul n (Some a) (Some b) = Some (a * b).
Proof. intros H. cbn. rewrite H. reflexivity. Qed.

Lemma wf_lift {A} (im : image A) : wf im -> wf (lift1 im).
Proof. intros (H1 & H2 & H3). unfold wf, lift1, zlen in *. cbn. rewrite map_length. auto. Qed.
Lemma get_lift {A} (im : image A) x y : get (lift1 im) x y = option_map (fun p => [p]) (get im x y).
Proof.
  unfold get, inb, lift1. cbn [iw ih idata]. destruct (_ && _)%bool; [|reflexivity].
  unfold znth. destruct (_ <=? _); [|reflexivity]. apply nth_error_map.
Qed.
Lemma channels_lift {A} (im : image A) : wf im -> channels 1 (lift1 im).
Proof.
  intros W. split; [apply wf_lift, W|]. intros x y p G. rewrite get_lift in G. destruct (get im x y); [|discriminate].
  injection G as <-. reflexivity.
Qed.
Lemma rep_lift (im : image Z) x y : rep_chan 0 (lift1 im) 0 x y = gray_rep im x y.
Proof.
  unfold rep_chan, gray_rep. rewrite get_lift. cbn [iw ih lift1]. destruct (get im _ _); reflexivity.
Qed.
Lemma gray_rep_u8 im x y : gray8 im -> 0 <= gray_rep im x y <= 255.
Proof.
  intros (W & U). unfold gray_rep. destruct (get im _ _) as [v|] eqn:G; [|lia]. exact (U _ _ _ G).
Qed.

Lemma mapM_app {A B} (f : A -> res B) l1 l2 a b : mapM f l1 = Ok a -> mapM f l2 = Ok b -> mapM f (l1 ++ l2) = Ok (a ++ b).
Proof.
  revert a. induction l1 as [|x l1 IH]; intros a H1 H2.
  - cbn in H1. injection H1 as <-. exact H2.
  - cbn [app mapM] in *. destruct (f x); try discriminate H1. cbn [bind] in *. destruct (mapM f l1) as [r| |]; try discriminate H1.
    cbn [bind] in H1. injection H1 as <-. rewrite (IH r) by auto. reflexivity.
Qed.
Lemma lower_ok (out : image (list (option Z))) w h v : 0 <= w -> 0 <= h ->
  image_of 1 w h out (fun _ x y => Some (v x y)) -> lower1 out = Ok (gen w h v).
Proof.
  intros Hw Hh (E1 & E2 & (W & Ch) & P). unfold lower1.
  assert (E : out = gen w h (fun x y => [Some (v x y)])).
  { apply image_ext; auto; [apply wf_gen; assumption|]. intros x y Hx Hy.
    rewrite E1 in Hx. rewrite E2 in Hy. destruct (P x y) as (p & Gp & C); [lia|lia|]. rewrite Gp, get_gen_in by lia.
    pose proof (Ch _ _ _ Gp) as L. pose proof (C 0 ltac:(lia)) as C0.
    destruct p as [|a [|b p]]; [discriminate L| |exfalso; rewrite !zlen_cons in L; pose proof (zlen_nonneg p); lia].
    cbn in C0. congruence. }
  subst out. unfold gen. cbn [idata iw ih].
  set (F := fun p : list (option Z) => match p with [Some v] => Ok v | _ => Panic end).
  assert (Row : forall y l, mapM F (map (fun x => [Some (v x y)]) l) = Ok (map (fun x => v x y) l)).
  { intros y l. induction l as [|x l IH]; [reflexivity|]. cbn [map mapM]. rewrite IH. reflexivity. }
  assert (All : forall l, mapM F (flat_map (fun y => map (fun x => [Some (v x y)]) (zrange 0 w)) l) = Ok (flat_map (fun y => map (fun x => v x y) (zrange 0 w)) l)).
  { induction l as [|y l IH]; [reflexivity|]. cbn [flat_map]. apply mapM_app; auto. }
  rewrite All. reflexivity.
Qed.

(** nine values, their weighted sum within the range of the type *)
Lemma nine_ok n (src : Z -> Z) (k : list Z) : 16 <= n -> (forall i, 0 <= src i <= 255) ->
  k = sharpen_kernel \/ k = four_laplacian ->
  weighted_sum (Some 0) (oadd n) (omul n) Some (map Some k) src =
  Some (if match k with [] => true | a :: b :: _ => b =? -1 | _ => true end
        then 5 * src 4 - (src 1 + src 3 + src 5 + src 7) else src 1 + src 3 + src 5 + src 7 - 4 * src 4).
Proof.
  intros Hn S K. unfold weighted_sum.
  assert (FIT : forall z, - 2000 <= z <= 2000 -> i_fits n z = true).
  { intros z Hz. unfold i_fits. assert (2 ^ 15 <= 2 ^ (n - 1)) by (apply Z.pow_le_mono_r; lia).
    change (2 ^ 15) with 32768 in *. lia. }
  pose proof (S 0); pose proof (S 1); pose proof (S 2); pose proof (S 3); pose proof (S 4);
  pose proof (S 5); pose proof (S 6); pose proof (S 7); pose proof (S 8).
  destruct K as [-> | ->]; unfold sharpen_kernel, four_laplacian; cbn [map];
    match goal with |- context [combine ?z ?l] => change z with [0; 1; 2; 3; 4; 5; 6; 7; 8] end; cbn [combine fold_left];
    rewrite !omul_ok by (apply FIT; lia);
    repeat (rewrite oadd_ok by (apply FIT; lia)); f_equal.
  - change (-1 =? -1) with true. cbv iota. lia.
  - change (1 =? -1) with false. cbv iota. lia.
Qed.

Lemma filter3_ok n clamp k im : gray8 im -> 16 <= n -> k = sharpen_kernel \/ k = four_laplacian ->
  let v := fun x y => clamp (if match k with [] => true | a :: b :: _ => b =? -1 | _ => true end
        then 5 * gray_rep im x y - cross_sum im x y else cross_sum im x y - 4 * gray_rep im x y) in
  filter_clamped3 n clamp k im = Ok (gen (iw im) (ih im) v) /\
  filter_clamped3_parallel n clamp k im = Ok (gen (iw im) (ih im) v).
Proof.
  intros G Hn K v. pose proof G as (W & _). pose proof W as (Hw & Hh & _).
  assert (EK : kernel_new (map Some k) 3 3 = Ok (mkKernel (map Some k) 3 3)) by (destruct K as [-> | ->]; reflexivity).
  assert (L : zlen (map Some k) < 2 ^ 32) by (destruct K as [-> | ->]; reflexivity).
  unfold filter_clamped3, filter_clamped3_parallel. rewrite EK. cbn [bind].
  rewrite (c27_filter_parallel Z (option Z) (option Z) (Some 0) (oadd n) (omul n) Some (option_map clamp) 0 (Some 0) 1 (lift1 im) (map Some k) 3 3)
    by (auto using channels_lift; lia).
  destruct (c27_filter Z (option Z) (option Z) (Some 0) (oadd n) (omul n) Some (option_map clamp) 0 (Some 0) 1 (lift1 im) (map Some k) 3 3 (mkKernel (map Some k) 3 3))
    as (out & E & I); auto using channels_lift; try lia.
  rewrite E. cbn [bind]. cut (lower1 out = Ok (gen (iw im) (ih im) v)); [auto|].
  apply lower_ok; auto. destruct I as (I1 & I2 & I3 & I4). split; [exact I1|]. split; [exact I2|]. split; [exact I3|].
  intros x y Hx Hy. destruct (I4 x y Hx Hy) as (p & Gp & C). exists p. split; [exact Gp|].
  intros c Hc. rewrite C by assumption. f_equal. assert (c = 0) by lia. subst c.
  rewrite (nine_ok n) by (auto; intros; rewrite rep_lift; apply gray_rep_u8; exact G).
  cbn [option_map]. unfold v. rewrite !rep_lift.
  change (4 mod 3) with 1. change (4 / 3) with 1. change (1 mod 3) with 1. change (1 / 3) with 0. change (3 mod 3) with 0. change (3 / 3) with 1.
  change (5 mod 3) with 2. change (5 / 3) with 1. change (7 mod 3) with 1. change (7 / 3) with 2. change (3 / 2) with 1.
  replace (x + 1 - 1) with x by lia. replace (y + 1 - 1) with y by lia. replace (y + 0 - 1) with (y - 1) by lia.
  replace (x + 0 - 1) with (x - 1) by lia. replace (x + 2 - 1) with (x + 1) by lia. replace (y + 2 - 1) with (y + 1) by lia.
  unfold cross_sum. do 2 f_equal. destruct (match k with [] => true | _ => _ end); lia.
Qed.

(** * Error statistics *)
Definition flt_sum (l : list (list Z * list Z)) (s : f64) : f64 :=
  fold_left (fun s '(p, q) =>
    fold_left (fun s '(c, d) =>
      let diff := fsub (of_int c : f64) (of_int d) in fadd s (fmul diff diff)) (combine p q) s) l s.


Section Err.
  Context (max : Z) (Hmax : 0 <= max <= 2 ^ 26).
  Lemma sq_nonneg p q : 0 <= sq_diffs p q.
  Proof. revert q. induction p as [|c p IH]; intros [|d q]; cbn [sq_diffs]; try lia. pose proof (Z.square_nonneg (c - d)). specialize (IH q). lia. Qed.
  Lemma sq_bound p : forall q, (forall c, In c p -> 0 <= c <= max) -> (forall c, In c q -> 0 <= c <= max) ->
    sq_diffs p q <= zlen p * (max * max).
  Proof.
    induction p as [|c p IH]; intros [|d q] P Q; cbn [sq_diffs]; try (pose proof (zlen_nonneg p); rewrite ?zlen_cons; nia).
    - unfold zlen; cbn; lia.
    - unfold zlen; cbn; lia.
    - rewrite zlen_cons. assert ((c - d) * (c - d) <= max * max).
      { pose proof (P c (or_introl eq_refl)). pose proof (Q d (or_introl eq_refl)). nia. }
      specialize (IH q ltac:(intros; apply P; right; assumption) ltac:(intros; apply Q; right; assumption)). lia.
  Qed.

  Lemma chan_sum p : forall q (s : f64) z, (forall c, In c p -> 0 <= c <= max) -> (forall c, In c q -> 0 <= c <= max) ->
    iz s z -> 0 <= z -> z + sq_diffs p q <= 2 ^ 53 ->
    iz (fold_left (fun s '(c, d) =>
      let diff := fsub (of_int c : f64) (of_int d) in fadd s (fmul diff diff)) (combine p q) s) (z + sq_diffs p q).
  Proof.
    induction p as [|c p IH]; intros [|d q] s z P Q D Hz B; cbn [combine fold_left sq_diffs]; try (rewrite Z.add_0_r; exact D).
    pose proof (P c (or_introl eq_refl)) as Pc. pose proof (Q d (or_introl eq_refl)) as Qd.
    pose proof (sq_nonneg p q) as NN. cbn [sq_diffs] in B. pose proof (Z.square_nonneg (c - d)) as SN.
    change (2 ^ 26) with 67108864 in *. change (2 ^ 53) with 9007199254740992 in *.
    assert (D1 : iz (of_int c) c) by (apply iz_int; change (2 ^ 53) with 9007199254740992; lia).
    assert (D2 : iz (of_int d) d) by (apply iz_int; change (2 ^ 53) with 9007199254740992; lia).
    assert (D3 : iz (fsub (of_int c : f64) (of_int d)) (c - d)) by (apply iz_sub; [exact D1|exact D2|change (2 ^ 53) with 9007199254740992; lia]).
    assert (D4 : iz (fmul (fsub (of_int c : f64) (of_int d)) (fsub (of_int c) (of_int d))) ((c - d) * (c - d))).
    { apply iz_mul; [exact D3|exact D3|change (2 ^ 53) with 9007199254740992; lia]. }
    replace (z + ((c - d) * (c - d) + sq_diffs p q)) with (z + (c - d) * (c - d) + sq_diffs p q) by lia.
    apply IH; [intros; apply P; right; assumption|intros; apply Q; right; assumption| |lia|lia].
    apply iz_add; [exact D|exact D4|change (2 ^ 53) with 9007199254740992; lia].
  Qed.

  Lemma sum_sq_nonneg l r : 0 <= sum_sq l r.
  Proof. revert r. induction l as [|p l IH]; intros [|q r]; cbn [sum_sq]; try lia. pose proof (sq_nonneg p q). specialize (IH r). lia. Qed.

  Definition small_px (p : list Z) : Prop := forall c, In c p -> 0 <= c <= max.
  Lemma img_sum l : forall r (s : f64) z, (forall p, In p l -> small_px p) -> (forall p, In p r -> small_px p) ->
    iz s z -> 0 <= z -> z + sum_sq l r <= 2 ^ 53 ->
    iz (flt_sum (combine l r) s) (z + sum_sq l r).
  Proof.
    induction l as [|p l IH]; intros [|q r] s z P Q D Hz B; cbn [combine flt_sum fold_left sum_sq]; try (rewrite Z.add_0_r; exact D).
    cbn [sum_sq] in B. pose proof (sum_sq_nonneg l r). pose proof (sq_nonneg p q).
    replace (z + (sq_diffs p q + sum_sq l r)) with (z + sq_diffs p q + sum_sq l r) by lia.
    apply IH; [intros; apply P; right; assumption|intros; apply Q; right; assumption| |lia|lia].
    apply chan_sum; [apply P; left; reflexivity|apply Q; left; reflexivity|exact D|lia|lia].
  Qed.

  Lemma sum_bound ch l : forall r, (forall p, In p l -> zlen p = ch /\ small_px p) -> (forall p, In p r -> small_px p) ->
    sum_sq l r <= zlen l * ch * (max * max).
  Proof.
    induction l as [|p l IH]; intros [|q r] P Q; cbn [sum_sq].
    - unfold zlen; cbn; lia.
    - unfold zlen; cbn; lia.
    - destruct (P p (or_introl eq_refl)) as (L & _). pose proof (zlen_nonneg p). pose proof (zlen_nonneg (p :: l)). rewrite <- L. nia.
    - destruct (P p (or_introl eq_refl)) as (L & Sp). pose proof (sq_bound p q Sp (Q q (or_introl eq_refl))) as B. rewrite L in B.
      specialize (IH r ltac:(intros; apply P; right; assumption) ltac:(intros; apply Q; right; assumption)).
      rewrite zlen_cons. lia.
  Qed.
End Err.

Lemma sq_zero p : forall q, zlen p = zlen q -> (sq_diffs p q = 0 <-> p = q).
Proof.
  induction p as [|c p IH]; intros [|d q] L; cbn [sq_diffs].
  - tauto.
  - exfalso. rewrite zlen_cons in L. pose proof (zlen_nonneg q). change (zlen []) with 0 in L. lia.
  - exfalso. rewrite zlen_cons in L. pose proof (zlen_nonneg p). change (zlen []) with 0 in L. lia.
  - rewrite !zlen_cons in L. pose proof (Z.square_nonneg (c - d)). pose proof (sq_nonneg p q).
    specialize (IH q ltac:(lia)). split; intros H1.
    + assert (c = d) by nia. subst. f_equal. apply IH. lia.
    + injection H1 as <- <-. rewrite (proj2 IH eq_refl). lia.
Qed.
Lemma sum_zero l : forall r, zlen l = zlen r -> (forall p q, In p l -> In q r -> zlen p = zlen q) -> (sum_sq l r = 0 <-> l = r).
Proof.
  induction l as [|p l IH]; intros [|q r] L C; cbn [sum_sq].
  - tauto.
  - exfalso. rewrite zlen_cons in L. pose proof (zlen_nonneg r). change (zlen []) with 0 in L. lia.
  - exfalso. rewrite zlen_cons in L. pose proof (zlen_nonneg l). change (zlen []) with 0 in L. lia.
  - rewrite !zlen_cons in L. pose proof (sum_sq_nonneg l r). pose proof (sq_nonneg p q).
    pose proof (sq_zero p q (C p q (or_introl eq_refl) (or_introl eq_refl))) as Z0.
    specialize (IH r ltac:(lia) ltac:(intros; apply C; right; assumption)). split; intros H1.
    + f_equal; [apply Z0; lia|apply IH; lia].
    + injection H1 as <- <-. rewrite (proj2 Z0 eq_refl), (proj2 IH eq_refl). lia.
Qed.
Lemma sum_sym l : forall r, sum_sq l r = sum_sq r l.
Proof.
  assert (S : forall p q, sq_diffs p q = sq_diffs q p).
  { induction p as [|c p IH]; intros [|d q]; cbn [sq_diffs]; auto. rewrite (IH q). f_equal. ring. }
  induction l as [|p l IH]; intros [|q r]; cbn [sum_sq]; auto. rewrite (IH r), S. reflexivity.
Qed.

Lemma rnd_pos_nonzero r : (/ IZR (2 ^ 32) <= r)%R -> (0 < rnd 53 1024 r)%R.
Proof.
  intros H. apply Rlt_le_trans with (/ IZR (2 ^ 32))%R.
  - apply Rinv_0_lt_compat. apply IZR_lt. reflexivity.
  - assert (E : rnd 53 1024 (/ IZR (2 ^ 32)) = (/ IZR (2 ^ 32))%R).
    { change (/ IZR (2 ^ 32))%R with (bpow radix2 (-32)). replace (bpow radix2 (-32)) with (IZR 1 * bpow radix2 (-32))%R by ring.
      apply (rnd_id 53 1024), (dy_format 53 1024); lia. }
    rewrite <- E. apply (rnd_le 53 1024). exact H.
Qed.
