(** C113: the distance transforms behave like distances and agree with each other. *)
From Coq Require Import Reals Classical_Prop.
From Flocq Require Import Core BinarySingleNaN.
From Verif Require Import Base BaseProofs RasterProofs Float DistanceModel DistanceSpec DistanceProofs Props_Distance EuclidModel EuclidSpec EuclidProofs EuclidProofs2 Props_Euclid.
Local Ltac Zify.zify_post_hook ::= idtac.
Local Open Scope Z_scope.

(** the value of one pixel: the capped distance, or the capped blank value *)
Definition dt_value (linf : bool) (im : image Z) (x y v : Z) : Prop :=
  ((forall fx fy, ~ is_fg im fx fy) /\ v = Z.min 255 (iw im + ih im)) \/ (exists m, nearest linf (is_fg im) x y m /\ v = Z.min 255 m).
Lemma dt_run linf im out : gray8 im -> iw im + ih im < 2 ^ 32 -> distance_transform linf im = Ok out ->
  wf out /\ iw out = iw im /\ ih out = ih im /\ forall x y v, get out x y = Some v -> dt_value linf im x y v.
Proof.
  intros G H E. destruct (c20_distance_transform linf im G H) as (o & E' & W & D1 & D2 & V). assert (o = out) by congruence. subst o.
  split; [exact W|]. split; [exact D1|]. split; [exact D2|]. intros x y v P. pose proof (get_inb _ _ _ _ P) as (Hx & Hy). rewrite D1 in Hx. rewrite D2 in Hy.
  destruct (V x y Hx Hy) as (v' & P' & N & M). assert (v' = v) by congruence. subst v'.
  destruct (classic (exists fx fy, is_fg im fx fy)) as [(fx & fy & F)|F].
  - right. destruct (c20_nearest_exists linf im x y fx fy F) as (m & Hm). exists m. auto.
  - left. assert (F' : forall fx fy, ~ is_fg im fx fy) by (intros fx fy K; apply F; eauto). auto.
Qed.
Lemma dist_fg linf im x y fx fy : 0 <= x < iw im -> 0 <= y < ih im -> is_fg im fx fy -> 0 <= dist linf x y fx fy <= iw im + ih im - 1.
Proof. intros Hx Hy (v & G & _). apply get_inb in G. unfold dist. destruct linf; lia. Qed.

(** zero exactly on the foreground *)
Theorem c113_zero : forall linf im out, gray8 im -> iw im + ih im < 2 ^ 32 -> distance_transform linf im = Ok out ->
  forall x y, 0 <= x < iw im -> 0 <= y < ih im -> (get out x y = Some 0 <-> is_fg im x y).
Proof.
  intros linf im out G H E x y Hx Hy. destruct (dt_run linf im out G H E) as (W & D1 & D2 & V).
  destruct (get_some out x y W) as (v & P); [lia|lia|]. rewrite P. destruct (V x y v P) as [(N & ->)|(m & (A & B) & ->)].
  - split; [intros K; injection K as K; lia|]. intros K. destruct (N x y K).
  - destruct A as (fx & fy & F & <-). pose proof (dist_fg linf im x y fx fy Hx Hy F) as R. split.
    + intros K. assert (Z0 : dist linf x y fx fy = 0) by (injection K as K; lia).
      assert (fx = x /\ fy = y) as (-> & ->) by (unfold dist in Z0; destruct linf; lia). exact F.
    + intros F'. specialize (B x y F'). assert (dist linf x y x y = 0) by (unfold dist; destruct linf; lia).
      f_equal. lia.
Qed.

(** the value changes at most by the distance walked *)
Theorem c113_neighbours : forall linf im out, gray8 im -> iw im + ih im < 2 ^ 32 -> distance_transform linf im = Ok out ->
  forall x y x' y' v v', get out x y = Some v -> get out x' y' = Some v' -> Z.abs (v - v') <= dist linf x y x' y'.
Proof.
  intros linf im out G H E x y x' y' v v' P P'. destruct (dt_run linf im out G H E) as (W & D1 & D2 & V).
  pose proof (V _ _ _ P) as K. pose proof (V _ _ _ P') as K'.
  assert (Pos : 0 <= dist linf x y x' y') by (unfold dist; destruct linf; lia).
  destruct K as [(N & ->)|(m & ((fx & fy & F & <-) & B) & ->)]; destruct K' as [(N' & ->)|(m' & ((fx' & fy' & F' & <-) & B') & ->)].
  - lia.
  - destruct (N _ _ F').
  - destruct (N' _ _ F).
  - specialize (B _ _ F'). specialize (B' _ _ F).
    assert (T1 : dist linf x y fx' fy' <= dist linf x y x' y' + dist linf x' y' fx' fy') by (unfold dist; destruct linf; lia).
    assert (T2 : dist linf x' y' fx fy <= dist linf x y x' y' + dist linf x y fx fy) by (unfold dist; destruct linf; lia).
    lia.
Qed.

(** more foreground, shorter distances *)
Theorem c113_monotone : forall linf a b oa ob, gray8 a -> gray8 b -> iw a = iw b -> ih a = ih b -> iw a + ih a < 2 ^ 32 ->
  (forall x y, is_fg a x y -> is_fg b x y) -> distance_transform linf a = Ok oa -> distance_transform linf b = Ok ob ->
  forall x y va vb, get oa x y = Some va -> get ob x y = Some vb -> vb <= va.
Proof.
  intros linf a b oa ob Ga Gb Dw Dh H S Ea Eb x y va vb P Q. destruct (dt_run linf a oa Ga H Ea) as (_ & D1 & D2 & V).
  destruct (dt_run linf b ob Gb ltac:(lia) Eb) as (_ & D3 & D4 & V'). pose proof (get_inb _ _ _ _ Q) as (Hx & Hy). rewrite D3 in Hx. rewrite D4 in Hy.
  destruct (V _ _ _ P) as [(N & ->)|(m & ((fx & fy & F & <-) & B) & ->)]; destruct (V' _ _ _ Q) as [(N' & ->)|(m' & ((fx' & fy' & F' & <-) & B') & ->)].
  - lia.
  - pose proof (dist_fg linf b x y fx' fy' Hx Hy F'). lia.
  - destruct (N' _ _ (S _ _ F)).
  - specialize (B' _ _ (S _ _ F)). lia.
Qed.

(** the two norms *)
Theorem c113_norms : forall im oi o1, gray8 im -> iw im + ih im < 2 ^ 32 ->
  distance_transform true im = Ok oi -> distance_transform false im = Ok o1 ->
  forall x y vi v1, get oi x y = Some vi -> get o1 x y = Some v1 -> vi <= v1 <= 2 * vi.
Proof.
  intros im oi o1 G H Ei E1 x y vi v1 P Q. destruct (dt_run true im oi G H Ei) as (_ & D1 & D2 & V). destruct (dt_run false im o1 G H E1) as (_ & D3 & D4 & V').
  pose proof (get_inb _ _ _ _ Q) as (Hx & Hy).
  destruct (V _ _ _ P) as [(N & ->)|(m & ((fx & fy & F & <-) & B) & ->)]; destruct (V' _ _ _ Q) as [(N' & ->)|(m' & ((fx' & fy' & F' & <-) & B') & ->)].
  - lia.
  - destruct (N _ _ F').
  - destruct (N' _ _ F).
  - specialize (B _ _ F'). specialize (B' _ _ F). unfold dist in *. lia.
Qed.

(** and the Euclidean transform lies between them *)
Theorem c113_euclid : forall im oi o1 oe, gray8 im -> iw im <= 2 ^ 26 -> ih im <= 2 ^ 26 -> (exists fx fy, is_fg im fx fy) ->
  distance_transform true im = Ok oi -> distance_transform false im = Ok o1 -> euclidean_squared_distance_transform im = Ok oe ->
  forall x y vi v1, get oi x y = Some vi -> get o1 x y = Some v1 ->
    exists e d, get oe x y = Some e /\ B2R e = IZR d /\ vi * vi <= d /\ (v1 < 255 -> d <= v1 * v1) /\ v1 * v1 <= 2 * d.
Proof.
  intros im oi o1 oe G Hw Hh (gx & gy & Fg) Ei E1 Ee x y vi v1 P Q.
  destruct (dt_run true im oi G ltac:(lia) Ei) as (_ & D1 & D2 & V). destruct (dt_run false im o1 G ltac:(lia) E1) as (_ & D3 & D4 & V').
  destruct (c21_euclid_partial im G Hw Hh) as (o & Eo & _ & _ & _ & O). assert (o = oe) by congruence. subst o.
  pose proof (get_inb _ _ _ _ P) as (Hx & Hy). rewrite D1 in Hx. rewrite D2 in Hy. destruct (O x y Hx Hy) as (e & Pe & [(d & ((i & j & F & Sq) & L) & _ & Re)|(N & _)]).
  2: { destruct (N gx gy Fg). }
  exists e, d. split; [exact Pe|]. split; [exact Re|].
  destruct (V _ _ _ P) as [(N & _)|(m & ((fx & fy & F1 & <-) & B) & ->)]; [destruct (N _ _ Fg)|].
  destruct (V' _ _ _ Q) as [(N & _)|(m' & ((fx' & fy' & F' & <-) & B') & ->)]; [destruct (N _ _ Fg)|].
  specialize (B _ _ F). specialize (B' _ _ F). specialize (L _ _ F'). rewrite <- Sq in L |- *. clear - B B' L. unfold dist, sq_dist in *.
  set (a := Z.abs (x - i)) in *. set (b := Z.abs (y - j)) in *.
  assert (Ea : (x - i) * (x - i) = a * a) by (unfold a; lia). assert (Eb : (y - j) * (y - j) = b * b) by (unfold b; lia).
  rewrite Ea, Eb in *. assert (Na : 0 <= a) by (unfold a; lia). assert (Nb : 0 <= b) by (unfold b; lia).
  set (c := Z.max (Z.abs (x - fx)) (Z.abs (y - fy))) in *. assert (Nc : 0 <= c) by (unfold c; lia).
  set (s := Z.abs (x - fx')) in *. set (t := Z.abs (y - fy')) in *.
  assert (Es : (x - fx') * (x - fx') = s * s) by (unfold s; lia). assert (Et : (y - fy') * (y - fy') = t * t) by (unfold t; lia).
  rewrite Es, Et in L. assert (Ns : 0 <= s) by (unfold s; lia). assert (Nt : 0 <= t) by (unfold t; lia).
  clearbody a b c s t. set (u := Z.min 255 c). assert (Hu : 0 <= u <= Z.max a b) by (unfold u; lia). clearbody u.
  split; [destruct (Z_le_dec a b); nia|]. split; [intros K; rewrite Z.min_r by lia; nia|].
  set (w := Z.min 255 (s + t)). assert (Hw : 0 <= w <= a + b) by (unfold w; lia). clearbody w.
  assert (w * w <= (a + b) * (a + b)) by nia. pose proof (Z.square_nonneg (a - b)). nia.
Qed.

Example c113_nontrivial :
  let im := mkImage 4 3 [0;0;0;0; 0;7;0;0; 0;0;0;0] in gray8 im /\ is_fg im 1 1 /\
  distance_transform true im = Ok (mkImage 4 3 [1;1;1;2; 1;0;1;2; 1;1;1;2]) /\
  distance_transform false im = Ok (mkImage 4 3 [2;1;2;3; 1;0;1;2; 2;1;2;3]) /\
  match euclidean_squared_distance_transform im with Ok oe => option_map (fun v : f64 => B2SF v) (get oe 3 2) | _ => None end = Some (B2SF (of_int 5 : f64)).
Proof.
  cbv zeta. split; [apply gray8b_ok; reflexivity|]. split; [exists 7; split; [reflexivity|lia]|]. split; [vm_compute; reflexivity|]. split; [vm_compute; reflexivity|].
  vm_compute; reflexivity.
Qed.

Print Assumptions c113_zero. Print Assumptions c113_neighbours. Print Assumptions c113_monotone. Print Assumptions c113_norms. Print Assumptions c113_euclid.
