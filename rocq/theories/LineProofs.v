(** Proofs about Bresenham lines and drawing points. *)
From Flocq Require Import Core BinarySingleNaN Plus_error.
From Coq Require Import Reals Lra.
From Verif Require Import Base BaseProofs Float FloatProofs LineModel LineSpec.
Local Ltac Zify.zify_post_hook ::= idtac.
Local Open Scope Z_scope.

(** ** Integer view of the iterator *)
Fixpoint zpts (n : nat) (x y e dx ady step : Z) : list (Z * Z) :=
  match n with
  | O => []
  | S n' => (x, y) ::
      (if e - 2 * ady <? 0
       then zpts n' (x + 1) (y + step) (e - 2 * ady + 2 * dx) dx ady step
       else zpts n' (x + 1) y (e - 2 * ady) dx ady step)
  end.

Definition swap (b : bool) (p : Z * Z) : Z * Z := if b then (snd p, fst p) else p.

Lemma dyk_m1 : dyk 24 128 (-1).
Proof. split; lia. Qed.
Lemma dyk_0 : dyk 24 128 0.
Proof. split; lia. Qed.

Lemma f32_zero : dy (-1) 0 (of_int 0 : f32).
Proof.
  pose proof (dy_int 24 128 0 dyk_0 ltac:(cbn; lia)) as D.
  apply (dy_scale _ _ 0 1) in D; [|lia]. exact D.
Qed.

Lemma chk_i_ok z : - 2 ^ 31 <= z < 2 ^ 31 -> chk_i 32 z = Ok z.
Proof.
  intros H. unfold chk_i, i_fits. change (2 ^ (32 - 1)) with (2 ^ 31).
  replace (- 2 ^ 31 <=? z) with true by lia. replace (z <? 2 ^ 31) with true by lia.
  reflexivity.
Qed.

Lemma bres_run_S n s : bres_run (S n) s =
  bind (bres_next s) (fun o => match o with
      | None => Ok []
      | Some (p, s') => ps <- bres_run n s' ;; Ok (p :: ps)
      end).
Proof. reflexivity. Qed.

Lemma bres_run_sim dx ady step steep : 0 <= ady <= dx -> dx <= 2 ^ 23 -> Z.abs step = 1 ->
  forall n x y e s,
  dy (-1) (2 * dx) (b_dx s) -> dy (-1) (2 * ady) (b_dy s) -> dy (-1) e (b_error s) ->
  0 <= e <= 2 * dx -> b_x s = x -> b_y s = y -> b_end_x s = x + Z.of_nat n - 1 ->
  b_is_steep s = steep -> b_y_step s = step ->
  Z.abs x + Z.of_nat n <= 2 ^ 25 -> Z.abs y + Z.of_nat n <= 2 ^ 25 ->
  bres_run (S n) s = Ok (map (swap steep) (zpts n x y e dx ady step)).
Proof.
  intros Ha Hdx Hst. induction n as [|n IH]; intros x y e s Ddx Ddy De He Hx Hy Hend Hs Hys Bx By.
  - cbn [bres_run]. unfold bres_next. replace (b_end_x s <? b_x s) with true by lia.
    reflexivity.
  - rewrite bres_run_S. unfold bres_next.
    replace (b_end_x s <? b_x s) with false by lia.
    rewrite chk_i_ok by lia. cbn [bind].
    pose proof (dy_sub _ _ (-1) e (2 * ady) _ _ dyk_m1 ltac:(change (2 ^ 24) with 16777216; lia) De Ddy) as D1.
    rewrite (dy_lt _ _ (-1) _ _ _ _ D1 f32_zero).
    cbn [zpts map].
    destruct (Z.ltb_spec (e - 2 * ady) 0) as [L|L].
    + rewrite chk_i_ok by lia. cbn [bind].
      pose proof (dy_add _ _ (-1) (e - 2 * ady) (2 * dx) _ _ dyk_m1 ltac:(change (2 ^ 24) with 16777216; lia) D1 Ddx) as D2.
      rewrite (IH (x + 1) (y + step) (e - 2 * ady + 2 * dx));
        cbn [b_dx b_dy b_error b_x b_y b_end_x b_is_steep b_y_step]; try assumption; try lia.
      cbn [bind]. subst. now destruct (b_is_steep s).
    + cbn [bind].
      rewrite (IH (x + 1) y (e - 2 * ady));
        cbn [b_dx b_dy b_error b_x b_y b_end_x b_is_steep b_y_step]; try assumption; try lia.
      cbn [bind]. subst. now destruct (b_is_steep s).
Qed.

(** closed form of the points *)
Definition off (dx ady i : Z) : Z := (2 * i * ady + dx - 1) / (2 * dx).

Lemma off_spec dx ady i c : 0 < dx ->
  0 <= dx - 2 * i * ady + 2 * dx * c < 2 * dx -> off dx ady i = c.
Proof.
  intros Hd H. unfold off. symmetry.
  apply (Z.div_unique _ _ c (2 * i * ady + dx - 1 - 2 * dx * c)); [left; lia|ring].
Qed.

Lemma off_prop dx ady i : 0 < dx ->
  0 <= dx - 2 * i * ady + 2 * dx * off dx ady i < 2 * dx.
Proof.
  intros Hd. unfold off.
  pose proof (Z.div_mod (2 * i * ady + dx - 1) (2 * dx) ltac:(lia)) as E.
  pose proof (Z.mod_pos_bound (2 * i * ady + dx - 1) (2 * dx) ltac:(lia)) as B.
  set (q := (2 * i * ady + dx - 1) / (2 * dx)) in *.
  set (r := (2 * i * ady + dx - 1) mod (2 * dx)) in *. lia.
Qed.

Lemma zpts_closed dx ady step x0 y0 : 0 <= ady <= dx -> 0 < dx ->
  forall n i,
  zpts n (x0 + i) (y0 + step * off dx ady i) (dx - 2 * i * ady + 2 * dx * off dx ady i) dx ady step
  = map (fun j => (x0 + j, y0 + step * off dx ady j)) (zrange i (i + Z.of_nat n)).
Proof.
  intros Ha Hd. induction n as [|n IH]; intros i.
  - rewrite zrange_empty by lia. reflexivity.
  - rewrite zrange_cons by lia. cbn [zpts map]. f_equal.
    replace (i + Z.of_nat (S n)) with ((i + 1) + Z.of_nat n) by lia.
    rewrite <- IH.
    pose proof (off_prop dx ady i Hd) as P.
    set (E := dx - 2 * i * ady + 2 * dx * off dx ady i) in *.
    destruct (Z.ltb_spec (E - 2 * ady) 0) as [L|L].
    + assert (O : off dx ady (i + 1) = off dx ady i + 1)
        by (apply off_spec; [lia|]; unfold E in *; lia).
      rewrite O.
      replace (x0 + i + 1) with (x0 + (i + 1)) by lia.
      replace (y0 + step * off dx ady i + step) with (y0 + step * (off dx ady i + 1)) by lia.
      f_equal. unfold E. lia.
    + assert (O : off dx ady (i + 1) = off dx ady i)
        by (apply off_spec; [lia|]; unfold E in *; lia).
      rewrite O.
      replace (x0 + i + 1) with (x0 + (i + 1)) by lia.
      f_equal. unfold E. lia.
Qed.

Lemma off_0 dx ady : 0 <= dx -> off dx ady 0 = 0.
Proof.
  intros H. destruct (Z.eq_dec dx 0) as [->|N].
  - reflexivity.
  - apply off_spec; lia.
Qed.
Lemma off_end dx ady : 0 < dx -> off dx ady dx = ady.
Proof. intros H. apply off_spec; lia. Qed.
Lemma off_S dx ady i : 0 < dx -> 0 <= ady <= dx ->
  off dx ady (i + 1) = off dx ady i \/ off dx ady (i + 1) = off dx ady i + 1.
Proof.
  intros Hd Ha. pose proof (off_prop dx ady i Hd). 
  destruct (Z_lt_le_dec (dx - 2 * i * ady + 2 * dx * off dx ady i - 2 * ady) 0).
  - right. apply off_spec; lia.
  - left. apply off_spec; lia.
Qed.
Lemma off_mono dx ady i : 0 < dx -> 0 <= ady <= dx -> 0 <= i <= dx -> 0 <= off dx ady i <= ady.
Proof.
  intros Hd Ha Hi. pose proof (off_prop dx ady i Hd). nia.
Qed.

(** the list of points for normalised end points: 0 <= x1 - x0, |y1 - y0| <= x1 - x0 *)
Definition line_list (x0 y0 x1 y1 : Z) : list (Z * Z) :=
  map (fun j => (x0 + j, y0 + (if y0 <? y1 then 1 else -1) * off (x1 - x0) (Z.abs (y1 - y0)) j))
      (zrange 0 (x1 - x0 + 1)).

Lemma zpts_line x0 y0 x1 y1 : 0 <= x1 - x0 -> Z.abs (y1 - y0) <= x1 - x0 ->
  zpts (Z.to_nat (x1 - x0 + 1)) x0 y0 (x1 - x0) (x1 - x0) (Z.abs (y1 - y0)) (if y0 <? y1 then 1 else -1)
  = line_list x0 y0 x1 y1.
Proof.
  intros H1 H2. unfold line_list.
  destruct (Z.eq_dec (x1 - x0) 0) as [E|N].
  - rewrite E. replace (Z.abs (y1 - y0)) with 0 by lia.
    change (Z.to_nat (0 + 1)) with 1%nat. rewrite zrange_cons, zrange_empty by lia.
    cbn [zpts map]. rewrite off_0 by lia. destruct (0 - 2 * 0 <? 0); f_equal; f_equal; lia.
  - pose proof (zpts_closed (x1 - x0) (Z.abs (y1 - y0)) (if y0 <? y1 then 1 else -1) x0 y0
                  ltac:(lia) ltac:(lia) (Z.to_nat (x1 - x0 + 1)) 0) as C.
    rewrite off_0 in C by lia.
    replace (x0 + 0) with x0 in C by lia.
    replace (y0 + (if y0 <? y1 then 1 else -1) * 0) with y0 in C by lia.
    replace (x1 - x0 - 2 * 0 * Z.abs (y1 - y0) + 2 * (x1 - x0) * 0) with (x1 - x0) in C by lia.
    rewrite C. f_equal. f_equal. lia.
Qed.

Definition norm_pts (a b : Z * Z) : list (Z * Z) :=
  let '(x0, y0) := a in
  let '(x1, y1) := b in
  if x1 <? x0 then line_list x1 y1 x0 y0 else line_list x0 y0 x1 y1.

Definition steep (a b : Z * Z) : bool := Z.abs (fst b - fst a) <? Z.abs (snd b - snd a).

Definition fpt (p : Z * Z) : f32 * f32 := (of_int (fst p), of_int (snd p)).

Lemma i32_dy m (x : f32) : dy 0 m x -> - 2 ^ 31 <= m < 2 ^ 31 -> i32_of_f32 x = m.
Proof.
  intros D H. unfold i32_of_f32. rewrite (dy_to_int _ _ _ _ m) by exact D.
  unfold zclamp. lia.
Qed.

Lemma dy_half m (x : f32) : Z.abs m <= 2 ^ 24 -> dy 0 m x -> dy (-1) m (fdiv x (of_int 2)).
Proof.
  intros H D. apply (dy_div _ _ (-1) 0 0 m 2 m); try assumption.
  - apply dyk_m1.
  - lia.
  - change (bpow radix2 0) with 1%R. change (bpow radix2 (-1)) with (/ 2)%R. lra.
  - apply dy_int; [apply dyk_0|cbn; lia].
Qed.

Lemma dy_dbl m (x : f32) : dy 0 m x -> dy (-1) (2 * m) x.
Proof. intros D. apply (dy_scale _ _ 0 1) in D; [|lia]. replace (2 * m) with (m * 2 ^ 1) by lia. exact D. Qed.

(** normalised case *)
Lemma bres_norm_run x0 y0 x1 y1 (fx0 fy0 fx1 fy1 : f32) st :
  dy 0 x0 fx0 -> dy 0 y0 fy0 -> dy 0 x1 fx1 -> dy 0 y1 fy1 ->
  Z.abs x0 <= 2 ^ 22 -> Z.abs y0 <= 2 ^ 22 -> Z.abs x1 <= 2 ^ 22 -> Z.abs y1 <= 2 ^ 22 ->
  x0 <= x1 -> Z.abs (y1 - y0) <= x1 - x0 ->
  let dx := fsub fx1 fx0 in
  let s := mkBres dx (fabs (fsub fy1 fy0)) (i32_of_f32 fx0) (i32_of_f32 fy0)
         (fdiv dx (of_int 2)) (i32_of_f32 fx1) st
         (if flt fy0 fy1 then 1 else -1) in
  bres_run (Z.to_nat (b_end_x s - b_x s + 1) + 1) s
  = Ok (map (swap st) (line_list x0 y0 x1 y1)).
Proof.
  intros D1 D2 D3 D4 B1 B2 B3 B4 Hx Hy dx s.
  assert (Ddx : dy 0 (x1 - x0) dx)
    by (apply dy_sub; [apply dyk_0|cbn; lia|assumption|assumption]).
  assert (Ddy : dy 0 (Z.abs (y1 - y0)) (fabs (fsub fy1 fy0)))
    by (apply dy_abs, dy_sub; [apply dyk_0|cbn; lia|assumption|assumption]).
  assert (I1 : b_x s = x0) by (cbn [s b_x]; apply i32_dy; [assumption|lia]).
  assert (I2 : b_y s = y0) by (cbn [s b_y]; apply i32_dy; [assumption|lia]).
  assert (I3 : b_end_x s = x1) by (cbn [s b_end_x]; apply i32_dy; [assumption|lia]).
  rewrite I1, I3, Nat.add_1_r.
  rewrite <- zpts_line by lia.
  apply (bres_run_sim (x1 - x0) (Z.abs (y1 - y0)) (if y0 <? y1 then 1 else -1) st);
    try lia; try assumption.
  - destruct (y0 <? y1); reflexivity.
  - cbn [s b_dx]. apply dy_dbl. exact Ddx.
  - cbn [s b_dy]. apply dy_dbl. exact Ddy.
  - cbn [s b_error]. apply dy_half; [cbn; lia|exact Ddx].
  - reflexivity.
  - cbn [s b_y_step]. rewrite (dy_lt _ _ 0 _ _ _ _ D2 D4). reflexivity.
Qed.

Lemma bres_points_int a b : small a -> small b ->
  bres_points (fpt a) (fpt b) =
  Ok (map (swap (steep a b)) (norm_pts (swap (steep a b) a) (swap (steep a b) b))).
Proof.
  destruct a as [ax ay], b as [bx by_]. unfold small, fpt; cbn [fst snd]. intros [A1 A2] [B1 B2].
  assert (DI : forall z, Z.abs z <= 2 ^ 22 -> dy 0 z (of_int z : f32))
    by (intros z Hz; apply dy_int; [apply dyk_0|cbn; lia]).
  pose proof (DI ax A1) as Dax. pose proof (DI ay A2) as Day.
  pose proof (DI bx B1) as Dbx. pose proof (DI by_ B2) as Dby.
  assert (DS : forall p q (fp fq : f32), Z.abs p <= 2 ^ 22 -> Z.abs q <= 2 ^ 22 ->
     dy 0 p fp -> dy 0 q fq -> dy 0 (Z.abs (p - q)) (fabs (fsub fp fq)))
    by (intros; apply dy_abs, dy_sub; [apply dyk_0|cbn; lia|assumption|assumption]).
  unfold bres_points, bres_new.
  rewrite (dy_lt _ _ 0 _ _ _ _ (DS _ _ _ _ B1 A1 Dbx Dax) (DS _ _ _ _ B2 A2 Dby Day)).
  fold (steep (ax, ay) (bx, by_)).
  change (Z.abs (bx - ax) <? Z.abs (by_ - ay)) with (steep (ax, ay) (bx, by_)).
  destruct (steep (ax, ay) (bx, by_)) eqn:ST; unfold steep in ST; cbn [fst snd] in ST;
    cbn [swap fst snd]; unfold norm_pts.
  - rewrite (dy_lt _ _ 0 _ _ _ _ Dby Day).
    destruct (Z.ltb_spec by_ ay).
    + apply (bres_norm_run by_ bx ay ax); try assumption; lia.
    + apply (bres_norm_run ay ax by_ bx); try assumption; lia.
  - rewrite (dy_lt _ _ 0 _ _ _ _ Dbx Dax).
    destruct (Z.ltb_spec bx ax).
    + apply (bres_norm_run bx by_ ax ay); try assumption; lia.
    + apply (bres_norm_run ax ay bx by_); try assumption; lia.
Qed.

(** ** Geometry of the points *)
Lemma chain_map_zrange {X} (R : X -> X -> Prop) (f : Z -> X) :
  forall n lo hi, hi = lo + Z.of_nat n ->
  (forall i, lo <= i -> i + 1 < hi -> R (f i) (f (i + 1))) ->
  chain R (map f (zrange lo hi)).
Proof.
  induction n as [|n IH]; intros lo hi E H.
  - rewrite zrange_empty by lia. exact I.
  - rewrite zrange_cons by lia. cbn [map].
    destruct n as [|n].
    + rewrite zrange_empty by lia. exact I.
    + assert (T : chain R (map f (zrange (lo + 1) hi))) by (apply IH; [lia|intros; apply H; lia]).
      rewrite zrange_cons in T |- * by lia. cbn [map] in T |- *.
      split; [apply H; lia|exact T].
Qed.

Lemma chain_map {X Y} (R : Y -> Y -> Prop) (Q : X -> X -> Prop) (f : X -> Y) l :
  (forall a b, Q a b -> R (f a) (f b)) -> chain Q l -> chain R (map f l).
Proof.
  intros H. induction l as [|a [|b l] IH]; cbn [map chain]; auto.
  intros [H1 H2]. split; [now apply H|]. apply IH. exact H2.
Qed.

Record good_line (a b : Z * Z) (pts : list (Z * Z)) : Prop := {
  gl_len : zlen pts = Z.max (Z.abs (fst b - fst a)) (Z.abs (snd b - snd a)) + 1;
  gl_chain : chain king_move pts;
  gl_first : znth pts 0 = Some a;
  gl_last : znth pts (Z.max (Z.abs (fst b - fst a)) (Z.abs (snd b - snd a))) = Some b;
  gl_near : Forall (near_line a b) pts;
  gl_box : Forall (in_box a b) pts }.

Lemma line_list_good x0 y0 x1 y1 : 0 <= x1 - x0 -> Z.abs (y1 - y0) <= x1 - x0 ->
  good_line (x0, y0) (x1, y1) (line_list x0 y0 x1 y1).
Proof.
  intros H1 H2.
  set (st := if y0 <? y1 then 1 else -1).
  assert (ST : st * Z.abs (y1 - y0) = y1 - y0) by (unfold st; destruct (Z.ltb_spec y0 y1); lia).
  assert (ST1 : st = 1 \/ st = -1) by (unfold st; destruct (y0 <? y1); auto).
  assert (MX : Z.max (Z.abs (x1 - x0)) (Z.abs (y1 - y0)) = x1 - x0) by lia.
  set (o := off (x1 - x0) (Z.abs (y1 - y0))).
  assert (L : line_list x0 y0 x1 y1 = map (fun j => (x0 + j, y0 + st * o j)) (zrange 0 (x1 - x0 + 1)))
    by reflexivity.
  clearbody st.
  assert (OB : forall i, 0 <= i <= x1 - x0 -> 0 <= o i <= Z.abs (y1 - y0)).
  { intros i Hi. unfold o. destruct (Z.eq_dec (x1 - x0) 0) as [E|N].
    - rewrite E. replace i with 0 by lia. rewrite off_0; lia.
    - apply off_mono; lia. }
  constructor; cbn [fst snd]; rewrite ?MX; rewrite L.
  - rewrite zlen_map, zlen_zrange by lia. lia.
  - apply (chain_map_zrange _ _ (Z.to_nat (x1 - x0 + 1))); [lia|].
    intros i Hi Hi2. unfold king_move; cbn [fst snd].
    destruct (off_S (x1 - x0) (Z.abs (y1 - y0)) i ltac:(lia) ltac:(lia)) as [E|E];
      fold o in E; rewrite E; clear - ST1; destruct ST1 as [T | T]; rewrite T; lia.
  - rewrite znth_map, znth_zrange by lia. cbn [option_map].
    change (0 + 0) with 0. unfold o. rewrite off_0 by lia. do 2 f_equal; lia.
  - rewrite znth_map, znth_zrange by lia. cbn [option_map].
    replace (0 + (x1 - x0)) with (x1 - x0) by lia.
    destruct (Z.eq_dec (x1 - x0) 0) as [E|N].
    + rewrite E. unfold o. rewrite off_0 by lia. do 2 f_equal; lia.
    + unfold o. rewrite off_end by lia. do 2 f_equal; lia.
  - apply Forall_forall. intros p Hp. apply in_map_iff in Hp. destruct Hp as (i & <- & Hi).
    apply in_zrange in Hi. unfold near_line; cbn [fst snd].
    rewrite MX.
    replace ((y0 + st * o i - y0) * (x1 - x0) - (x0 + i - x0) * (y1 - y0))
      with (st * (o i * (x1 - x0) - i * Z.abs (y1 - y0)))
      by (replace ((x0 + i - x0) * (y1 - y0)) with (i * (st * Z.abs (y1 - y0)))
            by (rewrite ST; ring); ring).
    rewrite Z.abs_mul. replace (Z.abs st) with 1 by (destruct ST1 as [-> | ->]; reflexivity).
    rewrite Z.mul_1_l.
    destruct (Z.eq_dec (x1 - x0) 0) as [E|N].
    + rewrite E. replace (Z.abs (y1 - y0)) with 0 by lia. lia.
    + pose proof (off_prop (x1 - x0) (Z.abs (y1 - y0)) i ltac:(lia)) as P. fold o in P.
      replace (2 * (x1 - x0) * o i) with (2 * (o i * (x1 - x0))) in P by ring.
      replace (2 * i * Z.abs (y1 - y0)) with (2 * (i * Z.abs (y1 - y0))) in P by ring.
      lia.
  - apply Forall_forall. intros p Hp. apply in_map_iff in Hp. destruct Hp as (i & <- & Hi).
    apply in_zrange in Hi. unfold in_box; cbn [fst snd].
    pose proof (OB i ltac:(lia)). destruct ST1 as [E | E]; rewrite E in *; lia.
Qed.

Lemma good_line_swap a b pts : good_line (swap true a) (swap true b) pts ->
  good_line a b (map (swap true) pts).
Proof.
  destruct a as [ax ay], b as [bx by_]. intros [G1 G2 G3 G4 G5 G6].
  cbn [swap fst snd] in *. constructor; cbn [fst snd].
  - rewrite zlen_map, G1. lia.
  - apply (chain_map _ king_move); [|exact G2].
    intros p q. unfold king_move; cbn [swap fst snd]. lia.
  - rewrite znth_map, G3. reflexivity.
  - rewrite znth_map, Z.max_comm, G4. reflexivity.
  - rewrite Forall_map. eapply Forall_impl; [|exact G5].
    intros p. unfold near_line; cbn [swap fst snd]. lia.
  - rewrite Forall_map. eapply Forall_impl; [|exact G6].
    intros p. unfold in_box; cbn [swap fst snd]. lia.
Qed.

Lemma near_line_sym a b p : near_line a b p -> near_line b a p.
Proof.
  destruct a as [ax ay], b as [bx by_], p as [px py]. unfold near_line; cbn [fst snd].
  replace ((py - by_) * (ax - bx) - (px - bx) * (ay - by_))
    with (- ((py - ay) * (bx - ax) - (px - ax) * (by_ - ay))) by ring.
  rewrite Z.abs_opp. lia.
Qed.
Lemma in_box_sym a b p : in_box a b p -> in_box b a p.
Proof. unfold in_box. lia. Qed.

Lemma norm_good a b : Z.abs (snd b - snd a) <= Z.abs (fst b - fst a) ->
  good_line a b (norm_pts a b) \/ good_line b a (norm_pts a b).
Proof.
  destruct a as [ax ay], b as [bx by_]; cbn [fst snd]. intros H. unfold norm_pts.
  destruct (Z.ltb_spec bx ax).
  - right. apply line_list_good; lia.
  - left. apply line_list_good; lia.
Qed.

Lemma bres_good a b : small a -> small b ->
  exists pts, bres_points (fpt a) (fpt b) = Ok pts /\ (good_line a b pts \/ good_line b a pts).
Proof.
  intros Ha Hb. rewrite bres_points_int by assumption. eexists; split; [reflexivity|].
  destruct (steep a b) eqn:ST; unfold steep in ST.
  - assert (N : good_line (swap true a) (swap true b) (norm_pts (swap true a) (swap true b)) \/
                good_line (swap true b) (swap true a) (norm_pts (swap true a) (swap true b)))
      by (apply norm_good; cbn [swap fst snd]; lia).
    destruct N as [N|N]; [left|right]; apply good_line_swap; exact N.
  - unfold swap. rewrite map_id. apply norm_good. lia.
Qed.

(** ** Facts about every run, whatever the floats *)
Definition major (s : bres) (p : Z * Z) : Z := if b_is_steep s then snd p else fst p.

Lemma bres_next_inv s p s' : bres_next s = Ok (Some (p, s')) ->
  b_x s <= b_end_x s /\ b_x s' = b_x s + 1 /\ b_end_x s' = b_end_x s /\ b_is_steep s' = b_is_steep s /\
  b_y_step s' = b_y_step s /\ p = (if b_is_steep s then (b_y s, b_x s) else (b_x s, b_y s)) /\
  (b_y s' = b_y s \/ b_y s' = b_y s + b_y_step s).
Proof.
  unfold bres_next. destruct (Z.ltb_spec (b_end_x s) (b_x s)); [discriminate|].
  unfold chk_i. destruct (i_fits 32 (b_x s + 1)); cbn [bind]; [|discriminate].
  destruct (flt _ _).
  - destruct (i_fits 32 (b_y s + b_y_step s)); cbn [bind]; [|discriminate].
    intros [= <- <-]. cbn. repeat split; auto; lia.
  - intros [= <- <-]. cbn. repeat split; auto; lia.
Qed.

Lemma bres_run_major n : forall s pts, bres_run n s = Ok pts ->
  zlen pts = Z.max 0 (b_end_x s - b_x s + 1) /\
  (forall i p, znth pts i = Some p -> major s p = b_x s + i) /\ NoDup pts.
Proof.
  induction n as [|n IH]; intros s pts; [discriminate|].
  rewrite bres_run_S. destruct (bres_next s) as [[[p s']|]| |] eqn:EN; cbn [bind]; try discriminate.
  - destruct (bres_run n s') as [ps| |] eqn:ER; cbn [bind]; try discriminate.
    intros [= <-]. apply bres_next_inv in EN.
    destruct EN as (N1 & N2 & N3 & N4 & N5 & N6 & N7).
    destruct (IH _ _ ER) as (I1 & I2 & I3).
    assert (M : forall q, major s' q = major s q) by (intros; unfold major; now rewrite N4).
    assert (MP : major s p = b_x s)
      by (rewrite N6; unfold major; destruct (b_is_steep s); reflexivity).
    splits.
    + rewrite zlen_cons. lia.
    + intros i q Hq. pose proof (znth_range _ _ _ Hq) as R.
      destruct (Z.eq_dec i 0) as [->|Ni].
      * rewrite znth_cons_0 in Hq. injection Hq as <-. lia.
      * replace i with ((i - 1) + 1) in Hq by lia.
        rewrite znth_cons_S in Hq by lia.
        apply I2 in Hq. rewrite M in Hq. lia.
    + constructor; [|exact I3]. intros Hin.
      apply In_znth in Hin. destruct Hin as (i & Hr & Hi).
      apply I2 in Hi. rewrite M in Hi. lia.
  - intros [= <-]. unfold bres_next in EN.
    destruct (Z.ltb_spec (b_end_x s) (b_x s)).
    + splits; [cbn; lia| |constructor].
      intros i p Hi. apply znth_range in Hi. cbn in Hi. lia.
    + unfold chk_i in EN. destruct (i_fits 32 (b_x s + 1)); cbn [bind] in EN; [|discriminate].
      destruct (flt _ _); [|discriminate].
      destruct (i_fits 32 (b_y s + b_y_step s)); cbn [bind] in EN; discriminate.
Qed.

Lemma bres_run_total n : forall s, b_end_x s - b_x s + 1 <= Z.of_nat n ->
  bres_run (S n) s <> Timeout.
Proof.
  induction n as [|n IH]; intros s H; rewrite bres_run_S.
  - unfold bres_next. replace (b_end_x s <? b_x s) with true by lia. cbn [bind]. discriminate.
  - destruct (bres_next s) as [[[p s']|]| |] eqn:EN; cbn [bind]; try discriminate.
    + apply bres_next_inv in EN. destruct EN as (N1 & N2 & N3 & _).
      specialize (IH s' ltac:(lia)).
      destruct (bres_run (S n) s'); cbn [bind]; congruence.
    + unfold bres_next, chk_i in EN.
      destruct (b_end_x s <? b_x s); [discriminate|].
      destruct (i_fits 32 (b_x s + 1)); cbn [bind] in EN; [|discriminate].
      destruct (flt _ _); [|discriminate].
      destruct (i_fits 32 (b_y s + b_y_step s)); cbn [bind] in EN; discriminate.
Qed.

Lemma bres_points_total a b : bres_points a b <> Timeout.
Proof.
  unfold bres_points. rewrite Nat.add_1_r. apply bres_run_total. lia.
Qed.

(** ** Reversing a line, for all finite floats *)
Definition fin (p : f32 * f32) : Prop := is_finite (fst p) = true /\ is_finite (snd p) = true.

Lemma inf_of_SF (x : f32) s : B2SF x = SpecFloat.S754_infinity s -> x = B754_infinity s.
Proof. destruct x; cbn; intros [=]; subst; reflexivity. Qed.

Lemma abs_sub_sym (x y : f32) : is_finite x = true -> is_finite y = true ->
  fabs (fsub x y) = fabs (fsub y x).
Proof.
  intros Fx Fy. unfold fabs, fsub.
  pose proof (Bminus_correct 24 128 _ _ mode_NE x y Fx Fy) as C1.
  pose proof (Bminus_correct 24 128 _ _ mode_NE y x Fy Fx) as C2.
  assert (R : round radix2 (SpecFloat.fexp 24 128) (round_mode mode_NE) (B2R y - B2R x) =
             (- round radix2 (SpecFloat.fexp 24 128) (round_mode mode_NE) (B2R x - B2R y))%R).
  { replace (B2R y - B2R x)%R with (- (B2R x - B2R y))%R by ring.
    apply round_NE_opp. }
  rewrite R, Rabs_Ropp in C2.
  destruct (Rlt_bool _ _).
  - destruct C1 as (A1 & A2 & _). destruct C2 as (B1 & B2 & _).
    apply B2R_Bsign_inj.
    + rewrite is_finite_Babs. exact A2.
    + rewrite is_finite_Babs. exact B2.
    + rewrite !B2R_Babs, A1, B1, Rabs_Ropp. reflexivity.
    + destruct (Bminus mode_NE y x); try discriminate B2;
        destruct (Bminus mode_NE x y); try discriminate A2; reflexivity.
  - destruct C1 as (A1 & _). destruct C2 as (B1 & _).
    cbn in A1, B1. apply inf_of_SF in A1, B1. rewrite A1, B1. reflexivity.
Qed.

Lemma flt_R (x y : f32) : is_finite x = true -> is_finite y = true ->
  flt x y = Rlt_bool (B2R x) (B2R y).
Proof. intros. now apply Bltb_correct. Qed.

Lemma sub_zero (x y : f32) : is_finite x = true -> is_finite y = true -> B2R x = B2R y ->
  dy 0 0 (fsub x y).
Proof.
  intros Fx Fy E. unfold fsub.
  pose proof (Bminus_correct 24 128 _ _ mode_NE x y Fx Fy) as C.
  rewrite E, Rminus_eq_0, round_0, Rabs_R0, Rlt_bool_true in C
    by first [apply bpow_gt_0 | apply valid_rnd_round_mode].
  destruct C as (C1 & C2 & _). split; [exact C2|]. rewrite C1. ring.
Qed.

Lemma dy0_R (z : f32) : dy 0 0 z -> is_finite z = true /\ B2R z = 0%R.
Proof. intros [F R]. split; [exact F|]. rewrite R. ring. Qed.

(** a positive difference is never rounded to zero *)
Lemma abs_sub_le0 (x y z : f32) : is_finite x = true -> is_finite y = true ->
  dy 0 0 z -> flt z (fabs (fsub x y)) = false -> B2R x = B2R y.
Proof.
  intros Fx Fy D H. destruct (dy0_R z D) as [Fz Rz].
  pose proof (Bminus_correct 24 128 _ _ mode_NE x y Fx Fy) as C.
  unfold fabs, fsub in H.
  destruct (Rlt_bool (Rabs (round radix2 (SpecFloat.fexp 24 128) (round_mode mode_NE) (B2R x - B2R y))) _).
  - destruct C as (C1 & C2 & _).
    rewrite flt_R in H; [|assumption|rewrite is_finite_Babs; assumption].
    rewrite B2R_Babs, C1, Rz in H.
    destruct (Req_dec (B2R x) (B2R y)) as [E|N]; [assumption|exfalso].
    rewrite Rlt_bool_true in H; [discriminate|].
    apply Rabs_pos_lt. unfold Rminus.
    change (SpecFloat.fexp 24 128) with (FLT_exp (3 - 128 - 24) 24).
    apply round_plus_neq_0; auto with typeclass_instances.
    + apply (generic_format_B2R 24 128).
    + apply generic_format_opp. apply (generic_format_B2R 24 128).
    + lra.
  - destruct C as (C1 & _). cbn in C1. apply inf_of_SF in C1. rewrite C1 in H.
    exfalso. unfold flt, Bltb in H. destruct z as [sz|sz| |sz mz ez Hz]; try discriminate Fz;
      destruct sz; cbn in H; discriminate.
Qed.

Lemma i32_eq (x y : f32) : is_finite x = true -> is_finite y = true -> B2R x = B2R y ->
  i32_of_f32 x = i32_of_f32 y.
Proof.
  intros Fx Fy E. unfold i32_of_f32. rewrite !to_int_R by first [assumption | exact emax32]. now rewrite E.
Qed.

Lemma run_one s : b_end_x s = b_x s -> flt (fsub (b_error s) (b_dy s)) (of_int 0) = false ->
  bres_run 2 s = (chk_i 32 (b_x s + 1) ;;;
                  Ok [if b_is_steep s then (b_y s, b_x s) else (b_x s, b_y s)]).
Proof.
  intros E H. rewrite bres_run_S. unfold bres_next. rewrite E, Z.ltb_irrefl, H.
  unfold chk_i. destruct (i_fits 32 (b_x s + 1)); cbn [bind]; [|reflexivity].
  cbn [bres_run]. unfold bres_next; cbn [b_end_x b_x].
  replace (b_x s <? b_x s + 1) with true by lia. reflexivity.
Qed.

Definition bres_raw (x0 y0 x1 y1 : f32) (st : bool) : bres :=
  let dx := fsub x1 x0 in
  mkBres dx (fabs (fsub y1 y0)) (i32_of_f32 x0) (i32_of_f32 y0)
         (fdiv dx (of_int 2)) (i32_of_f32 x1) st (if flt y0 y1 then 1 else -1).

Lemma raw_point x0 y0 x1 y1 st :
  is_finite x0 = true -> is_finite x1 = true -> is_finite y0 = true -> is_finite y1 = true ->
  B2R x0 = B2R x1 -> B2R y0 = B2R y1 ->
  bres_run (Z.to_nat (b_end_x (bres_raw x0 y0 x1 y1 st) - b_x (bres_raw x0 y0 x1 y1 st) + 1) + 1)
           (bres_raw x0 y0 x1 y1 st) =
  (chk_i 32 (i32_of_f32 x0 + 1) ;;;
   Ok [if st then (i32_of_f32 y0, i32_of_f32 x0) else (i32_of_f32 x0, i32_of_f32 y0)]).
Proof.
  intros F1 F2 F3 F4 E1 E2. set (s := bres_raw x0 y0 x1 y1 st).
  assert (BX : b_end_x s = b_x s) by (unfold s, bres_raw; cbn; symmetry; apply i32_eq; assumption).
  replace (Z.to_nat (b_end_x s - b_x s + 1) + 1)%nat with 2%nat by (rewrite BX; lia).
  apply run_one; [exact BX|].
  unfold s, bres_raw; cbn [b_error b_dy].
  pose proof (dy_half 0 _ ltac:(cbn; lia) (sub_zero x1 x0 F2 F1 (eq_sym E1))) as D1.
  pose proof (dy_dbl 0 _ (dy_abs _ _ _ _ _ (sub_zero y1 y0 F4 F3 (eq_sym E2)))) as D2.
  pose proof (dy_sub _ _ (-1) 0 (2 * 0) _ _ dyk_m1 ltac:(cbn; lia) D1 D2) as D3.
  now rewrite (dy_lt _ _ (-1) _ _ _ _ D3 f32_zero).
Qed.

Lemma bres_points_raw a b : bres_points a b =
  let st := flt (fabs (fsub (fst b) (fst a))) (fabs (fsub (snd b) (snd a))) in
  let x0 := if st then snd a else fst a in
  let y0 := if st then fst a else snd a in
  let x1 := if st then snd b else fst b in
  let y1 := if st then fst b else snd b in
  let s := if flt x1 x0 then bres_raw x1 y1 x0 y0 st else bres_raw x0 y0 x1 y1 st in
  bres_run (Z.to_nat (b_end_x s - b_x s + 1) + 1) s.
Proof.
  destruct a as [ax ay], b as [bx by_]. unfold bres_points, bres_new; cbn [fst snd].
  destruct (flt (fabs (fsub bx ax)) (fabs (fsub by_ ay))).
  - cbv zeta. destruct (flt by_ ay); reflexivity.
  - cbv zeta. destruct (flt bx ax); reflexivity.
Qed.

Lemma raw_sym x0 y0 x1 y1 st :
  is_finite x0 = true -> is_finite x1 = true -> is_finite y0 = true -> is_finite y1 = true ->
  (B2R x0 = B2R x1 -> B2R y0 = B2R y1) ->
  let s := if flt x1 x0 then bres_raw x1 y1 x0 y0 st else bres_raw x0 y0 x1 y1 st in
  let s' := if flt x0 x1 then bres_raw x0 y0 x1 y1 st else bres_raw x1 y1 x0 y0 st in
  bres_run (Z.to_nat (b_end_x s - b_x s + 1) + 1) s =
  bres_run (Z.to_nat (b_end_x s' - b_x s' + 1) + 1) s'.
Proof.
  intros F1 F2 F3 F4 H s s'. unfold s, s'. rewrite !flt_R by assumption.
  destruct (Rtotal_order (B2R x0) (B2R x1)) as [L|[E|G]].
  - rewrite Rlt_bool_false by lra. rewrite Rlt_bool_true by lra. reflexivity.
  - rewrite !Rlt_bool_false by lra.
    rewrite !raw_point by (auto; now symmetry; auto).
    rewrite (i32_eq x0 x1), (i32_eq y0 y1) by auto. reflexivity.
  - rewrite Rlt_bool_true by lra. rewrite Rlt_bool_false by lra. reflexivity.
Qed.

Lemma bres_points_sym a b : fin a -> fin b -> bres_points a b = bres_points b a.
Proof.
  destruct a as [ax ay], b as [bx by_]. intros [Fa1 Fa2] [Fb1 Fb2]; cbn [fst snd] in *.
  rewrite !bres_points_raw; cbn [fst snd].
  rewrite (abs_sub_sym ax bx), (abs_sub_sym ay by_) by assumption.
  destruct (flt (fabs (fsub bx ax)) (fabs (fsub by_ ay))) eqn:ST; cbv zeta.
  - apply raw_sym; try assumption. intros E. exfalso.
    pose proof (dy_abs _ _ _ _ _ (sub_zero by_ ay Fb2 Fa2 (eq_sym E))) as D.
    destruct (dy0_R _ D) as [Fz Rz].
    assert (Z0 : flt (fabs (fsub bx ax)) (fabs (fsub by_ ay)) = false); [|congruence].
    clear - Fz Rz. destruct (fabs (fsub by_ ay)) as [sy|sy| |sy my ey Hy] eqn:EY; try discriminate Fz.
    + unfold fabs. destruct (fsub bx ax) as [s|s| |s m e He]; try reflexivity; cbn; destruct sy; reflexivity.
    + exfalso. cbn in Rz. apply eq_0_F2R in Rz. destruct sy; discriminate.
  - apply raw_sym; try assumption. intros E.
    symmetry. apply (abs_sub_le0 by_ ay (fabs (fsub bx ax))); try assumption.
    apply (dy_abs _ _ 0 0). apply sub_zero; auto.
Qed.

(** ** Drawing a list of points *)
Lemma wrap_id z : 0 <= z < 2 ^ 31 -> wrap_i32 z = z.
Proof. intros H. unfold wrap_i32. replace (z <? 2 ^ 31) with true by lia. reflexivity. Qed.

Definition cdim {A} (im : image A) : Prop := wf im /\ iw im < 2 ^ 31 /\ ih im < 2 ^ 31.

Lemma in_canvas_inb {A} (im : image A) x y : cdim im -> in_canvas im x y = inb im x y.
Proof.
  intros ((W1 & W2 & _) & H1 & H2). unfold in_canvas, inb. rewrite !wrap_id by lia. reflexivity.
Qed.

Lemma draw_pixel_ok {A} dr (im : image A) x y p : get im x y = Some p ->
  draw_pixel dr im x y = Ok (put im x y (dr p)).
Proof.
  intros G. unfold draw_pixel. rewrite (proj2 (get_pixel_ok im x y p) G). cbn [bind].
  apply get_inb in G. apply put_pixel_ok; lia.
Qed.

Lemma draw_point {A} dr (im : image A) x y : cdim im ->
  exists im', draw_if_in_bounds dr im x y = Ok im' /\ cdim im' /\
    recoloured (fun x' y' => x' = x /\ y' = y) dr im im'.
Proof.
  intros C. unfold draw_if_in_bounds. rewrite in_canvas_inb by assumption.
  destruct C as (W & H1 & H2).
  destruct (inb im x y) eqn:E.
  - apply inb_spec in E. destruct (get_some im x y W) as [p G]; try lia.
    rewrite (draw_pixel_ok dr im x y p G). eexists; split; [reflexivity|].
    split; [split; [now apply wf_put|split; assumption]|].
    unfold recoloured; splits; [now apply wf_put|reflexivity|reflexivity|].
    intros x' y' q Q. rewrite get_put by (auto; lia). split.
    + intros [-> ->]. rewrite !Z.eqb_refl. cbn. congruence.
    + intros N. destruct (Z.eqb_spec x' x), (Z.eqb_spec y' y); cbn; auto. exfalso; auto.
  - exists im. split; [reflexivity|]. split; [split; [assumption|split; assumption]|].
    unfold recoloured; splits; auto. intros x' y' q Q. split; auto.
    intros [-> ->]. apply get_inb in Q. apply inb_spec in Q. congruence.
Qed.

Lemma recoloured_get {A} S (dr : A -> A) im out x y : wf im -> recoloured S dr im out ->
  get im x y = None -> get out x y = None.
Proof.
  intros W (W' & E1 & E2 & _) G.
  destruct (get out x y) eqn:E; auto. apply get_inb in E.
  destruct (get_some im x y W) as [p Hp]; try lia. congruence.
Qed.

(** disjoint sets: any drawing effect *)
Lemma recoloured_seq {A} (S1 S2 : Z -> Z -> Prop) (dr : A -> A) (im m out : image A) : wf im ->
  (forall x y, S1 x y -> ~ S2 x y) ->
  recoloured S1 dr im m -> recoloured S2 dr m out ->
  recoloured (fun x y => S1 x y \/ S2 x y) dr im out.
Proof.
  intros W D (W1 & A1 & A2 & R1) (W2 & B1 & B2 & R2). unfold recoloured; splits; auto; try lia.
  intros x y p G. destruct (R1 x y p G) as [P Q]. 
  destruct (get_some m x y W1) as [q Gm]; [apply get_inb in G; lia..|].
  destruct (R2 x y q Gm) as [P' Q']. split.
  - intros [H|H].
    + rewrite (P H) in Gm. injection Gm as <-. apply Q'. eauto.
    + assert (N : ~ S1 x y) by (intros K; exact (D x y K H)).
      rewrite (Q N) in Gm. injection Gm as <-. auto.
  - intros N. assert (N1 : ~ S1 x y) by tauto. rewrite (Q N1) in Gm. injection Gm as <-.
    apply Q'. tauto.
Qed.

(** overlapping sets: idempotent effects (such as overwriting) *)
Lemma recoloured_seq_idem {A} (S1 S2 : Z -> Z -> Prop) (dr : A -> A) (im m out : image A) : wf im ->
  (forall a, dr (dr a) = dr a) ->
  (forall x y, S1 x y \/ ~ S1 x y) -> (forall x y, S2 x y \/ ~ S2 x y) ->
  recoloured S1 dr im m -> recoloured S2 dr m out ->
  recoloured (fun x y => S1 x y \/ S2 x y) dr im out.
Proof.
  intros W ID D1 D2 (W1 & A1 & A2 & R1) (W2 & B1 & B2 & R2). unfold recoloured; splits; auto; try lia.
  intros x y p G. destruct (R1 x y p G) as [P Q].
  destruct (get_some m x y W1) as [q Gm]; [apply get_inb in G; lia..|].
  destruct (R2 x y q Gm) as [P' Q'].
  destruct (D1 x y) as [H1|H1], (D2 x y) as [H2|H2].
  - rewrite (P H1) in Gm. injection Gm as <-. rewrite ID in P'. split; auto. tauto.
  - rewrite (P H1) in Gm. injection Gm as <-. split; auto; tauto.
  - rewrite (Q H1) in Gm. injection Gm as <-. split; auto; tauto.
  - rewrite (Q H1) in Gm. injection Gm as <-. split; auto; tauto.
Qed.

Lemma recoloured_ext {A} (S1 S2 : Z -> Z -> Prop) (dr : A -> A) (im out : image A) :
  (forall x y, 0 <= x < iw im -> 0 <= y < ih im -> S1 x y <-> S2 x y) ->
  recoloured S1 dr im out -> recoloured S2 dr im out.
Proof.
  intros E (W & A1 & A2 & R). unfold recoloured; splits; auto. intros x y p G.
  destruct (R x y p G). apply get_inb in G. rewrite <- E by lia. auto.
Qed.

Lemma recoloured_refl {A} (dr : A -> A) im : wf im -> recoloured (fun _ _ => False) dr im im.
Proof. intros W. unfold recoloured. splits; auto. intros; split; tauto. Qed.

Lemma recoloured_cdim {A} S (dr : A -> A) im out : recoloured S dr im out -> cdim im -> cdim out.
Proof. intros (W & A1 & A2 & _) (_ & H1 & H2). unfold cdim. splits; auto; lia. Qed.

Lemma draw_points {A} dr (im : image A) pts : cdim im -> NoDup pts ->
  exists out, for_each pts (fun p im => draw_if_in_bounds dr im (fst p) (snd p)) im = Ok out /\
    recoloured (fun x y => In (x, y) pts) dr im out.
Proof.
  revert im. induction pts as [|[px py] pts IH]; intros im C ND.
  - exists im. split; [reflexivity|]. apply recoloured_refl. apply C.
  - inversion ND as [|? ? NI ND']; subst. cbn [for_each fst snd].
    destruct (draw_point dr im px py C) as (m & -> & Cm & Rm). cbn [bind].
    destruct (IH m Cm ND') as (out & -> & Ro).
    exists out. split; [reflexivity|].
    apply (recoloured_ext (fun x y => (x = px /\ y = py) \/ In (x, y) pts)).
    + intros x y _ _. cbn [In]. split.
      * intros [[-> ->]|H]; auto.
      * intros [[= -> ->]|H]; auto.
    + apply recoloured_seq with m; auto; [apply C|]. intros x y [-> ->]. exact NI.
Qed.

Lemma In_pt_dec (pts : list (Z * Z)) x y : In (x, y) pts \/ ~ In (x, y) pts.
Proof.
  destruct (in_dec (fun p q : Z * Z => ltac:(decide equality; apply Z.eq_dec) : {p = q} + {p <> q}) (x, y) pts); auto.
Qed.

Lemma draw_points_idem {A} dr (im : image A) pts : cdim im -> (forall a, dr (dr a) = dr a) ->
  exists out, for_each pts (fun p im => draw_if_in_bounds dr im (fst p) (snd p)) im = Ok out /\
    recoloured (fun x y => In (x, y) pts) dr im out.
Proof.
  intros C ID. revert im C. induction pts as [|[px py] pts IH]; intros im C.
  - exists im. split; [reflexivity|]. apply recoloured_refl. apply C.
  - cbn [for_each fst snd].
    destruct (draw_point dr im px py C) as (m & -> & Cm & Rm). cbn [bind].
    destruct (IH m Cm) as (out & -> & Ro).
    exists out. split; [reflexivity|].
    apply (recoloured_ext (fun x y => (x = px /\ y = py) \/ In (x, y) pts)).
    + intros x y _ _. cbn [In]. split.
      * intros [[-> ->]|H]; auto.
      * intros [[= -> ->]|H]; auto.
    + apply recoloured_seq_idem with m; auto; [apply C|intros; lia|intros; apply In_pt_dec].
Qed.

Lemma bres_points_NoDup a b pts : bres_points a b = Ok pts -> NoDup pts.
Proof. intros H. unfold bres_points in H. apply bres_run_major in H. apply H. Qed.

Lemma draw_line_ok {A} dr (im : image A) a b pts : cdim im -> bres_points a b = Ok pts ->
  exists out, draw_line_segment dr im a b = Ok out /\
    recoloured (fun x y => In (x, y) pts) dr im out.
Proof.
  intros C E. unfold draw_line_segment. rewrite E. cbn [bind].
  apply draw_points; [exact C|]. eapply bres_points_NoDup; eauto.
Qed.

(** ** The pixel iterators *)
Lemma bres_run_ok n : forall s, b_end_x s - b_x s + 1 <= Z.of_nat n ->
  - 2 ^ 31 < b_x s -> b_end_x s < 2 ^ 31 - 1 -> Z.abs (b_y_step s) = 1 ->
  Z.abs (b_y s) + Z.of_nat n < 2 ^ 31 -> exists pts, bres_run (S n) s = Ok pts.
Proof.
  induction n as [|n IH]; intros s H1 H2 H3 H4 H5; rewrite bres_run_S.
  - unfold bres_next. replace (b_end_x s <? b_x s) with true by lia. cbn [bind]. eauto.
  - unfold bres_next. destruct (Z.ltb_spec (b_end_x s) (b_x s)); cbn [bind]; [eauto|].
    rewrite chk_i_ok by lia. cbn [bind]. destruct (flt _ _).
    + rewrite chk_i_ok by lia. cbn [bind].
      match goal with |- context [bres_run (S n) ?s'] => destruct (IH s') as [ps ->] end;
        cbn [b_end_x b_x b_y b_y_step]; try lia. cbn [bind]. eauto.
    + cbn [bind].
      match goal with |- context [bres_run (S n) ?s'] => destruct (IH s') as [ps ->] end;
        cbn [b_end_x b_x b_y b_y_step]; try lia. cbn [bind]. eauto.
Qed.

Lemma of_int_bound n : 0 <= n <= 2 ^ 29 ->
  is_finite (of_int n : f32) = true /\ (0 <= B2R (of_int n : f32) <= IZR (2 ^ 29))%R.
Proof.
  intros H. unfold of_int.
  pose proof (binary_normalize_correct 24 128 _ _ mode_NE n 0 false) as C.
  cbv zeta in C.
  assert (R0 : F2R (Defs.Float radix2 n 0) = IZR n) by (unfold F2R; cbn; ring).
  rewrite R0 in C.
  set (r := round radix2 (SpecFloat.fexp 24 128) (round_mode mode_NE) (IZR n)) in *.
  assert (V : Valid_rnd (round_mode mode_NE)) by apply valid_rnd_round_mode.
  assert (VE : Valid_exp (SpecFloat.fexp 24 128)) by (apply fexp_correct; exact _).
  assert (A : (0 <= r)%R).
  { unfold r. rewrite <- (round_0 radix2 (SpecFloat.fexp 24 128) (round_mode mode_NE)) by exact V.
    apply round_le; [exact VE|exact V|]. apply IZR_le. lia. }
  assert (B : (r <= IZR (2 ^ 29))%R).
  { unfold r.
    assert (G : round radix2 (SpecFloat.fexp 24 128) (round_mode mode_NE) (IZR (2 ^ 29)) = IZR (2 ^ 29)).
    { change (IZR (2 ^ 29)) with (bpow radix2 29). apply round_generic; [exact V|].
      apply generic_format_bpow. cbn. lia. }
    rewrite <- G. apply round_le; [exact VE|exact V|]. apply IZR_le. lia. }
  rewrite Rlt_bool_true in C.
  - destruct C as (C1 & C2 & _). rewrite C1. split; [exact C2|]. split; assumption.
  - rewrite Rabs_pos_eq by exact A. apply Rle_lt_trans with (1 := B).
    change (IZR (2 ^ 29)) with (bpow radix2 29). apply bpow_lt. lia.
Qed.

Lemma Ztrunc_bound r m : (0 <= r <= IZR m)%R -> 0 <= Ztrunc r <= m.
Proof.
  intros [A B]. split.
  - replace 0 with (Ztrunc 0) by apply (Ztrunc_IZR 0). apply Ztrunc_le. exact A.
  - rewrite <- (Ztrunc_IZR m). apply Ztrunc_le. exact B.
Qed.

Lemma fclamp_i32 (p : f32) n : 0 <= n <= 2 ^ 29 ->
  0 <= i32_of_f32 (fclamp p (of_int 0) (of_int n)) <= 2 ^ 29.
Proof.
  intros H. destruct (of_int_bound n H) as [F1 B1].
  destruct (of_int_bound 0 ltac:(lia)) as [F0 B0].
  assert (Fin : forall x : f32, is_finite x = true -> (0 <= B2R x <= IZR (2 ^ 29))%R ->
     0 <= i32_of_f32 x <= 2 ^ 29).
  { intros x F B. unfold i32_of_f32. rewrite to_int_R by first [assumption | exact emax32].
    apply Ztrunc_bound in B. unfold zclamp. lia. }
  unfold fclamp. destruct (flt p (of_int 0)) eqn:E1; [apply Fin; assumption|].
  destruct (flt (of_int n) p) eqn:E2; [apply Fin; assumption|].
  destruct p as [s|s| |s m e He]; try (cbn; lia).
  - exfalso. destruct s.
    + cbn in E1. discriminate.
    + revert F1 E2. clear. generalize (of_int n : f32) as z. intros z F E.
      destruct z as [sz|sz| |sz mz ez Hz]; try discriminate F;
        destruct sz; cbn in E; discriminate.
  - apply Fin; [reflexivity|].
    set (x := B754_finite s m e He : f32) in *.
    rewrite flt_R in E1, E2 by (assumption || reflexivity).
    assert (Z0 : B2R (of_int 0 : f32) = 0%R) by reflexivity.
    rewrite Z0 in E1.
    destruct (Rlt_bool_spec (B2R x) 0); [discriminate E1|].
    destruct (Rlt_bool_spec (B2R (of_int n : f32)) (B2R x)); [discriminate E2|]. lra.
Qed.

Lemma clamped_points {A} (im : image A) a b : 1 <= iw im <= 2 ^ 29 -> 1 <= ih im <= 2 ^ 29 ->
  exists pts, bres_points (clamp_point a im) (clamp_point b im) = Ok pts.
Proof.
  intros Hw Hh. rewrite bres_points_raw. unfold clamp_point; cbn [fst snd].
  pose proof (fclamp_i32 (fst a) (iw im - 1) ltac:(lia)) as X0.
  pose proof (fclamp_i32 (snd a) (ih im - 1) ltac:(lia)) as Y0.
  pose proof (fclamp_i32 (fst b) (iw im - 1) ltac:(lia)) as X1.
  pose proof (fclamp_i32 (snd b) (ih im - 1) ltac:(lia)) as Y1.
  set (x0 := fclamp (fst a) _ _) in *. set (y0 := fclamp (snd a) _ _) in *.
  set (x1 := fclamp (fst b) _ _) in *. set (y1 := fclamp (snd b) _ _) in *.
  clearbody x0 y0 x1 y1.
  cbv zeta.
  assert (G : forall u0 v0 u1 v1 st, 0 <= i32_of_f32 u0 <= 2 ^ 29 -> 0 <= i32_of_f32 v0 <= 2 ^ 29 ->
    0 <= i32_of_f32 u1 <= 2 ^ 29 -> 0 <= i32_of_f32 v1 <= 2 ^ 29 ->
    let s := bres_raw u0 v0 u1 v1 st in
    exists pts, bres_run (Z.to_nat (b_end_x s - b_x s + 1) + 1) s = Ok pts).
  { intros u0 v0 u1 v1 st U0 V0 U1 V1 s. rewrite Nat.add_1_r.
    unfold s, bres_raw. cbn [b_end_x b_x].
    apply bres_run_ok; cbn [b_end_x b_x b_y b_y_step]; try lia.
    destruct (flt v0 v1); reflexivity. }
  destruct (flt (fabs (fsub x1 x0)) (fabs (fsub y1 y0))).
  - destruct (flt y1 y0); apply G; assumption.
  - destruct (flt x1 x0); apply G; assumption.
Qed.

Lemma line_iter_ok {A} (im : image A) a b : wf im -> 1 <= iw im <= 2 ^ 29 -> 1 <= ih im <= 2 ^ 29 ->
  exists pts, bres_points (clamp_point a im) (clamp_point b im) = Ok pts /\
   line_pixel_iter_mut im a b = Ok (filter (fun p => inb im (fst p) (snd p)) pts) /\
   exists items, line_pixel_iter im a b = Ok items /\
     map fst items = filter (fun p => inb im (fst p) (snd p)) pts /\
     Forall (fun it => get im (fst (fst it)) (snd (fst it)) = Some (snd it)) items.
Proof.
  intros W Hw Hh. destruct (clamped_points im a b Hw Hh) as [pts E].
  exists pts. split; [exact E|].
  assert (C : cdim im) by (unfold cdim; splits; auto; lia).
  assert (FE : filter (fun p : Z * Z => in_canvas im (fst p) (snd p)) pts =
               filter (fun p : Z * Z => inb im (fst p) (snd p)) pts)
    by (apply filter_ext; intros; now apply in_canvas_inb).
  assert (IN : forall p, In p (filter (fun p : Z * Z => inb im (fst p) (snd p)) pts) ->
     exists c, get im (fst p) (snd p) = Some c).
  { intros p Hp. apply filter_In in Hp. destruct Hp as [_ Hp]. apply inb_spec in Hp.
    apply get_some; lia || exact W. }
  split.
  - unfold line_pixel_iter_mut, assert.
    replace ((1 <=? iw im) && (1 <=? ih im)) with true by lia. cbn [bind].
    replace ((iw im <? 2 ^ 31 - 1) && (ih im <? 2 ^ 31 - 1)) with true by lia. cbn [bind].
    rewrite E. cbn [bind]. rewrite FE.
    revert IN. generalize (filter (fun p : Z * Z => inb im (fst p) (snd p)) pts) as l.
    induction l as [|p l IH]; intros IN; [reflexivity|].
    cbn [mapM]. destruct (IN p (or_introl eq_refl)) as [c G].
    rewrite (proj2 (get_pixel_ok im _ _ c) G). cbn [bind].
    rewrite IH by (intros; apply IN; now right). reflexivity.
  - unfold line_pixel_iter, assert.
    replace ((1 <=? iw im) && (1 <=? ih im)) with true by lia. cbn [bind].
    rewrite E. cbn [bind]. rewrite FE.
    revert IN. generalize (filter (fun p : Z * Z => inb im (fst p) (snd p)) pts) as l.
    induction l as [|p l IH]; intros IN.
    + exists []. split; [reflexivity|]. split; [reflexivity|constructor].
    + destruct IH as (items & I1 & I2 & I3); [intros; apply IN; now right|].
      cbn [mapM]. destruct (IN p (or_introl eq_refl)) as [c G].
      rewrite (proj2 (get_pixel_ok im _ _ c) G). cbn [bind]. rewrite I1. cbn [bind].
      exists ((p, c) :: items). split; [reflexivity|]. split; [cbn [map fst]; congruence|].
      constructor; assumption.
Qed.
