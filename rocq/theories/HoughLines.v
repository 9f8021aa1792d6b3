(** Proofs about [intersection_points]. *)
From Flocq Require Import Core BinarySingleNaN.
From Coq Require Import Reals Lra Psatz.
From Verif Require Import Base BaseProofs Float HoughModel HoughSpec.
Local Ltac Zify.zify_post_hook ::= idtac.
Local Open Scope R_scope.

(** every returned coordinate passed its two comparisons; 0 <= 0 etc. for the fixed ones *)
Section Box.
  Context {T : Type} (K : calc T) (w h : T).
  Definition inr_ (b x : T) : bool := kle K (k0 K) x && kle K x b.
  Definition pt_in (p : T * T) : bool := inr_ w (fst p) && inr_ h (snd p).
  (** on one of the four sides *)
  Definition pt_side (p : T * T) : Prop :=
    fst p = k0 K \/ fst p = w \/ snd p = k0 K \/ snd p = h.
  Lemma ip_box r m sn cs p q : inr_ w (k0 K) = true -> inr_ w w = true -> inr_ h (k0 K) = true -> inr_ h h = true ->
    intersection_points K r m sn cs w h = Some (p, q) ->
    pt_in p = true /\ pt_in q = true /\ pt_side p /\ pt_side q.
  Proof.
    intros W0 W1 H0 H1. unfold intersection_points, pt_in, pt_side. fold (inr_ w r). fold (inr_ h r).
    set (ry := kdiv K (kfma K cs (kneg K w) r) sn). set (ly := kdiv K r sn).
    set (bx := kdiv K (kfma K sn (kneg K h) r) cs). set (tx := kdiv K r cs).
    fold (inr_ h ry). fold (inr_ h ly). fold (inr_ w bx). fold (inr_ w tx).
    destruct (m =? 0)%Z.
    { destruct (inr_ w r) eqn:E; [|discriminate]. intros X. injection X as <- <-. cbn [fst snd]. rewrite E, H0, H1. repeat split; auto 10. }
    destruct (m =? 90)%Z.
    { destruct (inr_ h r) eqn:E; [|discriminate]. intros X. injection X as <- <-. cbn [fst snd]. rewrite E, W0, W1. repeat split; auto 10. }
    destruct (inr_ h ry) eqn:Er, (inr_ h ly) eqn:El, (inr_ w bx) eqn:Eb, (inr_ w tx) eqn:Et;
      intros X; try discriminate X; injection X as <- <-; cbn [fst snd];
      rewrite ?Er, ?El, ?Eb, ?Et, ?W0, ?W1, ?H0, ?H1; repeat split; auto 10.
  Qed.
End Box.

Lemma inr_R b x : inr_ calc_R b x = true <-> 0 <= x <= b.
Proof.
  unfold inr_. cbn [k0 kle calc_R]. rewrite Bool.andb_true_iff. split.
  - intros (A & B). split; [revert A; case Rle_bool_spec; auto; discriminate|revert B; case Rle_bool_spec; auto; discriminate].
  - intros (A & B). split; apply Rle_bool_true; assumption.
Qed.
Lemma inr_R_false b x : inr_ calc_R b x = false -> x < 0 \/ b < x.
Proof.
  intros H. destruct (Rlt_le_dec x 0) as [?|A]; auto. destruct (Rlt_le_dec b x) as [?|B]; auto.
  assert (E : inr_ calc_R b x = true) by (apply inr_R; lra). congruence.
Qed.

(** The generic case: y = l - k x; the four crossings. *)
Section Generic.
  Context (w h l k : R) (K0 : k <> 0).
  Notation ry := (l - k * w). Notation ly := l. Notation bx := ((l - h) / k). Notation tx := (l / k).

  (** a point of the box on the line forces two crossings *)
  Lemma two_sides x y : 0 <= x <= w -> 0 <= y <= h -> y = l - k * x ->
    (0 < k -> (ly <= h \/ bx <= w /\ 0 <= bx) /\ 0 <= ly /\ (0 <= ry \/ 0 <= tx <= w) /\ ry <= h) /\
    (k < 0 -> (0 <= ly \/ 0 <= tx <= w) /\ ly <= h /\ (ry <= h \/ 0 <= bx <= w) /\ 0 <= ry).
  Proof.
    intros X Y E. assert (Eb : bx * k = l - h) by (field; auto). assert (Et : tx * k = l) by (field; auto).
    generalize dependent ((l - h) / k). generalize dependent (l / k). intros T Et B Eb. split; intros S.
    - split; [|split; [nra|split; [|nra]]].
      + destruct (Rle_dec l h); [left; lra|right]. split; nra.
      + destruct (Rle_dec 0 (l - k * w)); [left; lra|right]. split; nra.
    - split; [|split; [nra|split; [|nra]]].
      + destruct (Rle_dec 0 l); [left; lra|right]. split; nra.
      + destruct (Rle_dec (l - k * w) h); [left; lra|right]. split; nra.
  Qed.

  (** a segment between two points of the line at abscissas a and b covers every abscissa in between *)
  Lemma seg_cover a b x y : y = l - k * x -> (a <= x <= b \/ b <= x <= a) ->
    on_segment (a, l - k * a) (b, l - k * b) (x, y).
  Proof.
    intros -> Hx. destruct (Req_dec a b) as [->|N].
    - exists 0. cbn [fst snd]. assert (x = b) by lra. subst. repeat split; lra.
    - exists ((x - a) / (b - a)). cbn [fst snd]. assert (Dn : b - a <> 0) by lra.
      split; [|split; field; exact Dn].
      set (t := (x - a) / (b - a)). assert (Et : t * (b - a) = x - a) by (unfold t; field; exact Dn).
      clearbody t. destruct (Rlt_le_dec a b); nra.
  Qed.
End Generic.

Section Real.
  Context (r sn cs w h : R) (m : Z) (W : 0 < w) (H : 0 < h) (T : trig_of m sn cs).

  Lemma ip_none : intersection_points calc_R r m sn cs w h = None ->
    forall z, in_rect w h z -> ~ on_polar r sn cs z.
  Proof.
    unfold intersection_points, in_rect, on_polar.
    destruct T as [(-> & -> & ->)|[(-> & -> & ->)|(M0 & M9 & S0 & C0)]].
    - change (0 =? 0)%Z with true. cbv iota. fold (inr_ calc_R w r). destruct (inr_ calc_R w r) eqn:E; [discriminate|].
      intros _ (x & y) (Hx & Hy) L. cbn [fst snd] in *. apply inr_R_false in E. lra.
    - change (90 =? 0)%Z with false; change (90 =? 90)%Z with true. cbv iota. fold (inr_ calc_R h r). destruct (inr_ calc_R h r) eqn:E; [discriminate|].
      intros _ (x & y) (Hx & Hy) L. cbn [fst snd] in *. apply inr_R_false in E. lra.
    - apply Z.eqb_neq in M0, M9. rewrite M0, M9. cbn [kdiv kfma kneg calc_R].
      set (k := cs / sn). set (l := r / sn).
      assert (Er : (cs * - w + r) / sn = l - k * w) by (unfold k, l; field; auto).
      assert (Kn : k <> 0). { unfold k. intros E. apply C0. replace cs with (cs / sn * sn) by (field; auto). rewrite E. ring. }
      assert (Eb : (sn * - h + r) / cs = (l - h) / k) by (unfold k, l; field; auto).
      assert (Et : r / cs = l / k) by (unfold k, l; field; auto).
      rewrite Er, Eb, Et.
      fold (inr_ calc_R h (l - k * w)). fold (inr_ calc_R h l). fold (inr_ calc_R w ((l - h) / k)). fold (inr_ calc_R w (l / k)).
      intros N (x & y) (Hx & Hy) L. cbn [fst snd] in *.
      assert (E : y = l - k * x). { unfold k, l. apply (Rmult_eq_reg_r sn); [|exact S0]. field_simplify; [|exact S0]. lra. }
      destruct (two_sides w h l k Kn x y Hx Hy E) as (P & Q).
      clearbody k l. generalize dependent ((l - h) / k). generalize dependent (l / k). intros tx _ bx _ N P Q.
      destruct (inr_ calc_R h (l - k * w)) eqn:Ar, (inr_ calc_R h l) eqn:Al, (inr_ calc_R w bx) eqn:Ab, (inr_ calc_R w tx) eqn:At;
        try discriminate N; clear N;
        try apply inr_R_false in Ar; try apply inr_R_false in Al; try apply inr_R_false in Ab; try apply inr_R_false in At;
        try apply inr_R in Ar; try apply inr_R in Al; try apply inr_R in Ab; try apply inr_R in At;
        (destruct (Rdichotomy k 0 Kn) as [S|S]; [specialize (Q S); clear - W H Ar Al Ab At Q; lra|specialize (P S); clear - W H Ar Al Ab At P; lra]).
  Qed.

  Lemma ip_on_line p q : intersection_points calc_R r m sn cs w h = Some (p, q) ->
    in_rect w h p /\ in_rect w h q /\ on_polar r sn cs p /\ on_polar r sn cs q.
  Proof.
    intros E. assert (B : in_rect w h p /\ in_rect w h q).
    { destruct (ip_box calc_R w h r m sn cs p q) as (P & Q & _); try (apply inr_R; cbn; lra); auto.
      unfold pt_in in P, Q. apply andb_prop in P, Q. unfold in_rect. rewrite !inr_R in P, Q. tauto. }
    split; [tauto|]. split; [tauto|]. revert E. clear B. unfold intersection_points, on_polar.
    destruct T as [(-> & -> & ->)|[(-> & -> & ->)|(M0 & M9 & S0 & C0)]].
    - change (0 =? 0)%Z with true. cbv iota. destruct (_ && _); [|discriminate]. intros X. injection X as <- <-. cbn. lra.
    - change (90 =? 0)%Z with false; change (90 =? 90)%Z with true. cbv iota. destruct (_ && _); [|discriminate].
      intros X. injection X as <- <-. cbn. lra.
    - apply Z.eqb_neq in M0, M9. rewrite M0, M9. cbn [kdiv kfma kneg calc_R].
      assert (Lr : w * cs + (cs * - w + r) / sn * sn = r) by (field; auto).
      assert (Ll : 0 * cs + r / sn * sn = r) by (field; auto).
      assert (Lb : (sn * - h + r) / cs * cs + h * sn = r) by (field; auto).
      assert (Lt : r / cs * cs + 0 * sn = r) by (field; auto).
      generalize dependent ((cs * - w + r) / sn). generalize dependent (r / sn).
      generalize dependent ((sn * - h + r) / cs). generalize dependent (r / cs). intros tx Lt bx Lb ly Ll ry Lr.
      fold (inr_ calc_R h ry). fold (inr_ calc_R h ly). fold (inr_ calc_R w bx). fold (inr_ calc_R w tx).
      destruct (inr_ calc_R h ry), (inr_ calc_R h ly), (inr_ calc_R w bx), (inr_ calc_R w tx); intros X; try discriminate X; injection X as <- <-; cbn [fst snd k0 calc_R]; auto.
  Qed.

  Lemma ip_cover p q : intersection_points calc_R r m sn cs w h = Some (p, q) ->
    ~ on_polar r sn cs (0, h) -> ~ on_polar r sn cs (w, h) ->
    forall z, in_rect w h z -> on_polar r sn cs z -> on_segment p q z.
  Proof.
    unfold intersection_points, in_rect, on_polar.
    destruct T as [(-> & -> & ->)|[(-> & -> & ->)|(M0 & M9 & S0 & C0)]].
    - change (0 =? 0)%Z with true. cbv iota. destruct (_ && _); [|discriminate]. intros X. injection X as <- <-.
      intros _ _ (x & y) (Hx & Hy) L. cbn [fst snd k0 calc_R] in *. exists (y / h). cbn [fst snd].
      assert (Et : y / h * h = y) by (field; lra). set (t := y / h) in *. clearbody t. split; [split; nra|]. split; nra.
    - change (90 =? 0)%Z with false; change (90 =? 90)%Z with true. cbv iota. destruct (_ && _); [|discriminate].
      intros X. injection X as <- <-.
      intros _ _ (x & y) (Hx & Hy) L. cbn [fst snd k0 calc_R] in *. exists (x / w). cbn [fst snd].
      assert (Et : x / w * w = x) by (field; lra). set (t := x / w) in *. clearbody t. split; [split; nra|]. split; nra.
    - apply Z.eqb_neq in M0, M9. rewrite M0, M9. cbn [kdiv kfma kneg calc_R].
      set (k := cs / sn). set (l := r / sn).
      assert (Er : (cs * - w + r) / sn = l - k * w) by (unfold k, l; field; auto).
      assert (Kn : k <> 0). { unfold k. intros E. apply C0. replace cs with (cs / sn * sn) by (field; auto). rewrite E. ring. }
      assert (Eb : (sn * - h + r) / cs = (l - h) / k) by (unfold k, l; field; auto).
      assert (Et : r / cs = l / k) by (unfold k, l; field; auto).
      rewrite Er, Eb, Et.
      fold (inr_ calc_R h (l - k * w)). fold (inr_ calc_R h l). fold (inr_ calc_R w ((l - h) / k)). fold (inr_ calc_R w (l / k)).
      intros N C1 C2 (x & y) (Hx & Hy) L. cbn [fst snd] in *.
      assert (E : y = l - k * x). { unfold k, l. apply (Rmult_eq_reg_r sn); [|exact S0]. field_simplify; [|exact S0]. lra. }
      assert (D1 : l <> h). { intros D. apply C1. rewrite <- D. unfold l. field; auto. }
      assert (D2 : l - k * w <> h). { intros D. apply C2. rewrite <- D. unfold l, k. field; auto. }
      assert (Fb : (l - h) / k * k = l - h) by (field; auto). assert (Ft : l / k * k = l) by (field; auto).
      clearbody k l. clear C1 C2 L Er Eb Et.
      generalize dependent ((l - h) / k). intros bx N Fb. generalize dependent (l / k). intros tx Ft N.
      assert (Ql : l = l - k * 0) by ring. assert (Qb : h = l - k * bx) by lra. assert (Qt : 0 = l - k * tx) by lra.
      assert (SEG : forall a b ya yb, ya = l - k * a -> yb = l - k * b -> (a <= x <= b \/ b <= x <= a) -> on_segment (a, ya) (b, yb) (x, y)).
      { intros a b ya yb -> -> Hab. apply seg_cover; assumption. }
      destruct (inr_ calc_R h (l - k * w)) eqn:Ar, (inr_ calc_R h l) eqn:Al, (inr_ calc_R w bx) eqn:Ab, (inr_ calc_R w tx) eqn:At;
        try discriminate N; injection N as <- <-; change (k0 calc_R) with 0 in *;
        try apply inr_R_false in Ar; try apply inr_R_false in Al; try apply inr_R_false in Ab; try apply inr_R_false in At;
        try apply inr_R in Ar; try apply inr_R in Al; try apply inr_R in Ab; try apply inr_R in At;
        (apply SEG; [auto; ring|auto; ring|]; clear SEG; clear - W H Kn Hx Hy E D1 D2 Fb Ft Ar Al Ab At).
      all: destruct (Rdichotomy k 0 Kn) as [S|S]; clear Kn.
      all: try lra.
      all: try (solve [left; split; nra] || solve [right; split; nra]).
  Qed.
End Real.
