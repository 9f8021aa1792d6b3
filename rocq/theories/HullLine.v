(** The convex hull of points on one line. *)
From Coq Require Import Permutation Sorted.
From Verif Require Import Base BaseProofs GeometryModel GeometrySpec HullLineSpec GeometryProofs HullProofs.
Local Ltac Zify.zify_post_hook ::= idtac.

Lemma ray_segment s t z : up s z -> up s t -> t <> s -> turn s z t = 0 -> dsq s z <= dsq s t -> on_segment s t z.
Proof.
  intros Uz Ut N T D. unfold on_segment, collinear. split; [rewrite cr_anti; lia|].
  unfold up in *. unfold turn in T. unfold dsq in D.
  assert (M : fst t <> fst s \/ snd t <> snd s).
  { destruct (Z.eq_dec (fst t) (fst s)); [|auto]. destruct (Z.eq_dec (snd t) (snd s)); [|auto]. exfalso. apply N. destruct s, t. cbn [fst snd] in *. congruence. }
  set (a := fst z - fst s) in *. set (b := snd z - snd s) in *. set (c := fst t - fst s) in *. set (d := snd t - snd s) in *.
  assert (T' : a * d = b * c) by (unfold a, b, c, d in *; lia).
  assert (D' : a * a + b * b <= c * c + d * d) by (unfold a, b, c, d in *; lia).
  assert (P1 : 0 <= b) by (unfold b; lia). assert (P2 : 0 <= d) by (unfold d; lia).
  assert (Q1 : b = 0 -> 0 <= a) by (unfold a, b; lia). assert (Q2 : d = 0 -> 0 < c) by (unfold c, d in *; lia).
  clearbody a b c d. clear - T' D' P1 P2 Q1 Q2. split.
  - destruct (Z.eq_dec d 0) as [->|]. { assert (b = 0) by nia. subst b. specialize (Q1 eq_refl). specialize (Q2 eq_refl). nia. }
    assert (E : d * (a * c + b * d) = b * (c * c + d * d)) by (rewrite Z.mul_add_distr_l, Z.mul_assoc, (Z.mul_comm d a), T'; ring).
    assert (0 <= b * (c * c + d * d)) by nia. nia.
  - assert (E : (a * c + b * d) * (a * c + b * d) = (a * a + b * b) * (c * c + d * d)).
    { replace ((a * a + b * b) * (c * c + d * d)) with ((a * c + b * d) * (a * c + b * d) + (a * d - b * c) * (a * d - b * c)) by ring. rewrite T'. ring. }
    nia.
Qed.

Lemma convex_hull_line (pts : list (Z * Z)) : i32_points pts -> spread 32767 pts -> pts <> [] ->
  (forall a b c, In a pts -> In b pts -> In c pts -> collinear a b c) ->
  exists a b, In a pts /\ In b pts /\ (forall p, In p pts -> on_segment a b p) /\
    (convex_hull pts = Ok [a; b] \/ (b = a /\ convex_hull pts = Ok [a])).
Proof.
  intros Hi Hs Hne Col.
  destruct pts as [|p0 l]; [contradiction|]. set (pts := p0 :: l) in *.
  unfold convex_hull, pts at 4 7. fold pts.
  destruct (start_ok p0 l) as (s & pos & E & Z & U). fold pts in E, Z, U. rewrite E.
  assert (P := swap_remove p0 l pos s Z). fold pts in P. set (rem := tl (zupd pts pos p0)) in *.
  assert (Hins : In s pts) by (eapply znth_In; eauto).
  assert (Ir : incl rem pts). { intros x Hx. apply (Permutation_in _ (Permutation_sym P)). now right. }
  destruct (sort_ok pts Hi Hs s Hins U rem Ir) as (l' & -> & P' & Srt). cbn [bind].
  assert (Il : incl l' pts). { intros x Hx. apply Ir. apply (Permutation_in _ (Permutation_sym P')). auto. }
  assert (D : exists r, match l' with [] => Ok [] | p :: l => drop_collinear s p l end = Ok r).
  { destruct l' as [|p l'']; [eauto|]. apply (drop_ok pts Hi Hs s Hins); auto with datatypes.
    intros x Hx. apply Il. now right. }
  destruct D as (r & ->). cbn [bind].
  destruct (scan_ok pts Hi Hs s Hins U l' Il Srt) as (st & Es & (I & _ & Inv)). rewrite Es. cbn [bind].
  assert (Hin : forall z, In z pts -> z = s \/ In z l').
  { intros z Hz. apply (Permutation_in _ P) in Hz. destruct Hz as [->|Hz]; auto. right. now apply (Permutation_in _ P'). }
  assert (Self : forall x, on_segment x x x).
  { intros x. unfold on_segment, collinear, turn. split; [ring|]. rewrite !Z.sub_diag. lia. }
  destruct Inv as [[Hall [->| ->]]|(t & st' & -> & C & Lf & Bf)].
  - exists s, s. split; [exact Hins|]. split; [exact Hins|]. split; [|right; now split].
    intros z Hz. destruct (Hin z Hz) as [->|Hz']; [apply Self|]. rewrite (Hall z Hz'). apply Self.
  - exists s, s. split; [exact Hins|]. split; [exact Hins|]. split; [|now left].
    intros z Hz. destruct (Hin z Hz) as [->|Hz']; [apply Self|]. rewrite (Hall z Hz'). apply Self.
  - inversion C as [q N U'|c' b' a' l0 H1 H2 H3 H4]; subst.
    + exists s, t. assert (It : In t pts). { destruct (I t) as [<-|Ht]; auto with datatypes. }
      split; [exact Hins|]. split; [exact It|]. split; [|now left].
      intros z Hz. destruct (Hin z Hz) as [->|Hz'].
      * apply ray_segment; auto. { apply cr_s. } rewrite dsq_0. apply dsq_nonneg.
      * apply ray_segment; auto. { apply (Col s z t); auto. } destruct (Bf z Hz') as [B|[_ B]]; [|exact B].
        rewrite (Col s z t) in B; auto. lia.
    + exfalso. assert (K : turn a' b' t = 0).
      { apply Col; (match goal with |- In ?x _ => destruct (I x) as [<-|Hx]; auto 10 with datatypes end). }
      lia.
Qed.
