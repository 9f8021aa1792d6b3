(** FAST corners: C52 and C53. *)
From Coq Require Import Sorted.
From Verif Require Import Base BaseProofs CornerModel CornerSpec CornerProofs.
Local Ltac Zify.zify_post_hook ::= idtac.

Definition section_length (v : fast) : Z := match v with Nine => 9 | Twelve => 12 end.
Definition valid (im : image Z) : Prop := wf im /\ iw im < 2 ^ 32 /\ ih im < 2 ^ 32.

(** C52, both variants *)
Definition c52_statement (v : fast) : Prop :=
  forall im t x y, valid im -> 0 <= t <= 255 ->
  exists b, is_corner v im t x y = Ok b /\ (b = true <-> fast_corner (section_length v) im t x y).

Theorem c52_fast9 : c52_statement Nine.
Proof. intros im t x y (W & W1 & W2) Ht. apply (is_corner_ok Nine); auto. lia. Qed.

(** FAST-12 looks only at sections containing both the top and the bottom pixel of the circle: here the
    12 pixels from position 10 round to position 5 are brighter, but position 8 is not *)
Definition missed : image Z := gen 7 7 (fun x y => if (y <=? 4) && negb ((x =? 3) && (y =? 3)) then 200 else
  if (y =? 5) then 200 else 100).
Theorem c52_fast12_refuted : ~ c52_statement Twelve.
Proof.
  intros H. destruct (H missed 20 3 3) as (b & E & C).
  { split; [apply wf_gen; lia|split; reflexivity]. }
  { lia. }
  assert (F : is_corner Twelve missed 20 3 3 = Ok false) by (vm_compute; reflexivity).
  rewrite F in E. injection E as <-.
  assert (T : false = true); [|discriminate]. apply C. split; [unfold away; cbn; lia|]. exists 10. split; [lia|]. left.
  intros k Hk. cbn [section_length] in Hk. unfold brighter_by.
  assert (K : k = 0 \/ k = 1 \/ k = 2 \/ k = 3 \/ k = 4 \/ k = 5 \/ k = 6 \/ k = 7 \/ k = 8 \/ k = 9 \/ k = 10 \/ k = 11) by lia.
  exists 100, 200. split; [reflexivity|]. split; [|reflexivity].
  repeat (destruct K as [->|K]; [vm_compute; reflexivity|]). subst. vm_compute. reflexivity.
Qed.

(** what FAST-12 decides: a section of 12 in which, besides, positions 0 and 8 both qualify *)
Theorem c52_fast12_partial im t x y : valid im -> 0 <= t <= 255 ->
  exists b, is_corner Twelve im t x y = Ok b /\
  (b = true -> fast_corner 12 im t x y) /\
  (b = true <-> away im x y /\ exists start, 0 <= start < 16 /\
     ((forall k, 0 <= k < 12 -> brighter_by im t x y (start + k)) /\ brighter_by im t x y 0 /\ brighter_by im t x y 8 \/
      (forall k, 0 <= k < 12 -> darker_by im t x y (start + k)) /\ darker_by im t x y 0 /\ darker_by im t x y 8)).
Proof.
  intros (W & W1 & W2) Ht. destruct (is_corner_ok Twelve im t x y W W1 W2 ltac:(lia)) as (b & E & H). exists b. split; [exact E|].
  split; [|exact H]. intros Hb. apply H in Hb. destruct Hb as (A & s & Hs & [(F & _)|(F & _)]); (split; [exact A|]); exists s; auto.
Qed.

(** C53: the score.  [passes] is the test of the program itself. *)
Definition passes (v : fast) (im : image Z) (x y t : Z) : Prop := is_corner v im t x y = Ok true.
Lemma passes_iff v im x y t : valid im -> 0 <= t -> passes v im x y t <-> code_corner v im t x y.
Proof.
  intros (W & W1 & W2) Ht. unfold passes. destruct (is_corner_ok v im t x y W W1 W2 Ht) as (b & E & H). rewrite E.
  rewrite <- H. split; congruence.
Qed.
Theorem c53_score v im t x y : valid im -> 0 <= t <= 255 ->
  exists s, fast_corner_score im t x y v = Ok s /\
    (passes v im x y t -> largest_threshold (passes v im x y) t s) /\
    (~ passes v im x y t -> s = t).
Proof.
  intros V Ht. pose proof V as (W & W1 & W2). destruct (score_ok v im t x y W W1 W2 Ht) as (s & E & R & C1 & C2).
  exists s. split; [exact E|]. split.
  - intros P. split; [exact R|]. split.
    + destruct (Z.eq_dec s t) as [->|]; [exact P|]. apply passes_iff; [auto|lia|]. apply C1. lia.
    + intros t' Ht' P'. apply passes_iff in P'; [|auto|lia]. apply (C2 t'); auto.
  - intros N. destruct (Z.eq_dec s t) as [|D]; [auto|]. exfalso. apply N. apply passes_iff; [auto|lia|].
    apply (code_corner_mono v im t s); [lia|]. apply C1. lia.
Qed.

(** for FAST-9 in terms of the definition itself *)
Theorem c53_score_fast9 im t x y : valid im -> 0 <= t <= 255 -> fast_corner 9 im t x y ->
  exists s, fast_corner_score im t x y Nine = Ok s /\ largest_threshold (fun t => fast_corner 9 im t x y) t s.
Proof. intros (W & W1 & W2) Ht C. now apply (score_corner Nine). Qed.

(** the detectors: every corner of the image, once, in reading order, with its score *)
Theorem c53_corners_fast9 im t : valid im -> 0 <= t <= 255 ->
  exists l, corners_fast Nine im t = Ok l /\ StronglySorted raster_before l /\
    forall x y s, In (x, y, s) l <-> fast_corner 9 im t x y /\ largest_threshold (fun t => fast_corner 9 im t x y) t s.
Proof. intros (W & W1 & W2) Ht. now apply (corners_ok Nine). Qed.
Theorem c53_corners_fast12 im t : valid im -> 0 <= t <= 255 ->
  exists l, corners_fast Twelve im t = Ok l /\ StronglySorted raster_before l /\
    forall x y s, In (x, y, s) l <-> passes Twelve im x y t /\ largest_threshold (passes Twelve im x y) t s.
Proof.
  intros V Ht. pose proof V as (W & W1 & W2). destruct (corners_ok Twelve im t W W1 W2 Ht) as (l & E & S & H).
  exists l. split; [exact E|]. split; [exact S|]. intros x y s. rewrite H. rewrite (passes_iff Twelve im x y t V) by lia.
  unfold largest_threshold. split; intros (C & R & C1 & C2).
  - splits; auto; try lia. { apply passes_iff; [auto|lia|auto]. } intros t' Ht' P. apply (C2 t' Ht'). apply (passes_iff Twelve im x y t' V); [lia|auto].
  - splits; auto; try lia. { apply passes_iff in C1; [auto|auto|lia]. } intros t' Ht' P. apply (C2 t' Ht'). apply (passes_iff Twelve im x y t' V); [lia|auto].
Qed.

(** the repository's own example of a FAST-9 corner, its score, and one pixel off the border *)
Definition sample : image Z := gen 7 7 (fun x y => if (x <=? 2) || (y <=? 1) then 10 else if (x =? 3) && (y =? 3) then 0 else 0).
Example c52_nontrivial : is_corner Nine sample 8 3 3 = Ok true /\ is_corner Nine sample 10 3 3 = Ok false /\ is_corner Nine sample 8 2 3 = Ok false.
Proof. vm_compute. auto. Qed.
Example c53_nontrivial : fast_corner_score sample 8 3 3 Nine = Ok 9 /\ corners_fast Nine sample 8 = Ok [(3, 3, 9)] /\ fast_corner_score sample 10 3 3 Nine = Ok 10.
Proof. vm_compute. auto. Qed.

Print Assumptions c52_fast9. Print Assumptions c52_fast12_refuted. Print Assumptions c52_fast12_partial.
Print Assumptions c53_score. Print Assumptions c53_score_fast9. Print Assumptions c53_corners_fast9. Print Assumptions c53_corners_fast12.
