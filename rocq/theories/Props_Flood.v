(** C36, C37: flood_fill. *)
From Verif Require Import Base BaseProofs LineModel LineSpec FloodModel FloodSpec FloodProofs.

(** ** C36. [eqb] is the pixel type's PartialEq, symmetric and transitive as
    that trait demands (not necessarily reflexive: float pixels have NaN).
    [reach P sx sy x y] (FloodSpec.v): (x, y) is 4-connected to (sx, sy)
    through pixels satisfying P.  The loop needs at most 3*w*h + 3 rounds. *)

Theorem c36_flood_fill : forall A (eqb : A -> A -> bool) (im : image A) x y target fill fuel,
  (forall a b, eqb a b = true -> eqb b a = true) ->
  (forall a b c, eqb a b = true -> eqb b c = true -> eqb a c = true) ->
  wf im -> iw im < 2 ^ 31 - 1 -> ih im < 2 ^ 31 - 1 ->
  get im x y = Some target -> eqb fill target = false ->
  3 * (iw im * ih im) + 2 < Z.of_nat fuel ->
  exists out, flood_fill eqb fuel im x y fill = Ok out /\
    recoloured (reach (has_colour eqb im target) x y) (fun _ => fill) im out.
Proof.
  intros A eqb im x y target fill fuel Sy Tr W Hw Hh G NE Hf.
  apply flood_fill_ok; auto; [unfold dimok; auto|].
  intros p E. apply (Tr target p target); auto.
Qed.

Example c36_nontrivial :
  flood_fill Z.eqb 40 (mkImage 4 3 [1;1;0;1; 0;1;0;1; 1;1;1;1]) 0 0 5
    = Ok (mkImage 4 3 [5;5;0;5; 0;5;0;5; 5;5;5;5]) /\
  reach (has_colour Z.eqb (mkImage 4 3 [1;1;0;1; 0;1;0;1; 1;1;1;1]) 1) 0 0 1 1.
Proof.
  split; [vm_compute; reflexivity|].
  apply reach_step with (x := 1) (y := 0); [|reflexivity|exists 1; vm_compute; auto].
  apply reach_step with (x := 0) (y := 0); [|reflexivity|exists 1; vm_compute; auto].
  apply reach_start. exists 1. vm_compute; auto.
Qed.

(** A start outside the image panics. *)
Theorem c36_outside_panics : forall A (eqb : A -> A -> bool) (im : image A) x y fill fuel,
  get im x y = None -> flood_fill eqb fuel im x y fill = Panic.
Proof.
  intros A eqb im x y fill fuel H. unfold flood_fill.
  destruct (get_pixel im x y) as [p| |] eqn:E.
  - apply get_pixel_ok in E. congruence.
  - reflexivity.
  - unfold get_pixel in E. destruct (get im x y); discriminate.
Qed.

(** ** C37. *)

Definition c37_statement : Prop :=
  forall A (eqb : A -> A -> bool) (im : image A) x y p fill,
  (forall a b, eqb a b = true <-> a = b) -> wf im -> iw im < 2 ^ 31 - 1 -> ih im < 2 ^ 31 - 1 ->
  get im x y = Some p ->
  exists fuel out, flood_fill eqb fuel im x y fill = Ok out.

(** Filling a uniform 2 x 2 image with its own colour from (0, 1) never ends. *)
Definition c37_image : image Z := mkImage 2 2 [7; 7; 7; 7].
Lemma c37_loops fuel : forall e stk, In e [(0, 0, 0, -1); (1, 1, 1, 1); (0, 1, 2, 1)] ->
  (e = (0, 1, 2, 1) -> exists s, stk = (0, 0, 0, -1) :: s) ->
  flood_loop Z.eqb fuel 7 7 c37_image (e :: stk) = Timeout.
Proof.
  induction fuel as [|n IH]; intros e stk H X; [reflexivity|]. cbn [flood_loop].
  destruct H as [<-|[<-|[<-|[]]]].
  - eassert (E : flood_entry Z.eqb 7 7 c37_image (0, 0, 0, -1) stk = Ok (c37_image, _))
      by (vm_compute; reflexivity).
    rewrite E. cbn [bind]. apply IH; [cbn; auto|discriminate].
  - eassert (E : flood_entry Z.eqb 7 7 c37_image (1, 1, 1, 1) stk = Ok (c37_image, _))
      by (vm_compute; reflexivity).
    rewrite E. cbn [bind]. apply IH; [cbn; auto|]. intros _. eexists. reflexivity.
  - destruct (X eq_refl) as (s & ->).
    eassert (E : flood_entry Z.eqb 7 7 c37_image (0, 1, 2, 1) ((0, 0, 0, -1) :: s) = Ok (c37_image, _))
      by (vm_compute; reflexivity).
    rewrite E. cbn [bind].
    apply IH; [cbn; auto|discriminate].
Qed.

Theorem c37_terminates_refuted : ~ c37_statement.
Proof.
  intros H. destruct (H Z Z.eqb c37_image 0 1 7 7) as (fuel & out & E).
  - intros a b. apply Z.eqb_eq.
  - vm_compute. intuition congruence.
  - reflexivity.
  - reflexivity.
  - reflexivity.
  - unfold flood_fill in E. change (get_pixel c37_image 0 1) with (Ok 7) in E. cbn [bind] in E.
    change (wrap_i32 0) with 0 in E. change (wrap_i32 1) with 1 in E.
    change (chk_i 32 (1 - 1)) with (Ok 0) in E. cbn [bind] in E.
    rewrite c37_loops in E; [discriminate|cbn; auto|discriminate].
Qed.

(** What holds: termination whenever the new colour differs. *)
Theorem c37_terminates_partial : forall A (eqb : A -> A -> bool) (im : image A) x y p fill,
  (forall a b, eqb a b = true <-> a = b) -> wf im -> iw im < 2 ^ 31 - 1 -> ih im < 2 ^ 31 - 1 ->
  get im x y = Some p -> fill <> p ->
  exists fuel out, flood_fill eqb fuel im x y fill = Ok out.
Proof.
  intros A eqb im x y p fill EQ W Hw Hh G N.
  destruct (c36_flood_fill A eqb im x y p fill (Z.to_nat (3 * (iw im * ih im) + 3))) as (out & E & _);
    auto; try lia.
  - intros a b Hab. apply EQ in Hab. subst. apply EQ. reflexivity.
  - intros a b c Hab Hbc. apply EQ in Hab, Hbc. subst. apply EQ. reflexivity.
  - destruct (eqb fill p) eqn:E; [apply EQ in E; contradiction|reflexivity].
  - eauto.
Qed.

Example c37_nontrivial : get c37_image 0 1 = Some 7 /\
  flood_fill Z.eqb 20 c37_image 0 1 3 = Ok (mkImage 2 2 [3; 3; 3; 3]).
Proof. split; vm_compute; reflexivity. Qed.

Print Assumptions c36_flood_fill.
Print Assumptions c36_outside_panics.
Print Assumptions c37_terminates_refuted.
Print Assumptions c37_terminates_partial.
