(** Properties C02, C03: rotations and translation *)
From Verif Require Import Base ComposeModel GeomModel GeomSpec GeomProofs.

Definition ex_geom : image Z := mkImage 3 2 [1; 2; 3; 4; 5; 6].
Example ex_geom_wf : wf ex_geom.
Proof. unfold wf, zlen; simpl; lia. Qed.

(** ** C02 *)
Theorem c02_rotate90_turns : forall (A : Type) (zero : A) (im : image A),
  wf im -> exists out, rotate90 zero im = Ok out /\ quarter_turn im out.
Proof. exact @rotate90_correct. Qed.
Print Assumptions c02_rotate90_turns.

Theorem c02_rotate270_turns : forall (A : Type) (zero : A) (im : image A),
  wf im -> exists out, rotate270 zero im = Ok out /\ quarter_turn_ccw im out.
Proof. exact @rotate270_correct. Qed.
Print Assumptions c02_rotate270_turns.

Theorem c02_rotate180_turns : forall (A : Type) (im : image A),
  wf im -> exists out, rotate180 im = Ok out /\ half_turn im out.
Proof. exact @rotate180_correct. Qed.
Print Assumptions c02_rotate180_turns.

Theorem c02_rotate90_four_times : forall (A : Type) (zero : A) (im : image A), wf im ->
  (a <- rotate90 zero im ;; b <- rotate90 zero a ;; c <- rotate90 zero b ;; rotate90 zero c) = Ok im.
Proof. exact @rotate90_four. Qed.
Print Assumptions c02_rotate90_four_times.

Theorem c02_rotate270_undoes_90 : forall (A : Type) (zero : A) (im : image A), wf im ->
  bind (rotate90 zero im) (rotate270 zero) = Ok im.
Proof. exact @rotate270_after_90. Qed.
Print Assumptions c02_rotate270_undoes_90.

Theorem c02_rotate90_undoes_270 : forall (A : Type) (zero : A) (im : image A), wf im ->
  bind (rotate270 zero im) (rotate90 zero) = Ok im.
Proof. exact @rotate90_after_270. Qed.
Print Assumptions c02_rotate90_undoes_270.

Theorem c02_rotate90_twice_is_180 : forall (A : Type) (zero : A) (im : image A), wf im ->
  bind (rotate90 zero im) (rotate90 zero) = rotate180 im.
Proof. exact @rotate90_twice. Qed.
Print Assumptions c02_rotate90_twice_is_180.

Theorem c02_rotate180_involution : forall (A : Type) (im : image A), wf im ->
  bind (rotate180 im) rotate180 = Ok im.
Proof. exact @rotate180_twice. Qed.
Print Assumptions c02_rotate180_involution.

Example c02_ex : rotate90 0 ex_geom = Ok (mkImage 2 3 [4; 1; 5; 2; 6; 3]).
Proof. reflexivity. Qed.

(** ** C03 *)
Theorem c03_translate_replicates_border :
  forall (A : Type) (zero : A) (im : image A) tx ty,
  wf im -> 0 < iw im < 2 ^ 31 -> ih im < 2 ^ 31 ->
  is_i32 tx -> is_i32 ty -> ih im - 1 - ty < 2 ^ 31 ->
  exists out, translate zero im tx ty = Ok out /\ shifted im out tx ty.
Proof. exact @translate_correct. Qed.
Print Assumptions c03_translate_replicates_border.

Example c03_ex : translate 0 ex_geom 1 (-1) = Ok (mkImage 3 2 [4; 4; 5; 4; 4; 5])
  /\ translate 0 ex_geom (-7) 5 = Ok (mkImage 3 2 [3; 3; 3; 3; 3; 3]).
Proof. split; reflexivity. Qed.
