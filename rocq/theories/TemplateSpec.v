(** The documented sums of template matching, and the meaning of the extremes. *)
From Coq Require Import Reals.
From Flocq Require Import Core BinarySingleNaN.
From Verif Require Import Base Float TemplateModel.

Definition px (im : image Z) (x y : Z) : Z := match get im x y with Some v => v | None => 0 end.

(** the mask when there is none *)
Definition no_mask (x y : Z) : Z := 1.

Section Sums.
  Context (I T : image Z) (M : Z -> Z -> Z) (x y : Z).
  Definition over_template (f : Z -> Z -> Z) : Z := zsum 0 (ih T) (fun y' => zsum 0 (iw T) (fun x' => f x' y')).
  Definition squared_errors : Z := over_template (fun x' y' => ((px T x' y' - px I (x + x') (y + y')) * M x' y') ^ 2).
  Definition cross_correlation : Z := over_template (fun x' y' => px T x' y' * px I (x + x') (y + y') * M x' y' ^ 2).
  Definition template_power : Z := over_template (fun x' y' => (px T x' y' * M x' y') ^ 2).
  Definition image_power : Z := over_template (fun x' y' => (px I (x + x') (y + y') * M x' y') ^ 2).

  (** the documented numerator; the documented score, which for the normalized
      methods is the numerator itself where the denominator vanishes *)
  Definition numerator (m : method) : Z :=
    match m with
    | SumOfSquaredErrors | SumOfSquaredErrorsNormalized => squared_errors
    | CrossCorrelation | CrossCorrelationNormalized => cross_correlation
    end.
  Definition normalized (m : method) : bool :=
    match m with SumOfSquaredErrorsNormalized | CrossCorrelationNormalized => true | _ => false end.
  Definition documented_score (m : method) : R :=
    if normalized m && negb (template_power * image_power =? 0)
    then (IZR (numerator m) / sqrt (IZR (template_power * image_power)))%R
    else IZR (numerator m).
End Sums.

(** relative error at most e / 2^24 *)
Definition within (e : R) (v : f32) (r : R) : Prop :=
  is_finite v = true /\ (Rabs (B2R v - r) <= e / 16777216 * Rabs r)%R.

(** reading order: rows first *)
Definition reads_before (p q : Z * Z) : Prop := snd p < snd q \/ snd p = snd q /\ fst p < fst q.
(** lexicographic order of the pair (x, y) *)
Definition lex_before (p q : Z * Z) : Prop := fst p < fst q \/ fst p = fst q /\ snd p < snd q.

(** the first, in the order [before], of the locations where the image is largest *)
Definition first_largest {A} (before : Z * Z -> Z * Z -> Prop) (lt : A -> A -> bool) (im : image A) (v : A) (p : Z * Z) : Prop :=
  get im (fst p) (snd p) = Some v /\
  forall x y v', get im x y = Some v' -> lt v v' = false /\ (lt v' v = false -> (x, y) = p \/ before p (x, y)).
