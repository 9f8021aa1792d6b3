(** What lines and drawing are supposed to do, without floats or iterators. *)
From Verif Require Import Base.

(** [recoloured S dr im out]: out is im with every pixel of the set S changed
    by [dr] once, and nothing else changed. *)
Definition recoloured {A} (S : Z -> Z -> Prop) (dr : A -> A) (im out : image A) : Prop :=
  wf out /\ iw out = iw im /\ ih out = ih im /\
  forall x y p, get im x y = Some p ->
    (S x y -> get out x y = Some (dr p)) /\ (~ S x y -> get out x y = Some p).

Definition king_move (p q : Z * Z) : Prop :=
  Z.max (Z.abs (fst q - fst p)) (Z.abs (snd q - snd p)) = 1.

Fixpoint chain {X} (R : X -> X -> Prop) (l : list X) : Prop :=
  match l with
  | p :: (q :: _) as l' => R p q /\ chain R l'
  | _ => True
  end.

(** p is at most half a pixel away, along the minor axis, from the ideal line
    through a and b (for p at the same position along the major axis). *)
Definition near_line (a b p : Z * Z) : Prop :=
  let dx := fst b - fst a in
  let dy := snd b - snd a in
  2 * Z.abs ((snd p - snd a) * dx - (fst p - fst a) * dy) <= Z.max (Z.abs dx) (Z.abs dy).

(** p lies in the bounding box of a and b *)
Definition in_box (a b p : Z * Z) : Prop :=
  Z.min (fst a) (fst b) <= fst p <= Z.max (fst a) (fst b) /\
  Z.min (snd a) (snd b) <= snd p <= Z.max (snd a) (snd b).

(** the f32 end points the theorems are about: integers that, with their
    differences and half-differences, are exact in f32 *)
Definition small (p : Z * Z) : Prop := Z.abs (fst p) <= 2 ^ 22 /\ Z.abs (snd p) <= 2 ^ 22.
