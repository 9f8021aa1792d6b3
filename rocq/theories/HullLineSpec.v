(** Points on one line. *)
From Verif Require Import Base GeometrySpec.

(** p lies on the segment from a to b *)
Definition on_segment (a b p : Z * Z) : Prop :=
  collinear a b p /\
  0 <= (fst p - fst a) * (fst b - fst a) + (snd p - snd a) * (snd b - snd a) <=
       (fst b - fst a) * (fst b - fst a) + (snd b - snd a) * (snd b - snd a).
