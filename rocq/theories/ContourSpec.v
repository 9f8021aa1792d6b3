(** Foreground pixels, regions and borders, independent of border following. *)
From Verif Require Import Base.

(** pixel p is brighter than the threshold *)
Definition foreground (im : image Z) (threshold : Z) (p : Z * Z) : Prop :=
  exists v, get im (fst p) (snd p) = Some v /\ threshold < v.
(** distinct 8-neighbours *)
Definition neighbours (p q : Z * Z) : Prop :=
  p <> q /\ Z.abs (fst p - fst q) <= 1 /\ Z.abs (snd p - snd q) <= 1.
(** joined by a chain of foreground 8-neighbours *)
Inductive connected (im : image Z) (threshold : Z) : Z * Z -> Z * Z -> Prop :=
| conn_refl : forall p, foreground im threshold p -> connected im threshold p p
| conn_step : forall p q r, connected im threshold p q -> neighbours q r -> foreground im threshold r ->
    connected im threshold p r.
(** raster order *)
Definition before (p q : Z * Z) : Prop := snd p < snd q \/ (snd p = snd q /\ fst p < fst q).
(** p is the first pixel, in raster order, of its region *)
Definition region_first (im : image Z) (threshold : Z) (p : Z * Z) : Prop :=
  foreground im threshold p /\ forall q, connected im threshold p q -> q = p \/ before p q.
(** a closed chain of 8-neighbours *)
Fixpoint chain (l : list (Z * Z)) (last : Z * Z) : Prop :=
  match l with
  | [] => True
  | [p] => neighbours p last
  | p :: ((q :: _) as l) => neighbours p q /\ chain l last
  end.
Definition closed_chain (l : list (Z * Z)) : Prop :=
  match l with [] => False | [p] => True | p :: _ => chain l p end.
