(** Connected components of an image, independently of the algorithm. *)
From Coq Require Import Relations.
From Verif Require Import Base RegionModel.

(** 4-neighbours differ by 1 in one coordinate; 8-neighbours by at most 1 in both *)
Definition neighbours (conn : connectivity) (p q : Z * Z) : Prop :=
  match conn with
  | Four => Z.abs (fst p - fst q) + Z.abs (snd p - snd q) = 1
  | Eight => Z.max (Z.abs (fst p - fst q)) (Z.abs (snd p - snd q)) = 1
  end.

(** one step of a path that stays inside the image and keeps its colour *)
Definition same_colour_step {A} (im : image A) (conn : connectivity) (p q : Z * Z) : Prop :=
  neighbours conn p q /\
  exists c, get im (fst p) (snd p) = Some c /\ get im (fst q) (snd q) = Some c.

Definition path {A} (im : image A) (conn : connectivity) : Z * Z -> Z * Z -> Prop :=
  clos_refl_trans (Z * Z) (same_colour_step im conn).

(** (a, b) comes before (x, y) in raster order *)
Definition earlier (p q : Z * Z) : Prop := snd p < snd q \/ (snd p = snd q /\ fst p < fst q).

(** What [connected_components] promises *)
Definition is_component_labelling {A} (im : image A) (conn : connectivity) (background : A)
           (out : image Z) : Prop :=
  wf out /\ iw out = iw im /\ ih out = ih im /\
  (* background is 0, foreground is positive *)
  (forall x y, get im x y = Some background -> get out x y = Some 0) /\
  (forall x y c, get im x y = Some c -> c <> background ->
     exists l, get out x y = Some l /\ 0 < l /\
       (* labels appear in the order 1, 2, 3, ... when read in raster order *)
       forall k, 0 < k < l -> exists x' y', earlier (x', y') (x, y) /\ get out x' y' = Some k) /\
  (* two foreground pixels share a label iff a same-colour path joins them *)
  (forall x y c x' y' c',
     get im x y = Some c -> c <> background -> get im x' y' = Some c' -> c' <> background ->
     (get out x y = get out x' y' <-> path im conn (x, y) (x', y'))).

(** Every pixel is foreground and differs from all its neighbours. *)
Definition all_isolated {A} (im : image A) (conn : connectivity) (background : A) : Prop :=
  (forall x y c, get im x y = Some c -> c <> background) /\
  (forall x y x' y' c, neighbours conn (x, y) (x', y') ->
     get im x y = Some c -> get im x' y' <> Some c).
