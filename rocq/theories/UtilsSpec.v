(** What the comparison helpers promise. *)
From Verif Require Import Base UtilsModel.
Open Scope Z_scope.

(** (x, y) comes before (x', y') in raster order *)
Definition raster_before (x y x' y' : Z) : Prop := y < y' \/ (y = y' /\ x < x').

(** the list names each position at most once, in raster order *)
Definition in_raster_order {P} (l : list (diff P)) : Prop :=
  forall i j d e, i < j -> znth l i = Some d -> znth l j = Some e -> raster_before (dx_ d) (dy_ d) (dx_ e) (dy_ e).

(** the list contains exactly the positions where the two images differ *)
Definition lists_exactly {P} (a b : image P) (differ : Z -> Z -> P -> P -> bool) (l : list (diff P)) : Prop :=
  forall d, In d l <->
    (get a (dx_ d) (dy_ d) = Some (actual_ d) /\ get b (dx_ d) (dy_ d) = Some (expected_ d) /\
     differ (dx_ d) (dy_ d) (actual_ d) (expected_ d) = true).

(** same size and the same pixel everywhere *)
Definition same_image {P} (a b : image P) : Prop :=
  iw a = iw b /\ ih a = ih b /\ forall x y, get a x y = get b x y.

(** every channel within the tolerance *)
Definition within (tol : Z) (p q : list Z) : Prop :=
  zlen p = zlen q /\ forall i u v, znth p i = Some u -> znth q i = Some v -> Z.abs (u - v) <= tol.
