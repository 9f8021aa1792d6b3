(** The eight ways to mirror and turn a rectangular image. *)
From Verif Require Import Base.

Record symmetry := mkSym { transposed : bool; mirror_x : bool; mirror_y : bool }.
(** where the pixel (x, y) of a w x h image goes: first the mirrors, then the
    exchange of the axes *)
Definition place (s : symmetry) (w h x y : Z) : Z * Z :=
  let a := if mirror_x s then w - 1 - x else x in
  let b := if mirror_y s then h - 1 - y else y in
  if transposed s then (b, a) else (a, b).
Definition upright (s : symmetry) : Prop := transposed s = false.

(** [im'] is [im] moved by [s] *)
Definition moved {A} (s : symmetry) (im im' : image A) : Prop :=
  wf im /\ wf im' /\
  iw im' = (if transposed s then ih im else iw im) /\ ih im' = (if transposed s then iw im else ih im) /\
  forall x y, 0 <= x < iw im -> 0 <= y < ih im ->
    get im' (fst (place s (iw im) (ih im) x y)) (snd (place s (iw im) (ih im) x y)) = get im x y.

(** the library's own symmetries *)
Definition mirror_sym := mkSym false true false.
Definition upside_down_sym := mkSym false false true.
Definition half_turn_sym := mkSym false true true.
Definition quarter_turn_sym := mkSym true false true.
Definition quarter_turn_ccw_sym := mkSym true true false.

(** both runs succeed and the results are moved in the same way *)
Definition both_moved {A} (s : symmetry) (r r' : res (image A)) : Prop :=
  exists out out', r = Ok out /\ r' = Ok out' /\ moved s out out'.
