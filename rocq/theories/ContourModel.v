(** Model of src/contours.rs. *)
From Verif Require Import Base.

(** contours.rs 8-17 and 20-29 *)
Inductive border := Outer | Hole.
Record contour := mkContour { points : list (Z * Z); border_type : border; parent : option Z }.

Definition padd (a b : Z * Z) : Z * Z := (fst a + fst b, snd a + snd b).
Definition psub (a b : Z * Z) : Z * Z := (fst a - fst b, snd a - snd b).
Definition peq (a b : Z * Z) : bool := (fst a =? fst b) && (snd a =? snd b).
Definition is_outer (b : border) : bool := match b with Outer => true | Hole => false end.

(** contours.rs 87-96 *)
Definition diffs0 : list (Z * Z) :=
  [(-1, 0); (-1, -1); (0, -1); (1, -1); (1, 0); (1, 1); (0, 1); (-1, 1)].

(** contours.rs 201-204 rotate_to_value *)
Fixpoint position (l : list (Z * Z)) (v : Z * Z) : option nat :=
  match l with
  | [] => None
  | d :: l => if peq d v then Some O else option_map S (position l v)
  end.
Definition rotate_to_value (l : list (Z * Z)) (v : Z * Z) : res (list (Z * Z)) :=
  n <- unwrap (position l v) ;; Ok (skipn n l ++ firstn n l).

(** contours.rs 68-77 get_position_if_non_zero_pixel; [vals] is image_values
    with its width and height *)
Definition nz (vals : image Z) (p : Z * Z) : option (Z * Z) :=
  match get vals (fst p) (snd p) with
  | Some v => if v =? 0 then None else Some p
  | None => None
  end.
Fixpoint find_nz (vals : image Z) (p : Z * Z) (l : list (Z * Z)) : option (Z * Z) :=
  match l with
  | [] => None
  | d :: l => match nz vals (padd p d) with Some q => Some q | None => find_nz vals p l end
  end.

(** contours.rs 160-169 *)
Fixpoint right_edge (l : list (Z * Z)) (target : Z * Z) : bool :=
  match l with
  | [] => false
  | d :: l => if peq d target then false else if peq d (1, 0) then true else right_edge l target
  end.

(** [cast(..).unwrap()] of a coordinate to T, whose largest value is [tmax] *)
Definition cast_t (tmax : Z) (p : Z * Z) : res (Z * Z) :=
  assert ((fst p <=? tmax) && (snd p <=? tmax)) ;;; Ok p.

(** contours.rs 146-183: the border following loop, cut off after [fuel]
    iterations (Timeout); [num] is curr_border_num *)
Fixpoint trace (fuel : nat) (tmax num : Z) (curr pos1 pos2 pos3 : Z * Z)
  (vals : image Z) (diffs pts : list (Z * Z)) : res (image Z * list (Z * Z) * list (Z * Z)) :=
  match fuel with
  | O => Timeout
  | S fuel =>
    p <- cast_t tmax pos3 ;;
    let pts := pts ++ [p] in
    diffs <- rotate_to_value diffs (psub pos2 pos3) ;;
    pos4 <- unwrap (find_nz vals pos3 (rev diffs)) ;;
    let is_right_edge := right_edge (rev diffs) (psub pos4 pos3) in
    v <- get_pixel vals (fst pos3) (snd pos3) ;;
    vals <- (if (fst pos3 + 1 =? iw vals) || is_right_edge then put_pixel vals (fst pos3) (snd pos3) (- num)
             else if v =? 1 then put_pixel vals (fst pos3) (snd pos3) num
             else Ok vals) ;;
    if peq pos4 curr && peq pos3 pos1 then Ok (vals, diffs, pts)
    else trace fuel tmax num curr pos1 pos3 pos4 vals diffs pts
  end.

(** contours.rs 103-121: does pixel (x, y) start a border?  The neighbour, the
    type and the updated parent_border_num *)
Definition border_start (vals : image Z) (x y pn : Z) : res (option (Z * Z * border) * Z) :=
  v <- get_pixel vals x y ;;
  l <- (if 0 <? x then l <- get_pixel vals (x - 1) y ;; Ok (Some l) else Ok None) ;;
  if (v =? 1) && (match l with Some l => l =? 0 | None => false end)
  then Ok (Some ((x - 1, y), Outer), pn)
  else
    r <- (if (0 <? v) && (x + 1 <? iw vals) then r <- get_pixel vals (x + 1) y ;; Ok (Some r) else Ok None) ;;
    match r with
    | Some 0 => Ok (Some ((x + 1, y), Hole), if 1 <? v then v else pn)
    | _ => Ok (None, pn)
    end.

(** contours.rs 124-138 *)
Definition parent_of (contours : list contour) (t : border) (pn : Z) : res (option Z) :=
  if 1 <? pn then
    c <- vget contours (pn - 2) ;;
    if xorb (is_outer t) (is_outer (border_type c)) then Ok (Some (pn - 2)) else Ok (parent c)
  else Ok None.

Definition state : Type := image Z * list (Z * Z) * list contour * Z.

(** contours.rs 140-190: follow the border starting at [curr] *)
Definition follow (fuel : nat) (tmax : Z) (curr adj : Z * Z) (num : Z) (vals : image Z) (diffs : list (Z * Z))
  : res (image Z * list (Z * Z) * list (Z * Z)) :=
  diffs <- rotate_to_value diffs (psub adj curr) ;;
  match find_nz vals curr diffs with
  | Some pos1 => trace fuel tmax num curr pos1 pos1 curr vals diffs []
  | None =>
    p <- cast_t tmax curr ;;
    vals <- put_pixel vals (fst curr) (snd curr) (- num) ;;
    Ok (vals, diffs, [p])
  end.

(** contours.rs 102-196: one iteration of the inner loop *)
Definition visit (fuel : nat) (tmax x y : Z) (st : state * Z) : res (state * Z) :=
  let '((vals, diffs, contours, num), pn) := st in
  v <- get_pixel vals x y ;;
  if v =? 0 then Ok st else
  ' b <- border_start vals x y pn ;;
  let '(start, pn) := b in
  ' st <- match start with
    | Some (adj, t) =>
      num <- chk_i 32 (num + 1) ;;
      par <- parent_of contours t pn ;;
      ' r <- follow fuel tmax (x, y) adj num vals diffs ;;
      let '(vals, diffs, pts) := r in
      Ok (vals, diffs, contours ++ [mkContour pts t par], num)
    | None => Ok (vals, diffs, contours, num)
    end ;;
  let '(vals, diffs, contours, num) := st in
  v <- get_pixel vals x y ;;
  Ok ((vals, diffs, contours, num), if v =? 1 then pn else Z.abs v).

(** contours.rs 79-85 *)
Definition binarise (im : image Z) (threshold : Z) : image Z :=
  mkImage (iw im) (ih im) (map (fun v => if threshold <? v then 1 else 0) (idata im)).

(** contours.rs 58-199 find_contours_with_threshold.  The border following loop
    is cut off after 8*width*height iterations; that it never gets there
    (no Timeout) is part of C45. *)
Definition find_contours_with_threshold (tmax : Z) (im : image Z) (threshold : Z) : res (list contour) :=
  let fuel := Z.to_nat (8 * (iw im * ih im)) in
  ' r <- for_range 0 (ih im) (fun y st =>
    ' r <- for_range 0 (iw im) (fun x st => visit fuel tmax x y st) (st, 1) ;;
    let '(st, _) := r in Ok st) (binarise im threshold, diffs0, [], 1) ;;
  let '(_, _, contours, _) := r in
  Ok contours.

(** contours.rs 47-52 *)
Definition find_contours (tmax : Z) (im : image Z) : res (list contour) :=
  find_contours_with_threshold tmax im 0.
