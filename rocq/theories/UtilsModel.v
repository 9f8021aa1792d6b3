(** Model of the image comparison helpers in src/utils.rs.  The text of the
    messages is not modelled: a description is either the rectangle that is
    rendered pixel by pixel or the list of at most five listed differences. *)
From Verif Require Import Base ContrastModel.

(** src/utils.rs:481-490 *)
Record diff (P : Type) := mkDiff { dx_ : Z; dy_ : Z; expected_ : P; actual_ : P }.
Arguments mkDiff {P} dx_ dy_ expected_ actual_.
Arguments dx_ {P} _.
Arguments dy_ {P} _.
Arguments expected_ {P} _.
Arguments actual_ {P} _.

(** [GenericImageView::pixels]: (x, y, pixel) row by row *)
Definition view_pixels {P} (im : image P) : list (Z * Z * P) :=
  map (fun '(i, p) => (i mod iw im, i / iw im, p)) (combine (zrange 0 (iw im * ih im)) (idata im)).

(** src/utils.rs:476-478 *)
Definition is_empty {P} (im : image P) : bool := (iw im =? 0) || (ih im =? 0).

(** src/utils.rs:447-474 *)
Definition pixel_diffs {P} (actual expected : image P) (is_diff : Z * Z * P -> Z * Z * P -> bool) : res (list (diff P)) :=
  if is_empty actual || is_empty expected then Ok []
  else
    mapM (fun '((px, py, p), (qx, qy, q)) =>
            assert ((px =? qx) && (py =? qy)) ;;;
            Ok (mkDiff px py q p))
         (filter (fun '(p, q) => is_diff p q) (combine (view_pixels actual) (view_pixels expected))).

(** what src/utils.rs:493-554 describe_pixel_diffs reports *)
Inductive description (P : Type) :=
| Dimensions : description P
| Region : Z -> Z -> Z -> Z -> description P
| Listed : list (Z * Z * P * P) -> description P.
Arguments Dimensions {P}.
Arguments Region {P} _ _ _ _.
Arguments Listed {P} _.

(** src/utils.rs:564-588: the reads of render_image_region; [right + 1] is u32,
    and the maximum column width of an empty region is [unwrap]ped *)
Definition render_region {P} (im : image P) (left top right bottom : Z) : res (list P) :=
  b1 <- chk_u 32 (bottom + 1) ;;
  r1 <- chk_u 32 (right + 1) ;;
  ps <- for_range top b1 (fun y acc =>
    for_range left r1 (fun x acc => p <- get_pixel im x y ;; Ok (acc ++ [p])) acc) [] ;;
  assert (negb (zlen ps =? 0)) ;;;
  Ok ps.

(** src/utils.rs:493-554 *)
Definition describe_pixel_diffs {P} (actual expected : image P) (diffs : list (diff P)) : res (description P) :=
  let '(tx, ty) := fold_left (fun acc d => (Z.min (fst acc) (dx_ d), Z.min (snd acc) (dy_ d))) diffs (2 ^ 32 - 1, 2 ^ 32 - 1) in
  let '(bx, by_) := fold_left (fun acc d => (Z.max (fst acc) (dx_ d), Z.max (snd acc) (dy_ d))) diffs (0, 0) in
  ex <- chk_u 32 (bx - tx) ;;
  ey <- chk_u 32 (by_ - ty) ;;
  if Z.max ex ey <? 6 then
    l <- chk_i 32 (as_i32 tx - 2) ;;
    t <- chk_i 32 (as_i32 ty - 2) ;;
    w1 <- chk_i 32 (as_i32 (iw actual) - 1) ;;
    r <- chk_i 32 (as_i32 bx + 2) ;;
    h1 <- chk_i 32 (as_i32 (ih actual) - 1) ;;
    b <- chk_i 32 (as_i32 by_ + 2) ;;
    let left := Z.max 0 l in
    let top := Z.max 0 t in
    let right := Z.min w1 r mod 2 ^ 32 in
    let bottom := Z.min h1 b mod 2 ^ 32 in
    render_region actual left top right bottom ;;;
    render_region expected left top right bottom ;;;
    Ok (Region left top right bottom)
  else Ok (Listed (map (fun d => (dx_ d, dy_ d, actual_ d, expected_ d)) (firstn 5 diffs))).

(** src/utils.rs:348-373 *)
Definition significant_pixel_diff_summary {P} (actual expected : image P) (is_diff : Z * Z * P -> Z * Z * P -> bool)
    : res (option (description P)) :=
  if negb ((iw actual =? iw expected) && (ih actual =? ih expected)) then Ok (Some Dimensions)
  else
    diffs <- pixel_diffs actual expected is_diff ;;
    match diffs with
    | [] => Ok None
    | _ => d <- describe_pixel_diffs actual expected diffs ;; Ok (Some d)
    end.

(** src/utils.rs:335-343: the closure compares the tuples (x, y, pixel); [eqb]
    is the pixel type's [PartialEq] *)
Definition pixel_diff_summary {P} (eqb : P -> P -> bool) (actual expected : image P) : res (option (description P)) :=
  significant_pixel_diff_summary actual expected
    (fun '(px, py, p) '(qx, qy, q) => negb ((px =? qx) && (py =? qy) && eqb p q)).

(** src/utils.rs:390-427 assert_pixels_eq_within!: [true] when the macro does
    not panic.  Channels are integers; unequal channel counts panic. *)
Fixpoint large_diff (tol : Z) (cp cq : list Z) : res bool :=
  match cp, cq with
  | [], [] => Ok false
  | p :: cp, q :: cq =>
      let d := if q <? p then p - q else q - p in
      if tol <? d then Ok true else large_diff tol cp cq
  | _, _ => Panic
  end.
Definition assert_pixels_eq_within (tol : Z) (actual expected : image (list Z)) : res bool :=
  if negb ((iw actual =? iw expected) && (ih actual =? ih expected)) then Ok false
  else
    mapM (fun '((_, _, p), (_, _, q)) =>
            assert (zlen p =? zlen q) ;;; Ok tt) (combine (view_pixels actual) (view_pixels expected)) ;;;
    diffs <- pixel_diffs actual expected (fun '(_, _, p) '(_, _, q) =>
               match large_diff tol p q with Ok b => b | _ => false end) ;;
    Ok match diffs with [] => true | _ => false end.
