(** Model of src/suppress.rs. *)
From Verif Require Import Base.

(** The comparison of the scan: [ci < mi => continue; ci > mi || (cx,cy) < (bx,by)]
    (suppress.rs 38-43 and 98-103); tuples compare lexicographically. *)
Definition lex_lt (ax ay bx by_ : Z) : bool := (ax <? bx) || ((ax =? bx) && (ay <? by_)).
Definition replaces (ci cx cy mi bx by_ : Z) : bool :=
  if ci <? mi then false else (mi <? ci) || lex_lt cx cy bx by_.

(** suppress.rs 80-109 contains_greater_value (the early return is a found
    flag: the remaining iterations have no effect) *)
Definition contains_greater_value (im : image Z) (x y v yl yu xl xu : Z) : res bool :=
  for_range yl yu (fun cy (found : bool) =>
    for_range xl xu (fun cx (found : bool) =>
      if found then Ok true
      else ci <- get_pixel im cx cy ;; Ok (replaces ci cx cy v x y)) found) false.

(** u32 saturating_sub *)
Definition sat_sub (a b : Z) : Z := Z.max 0 (a - b).

(** suppress.rs 31-69: one block with top left corner (x, y) (u32 additions
    checked; unsafe accesses are checked accesses) *)
Definition suppress_block (im : image Z) (radius x y : Z) (out : image Z) : res (image Z) :=
  let width := iw im in let height := ih im in
  m <- get_pixel im x y ;;
  yr <- chk_u 32 (y + radius) ;; yr1 <- chk_u 32 (yr + 1) ;;
  xr <- chk_u 32 (x + radius) ;; xr1 <- chk_u 32 (xr + 1) ;;
  ' b <- for_range y (Z.min height yr1) (fun cy b =>
    for_range x (Z.min width xr1) (fun cx b =>
      let '(bx, by_, mi) := b in
      ci <- get_pixel im cx cy ;;
      if replaces ci cx cy mi bx by_ then Ok (cx, cy, ci) else Ok b) b) (x, y, m) ;;
  let '(best_x, best_y, mi) := b in
  let x0 := sat_sub best_x radius in
  let x1 := x in
  let x2 := Z.min width xr1 in
  bxr <- chk_u 32 (best_x + radius) ;; bxr1 <- chk_u 32 (bxr + 1) ;;
  let x3 := Z.min width bxr1 in
  let y0 := sat_sub best_y radius in
  let y1 := y in
  let y2 := Z.min height yr1 in
  byr <- chk_u 32 (best_y + radius) ;; byr1 <- chk_u 32 (byr + 1) ;;
  let y3 := Z.min height byr1 in
  f1 <- contains_greater_value im best_x best_y mi y0 y1 x0 x3 ;;
  f2 <- contains_greater_value im best_x best_y mi y1 y2 x0 x1 ;;
  f3 <- contains_greater_value im best_x best_y mi y1 y2 x2 x3 ;;
  f4 <- contains_greater_value im best_x best_y mi y2 y3 x0 x3 ;;
  if f1 || f2 || f3 || f4 then Ok out else put_pixel out best_x best_y mi.

(** number of elements of [(0..n).step_by(s)]; its j-th element is j * s *)
Definition steps (n s : Z) : Z := (n + s - 1) / s.

(** suppress.rs 10-75 suppress_non_maximum.  Pixel values are integers (the
    bound [Primitive + Ord] excludes floats); [Image::new] fills with 0. *)
Definition suppress_non_maximum (im : image Z) (radius : Z) : res (image Z) :=
  let out := new_image (iw im) (ih im) 0 in
  if (iw im =? 0) || (ih im =? 0) then Ok out
  else
    let s := radius + 1 in
    for_range 0 (steps (ih im) s) (fun j out =>
      for_range 0 (steps (iw im) s) (fun i out =>
        suppress_block im radius (i * s) (j * s) out) out) out.

(** An item of local_maxima: position and score.  The score type (f32 in the
    crate) is a parameter with its [<]. *)
Section Maxima.
  Context {S : Type} (slt : S -> S -> bool).
  Record item := mkItem { px : Z; py : Z; score : S }.

  (** sort_by_key(|c| (c.y(), c.x())): stable *)
  Definition key_le (a b : item) : bool :=
    (py a <? py b) || ((py a =? py b) && (px a <=? px b)).
  Fixpoint insert_item (a : item) (l : list item) : list item :=
    match l with
    | [] => [a]
    | b :: t => if key_le a b then a :: l else b :: insert_item a t
    end.
  Definition sort_items (l : list item) : list item := fold_right insert_item [] l.

  (** suppress.rs 146-165: the inner loop over one row; true = is_max survives *)
  Fixpoint scan_items (radius : Z) (t : item) (row : list item) : res bool :=
    match row with
    | [] => Ok true
    | c :: rest =>
        cxr <- chk_u 32 (px c + radius) ;;
        if cxr <? px t then scan_items radius t rest
        else
          txr <- chk_u 32 (px t + radius) ;;
          if txr <? px c then Ok true
          else if slt (score t) (score c) then Ok false
          else if slt (score c) (score t) then scan_items radius t rest
          else if lex_lt (py c) (px c) (py t) (px t) then Ok false
          else scan_items radius t rest
    end.

  (** suppress.rs 113-178 local_maxima *)
  Definition local_maxima (ts : list item) (radius : Z) : res (list item) :=
    let ordered := sort_items ts in
    let height := match rev ordered with [] => 0 | t :: _ => py t end in
    h1 <- chk_u 32 (height + 1) ;;
    rows <- for_each ordered (fun t rows =>
      r <- vget rows (py t) ;; vset rows (py t) (r ++ [t])) (map (fun _ => []) (zrange 0 h1)) ;;
    kept <- mapM (fun t =>
      let row_lower := sat_sub (py t) radius in
      a <- chk_u 32 (py t + radius) ;; b <- chk_u 32 (a + 1) ;;
      let row_upper := if height <? b then height else b in
      is_max <- for_range row_lower row_upper (fun y is_max =>
        if is_max : bool then row <- vget rows y ;; scan_items radius t row else Ok false) true ;;
      Ok (if is_max then [t] else [])) ordered ;;
    Ok (concat kept).
End Maxima.
Arguments item S : clear implicits.
Arguments mkItem {S} px py score.
