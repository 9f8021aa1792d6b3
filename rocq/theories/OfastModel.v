(** Model of oriented FAST corners (src/corners.rs). *)
From Verif Require Import Base Float CornerModel.

(** corners.rs 117-167 intensity_centroid up to the call of atan2: the pair
    (x_centroid, y_centroid).  The [unsafe_get_pixel] reads are checked reads. *)
Definition intensity_moments (im : image Z) (x y radius : Z) : res (Z * Z) :=
  let x_min := Z.max 0 (x - radius) in
  let y_min := Z.max 0 (y - radius) in
  ya <- chk_u 32 (y + radius) ;; ya <- chk_u 32 (ya + 1) ;;
  let y_max := Z.min ya (ih im) in
  xa <- chk_u 32 (x + radius) ;; xa <- chk_u 32 (xa + 1) ;;
  let x_max := Z.min xa (iw im) in
  xc <- for_range y_min y_max (fun y xc =>
    ' (xc, _) <- for_range x_min x_max (fun x '(xc, x_count) =>
      pixel <- get_pixel im x y ;;
      m <- chk_i 32 (x_count * pixel) ;;
      xc <- chk_i 32 (xc + m) ;;
      x_count <- chk_i 32 (x_count + 1) ;;
      Ok (xc, x_count)) (xc, - radius) ;;
    Ok xc) 0 ;;
  yc <- for_range x_min x_max (fun x yc =>
    ' (yc, _) <- for_range y_min y_max (fun y '(yc, y_count) =>
      pixel <- get_pixel im x y ;;
      m <- chk_i 32 (y_count * pixel) ;;
      yc <- chk_i 32 (yc + m) ;;
      y_count <- chk_i 32 (y_count - 1) ;;
      Ok (yc, y_count)) (yc, radius) ;;
    Ok yc) 0 ;;
  Ok (xc, yc).
(** corners.rs 162-167: the orientation; [atan2 y x] is f32::atan2 *)
Definition intensity_centroid (atan2 : f32 -> f32 -> f32) (im : image Z) (x y radius : Z) : res f32 :=
  ' (xc, yc) <- intensity_moments im x y radius ;;
  Ok (fneg (atan2 (of_int yc) (of_int xc))).

(** slice::sort_by with the comparison of corners.rs 224: a stable sort by
    descending score (insertion sort, the result of any stable sort) *)
Fixpoint insert_desc (a : Z * Z * Z) (l : list (Z * Z * Z)) : list (Z * Z * Z) :=
  match l with
  | [] => [a]
  | b :: l' => if snd b <=? snd a then a :: l else b :: insert_desc a l'
  end.
Definition sort_desc (l : list (Z * Z * Z)) : list (Z * Z * Z) := fold_right insert_desc [] l.
(** slice::sort on u8 values *)
Fixpoint insert_asc (a : Z) (l : list Z) : list Z :=
  match l with [] => [a] | b :: l' => if a <=? b then a :: l else b :: insert_asc a l' end.
Definition sort_asc (l : list Z) : list Z := fold_right insert_asc [] l.

(** corners.rs 187-210: the threshold from a random sample.  [sample i] is the
    i-th pair drawn from the two uniform distributions; Uniform::new panics on
    an empty range. *)
Definition auto_threshold (sample : Z -> Z * Z) (im : image Z) (target edge : Z) : res Z :=
  min_x <- Ok edge ;; max_x <- chk_u 32 (iw im - edge) ;;
  min_y <- Ok edge ;; max_y <- chk_u 32 (ih im - edge) ;;
  assert (min_x <? max_x) ;;; assert (min_y <? max_y) ;;;
  n <- chk_u 32 (iw im * ih im) ;;
  let sample_size := Z.min 1000 n in
  scores <- mapM (fun i => fast_corner_score im 0 (fst (sample i)) (snd (sample i)) Nine) (zrange 0 sample_size) ;;
  let scores := sort_asc scores in
  let fraction : f32 := fdiv (of_int target) (of_int n) in
  let idx := to_int 0 (2 ^ 64 - 1) (fmul (of_int 1000 : f32) (fsub (of_int 1) fraction)) in
  vget scores idx.

(** corners.rs 213-221 *)
Definition margin_corners (im : image Z) (t edge : Z) : res (list (Z * Z * Z)) :=
  for_range edge (ih im - edge) (fun y acc =>
    for_range edge (iw im - edge) (fun x acc =>
      b <- is_corner_fast9 im t x y ;;
      if (b : bool) then s <- fast_corner_score im t x y Nine ;; Ok (acc ++ [(x, y, s)]) else Ok acc) acc) [].

(** corners.rs 173-241 oriented_fast.  A corner is ((x, y, score), orientation);
    scores are kept as integers (the code stores [score as f32]). *)
Definition oriented_fast (atan2 : f32 -> f32 -> f32) (sample : Z -> Z * Z) (im : image Z)
    (threshold : option Z) (target edge : Z) : res (list (Z * Z * Z * f32)) :=
  max_x <- chk_u 32 (iw im - edge) ;; max_y <- chk_u 32 (ih im - edge) ;;
  t <- (match threshold with Some t => Ok t | None => auto_threshold sample im target edge end) ;;
  corners <- margin_corners im t edge ;;
  let corners := sort_desc corners in
  let top := if zlen corners <? target then corners else firstn (Z.to_nat target) corners in
  mapM (fun c => o <- intensity_centroid atan2 im (fst (fst c)) (snd (fst c)) 15 ;; Ok (c, o)) top.
