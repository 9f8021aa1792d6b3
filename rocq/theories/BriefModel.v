(** Model of src/binary_descriptors/{mod,brief,constants}.rs and of
    src/image_hash/bits.rs. *)
From Verif Require Import Base IntegralModel.

(** brief.rs 18-27; u128 words, position of the corner (its score is always 0) *)
Record descriptor := mkDescriptor { dbits : list Z; dcorner : Z * Z }.

(** u128::count_ones, u64::count_ones: number of one bits among the lowest [n] *)
Definition count_ones (n z : Z) : Z := zsum 0 n (fun j => Z.b2z (Z.testbit z j)).

(** brief.rs 30-32 get_size: usize product, then [as u32] *)
Definition get_size (d : descriptor) : Z := (zlen (dbits d) * 128) mod 2 ^ 32.

(** brief.rs 34-40 hamming_distance *)
Definition hamming_distance (a b : descriptor) : res Z :=
  assert (get_size a =? get_size b) ;;;
  for_each (combine (dbits a) (dbits b)) (fun '(x, y) acc => chk_u 32 (acc + count_ones 128 (Z.lxor x y))) 0.

(** brief.rs 42-55 get_bit_subset.  [<<= 1] on u128 drops the top bit. *)
Definition get_bit_subset (d : descriptor) (bits : list Z) : res Z :=
  assert (zlen bits <=? 128) ;;;
  for_each bits (fun b subset =>
    w <- vget (dbits d) (b / 128) ;;
    chk_u 128 ((subset * 2) mod 2 ^ 128 + Z.shiftr w (b mod 128) mod 2)) 0.

(** [integral_image.unsafe_get_pixel(x, y)[0]], as a checked access *)
Definition pixel0 (im : image (list Z)) (x y : Z) : res Z := p <- get_pixel im x y ;; vget p 0.

(** brief.rs 70-109 local_pixel_average *)
Definition local_pixel_average (ii : image (list Z)) (x y radius : Z) : res Z :=
  if radius =? 0 then Ok 0
  else
    let y_min := Z.max 0 (y - radius) in
    let x_min := Z.max 0 (x - radius) in
    ye <- chk_u 32 (y + radius) ;; ye <- chk_u 32 (ye + 1) ;; h1 <- chk_u 32 (ih ii - 1) ;;
    xe <- chk_u 32 (x + radius) ;; xe <- chk_u 32 (xe + 1) ;; w1 <- chk_u 32 (iw ii - 1) ;;
    let y_max := Z.min ye h1 in
    let x_max := Z.min xe w1 in
    dy <- chk_u 32 (y_max - y_min) ;; dx <- chk_u 32 (x_max - x_min) ;;
    pixel_area <- chk_u 32 (dy * dx) ;;
    if pixel_area =? 0 then Ok 0
    else
      bottom_right <- pixel0 ii x_max y_max ;;
      top_left <- pixel0 ii x_min y_min ;;
      top_right <- pixel0 ii x_max y_min ;;
      bottom_left <- pixel0 ii x_min y_max ;;
      t <- chk_u 32 (bottom_right + top_left) ;;
      t <- chk_u 32 (t - top_right) ;;
      t <- chk_u 32 (t - bottom_left) ;;
      Ok ((t / pixel_area) mod 256).

(** constants.rs 1-2 *)
Definition BRIEF_PATCH_RADIUS : Z := 15.
Definition BRIEF_PATCH_DIAMETER : Z := 31.

(** a test pair: p0 and p1 *)
Notation test_pair := ((Z * Z) * (Z * Z))%type.

(** brief.rs 172-187: one test, the outcome shifted into the chunk; [(idx, tp)] *)
Definition test_at (ii : image (list Z)) (left top : Z) (tp : test_pair) : res bool :=
  let '((x0, y0), (x1, y1)) := tp in
  x0 <- chk_u 32 (x0 + left) ;; x0 <- chk_u 32 (x0 + 1) ;;
  y0 <- chk_u 32 (y0 + top) ;; y0 <- chk_u 32 (y0 + 1) ;;
  x1 <- chk_u 32 (x1 + left) ;; x1 <- chk_u 32 (x1 + 1) ;;
  y1 <- chk_u 32 (y1 + top) ;; y1 <- chk_u 32 (y1 + 1) ;;
  a <- local_pixel_average ii x0 y0 2 ;;
  b <- local_pixel_average ii x1 y1 2 ;;
  Ok (a <? b).

(** brief.rs 163-188: the loop over the test pairs *)
Definition describe (ii : image (list Z)) (left top : Z) (pairs : list test_pair) : res (list Z * Z) :=
  for_each (combine (zrange 0 (zlen pairs)) pairs) (fun '(idx, tp) '(bits, chunk) =>
    let '(bits, chunk) := if negb (idx =? 0) && (idx mod 128 =? 0) then (bits ++ [chunk], 0) else (bits, chunk) in
    b <- test_at ii left top tp ;;
    chunk <- chk_u 128 (chunk + Z.b2z b) ;;
    Ok (bits, (chunk * 2) mod 2 ^ 128)) ([], 0).

(** brief.rs 111-193 brief_impl; [None] is Err *)
Fixpoint describe_all (ii : image (list Z)) (pairs : list test_pair) (keypoints : list (Z * Z)) (acc : list descriptor) : res (option (list descriptor)) :=
  match keypoints with
  | [] => Ok (Some acc)
  | (kx, ky) :: keypoints =>
    xe <- chk_u 32 (kx + BRIEF_PATCH_RADIUS) ;; ye <- chk_u 32 (ky + BRIEF_PATCH_RADIUS) ;;
    if (kx <=? BRIEF_PATCH_RADIUS) || (iw ii <=? xe) || (ky <=? BRIEF_PATCH_RADIUS) || (ih ii <=? ye) then Ok None
    else
      ' (bits, chunk) <- describe ii (kx - BRIEF_PATCH_RADIUS) (ky - BRIEF_PATCH_RADIUS) pairs ;;
      describe_all ii pairs keypoints (acc ++ [mkDescriptor (bits ++ [chunk]) (kx, ky)])
  end.
Definition brief_impl (ii : image (list Z)) (keypoints : list (Z * Z)) (pairs : list test_pair) (length : Z) : res (option (list descriptor)) :=
  if negb (length mod 128 =? 0) then Ok None
  else if negb (length =? zlen pairs) then Ok None
  else describe_all ii pairs keypoints [].

(** brief.rs 222-261 brief, given the test pairs (from the caller, or drawn at
    random inside the 31 x 31 patch); the pairs are also returned *)
Definition brief (im : image (list Z)) (keypoints : list (Z * Z)) (length : Z) (pairs : list test_pair) : res (option (list descriptor * list test_pair)) :=
  ii <- integral_image Debug 32 1 im ;;
  o <- brief_impl ii keypoints pairs length ;;
  Ok (match o with Some ds => Some (ds, pairs) | None => None end).

(** ** mod.rs *)
(** HashMap<u128, Vec<&T>> as a list of buckets, one per key; mod.rs 87-95 *)
Fixpoint bucket_push (h : Z) (d : descriptor) (m : list (Z * list descriptor)) : list (Z * list descriptor) :=
  match m with
  | [] => [(h, [d])]
  | (h', v) :: m => if h =? h' then (h', v ++ [d]) :: m else (h', v) :: bucket_push h d m
  end.
Fixpoint bucket_get (h : Z) (m : list (Z * list descriptor)) : option (list descriptor) :=
  match m with [] => None | (h', v) :: m => if h =? h' then Some v else bucket_get h m end.
Definition build_table (database : list descriptor) (bits : list Z) : res (list (Z * list descriptor)) :=
  for_each database (fun d m => h <- get_bit_subset d bits ;; Ok (bucket_push h d m)) [].

(** mod.rs 104-113: all buckets of a query *)
Definition candidates (tables : list (list Z * list (Z * list descriptor))) (query : descriptor) : res (list descriptor) :=
  for_each tables (fun '(bits, table) acc =>
    h <- get_bit_subset query bits ;;
    Ok (acc ++ match bucket_get h table with Some m => m | None => [] end)) [].

(** mod.rs 114-124: linear scan *)
Definition scan (query : descriptor) (cs : list descriptor) : res (Z * option descriptor) :=
  for_each cs (fun c '(best_score, best) =>
    distance <- hamming_distance query c ;;
    Ok (if distance <? best_score then (distance, Some c) else (best_score, best))) (2 ^ 32 - 1, None).

(** mod.rs 48-134 match_binary_descriptors; [draws] are the random bit indices
    of the hash tables (three lists of floor(log2 n) indices below the size) *)
Definition match_binary_descriptors (d1 d2 : list descriptor) (threshold : Z) (draws : list (list Z)) : res (list (descriptor * descriptor)) :=
  if (zlen d1 =? 0) || (zlen d2 =? 0) then Ok []
  else
    let '(queries, database, swapped) := if zlen d2 <? zlen d1 then (d2, d1, true) else (d1, d2, false) in
    tables <- mapM (fun bits => t <- build_table database bits ;; Ok (bits, t)) draws ;;
    for_each queries (fun query matches =>
      cs <- candidates tables query ;;
      ' (best_score, best) <- scan query cs ;;
      if best_score <? threshold then
        b <- unwrap best ;;
        Ok (matches ++ [if (swapped : bool) then (b, query) else (query, b)])
      else Ok matches) [].

(** ** image_hash/bits.rs *)
(** bits.rs 36-50: bit_at, set_bit_at, unset_bit_at on u64 *)
Definition bit_at (v n : Z) : res bool := assert (n <? 64) ;;; Ok (negb (Z.land v (Z.shiftl 1 n) =? 0)).
Definition set_bit_at (v n : Z) : res Z := assert (n <? 64) ;;; Ok (Z.lor v (Z.shiftl 1 n)).
Definition unset_bit_at (v n : Z) : res Z := assert (n <? 64) ;;; Ok (Z.land v (Z.lxor (2 ^ 64 - 1) (Z.shiftl 1 n))).
(** bits.rs 7-23 new, zeros *)
Definition bits64_new (v : list bool) : res Z :=
  ' (bits, n) <- for_each v (fun bit '(bits, n) =>
      bits <- (if (bit : bool) then set_bit_at bits n else unset_bit_at bits n) ;; Ok (bits, n + 1)) (0, 0) ;;
  assert (n =? 64) ;;; Ok bits.
(** bits.rs 24-30 to_bitarray *)
Definition to_bitarray (v : Z) : res (list bool) := mapM (fun n => bit_at v n) (zrange 0 64).
(** bits.rs 31-36 hamming_distance and xor *)
Definition hash_distance (a b : Z) : Z := count_ones 64 (Z.lxor a b).
