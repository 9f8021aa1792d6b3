(** Model of the grayscale part of src/morphology.rs: [Mask] and its
    constructors, [mask_reduce], grayscale_dilate/erode/open/close.
    A mask is the list of its offsets (x, y), in storage order. *)
From Verif Require Import Base.

(** src/morphology.rs:387-393: the debug assertion on consecutive elements *)
Fixpoint consecutive_sorted (l : list (Z * Z)) : bool :=
  match l with
  | (ax, ay) :: (((bx, by_) :: _) as l') =>
      (if ay =? by_ then ax <? bx else ay <? by_) && consecutive_sorted l'
  | _ => true
  end.
(** src/morphology.rs:385-395 *)
Definition mask_new (elements : list (Z * Z)) : res (list (Z * Z)) :=
  assert (zlen elements <=? 511 * 511) ;;;
  assert (consecutive_sorted elements) ;;;
  Ok elements.

(** src/morphology.rs:366-383.  [enumerate_pixels] is raster order; the i16
    subtraction is checked. *)
Definition from_image (im : image Z) (cx cy : Z) : res (list (Z * Z)) :=
  assert (iw im <? 512) ;;;
  assert (ih im <? 512) ;;;
  let pts := flat_map (fun y => map (fun x => (x, y)) (zrange 0 (iw im))) (zrange 0 (ih im)) in
  let nz := filter (fun '(x, y) => match get im x y with Some v => negb (v =? 0) | None => false end) pts in
  elements <- mapM (fun '(x, y) => dx <- chk_i 16 (x - cx) ;; dy <- chk_i 16 (y - cy) ;; Ok (dx, dy)) nz ;;
  mask_new elements.

(** src/morphology.rs:416-425 *)
Definition square (r : Z) : res (list (Z * Z)) :=
  mask_new (flat_map (fun y => map (fun x => (x, y)) (zrange (- r) (r + 1))) (zrange (- r) (r + 1))).

(** src/morphology.rs:456-464 *)
Definition diamond (r : Z) : res (list (Z * Z)) :=
  mask_new (flat_map (fun y => map (fun x => (x, y)) (zrange (Z.abs y - r) (r - Z.abs y + 1))) (zrange (- r) (r + 1))).

(** src/morphology.rs:514-515: [(start..).find(|x| (x + 1).pow(2) + h2 > r2)];
    the unbounded search is given fuel *)
Fixpoint find_up (fuel : nat) (x h2 r2 : Z) : res Z :=
  match fuel with
  | O => Timeout
  | S fuel' => if (x + 1) ^ 2 + h2 >? r2 then Ok x else find_up fuel' (x + 1) h2 r2
  end.
(** src/morphology.rs:518-520: [(0..=start).rev().find(..)?]; None ends the iterator *)
Fixpoint find_down (n : nat) (h2 r2 : Z) : option Z :=
  if Z.of_nat n ^ 2 + h2 <=? r2 then Some (Z.of_nat n)
  else match n with O => None | S n' => find_down n' h2 r2 end.

(** src/morphology.rs:504-524: [std::iter::successors], unrolled [fuel] times *)
Fixpoint half_widths (fuel : nat) (r last_height last_half_width : Z) : res (list (Z * Z)) :=
  match fuel with
  | O => Timeout
  | S fuel' =>
      if last_height =? r then Ok [(last_height, last_half_width)]
      else
        let next_height := last_height + 1 in
        let height_squared := Z.abs next_height ^ 2 in
        if next_height <=? 0 then
          w <- find_up 300 last_half_width height_squared (r ^ 2) ;;
          w <- chk_u 8 w ;;
          rest <- half_widths fuel' r next_height w ;;
          Ok ((last_height, last_half_width) :: rest)
        else match find_down (Z.to_nat last_half_width) height_squared (r ^ 2) with
             | None => Ok [(last_height, last_half_width)]
             | Some w =>
                 w <- chk_u 8 w ;;
                 rest <- half_widths fuel' r next_height w ;;
                 Ok ((last_height, last_half_width) :: rest)
             end
  end.
(** src/morphology.rs:502-535 *)
Definition disk (r : Z) : res (list (Z * Z)) :=
  hw <- half_widths 600 r (- r) 0 ;;
  mask_new (flat_map (fun '(y, hwd) => map (fun x => (x, y)) (zrange (- hwd) (hwd + 1))) hw).

(** src/morphology.rs:347-356: [chunk_by(|p| p.y)] groups consecutive elements *)
Fixpoint lines (mask : list (Z * Z)) : list (Z * list Z) :=
  match mask with
  | [] => []
  | (x, y) :: m =>
      match lines m with
      | (y', xs) :: r => if y =? y' then (y, x :: xs) :: r else (y, [x]) :: (y', xs) :: r
      | [] => [(y, [x])]
      end
  end.

(** Rust's [z.try_into::<usize>().unwrap_or(0)] *)
Definition to_usize_or_0 (z : Z) : Z := if z <? 0 then 0 else z.

Section Reduce.
  Variable op : Z -> Z -> Z.
  (** src/morphology.rs:555-561: one pair of rows (input row [iy], output row
      [oy]) and the x offsets of one mask line.  [zip] of two skipped
      iterators visits indices until the shorter one ends. *)
  Definition reduce_row (im : image Z) (iy oy : Z) (xs : list Z) (result : image Z) : res (image Z) :=
    for_each xs (fun x result =>
      let si := to_usize_or_0 x in
      let so := to_usize_or_0 (- x) in
      for_range 0 (Z.min (iw im - si) (iw im - so)) (fun j result =>
        input <- get_pixel im (j + si) iy ;;
        output <- get_pixel result (j + so) oy ;;
        put_pixel result (j + so) oy (op input output)) result) result.
  (** src/morphology.rs:545-563; [chunks(0)] panics *)
  Definition reduce_line (im : image Z) (y : Z) (xs : list Z) (result : image Z) : res (image Z) :=
    assert (negb (iw im =? 0)) ;;;
    let si := to_usize_or_0 y in
    let so := to_usize_or_0 (- y) in
    for_range 0 (Z.min (ih im - si) (ih im - so)) (fun j result =>
      reduce_row im (j + si) (j + so) xs result) result.
  (** src/morphology.rs:538-565 *)
  Definition mask_reduce (im : image Z) (mask : list (Z * Z)) (neutral : Z) : res (image Z) :=
    for_each (lines mask) (fun '(y, xs) result => reduce_line im y xs result)
      (new_image (iw im) (ih im) neutral).
End Reduce.

(** src/morphology.rs:640-642, 717-719, 759-761, 801-803 *)
Definition grayscale_dilate (im : image Z) (mask : list (Z * Z)) : res (image Z) := mask_reduce Z.max im mask 0.
Definition grayscale_erode (im : image Z) (mask : list (Z * Z)) : res (image Z) := mask_reduce Z.min im mask 255.
Definition grayscale_open (im : image Z) (mask : list (Z * Z)) : res (image Z) :=
  e <- grayscale_erode im mask ;; grayscale_dilate e mask.
Definition grayscale_close (im : image Z) (mask : list (Z * Z)) : res (image Z) :=
  d <- grayscale_dilate im mask ;; grayscale_erode d mask.
