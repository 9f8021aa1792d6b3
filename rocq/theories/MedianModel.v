(** Model of src/filter/median.rs.  A pixel is the list of its channel values,
    a [HistSet] the list of its 256-slot histograms.  Counters are u32 with
    overflow checks.  i32 coordinates stay in range by the guard at the start
    of [median_filter] and are not checked again. *)
From Verif Require Import Base.

(** src/filter/median.rs:332-357: [incr] (d = 1) and [decr] (d = -1) *)
Definition bump (d : Z) (im : image (list Z)) (x y : Z) (hist : list (list Z)) : res (list (list Z)) :=
  channels <- get_pixel im x y ;;
  for_range 0 (zlen channels) (fun c hist =>
    p <- vget channels c ;;
    h <- vget hist c ;;
    v <- vget h p ;;
    v <- chk_u 32 (v + d) ;;
    h <- vset h p v ;;
    vset hist c h) hist.
Definition incr := bump 1.
Definition decr := bump (-1).

(** src/filter/median.rs:372-383 *)
Fixpoint median_scan (fuel : nat) (i count : Z) (hist : list Z) (expected : Z) : res Z :=
  match fuel with
  | O => Ok 255
  | S fuel' =>
      v <- vget hist i ;;
      count <- chk_u 32 (count + v) ;;
      twice <- chk_u 32 (2 * count) ;;
      if twice >=? expected then Ok i else median_scan fuel' (i + 1) count hist expected
  end.
Definition channel_median (hist : list (list Z)) (expected c : Z) : res Z :=
  h <- vget hist c ;; median_scan 256 0 0 h expected.

(** src/filter/median.rs:360-370 *)
Definition set_to_median (hist : list (list Z)) (expected : Z) (out : image (list Z)) (x y : Z) : res (image (list Z)) :=
  target <- get_pixel out x y ;;
  channels <- mapM (fun c => channel_median hist expected c) (zrange 0 (zlen target)) ;;
  put_pixel out x y channels.

(** src/filter/median.rs:141-174 initialise_histogram_for_top_left_pixel; [HistSet::new] is 325-330 *)
Definition initialise_histogram (ch : Z) (im : image (list Z)) (rx ry : Z) : res (list (list Z) * Z) :=
  a <- (t <- chk_u 32 (2 * rx) ;; chk_u 32 (t + 1)) ;;
  b <- (t <- chk_u 32 (2 * ry) ;; chk_u 32 (t + 1)) ;;
  kernel_size <- chk_u 32 (a * b) ;;
  let hist := map (fun _ => map (fun _ => 0) (zrange 0 256)) (zrange 0 ch) in
  hist <- for_range (- ry) (ry + 1) (fun dy hist =>
    let py := Z.min (Z.max 0 dy) (ih im - 1) in
    for_range (- rx) (rx + 1) (fun dx hist =>
      let px := Z.min (Z.max 0 dx) (iw im - 1) in
      incr im px py hist) hist) hist ;;
  Ok (hist, kernel_size).

(** src/filter/median.rs:176-208 *)
Definition slide_right (hist : list (list Z)) (im : image (list Z)) (x y rx ry : Z) : res (list (list Z)) :=
  assert (x <? iw im) ;;;
  assert (y <? ih im) ;;;
  let prev_x := Z.max 0 (x - rx - 1) in
  let next_x := Z.min (x + rx) (iw im - 1) in
  for_range (- ry) (ry + 1) (fun dy hist =>
    let py := Z.min (Z.max 0 (y + dy)) (ih im - 1) in
    hist <- decr im prev_x py hist ;;
    incr im next_x py hist) hist.

(** src/filter/median.rs:210-260 *)
Definition slide_down_column (hist : list (list Z)) (expected : Z) (im out : image (list Z)) (x rx ry : Z) : res (list (list Z) * image (list Z)) :=
  assert (x <? iw im) ;;;
  out <- set_to_median hist expected out x 0 ;;
  for_range 1 (ih im) (fun y '(hist, out) =>
    let prev_y := Z.max 0 (y - ry - 1) in
    let next_y := Z.min (y + ry) (ih im - 1) in
    hist <- for_range (- rx) (rx + 1) (fun dx hist =>
      let px := Z.min (Z.max 0 (x + dx)) (iw im - 1) in
      hist <- decr im px prev_y hist ;;
      incr im px next_y hist) hist ;;
    out <- set_to_median hist expected out x y ;;
    Ok (hist, out)) (hist, out).

(** src/filter/median.rs:262-311 *)
Definition slide_up_column (hist : list (list Z)) (expected : Z) (im out : image (list Z)) (x rx ry : Z) : res (list (list Z) * image (list Z)) :=
  assert (x <? iw im) ;;;
  out <- set_to_median hist expected out x (ih im - 1) ;;
  for_range_rev 0 (ih im - 1) (fun y '(hist, out) =>
    let prev_y := Z.min (y + ry + 1) (ih im - 1) in
    let next_y := Z.max 0 (y - ry) in
    hist <- for_range (- rx) (rx + 1) (fun dx hist =>
      let px := Z.min (Z.max 0 (x + dx)) (iw im - 1) in
      hist <- decr im px prev_y hist ;;
      incr im px next_y hist) hist ;;
    out <- set_to_median hist expected out x y ;;
    Ok (hist, out)) (hist, out).

(** src/filter/median.rs:109-139; [ch] is P::CHANNEL_COUNT *)
Definition median_filter (ch : Z) (im : image (list Z)) (rx ry : Z) : res (image (list Z)) :=
  if (iw im =? 0) || (ih im =? 0) then Ok im
  else
    a <- chk_u 32 (iw im + rx) ;;
    b <- chk_u 32 (ih im + ry) ;;
    if (a >? 2 ^ 31 - 1) || (b >? 2 ^ 31 - 1) then Panic
    else
      let out := new_image (iw im) (ih im) (map (fun _ => 0) (zrange 0 ch)) in
      '(hist, expected) <- initialise_histogram ch im rx ry ;;
      st <- slide_down_column hist expected im out 0 rx ry ;;
      '(_, out) <- for_range 1 (iw im) (fun x '(hist, out) =>
        if x mod 2 =? 0 then
          hist <- slide_right hist im x 0 rx ry ;;
          slide_down_column hist expected im out x rx ry
        else
          hist <- slide_right hist im x (ih im - 1) rx ry ;;
          slide_up_column hist expected im out x rx ry) st ;;
      Ok out.
