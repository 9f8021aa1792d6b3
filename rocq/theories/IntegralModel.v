(** Model of src/integral_image.rs (except [variance], see FloatModel files).

    A pixel is its list of channel values.  The accumulator type T is an n-bit
    unsigned integer; [arith] is its arithmetic in a debug build (overflow
    panics) or in a release build (wraps modulo 2^n). *)
From Verif Require Import Base.

Inductive build := Debug | Release.
Definition arith (m : build) (n z : Z) : res Z :=
  match m with Debug => chk_u n z | Release => Ok (z mod 2 ^ n) end.

Section Integral.
  Variables (m : build) (n : Z).

  (** src/integral_image.rs:127-130: one row-sum update, all channels *)
  Definition add_channels (square : bool) (sum input : list Z) : res (list Z) :=
    mapM (fun '(s, c) =>
            v <- (if square then arith m n (c * c) else Ok c) ;;
            arith m n (s + v)) (combine sum input).

  (** src/integral_image.rs:142-144: per-channel sums of two pixels *)
  Definition map2_channels (op : Z -> Z -> Z) (a b : list Z) : res (list Z) :=
    mapM (fun '(x, y) => arith m n (op x y)) (combine a b).

  (** src/integral_image.rs:98-149; [ch] is P::CHANNEL_COUNT *)
  Definition integral_image_impl (ch : Z) (im : image (list Z)) (square : bool) : res (image (list Z)) :=
    let zeros := map (fun _ => 0) (zrange 0 ch) in
    out_width <- chk_u 32 (iw im + 1) ;;
    out_height <- chk_u 32 (ih im + 1) ;;
    let out := new_image out_width out_height zeros in
    if (iw im =? 0) || (ih im =? 0) then Ok out
    else
      for_range 0 (ih im) (fun y out =>
        '(out, _) <- for_range 0 (iw im) (fun x '(out, sum) =>
            input <- get_pixel im x y ;;
            sum <- add_channels square sum input ;;
            above <- get_pixel out (x + 1) y ;;
            current <- map2_channels Z.add above sum ;;
            out <- put_pixel out (x + 1) (y + 1) current ;;
            Ok (out, sum)) (out, zeros) ;;
        Ok out) out.

  (** src/integral_image.rs:50-56 and 89-95 *)
  Definition integral_image ch im := integral_image_impl ch im false.
  Definition integral_squared_image ch im := integral_image_impl ch im true.

  (** src/integral_image.rs:250-270, with [ArrayData::add]/[sub] (170-239)
      applied channel by channel *)
  Definition sum_image_pixels (ii : image (list Z)) (left top right bottom : Z) : res (list Z) :=
    r1 <- chk_u 32 (right + 1) ;;
    b1 <- chk_u 32 (bottom + 1) ;;
    a <- get_pixel ii r1 b1 ;;
    b <- get_pixel ii left top ;;
    c <- get_pixel ii r1 top ;;
    d <- get_pixel ii left b1 ;;
    ab <- map2_channels Z.add a b ;;
    abc <- map2_channels Z.sub ab c ;;
    map2_channels Z.sub abc d.
End Integral.

(** [for b in &mut buffer[lo..hi] { sum += v(i); *b = sum; }] *)
Definition run_fill (lo hi : Z) (v : Z -> res Z) (st : list Z * Z) : res (list Z * Z) :=
  for_range lo hi (fun i '(buf, sum) =>
    a <- v i ;;
    sum <- chk_u 32 (sum + a) ;;
    buf <- vset buf i sum ;;
    Ok (buf, sum)) st.

(** src/integral_image.rs:348-380; the u32 running sum is debug arithmetic *)
Definition row_running_sum (im : image Z) (row : Z) (buffer : list Z) (padding : Z) : res (list Z) :=
  let width := iw im in
  assert (width + 2 * padding <=? zlen buffer) ;;;
  assert (row <? ih im) ;;;
  assert (0 <? width) ;;;
  first <- vget (idata im) (width * row) ;;
  last <- vget (idata im) (width * row + (width - 1)) ;;
  st <- run_fill 0 padding (fun _ => Ok first) (buffer, 0) ;;
  st <- run_fill padding (padding + width) (fun i => vget (idata im) (width * row + (i - padding))) st ;;
  '(buf, _) <- run_fill (padding + width) (zlen buffer) (fun _ => Ok last) st ;;
  Ok buf.

(** src/integral_image.rs:413-462 *)
Definition column_running_sum (im : image Z) (column : Z) (buffer : list Z) (padding : Z) : res (list Z) :=
  let height := ih im in
  assert (height + 2 * padding <=? zlen buffer) ;;;
  assert (column <? iw im) ;;;
  assert (0 <? height) ;;;
  first <- get_pixel im column 0 ;;
  last <- get_pixel im column (height - 1) ;;
  st <- run_fill 0 padding (fun _ => Ok first) (buffer, 0) ;;
  st <- run_fill padding (padding + height) (fun i => get_pixel im column (i - padding)) st ;;
  '(buf, _) <- run_fill (padding + height) (zlen buffer) (fun _ => Ok last) st ;;
  Ok buf.
