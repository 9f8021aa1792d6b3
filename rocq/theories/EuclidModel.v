(** Model of the squared Euclidean distance transform
    (src/distance_transform.rs 215-440), with f64 arithmetic. *)
From Flocq Require Import Core BinarySingleNaN.
From Verif Require Import Base Float.

Definition infinity : f64 := B754_infinity false.
Definition neg_infinity : f64 := B754_infinity true.

(** 253-270 LowerEnvelope *)
Record envelope := mkEnv { locations : list Z; boundaries : list f64 }.
Definition new_envelope (image_side : Z) : envelope :=
  mkEnv (repeat 0 (Z.to_nat image_side)) (repeat (B754_nan : f64) (Z.to_nat (image_side + 1))).

(** 425-440 intersection *)
Definition intersection (f : Z -> res f64) (p q : Z) : res f64 :=
  fq <- f q ;;
  fp <- f p ;;
  let pf : f64 := of_int p in
  let qf : f64 := of_int q in
  Ok (fdiv (fsub (fadd fq (fmul qf qf)) (fadd fp (fmul pf pf))) (fsub (fmul (of_int 2) qf) (fmul (of_int 2) pf))).

(** 394-402 the [while s <= boundaries[k]] loop; every turn lowers [k], a usize *)
Fixpoint pop (fuel : nat) (f : Z -> res f64) (e : envelope) (q k : Z) (s : f64) : res (Z * f64) :=
  match fuel with
  | O => Timeout
  | S n =>
    b <- vget (boundaries e) k ;;
    if fle s b then
      k' <- chk_u 64 (k - 1) ;;
      l <- vget (locations e) k' ;;
      s' <- intersection f l q ;;
      pop n f e q k' s'
    else Ok (k, s)
  end.
(** 413-415 the [while boundaries[k + 1] < q as f64] loop; every turn raises [k] *)
Fixpoint advance (fuel : nat) (e : envelope) (q k : Z) : res Z :=
  match fuel with
  | O => Timeout
  | S n =>
    b <- vget (boundaries e) (k + 1) ;;
    if flt b (of_int q) then advance n e q (k + 1) else Ok k
  end.

(** 371-409 one turn of the loop that builds the envelope *)
Definition add_parabola (f : Z -> res f64) (q : Z) (st : Z * envelope) : res (Z * envelope) :=
  let '(k, e) := st in
  fq <- f q ;;
  if feq fq infinity then Ok (k, e)
  else
    l <- vget (locations e) k ;;
    (* [k == 0 && ...]: the second operand is only evaluated when the first holds *)
    first <- (if k =? 0 then fl <- f l ;; Ok (feq fl infinity) else Ok false) ;;
    if first then
      locs <- vset (locations e) k q ;;
      bs <- vset (boundaries e) k neg_infinity ;;
      bs <- vset bs (k + 1) infinity ;;
      Ok (k, mkEnv locs bs)
    else
      s <- intersection f l q ;;
      ' (k, s) <- pop (S (Z.to_nat k)) f e q k s ;;
      locs <- vset (locations e) (k + 1) q ;;
      bs <- vset (boundaries e) (k + 1) s ;;
      bs <- vset bs (k + 1 + 1) infinity ;;
      Ok (k + 1, mkEnv locs bs).

(** 411-419 one turn of the loop that writes the result; [put] is the sink *)
Definition write_value (f : Z -> res f64) (put : Z -> f64 -> image f64 -> res (image f64)) (e : envelope)
    (q : Z) (st : Z * image f64) : res (Z * image f64) :=
  let '(k, out) := st in
  k <- advance (S (length (boundaries e))) e q k ;;
  l <- vget (locations e) k ;;
  let dist : f64 := fsub (of_int q) (of_int l) in
  fl <- f l ;;
  out <- put q (fadd (fmul dist dist) fl) out ;;
  Ok (k, out).

(** 345-420 distance_transform_1d_mut; [n] and [m] are the lengths of the source and the sink *)
Definition distance_transform_1d (n : Z) (f : Z -> res f64) (m : Z) (put : Z -> f64 -> image f64 -> res (image f64))
    (e : envelope) (out : image f64) : res (envelope * image f64) :=
  assert (m =? n) ;;;
  assert (zlen (boundaries e) =? n + 1) ;;;
  assert (zlen (locations e) =? n) ;;;
  if n =? 0 then Ok (e, out)
  else
    locs <- vset (locations e) 0 0 ;;
    bs <- vset (boundaries e) 0 neg_infinity ;;
    bs <- vset bs 1 infinity ;;
    ' (_, e) <- for_range 1 n (add_parabola f) (0, mkEnv locs bs) ;;
    ' (_, out) <- for_range 0 n (write_value f put e) (0, out) ;;
    Ok (e, out).

(** 325-343 Column: the source of the first pass *)
Definition column_source (im : image Z) (x : Z) (idx : Z) : res f64 :=
  p <- get_pixel im x idx ;;
  Ok (if flt (of_int 0) (of_int p : f64) then of_int 0 else infinity).
(** 282-310 the sinks Row and ColumnMut; the unsafe writes are [put_pixel] *)
Definition column_put (x idx : Z) (v : f64) (out : image f64) : res (image f64) := put_pixel out x idx v.
Definition row_put (y idx : Z) (v : f64) (out : image f64) : res (image f64) := put_pixel out idx y v.

(** 222-251 euclidean_squared_distance_transform *)
Definition euclidean_squared_distance_transform (im : image Z) : res (image f64) :=
  let width := iw im in
  let height := ih im in
  let result := new_image width height (of_int 0 : f64) in
  ' (_, result) <- for_range 0 width (fun x '(env, out) =>
    distance_transform_1d height (column_source im x) (ih out) (column_put x) env out) (new_envelope height, result) ;;
  let row_buffer := repeat (of_int 0 : f64) (Z.to_nat width) in
  ' (_, _, result) <- for_range 0 height (fun y '(buf, env, out) =>
    buf <- for_range 0 width (fun x buf => p <- get_pixel out x y ;; vset buf x p) buf ;;
    ' (env, out) <- distance_transform_1d (zlen buf) (vget buf) (iw out) (row_put y) env out ;;
    Ok (buf, env, out)) (row_buffer, new_envelope width, result) ;;
  Ok result.
