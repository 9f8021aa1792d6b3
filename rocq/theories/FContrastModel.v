(** Model of the floating point part of src/contrast.rs: otsu_level,
    equalize_histogram, match_histogram. *)
From Verif Require Import Base Float StatsSpec StatsModel.

(** src/contrast.rs:286-312 equalize_histogram, equalize_histogram_mut: the level [p] gets; the table has 256 entries and
    is read unchecked (a panic here means a read outside it).  The rayon
    version applies the same closure to every pixel. *)
Definition equalize_level (hist : list Z) (p : Z) : res Z :=
  t <- vget hist 255 ;;
  let total : f32 := of_int t in
  h <- vget hist p ;;
  let fraction := fdiv (of_int h) total in
  Ok (u8_of_f32 (fmin (of_int 255) (fmul (of_int 255) fraction))).
Definition equalize_histogram (im : image Z) : res (image Z) :=
  cum <- cumulative_histogram 1 (luma im) ;;
  hist <- vget cum 0 ;;
  d <- mapM (equalize_level hist) (idata im) ;;
  Ok (mkImage (iw im) (ih im) d).

(** src/contrast.rs:440-445: the while loop; at most 255 steps *)
Fixpoint lut_scan (fuel : nat) (target : list Z) (target_total sf tf prev : f32) (y : Z) : res (Z * f32 * f32) :=
  if flt tf sf && (y <? 255) then
    match fuel with
    | O => Timeout
    | S fuel =>
        t <- vget target (y + 1) ;;
        lut_scan fuel target target_total sf (fdiv (of_int t) target_total) tf (y + 1)
    end
  else Ok (y, tf, prev).

(** src/contrast.rs:428-462 histogram_lut *)
Definition histogram_lut (source target : list Z) : res (list Z) :=
  st <- vget source 255 ;;
  tt_ <- vget target 255 ;;
  let source_total : f32 := of_int st in
  let target_total : f32 := of_int tt_ in
  ' (lut, _, _) <- for_range 0 256 (fun s '(lut, y, prev) =>
      h <- vget source s ;;
      let sf := fdiv (of_int h) source_total in
      g <- vget target y ;;
      ' (y, tf, prev) <- lut_scan 256 target target_total sf (fdiv (of_int g) target_total) prev y ;;
      lut <- (if y =? 0 then vset lut s y
              else
                let prev_dist := fabs (fsub prev sf) in
                let dist := fabs (fsub tf sf) in
                if flt prev_dist dist then vset lut s (y - 1) else vset lut s y) ;;
      Ok (lut, y, prev)) (map (fun _ => 0) (zrange 0 256), 0, of_int 0) ;;
  Ok lut.

(** src/contrast.rs:411-424 match_histogram and match_histogram_mut; [as u8] truncates *)
Definition match_histogram (im target : image Z) : res (image Z) :=
  c1 <- cumulative_histogram 1 (luma im) ;;
  image_histc <- vget c1 0 ;;
  c2 <- cumulative_histogram 1 (luma target) ;;
  target_histc <- vget c2 0 ;;
  lut <- histogram_lut image_histc target_histc ;;
  d <- mapM (fun p => v <- vget lut p ;; Ok (v mod 256)) (idata im) ;;
  Ok (mkImage (iw im) (ih im) d).

(** src/contrast.rs:52-101 otsu_level.  The loop state is (background weight,
    background sum, largest variance, best threshold); [None] after [break]. *)
Definition otsu_step (total_weight : Z) (total_sum : f64) (t c : Z) (st : Z * f64 * f64 * Z) : res (bool * (Z * f64 * f64 * Z)) :=
  let '(bw, bs, largest, best) := st in
  bw <- chk_u 32 (bw + c) ;;
  if bw =? 0 then Ok (true, (bw, bs, largest, best))
  else
    fw <- chk_u 32 (total_weight - bw) ;;
    if fw =? 0 then Ok (false, (bw, bs, largest, best))
    else
      m <- chk_u 32 (t * c) ;;
      let bs := fadd bs (of_int m) in
      let fs := fsub total_sum bs in
      let bm := fdiv bs (of_int bw) in
      let fm := fdiv fs (of_int fw) in
      let diff := fsub bm fm in
      let mean_diff_squared := fmul diff diff in
      let var := fmul (fmul (of_int bw) (of_int fw)) mean_diff_squared in
      if flt largest var then Ok (true, (bw, bs, var, t)) else Ok (true, (bw, bs, largest, best)).
Fixpoint otsu_loop (total_weight : Z) (total_sum : f64) (l : list (Z * Z)) (st : Z * f64 * f64 * Z) : res Z :=
  match l with
  | [] => Ok (snd st)
  | (t, c) :: l =>
      ' (continue, st) <- otsu_step total_weight total_sum t c st ;;
      if (continue : bool) then otsu_loop total_weight total_sum l st else Ok (snd st)
  end.
Definition otsu_level (im : image Z) : res Z :=
  hist <- histogram 1 (luma im) ;;
  total_weight <- chk_u 32 (iw im * ih im) ;;
  row <- vget hist 0 ;;
  let levels := combine (zrange 0 256) row in
  total_sum <- for_each levels (fun '(t, h) (sum : f64) =>
    m <- chk_u 32 (t * h) ;; Ok (fadd sum (of_int m))) (of_int 0) ;;
  otsu_loop total_weight total_sum levels (0, of_int 0, of_int 0, 0).
