(** Model of src/stats.rs: min_max, histogram, cumulative_histogram, percentile.
    Pixels are lists of channel values; [usize]/[u64] arithmetic is exact
    (values stay far below 2^64), u32 counters are checked. *)
From Verif Require Import Base.

(** src/stats.rs:41-75.  A channel range is [None] until the first pixel. *)
Definition min_max_pixel (p : list Z) (ranges : list (option (Z * Z))) : res (list (option (Z * Z))) :=
  for_each (combine (zrange 0 (zlen p)) p) (fun '(i, c) ranges =>
    r <- vget ranges i ;;
    vset ranges i (Some match r with
                        | None => (c, c)
                        | Some (mn, mx) => ((if c <? mn then c else mn), (if mx <? c then c else mx))
                        end)) ranges.
Definition min_max (ch : Z) (im : image (list Z)) : res (list (Z * Z)) :=
  assert (negb (zlen (idata im) =? 0)) ;;;
  ranges <- for_each (idata im) min_max_pixel (map (fun _ => None) (zrange 0 ch)) ;;
  mapM unwrap ranges.

(** src/stats.rs:84-97 *)
Definition hist_pixel (p : list Z) (hist : list (list Z)) : res (list (list Z)) :=
  for_each (combine (zrange 0 (zlen p)) p) (fun '(i, c) hist =>
    row <- vget hist i ;;
    v <- vget row c ;;
    v <- chk_u 32 (v + 1) ;;
    row <- vset row c v ;;
    vset hist i row) hist.
Definition histogram (ch : Z) (im : image (list Z)) : res (list (list Z)) :=
  for_each (idata im) hist_pixel
    (map (fun _ => map (fun _ => 0) (zrange 0 256)) (zrange 0 ch)).

(** src/stats.rs:106-121; the running addition over one channel *)
Definition cumulate (row : list Z) : res (list Z) :=
  for_range 1 (zlen row) (fun i row =>
    a <- vget row i ;;
    b <- vget row (i - 1) ;;
    s <- chk_u 32 (a + b) ;;
    vset row i s) row.
Definition cumulative_histogram (ch : Z) (im : image (list Z)) : res (list (list Z)) :=
  hist <- histogram ch im ;;
  for_range 0 (zlen hist) (fun c hist =>
    row <- vget hist c ;;
    row <- cumulate row ;;
    vset hist c row) hist.

(** src/stats.rs:157-170.  [unreachable!] is a panic; so is division by zero. *)
Fixpoint percentile_scan (fuel : nat) (i : Z) (cum : list Z) (total p : Z) : res Z :=
  match fuel with
  | O => Panic
  | S fuel' =>
      c <- vget cum i ;;
      assert (negb (total =? 0)) ;;;
      if p <=? 100 * c / total then Ok i else percentile_scan fuel' (i + 1) cum total p
  end.
Definition percentile (im : image (list Z)) (p : Z) : res Z :=
  assert (p <=? 100) ;;;
  cum_hist <- cumulative_histogram 1 im ;;
  cum <- vget cum_hist 0 ;;
  total <- vget cum 255 ;;
  percentile_scan 256 0 cum total p.
