(** Model of the FAST detectors of src/corners.rs.  [unsafe_get_pixel] is a read
    that must be in bounds: a read outside is modelled as an error.  i16 arithmetic
    on u8 values cannot overflow and is done in Z.  Scores are kept as integers;
    the code stores [score as f32], which is exact for a u8. *)
From Verif Require Import Base.

(** corners.rs 460-486 search_span; the u8 counters stay at most 16 *)
Fixpoint span_loop (f : Z -> bool) (length : Z) (circle : list Z) (nb_ok : Z) (nb_ok_start : option Z) : res bool :=
  match circle with
  | [] => s <- unwrap nb_ok_start ;; Ok (length <=? nb_ok + s)
  | c :: circle =>
    if f c then
      let nb_ok := nb_ok + 1 in
      if nb_ok =? length then Ok true else span_loop f length circle nb_ok nb_ok_start
    else span_loop f length circle 0 (match nb_ok_start with None => Some nb_ok | s => s end)
  end.
Definition search_span (circle : list Z) (length : Z) (f : Z -> bool) : res bool :=
  if 16 <? length then Ok false else span_loop f length circle 0 None.
(** corners.rs 448-456 *)
Definition has_bright_span (circle : list Z) (length threshold : Z) : res bool :=
  search_span circle length (fun c => threshold <? c).
Definition has_dark_span (circle : list Z) (length threshold : Z) : res bool :=
  search_span circle length (fun c => c <? threshold).

(** corners.rs 417-444 get_circle *)
Definition get_circle (im : image Z) (x y p0 p4 p8 p12 : Z) : res (list Z) :=
  p1 <- get_pixel im (x + 1) (y - 3) ;;
  p2 <- get_pixel im (x + 2) (y - 2) ;;
  p3 <- get_pixel im (x + 3) (y - 1) ;;
  p5 <- get_pixel im (x + 3) (y + 1) ;;
  p6 <- get_pixel im (x + 2) (y + 2) ;;
  p7 <- get_pixel im (x + 1) (y + 3) ;;
  p9 <- get_pixel im (x - 1) (y + 3) ;;
  p10 <- get_pixel im (x - 2) (y + 2) ;;
  p11 <- get_pixel im (x - 3) (y + 1) ;;
  p13 <- get_pixel im (x - 3) (y - 1) ;;
  p14 <- get_pixel im (x - 2) (y - 2) ;;
  p15 <- get_pixel im (x - 1) (y - 3) ;;
  Ok [p0; p1; p2; p3; p4; p5; p6; p7; p8; p9; p10; p11; p12; p13; p14; p15].

(** corners.rs 300-303, 349-352 *)
Definition near_border (im : image Z) (x y : Z) : bool :=
  (2 ^ 32 - 1 - 3 <=? x) || (2 ^ 32 - 1 - 3 <=? y) || (x <? 3) || (y <? 3) || (iw im <=? x + 3) || (ih im <=? y + 3).

(** corners.rs 288-334 is_corner_fast9 *)
Definition is_corner_fast9 (im : image Z) (threshold x y : Z) : res bool :=
  if near_border im x y then Ok false
  else
    c <- get_pixel im x y ;;
    let low_thresh := c - threshold in
    let high_thresh := c + threshold in
    p0 <- get_pixel im x (y - 3) ;;
    p4 <- get_pixel im (x + 3) y ;;
    p8 <- get_pixel im x (y + 3) ;;
    p12 <- get_pixel im (x - 3) y ;;
    let above := ((high_thresh <? p12) || (high_thresh <? p4)) && ((high_thresh <? p8) || (high_thresh <? p0)) in
    let below := ((p12 <? low_thresh) || (p4 <? low_thresh)) && ((p8 <? low_thresh) || (p0 <? low_thresh)) in
    if negb above && negb below then Ok false
    else
      pixels <- get_circle im x y p0 p4 p8 p12 ;;
      bright <- (if above then has_bright_span pixels 9 high_thresh else Ok false) ;;
      if (bright : bool) then Ok true
      else if below then has_dark_span pixels 9 low_thresh else Ok false.

(** corners.rs 337-405 is_corner_fast12 *)
Definition is_corner_fast12 (im : image Z) (threshold x y : Z) : res bool :=
  if near_border im x y then Ok false
  else
    c <- get_pixel im x y ;;
    let low_thresh := c - threshold in
    let high_thresh := c + threshold in
    p0 <- get_pixel im x (y - 3) ;;
    p8 <- get_pixel im x (y + 3) ;;
    let above := (high_thresh <? p0) && (high_thresh <? p8) in
    let below := (p0 <? low_thresh) && (p8 <? low_thresh) in
    if negb above && negb below then Ok false
    else
      p4 <- get_pixel im (x + 3) y ;;
      p12 <- get_pixel im (x - 3) y ;;
      let above := above && ((high_thresh <? p4) || (high_thresh <? p12)) in
      let below := below && ((p4 <? low_thresh) || (p12 <? low_thresh)) in
      if negb above && negb below then Ok false
      else
        pixels <- get_circle im x y p0 p4 p8 p12 ;;
        if above then has_bright_span pixels 12 high_thresh else has_dark_span pixels 12 low_thresh.

Inductive fast := Nine | Twelve.
Definition is_corner (v : fast) := match v with Nine => is_corner_fast9 | Twelve => is_corner_fast12 end.

(** corners.rs 250-273 fast_corner_score; at most [fuel] iterations of the loop *)
Fixpoint score_loop (fuel : nat) (im : image Z) (x y : Z) (v : fast) (mx mn : Z) : res Z :=
  match fuel with
  | O => Timeout
  | S fuel =>
    if mx =? mn then Ok mx
    else
      let mean := (mx + mn) / 2 in
      m1 <- chk_u 8 (mn + 1) ;;
      let probe := if mx =? m1 then mx else mean in
      b <- is_corner v im probe x y ;;
      if (b : bool) then score_loop fuel im x y v mx probe
      else m <- chk_u 8 (probe - 1) ;; score_loop fuel im x y v m mn
  end.
Definition fast_corner_score (im : image Z) (threshold x y : Z) (v : fast) : res Z :=
  score_loop 256 im x y v 255 threshold.

(** corners.rs 71-102 corners_fast12, corners_fast9 *)
Definition corners_fast (v : fast) (im : image Z) (threshold : Z) : res (list (Z * Z * Z)) :=
  for_range 0 (ih im) (fun y acc =>
    for_range 0 (iw im) (fun x acc =>
      b <- is_corner v im threshold x y ;;
      if (b : bool) then s <- fast_corner_score im threshold x y v ;; Ok (acc ++ [(x, y, s)]) else Ok acc) acc) [].
