(** Model of src/hough.rs (line detection and drawing of polar lines). *)
From Flocq Require Import Core BinarySingleNaN.
From Verif Require Import Base Float SuppressModel LineModel.

(** hough.rs 12-20 struct PolarLine, as the pair (r, angle_in_degrees) *)
Definition polar_line : Type := f32 * Z.

(** hough.rs 44 [rmax]: checked u32 products, [as f64], [sqrt], [as i32] *)
Definition hough_rmax (width height : Z) : res Z :=
  ww <- chk_u 32 (width * width) ;; hh <- chk_u 32 (height * height) ;; s <- chk_u 32 (ww + hh) ;;
  Ok (to_int (- 2 ^ 31) (2 ^ 31 - 1) (fsqrt (of_int s : f64))).

(** hough.rs 62-72: the votes of one foreground pixel.  [lut] is the table of
    lines 52-55, a parameter: element m holds the results (sin, cos) of
    [f32::sin_cos] for m degrees.  Arithmetic on i32 and u32 is checked,
    unsafe accesses are checked accesses. *)
Definition hough_vote (lut : list (f32 * f32)) (rmax x y : Z) (acc : image Z) : res (image Z) :=
  for_range 0 (zlen lut) (fun m acc =>
    ' sc <- vget lut m ;;
    let r := fadd (fmul (of_int x) (snd sc)) (fmul (of_int y) (fst sc)) in
    d <- chk_i 32 (i32_of_f32 r + rmax) ;;
    r2 <- chk_i 32 (2 * rmax) ;;
    if (d <=? r2) && (0 <=? d) then
      v <- get_pixel acc d m ;; v' <- chk_u 32 (v + 1) ;; put_pixel acc d m v'
    else Ok acc) acc.

(** hough.rs 57-76: the accumulator *)
Definition hough_acc (lut : list (f32 * f32)) (im : image Z) : res (image Z) :=
  rmax <- hough_rmax (iw im) (ih im) ;;
  r2 <- chk_u 32 (2 * rmax) ;; r21 <- chk_u 32 (r2 + 1) ;;
  for_range 0 (ih im) (fun y acc =>
    for_range 0 (iw im) (fun x acc =>
      p <- get_pixel im x y ;;
      if 0 <? p then hough_vote lut rmax x y acc else Ok acc) acc) (new_image r21 180 0).

(** hough.rs 39-96 detect_lines *)
Definition detect_lines (lut : list (f32 * f32)) (im : image Z) (vote_threshold suppression_radius : Z)
  : res (list polar_line) :=
  rmax <- hough_rmax (iw im) (ih im) ;;
  acc <- hough_acc lut im ;;
  sup <- suppress_non_maximum acc suppression_radius ;;
  for_range 0 (ih sup) (fun m lines =>
    for_range 0 (iw sup) (fun r lines =>
      votes <- get_pixel sup r m ;;
      if vote_threshold <=? votes then
        d <- chk_i 32 (r - rmax) ;; Ok (lines ++ [(of_int d, m)])
      else Ok lines) lines) [].

(** The operations [intersection_points] uses, so that the same definition runs
    on f32 and, as the exact computation, on the reals. *)
Record calc (T : Type) := mkCalc {
  k0 : T; kle : T -> T -> bool; kneg : T -> T; kdiv : T -> T -> T;
  kfma : T -> T -> T -> T  (** [mul_add]: a * b + c *) }.
Arguments k0 {T}. Arguments kle {T}. Arguments kneg {T}. Arguments kdiv {T}. Arguments kfma {T}.

(** f32: [mul_add] is the IEEE fused operation *)
Definition calc_f32 : calc f32 :=
  mkCalc f32 (of_int 0) fle fneg fdiv (fun a b c => Bfma mode_NE a b c).

(** hough.rs 131-198 intersection_points; [w] and [h] are the converted
    dimensions of lines 138-139, [sn] and [cs] the results of line 160 *)
Definition intersection_points {T} (K : calc T) (r : T) (m : Z) (sn cs w h : T)
  : option ((T * T) * (T * T)) :=
  let z := k0 K in
  if m =? 0 then
    if kle K z r && kle K r w then Some ((r, z), (r, h)) else None
  else if m =? 90 then
    if kle K z r && kle K r h then Some ((z, r), (w, r)) else None
  else
    let right_y := kdiv K (kfma K cs (kneg K w) r) sn in
    let left_y := kdiv K r sn in
    let bottom_x := kdiv K (kfma K sn (kneg K h) r) cs in
    let top_x := kdiv K r cs in
    let start := None in
    let start := if kle K z right_y && kle K right_y h then Some (w, right_y) else start in
    let left := kle K z left_y && kle K left_y h in
    match left, start with
    | true, Some s => Some (s, (z, left_y))
    | _, _ =>
      let start := if left then Some (z, left_y) else start in
      let bottom := kle K z bottom_x && kle K bottom_x w in
      match bottom, start with
      | true, Some s => Some (s, (bottom_x, h))
      | _, _ =>
        let start := if bottom then Some (bottom_x, h) else start in
        match kle K z top_x && kle K top_x w, start with
        | true, Some s => Some (s, (top_x, z))
        | _, _ => None
        end
      end
    end.

(** hough.rs 115-123 draw_polar_line; [trig m] stands for
    [(m as f32).to_radians().sin_cos()] *)
Definition draw_polar_line {A} (trig : Z -> f32 * f32) (dr : A -> A) (im : image A) (line : polar_line)
  : res (image A) :=
  let '(r, m) := line in
  match intersection_points calc_f32 r m (fst (trig m)) (snd (trig m)) (of_int (iw im)) (of_int (ih im)) with
  | Some (s, e) => draw_line_segment dr im s e
  | None => Ok im
  end.

(** hough.rs 98-113 draw_polar_lines and draw_polar_lines_mut *)
Definition draw_polar_lines {A} (trig : Z -> f32 * f32) (dr : A -> A) (im : image A) (lines : list polar_line)
  : res (image A) :=
  for_each lines (fun line im => draw_polar_line trig dr im line) im.
