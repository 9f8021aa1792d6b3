(** Model of src/seam_carving.rs. *)
From Verif Require Import Base FilterModel GradientModel.

(** seam_carving.rs 122-138 set_path_energy (u32 addition checked) *)
Definition set_path_energy (e : image Z) (x y : Z) : res (image Z) :=
  above <- get_pixel e x (y - 1) ;;
  m <- (if 0 <? x then above_left <- get_pixel e (x - 1) (y - 1) ;; Ok (Z.min above above_left)
        else Ok above) ;;
  m <- (if x <? iw e - 1 then above_right <- get_pixel e (x + 1) (y - 1) ;; Ok (Z.min m above_right)
        else Ok m) ;;
  current <- get_pixel e x y ;;
  s <- chk_u 32 (m + current) ;;
  put_pixel e x y s.

(** seam_carving.rs 72-77 *)
Definition path_energies (e : image Z) : res (image Z) :=
  for_range 1 (ih e) (fun y e => for_range 0 (iw e) (fun x e => set_path_energy e x y) e) e.

(** seam_carving.rs 79-117: the seam, bottom row first *)
Definition retrace (e : image Z) : res (list Z) :=
  let width := iw e in let height := ih e in
  yb <- chk_u 32 (height - 1) ;;
  m0 <- get_pixel e 0 yb ;;
  ' b <- for_range 1 width (fun x '(min_x, min_energy) =>
     c <- get_pixel e x yb ;;
     if c <? min_energy then Ok (x, c) else Ok (min_x, min_energy)) (0, m0) ;;
  let '(min_x, min_energy) := b in
  ' r <- for_range_rev 1 height (fun y '(min_x, min_energy, last_x, seam) =>
     above <- get_pixel e last_x (y - 1) ;;
     ' s <- (if 0 <? last_x then
               left <- get_pixel e (last_x - 1) (y - 1) ;;
               if left <? above then Ok (last_x - 1, left) else Ok (min_x, min_energy)
             else Ok (min_x, min_energy)) ;;
     let '(min_x, min_energy) := s in
     ' s <- (if last_x <? width - 1 then
               right <- get_pixel e (last_x + 1) (y - 1) ;;
               if right <? min_energy then Ok (last_x + 1, right) else Ok (min_x, min_energy)
             else Ok (min_x, min_energy)) ;;
     let '(min_x, min_energy) := s in
     Ok (min_x, min_energy, min_x, seam ++ [min_x])) (min_x, min_energy, min_x, [min_x]) ;;
  let '(_, _, _, seam) := r in
  Ok seam.

(** [u16] sum of the channels (checked), divided by the channel count: 62-69 *)
Definition mean_u16 (ch : Z) (p : list Z) : res Z :=
  s <- for_each p (fun c acc => chk_u 16 (acc + c)) 0 ;;
  assert (negb (ch =? 0)) ;;;
  Ok (s / ch).
Definition gradient_energy (ch : Z) (im : image (list Z)) : res (image Z) :=
  hk <- kernel_new sobel_h 3 3 ;; vk <- kernel_new sobel_v 3 3 ;;
  gradients ch im hk vk 0 (mean_u16 ch).

(** seam_carving.rs 48-120 find_vertical_seam; [ch] is P::CHANNEL_COUNT *)
Definition find_vertical_seam (ch : Z) (im : image (list Z)) : res (list Z) :=
  assert (2 <=? iw im) ;;;
  e <- gradient_energy ch im ;;
  e <- path_energies e ;;
  retrace e.

(** seam_carving.rs 145-172 remove_vertical_seam; [zero] fills Image::new;
    [seam.0.len() as u32] is the length modulo 2^32 *)
Definition remove_vertical_seam {A} (zero : A) (im : image A) (seam : list Z) : res (image A) :=
  assert (zlen seam mod 2 ^ 32 =? ih im) ;;;
  let width := iw im in let height := ih im in
  w1 <- chk_u 32 (width - 1) ;;
  for_range 0 height (fun y out =>
    x_seam <- vget seam (height - y - 1) ;;
    out <- for_range 0 x_seam (fun x out => p <- get_pixel im x y ;; put_pixel out x y p) out ;;
    x1 <- chk_u 32 (x_seam + 1) ;;
    for_range x1 width (fun x out => p <- get_pixel im x y ;; put_pixel out (x - 1) y p) out)
    (new_image w1 height zero).

(** seam_carving.rs 23-43 shrink_width *)
Definition shrink_width (ch : Z) (im : image (list Z)) (target : Z) : res (image (list Z)) :=
  assert (target <=? iw im) ;;;
  for_range 0 (iw im - target) (fun _ result =>
    seam <- find_vertical_seam ch result ;;
    remove_vertical_seam (map (fun _ => 0) (zrange 0 ch)) result seam) im.

(** seam_carving.rs 174-196 draw_vertical_seams: a gray pixel v becomes
    [v; v; v]; each seam is zipped with the rows from the bottom up *)
Definition draw_seam_px (y x : Z) (st : image (list Z) * list (list Z)) : res (image (list Z) * list (list Z)) :=
  let '(out, offsets) := st in
  offs <- vget offsets y ;;
  x_original <- for_each offs (fun o xo => if o <? x then chk_u 32 (xo + 1) else Ok xo) x ;;
  out <- put_pixel out x_original y [255; 0; 0] ;;
  offsets <- vset offsets y (offs ++ [x_original]) ;;
  Ok (out, offsets).
Definition draw_vertical_seams (im : image Z) (seams : list (list Z)) : res (image (list Z)) :=
  let height := ih im in
  let out := mkImage (iw im) (ih im) (map (fun v => [v; v; v]) (idata im)) in
  ' r <- for_each seams (fun seam st =>
    for_each (combine (rev (zrange 0 height)) seam) (fun '(y, x) st => draw_seam_px y x st) st)
    (out, map (fun _ => []) (zrange 0 height)) ;;
  let '(out, _) := r in Ok out.
