(** Model of sharpen3x3 (src/filter/sharpen.rs 11-23) and laplacian_filter
    (src/filter/mod.rs 430-451) on top of [filter2d], of the error statistics of
    src/stats.rs, and of the channel conversions of src/map.rs. *)
From Flocq Require Import Core BinarySingleNaN.
From Verif Require Import Base FilterModel Float MapModel.

(** Arithmetic of the signed n-bit kernel type: [None] is an overflow. *)
Definition oadd (n : Z) (a b : option Z) : option Z :=
  match a, b with Some a, Some b => if i_fits n (a + b) then Some (a + b) else None | _, _ => None end.
Definition omul (n : Z) (a b : option Z) : option Z :=
  match a, b with Some a, Some b => if i_fits n (a * b) then Some (a * b) else None | _, _ => None end.

(** a grey image as an image of one-channel pixels *)
Definition lift1 {A} (im : image A) : image (list A) := mkImage (iw im) (ih im) (map (fun p => [p]) (idata im)).
(** back, an overflow being a panic *)
Definition lower1 (im : image (list (option Z))) : res (image Z) :=
  d <- mapM (fun p => match p with [Some v] => Ok v | _ => Panic end) (idata im) ;;
  Ok (mkImage (iw im) (ih im) d).

(** filter/mod.rs 204-212 filter_clamped and 216-228 filter_clamped_parallel
    for a grey image and an n-bit 3x3 kernel; [clamp] is the conversion to the
    output subpixel *)
Definition filter_clamped3 (n : Z) (clamp : Z -> Z) (data : list Z) (im : image Z) : res (image Z) :=
  k <- kernel_new (map Some data) 3 3 ;;
  out <- filter2d Z (option Z) (option Z) (Some 0) (oadd n) (omul n) Some (option_map clamp) 1 1 (Some 0) (lift1 im) k ;;
  lower1 out.
Definition filter_clamped3_parallel (n : Z) (clamp : Z -> Z) (data : list Z) (im : image Z) : res (image Z) :=
  k <- kernel_new (map Some data) 3 3 ;;
  out <- filter2d_parallel Z (option Z) (option Z) (Some 0) (oadd n) (omul n) Some (option_map clamp) 1 1 (Some 0) (lift1 im) k ;;
  lower1 out.

(** sharpen.rs 12-15 sharpen3x3 (i32 kernel, u8 output) *)
Definition sharpen_kernel : list Z := [0; -1; 0; -1; 5; -1; 0; -1; 0].
Definition sharpen3x3 (im : image Z) : res (image Z) := filter_clamped3 32 clamp_u8 sharpen_kernel im.
(** sharpen.rs 16-22 sharpen3x3_parallel *)
Definition sharpen3x3_parallel (im : image Z) : res (image Z) := filter_clamped3_parallel 32 clamp_u8 sharpen_kernel im.
(** filter/mod.rs 442-444 laplacian_filter; kernel.rs 90-91 FOUR_LAPLACIAN_3X3
    (i16 kernel; the conversion i16 to i16 changes nothing) *)
Definition four_laplacian : list Z := [0; 1; 0; 1; -4; 1; 0; 1; 0].
Definition laplacian_filter (im : image Z) : res (image Z) := filter_clamped3 16 (fun v => v) four_laplacian im.
(** filter/mod.rs 449-451 laplacian_filter_parallel *)
Definition laplacian_filter_parallel (im : image Z) : res (image Z) := filter_clamped3_parallel 16 (fun v => v) four_laplacian im.

(** stats.rs 201-222 mean_squared_error.  A pixel is the list of its channels
    (unsigned integers); [ch] is CHANNEL_COUNT. *)
Definition mean_squared_error (ch : Z) (left right : image (list Z)) : res f64 :=
  assert ((iw left =? iw right) && (ih left =? ih right)) ;;;
  let sum := fold_left (fun s '(p, q) =>
    fold_left (fun s '(c, d) =>
      let diff := fsub (of_int c : f64) (of_int d) in fadd s (fmul diff diff)) (combine p q) s)
    (combine (idata left) (idata right)) (of_int 0) in
  n <- chk_u 32 (iw left * ih left) ;;
  n <- chk_u 32 (n * ch) ;;
  Ok (fdiv sum (of_int n)).
(** stats.rs 172-182 root_mean_squared_error *)
Definition root_mean_squared_error (ch : Z) (left right : image (list Z)) : res f64 :=
  m <- mean_squared_error ch left right ;; Ok (fsqrt m).
(** stats.rs 184-199 peak_signal_to_noise_ratio; [log10] stands for
    [|x| x.log(10f64)], [max] is the largest subpixel value *)
Definition peak_signal_to_noise_ratio (log10 : f64 -> f64) (max ch : Z) (left right : image (list Z)) : res f64 :=
  m <- mean_squared_error ch left right ;;
  Ok (fsub (fmul (of_int 20) (log10 (of_int max))) (fmul (of_int 10) (log10 m))).

(** map.rs 390-396, 452-458, 514-520: into_red_channel, into_green_channel,
    into_blue_channel ([i] = 0, 1, 2) *)
Definition into_channel {C} (d : C) (i : Z) (r : raw C) : res (raw C) :=
  map_pixels 1 r (fun p => [match znth p i with Some v => v | None => d end]).
(** map.rs 421-431, 483-493, 545-555: from_red_channel, from_green_channel,
    from_blue_channel; the other two channels are zero *)
Definition from_channel {C} (zero : C) (i : Z) (r : raw C) : res (raw C) :=
  map_pixels 3 r (fun p => zupd [zero; zero; zero] i (match znth p 0 with Some v => v | None => zero end)).
