(** Model of src/template_matching.rs. *)
From Verif Require Import Base Float.

(** template_matching.rs 7-65 *)
Inductive method := SumOfSquaredErrors | SumOfSquaredErrorsNormalized | CrossCorrelation | CrossCorrelationNormalized.

(** template_matching.rs 409-420, ImageTemplate::new *)
Definition image_template_new (im tpl : image Z) : res unit :=
  assert (iw tpl <=? iw im) ;;; assert (ih tpl <=? ih im).

(** template_matching.rs 421-434, slide_window_at; the debug assertions are
    evaluated in u32.  Unsafe accesses are checked accesses. *)
Definition slide_window {St} (im tpl : image Z) (x y : Z) (f : f32 -> f32 -> St -> St) (s : St) : res St :=
  xe <- chk_u 32 (x + iw tpl) ;; xe <- chk_u 32 (xe - 1) ;; assert (xe <? iw im) ;;;
  ye <- chk_u 32 (y + ih tpl) ;; ye <- chk_u 32 (ye - 1) ;; assert (ye <? ih im) ;;;
  for_range 0 (ih tpl) (fun dy s =>
    for_range 0 (iw tpl) (fun dx s =>
      i <- get_pixel im (x + dx) (y + dy) ;;
      t <- get_pixel tpl dx dy ;;
      Ok (f (of_int i) (of_int t) s)) s) s.

(** template_matching.rs 457-471, the same with a mask *)
Definition slide_window_mask {St} (im tpl mask : image Z) (x y : Z) (f : f32 -> f32 -> f32 -> St -> St) (s : St) : res St :=
  xe <- chk_u 32 (x + iw tpl) ;; xe <- chk_u 32 (xe - 1) ;; assert (xe <? iw im) ;;;
  ye <- chk_u 32 (y + ih tpl) ;; ye <- chk_u 32 (ye - 1) ;; assert (ye <? ih im) ;;;
  for_range 0 (ih tpl) (fun dy s =>
    for_range 0 (iw tpl) (fun dx s =>
      i <- get_pixel im (x + dx) (y + dy) ;;
      t <- get_pixel tpl dx dy ;;
      m <- get_pixel mask dx dy ;;
      Ok (f (of_int i) (of_int t) (of_int m) s)) s) s.

(** template_matching.rs 436-442, output_dims *)
Definition output_dims (im tpl : image Z) : res (Z * Z) :=
  w <- chk_u 32 (iw im - iw tpl) ;; w <- chk_u 32 (w + 1) ;;
  h <- chk_u 32 (ih im - ih tpl) ;; h <- chk_u 32 (h + 1) ;; Ok (w, h).

Definition zero : f32 := of_int 0.
(** powi(2) is one f32 multiplication *)
Definition sqr (x : f32) : f32 := fmul x x.

(** template_matching.rs 394-402, square_sum and mult_square_sum *)
Definition square_sum (a : image Z) : f32 :=
  fold_left (fun s x => fadd s (fmul (of_int x) (of_int x))) (idata a) zero.
Definition mult_square_sum (a b : image Z) : f32 :=
  fold_left (fun s '(x, y) => fadd s (sqr (fmul (of_int x) (of_int y)))) (combine (idata a) (idata b)) zero.

(** the last lines of the normalized score_at functions (246-251, 286-291, 341-346, 385-390) *)
Definition normalize (score sq : f32) : f32 :=
  let norm := fsqrt sq in if flt zero norm then fdiv score norm else score.

(** template_matching.rs 213-293: score_at of Sse, SseNormalized, Ccorr,
    CcorrNormalized; [tt] is the template_squared_sum of init *)
Definition score_at (m : method) (tt : f32) (im tpl : image Z) (x y : Z) : res f32 :=
  match m with
  | SumOfSquaredErrors => slide_window im tpl x y (fun i t s => fadd s (sqr (fsub t i))) zero
  | SumOfSquaredErrorsNormalized =>
      ' (s, ii) <- slide_window im tpl x y (fun i t '(s, ii) => (fadd s (sqr (fsub t i)), fadd ii (fmul i i))) (zero, zero) ;;
      Ok (normalize s (fmul ii tt))
  | CrossCorrelation => slide_window im tpl x y (fun i t s => fadd s (fmul i t)) zero
  | CrossCorrelationNormalized =>
      ' (s, ii) <- slide_window im tpl x y (fun i t '(s, ii) => (fadd s (fmul i t), fadd ii (fmul i i))) (zero, zero) ;;
      Ok (normalize s (fmul ii tt))
  end.

(** template_matching.rs 295-392: the versions with a mask *)
Definition score_at_mask (m : method) (tt : f32) (im tpl mask : image Z) (x y : Z) : res f32 :=
  match m with
  | SumOfSquaredErrors => slide_window_mask im tpl mask x y (fun i t m s => fadd s (sqr (fmul (fsub t i) m))) zero
  | SumOfSquaredErrorsNormalized =>
      ' (s, ii) <- slide_window_mask im tpl mask x y
          (fun i t m '(s, ii) => (fadd s (sqr (fmul (fsub t i) m)), fadd ii (sqr (fmul i m)))) (zero, zero) ;;
      Ok (normalize s (fmul tt ii))
  | CrossCorrelation => slide_window_mask im tpl mask x y (fun i t m s => fadd s (fmul (fmul (fmul t i) m) m)) zero
  | CrossCorrelationNormalized =>
      ' (s, ii) <- slide_window_mask im tpl mask x y
          (fun i t m '(s, ii) => (fadd s (fmul (fmul (fmul t i) m) m), fadd ii (sqr (fmul i m)))) (zero, zero) ;;
      Ok (normalize s (fmul tt ii))
  end.

(** template_matching.rs 80-94 and 174-183 *)
Definition match_template (im tpl : image Z) (m : method) : res (image f32) :=
  image_template_new im tpl ;;;
  let tt := square_sum tpl in
  ' (w, h) <- output_dims im tpl ;;
  gen_res w h (fun x y => score_at m tt im tpl x y).

(** template_matching.rs 125-140, 448-456 (the parallel form,
    match_template_with_mask_parallel, computes each score the same way) *)
Definition match_template_with_mask (im tpl : image Z) (m : method) (mask : image Z) : res (image f32) :=
  assert ((iw tpl =? iw mask) && (ih tpl =? ih mask)) ;;;
  image_template_new im tpl ;;;
  let tt := mult_square_sum tpl mask in
  ' (w, h) <- output_dims im tpl ;;
  gen_res w h (fun x y => score_at_mask m tt im tpl mask x y).

(** template_matching.rs 184-203, match_template_parallel: rows computed
    independently, collected in order (rayon's collect), then copied *)
Definition match_template_parallel (im tpl : image Z) (m : method) : res (image f32) :=
  image_template_new im tpl ;;;
  let tt := square_sum tpl in
  ' (w, h) <- output_dims im tpl ;;
  rows <- mapM (fun y => mapM (fun x => score_at m tt im tpl x y) (zrange 0 w)) (zrange 0 h) ;;
  gen_res w h (fun x y => row <- vget rows y ;; vget row x).

(** template_matching.rs 482-491 *)
Record extremes T := mkExtremes { max_value : T; min_value : T; max_value_location : Z * Z; min_value_location : Z * Z }.
Arguments mkExtremes {T}.
Arguments max_value {T}.
Arguments min_value {T}.
Arguments max_value_location {T}.
Arguments min_value_location {T}.

(** template_matching.rs 495-527, find_extremes, for a pixel type with the
    comparison [lt]; enumerate_pixels goes row by row *)
Definition find_extremes {T} (lt : T -> T -> bool) (im : image T) : res (extremes T) :=
  assert ((0 <? iw im) && (0 <? ih im)) ;;;
  p0 <- get_pixel im 0 0 ;;
  for_range 0 (ih im) (fun y e =>
    for_range 0 (iw im) (fun x e =>
      p <- get_pixel im x y ;;
      let e := if lt p (min_value e) then mkExtremes (max_value e) p (max_value_location e) (x, y) else e in
      let e := if lt (max_value e) p then mkExtremes p (min_value e) (x, y) (min_value_location e) else e in
      Ok e) e)
  (mkExtremes p0 p0 (0, 0) (0, 0)).
