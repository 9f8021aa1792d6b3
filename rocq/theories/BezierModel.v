(** Model of src/drawing/bezier.rs. *)
From Verif Require Import Base Float LineModel.

Section Bezier.
  Context (start end_ control_a control_b : f32 * f32).

  (** bezier.rs 40-46, 49-53: one coordinate of the curve before rounding *)
  Definition bezier_coord (s a b e t : f32) : f32 :=
    let t2 := fmul t t in
    let t3 := fmul t2 t in
    let mt := fsub (of_int 1) t in
    let mt2 := fmul mt mt in
    let mt3 := fmul mt2 mt in
    fadd (fadd (fadd (fmul s mt3) (fmul (fmul (fmul (of_int 3) a) mt2) t))
               (fmul (fmul (fmul (of_int 3) b) mt) t2))
         (fmul e t3).

  (** bezier.rs 39-55 the closure cubic_bezier_curve *)
  Definition cubic_bezier_curve (t : f32) : f32 * f32 :=
    (fround (bezier_coord (fst start) (fst control_a) (fst control_b) (fst end_) t),
     fround (bezier_coord (snd start) (snd control_a) (snd control_b) (snd end_) t)).

  (** bezier.rs 57-59 the closure distance; [powi(2)] is one multiplication *)
  Definition distance (p q : f32 * f32) : f32 :=
    let dx := fsub (fst p) (fst q) in
    let dy := fsub (snd p) (snd q) in
    fsqrt (fadd (fmul dx dx) (fmul dy dy)).

  (** bezier.rs 62-63 *)
  Definition curve_length_bound : f32 :=
    fadd (fadd (distance start control_a) (distance control_a control_b)) (distance control_b end_).

  (** bezier.rs 66 *)
  Definition num_segments : Z :=
    i32_of_f32 (fdiv (fsqrt (fadd (fmul curve_length_bound curve_length_bound) (of_int 800))) (of_int 8)).

  (** bezier.rs 27-81 draw_cubic_bezier_curve_mut, and on a copy
      draw_cubic_bezier_curve (11-25); [dr] is the effect of drawing on one
      pixel (LineModel.draw_pixel).  The loop state is (t1, canvas) *)
  Definition draw_cubic_bezier_curve {A} (dr : A -> A) (im : image A) : res (image A) :=
    let n := num_segments in
    let t_interval := fdiv (of_int 1) (of_int n) in
    st <- for_range 0 n (fun i '(t1, im) =>
      let t2 := fmul (fadd (of_int i) (of_int 1)) t_interval in
      im <- draw_line_segment dr im (cubic_bezier_curve t1) (cubic_bezier_curve t2) ;;
      Ok (t2, im)) (of_int 0, im) ;;
    Ok (snd st).
End Bezier.
