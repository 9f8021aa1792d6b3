(** Model of src/filter/bilateral.rs on u8 channels.  [exp] of f32 is a
    parameter; [powi(2)] is the square. *)
From Verif Require Import Base Float.
Section Bilateral.
  Context (fexp : f32 -> f32).
  Definition sq (x : f32) : f32 := fmul x x.

  (** src/filter/bilateral.rs:199-201 *)
  Definition gaussian_weight (x_squared sigma_squared : f32) : f32 :=
    fexp (fdiv (fmul (of_dyadic (-1) (-1)) x_squared) sigma_squared).

  (** src/filter/bilateral.rs:39-48: [.sum::<f32>()] starts at -0.0, which adds
      like zero; the model starts at 0 *)
  Definition gaussian_euclidean (sigma_squared : f32) (p1 p2 : list Z) : f32 :=
    gaussian_weight
      (fold_left fadd (map (fun '(c1, c2) => sq (fsub (of_int c1) (of_int c2))) (combine p1 p2)) (of_int 0))
      sigma_squared.

  (** [-radius..=radius] squared, [w_y] outermost *)
  Definition window (radius : Z) : list (Z * Z) :=
    list_prod (zrange (- radius) (radius + 1)) (zrange (- radius) (radius + 1)).

  (** src/filter/bilateral.rs:164-196 *)
  Definition weighted_average (l : list (f32 * list Z)) : res (list Z) :=
    match map (fun '(w, v) => (w, map (fun s => fmul w (of_int s)) v)) l with
    | [] => Panic
    | h :: t =>
        ' (ws, cs) <- for_each t (fun '(w2, c2) '(w1, c1) =>
            assert (zlen c1 =? zlen c2) ;;;
            Ok (fadd w1 w2, map (fun '(a, b) => fadd a b) (combine c1 c2))) h ;;
        Ok (map (fun x => to_int 0 255 (fdiv x ws)) cs)
    end.

  (** src/filter/bilateral.rs:131-158: the pixel at (x, y); the table index is
      computed in i16, then cast to usize *)
  Definition bilateral_pixel (color : list Z -> list Z -> f32) (im : image (list Z)) (radius : Z) (lookup : list f32) (x y : Z)
      : res (list Z) :=
    center <- get_pixel im x y ;;
    a <- chk_i 16 (2 * radius) ;;
    window_len <- chk_i 16 (a + 1) ;;
    l <- mapM (fun '(w_y, w_x) =>
        sy <- chk_i 32 (w_y + y) ;;
        h1 <- chk_i 32 (ih im - 1) ;;
        sx <- chk_i 32 (w_x + x) ;;
        w1 <- chk_i 32 (iw im - 1) ;;
        p <- get_pixel im (zclamp 0 w1 sx) (zclamp 0 h1 sy) ;;
        b <- chk_i 16 (w_y + radius) ;;
        b <- chk_i 16 (window_len * b) ;;
        c <- chk_i 16 (w_x + radius) ;;
        i <- chk_i 16 (b + c) ;;
        spatial <- vget lookup i ;;
        Ok (fmul spatial (color center p), p)) (window radius) ;;
    weighted_average l.

  (** src/filter/bilateral.rs:106-109.  [!w] on u32 is the bitwise complement;
      it binds tighter than the comparison. *)
  Definition size_guard (im : image (list Z)) : res unit :=
    assert (2 ^ 31 - 1 <? Z.lxor (iw im) (2 ^ 32 - 1)) ;;;
    assert (2 ^ 31 - 1 <? Z.lxor (ih im) (2 ^ 32 - 1)) ;;;
    assert (negb (iw im =? 0)) ;;;
    assert (negb (ih im =? 0)).
  (** src/filter/bilateral.rs:93-162 *)
  Definition bilateral_filter (color : list Z -> list Z -> f32) (im : image (list Z)) (radius : Z) (spatial_sigma : f32)
      : res (image (list Z)) :=
    size_guard im ;;;
    let lookup := map (fun '(w_y, w_x) => gaussian_weight (fadd (sq (of_int w_x)) (sq (of_int w_y))) (sq spatial_sigma)) (window radius) in
    gen_res (iw im) (ih im) (bilateral_pixel color im radius lookup).
End Bilateral.
