(** What the bilateral filter computes. *)
From Verif Require Import Base Float.
Open Scope Z_scope.

(** the sides the documentation allows: 1 ..= i32::MAX *)
Definition supported_size {P} (im : image P) : Prop :=
  1 <= iw im <= 2 ^ 31 - 1 /\ 1 <= ih im <= 2 ^ 31 - 1.

(** offsets of the square window, row by row *)
Definition offsets (radius : Z) : list (Z * Z) :=
  flat_map (fun dy => map (fun dx => (dx, dy)) (zrange (- radius) (radius + 1))) (zrange (- radius) (radius + 1)).

(** the image extended beyond its border by its nearest pixel *)
Definition clamped_get {P} (im : image P) (x y : Z) : option P :=
  get im (Z.max 0 (Z.min (iw im - 1) x)) (Z.max 0 (Z.min (ih im - 1) y)).

(** sum from left to right, starting with the first term *)
Definition fsum (l : list f32) : f32 := match l with [] => of_int 0 | h :: t => fold_left fadd t h end.

(** channel j of the average of weighted pixels, truncated to u8 *)
Definition weighted (entries : list (f32 * list Z)) (j : Z) : Z :=
  to_int 0 255 (fdiv (fsum (map (fun e => fmul (fst e) (of_int (nth (Z.to_nat j) (snd e) 0))) entries))
                     (fsum (map fst entries))).

(** the spatial weight of an offset: exp(-(dx^2 + dy^2) / (2 sigma^2)) *)
Definition spatial (fexp : f32 -> f32) (sigma : f32) (dx dy : Z) : f32 :=
  fexp (fdiv (fmul (of_dyadic (-1) (-1)) (fadd (fmul (of_int dx) (of_int dx)) (fmul (of_int dy) (of_int dy))))
             (fmul sigma sigma)).

(** [out] holds at every pixel the average of its window *)
Definition bilateral_of fexp (color : list Z -> list Z -> f32) (im : image (list Z)) (radius : Z) (sigma : f32)
    (out : image (list Z)) : Prop :=
  wf out /\ iw out = iw im /\ ih out = ih im /\
  forall x y center, get im x y = Some center ->
    exists entries q, get out x y = Some q /\ zlen q = zlen center /\
      zlen entries = zlen (offsets radius) /\
      (forall k dx dy, znth (offsets radius) k = Some (dx, dy) -> exists p,
         clamped_get im (x + dx) (y + dy) = Some p /\
         znth entries k = Some (fmul (spatial fexp sigma dx dy) (color center p), p)) /\
      (forall j, 0 <= j < zlen center -> znth q j = Some (weighted entries j)).
