(** Model of src/drawing/fill.rs. *)
From Verif Require Import Base LineModel.

Section Flood.
  Context {A : Type} (eqb : A -> A -> bool).   (* P: PartialEq *)

  (** fill.rs 60-71 inside *)
  Definition inside (im : image A) (x y : Z) (target : A) : bool :=
    if (x <? 0) || (y <? 0) then false
    else match get im x y with Some p => eqb p target | None => false end.

  (** fill.rs 31-34: while inside(image, x - 1, y, target).  Like all the inner
      loops here its number of rounds is bounded by the fuel given in
      [flood_entry]; exhausting it would be [Timeout] (never happens,
      FloodProofs). *)
  Fixpoint scan_left (fuel : nat) (target fill : A) (im : image A) (x y : Z) : res (image A * Z) :=
    match fuel with
    | O => Timeout
    | S n =>
        x' <- chk_i 32 (x - 1) ;;
        if inside im x' y target then
          im <- put_pixel im (x - 1) y fill ;;
          scan_left n target fill im x' y
        else Ok (im, x)
    end.

  (** fill.rs 40-43: while inside(image, x1, y, target) *)
  Fixpoint fill_right (fuel : nat) (target fill : A) (im : image A) (x1 y : Z) : res (image A * Z) :=
    match fuel with
    | O => Timeout
    | S n =>
        if inside im x1 y target then
          im <- put_pixel im x1 y fill ;;
          x1 <- chk_i 32 (x1 + 1) ;;
          fill_right n target fill im x1 y
        else Ok (im, x1)
    end.

  (** fill.rs 51-53: while x1 < x2 && !inside(image, x1, y, target) *)
  Fixpoint skip (fuel : nat) (target : A) (im : image A) (x1 x2 y : Z) : res Z :=
    match fuel with
    | O => Timeout
    | S n =>
        if (x1 <? x2) && negb (inside im x1 y target) then
          x1 <- chk_i 32 (x1 + 1) ;;
          skip n target im x1 x2 y
        else Ok x1
    end.

  (** a stack entry (x1, x2, y, dy); the head of the list is the top *)
  Definition entry : Type := Z * Z * Z * Z.

  (** fill.rs 39-55: while x1 <= x2.  [rf] is the fuel for [fill_right]. *)
  Fixpoint scan_row (fuel rf : nat) (target fill : A) (im : image A) (x x1 x2 y dy : Z)
      (stack : list entry) : res (image A * list entry) :=
    match fuel with
    | O => Timeout
    | S n =>
        if x1 <=? x2 then
          ' r <- fill_right rf target fill im x1 y ;; let '(im, x1) := r in
          stack <- (if x <? x1
                    then e <- chk_i 32 (x1 - 1) ;; yy <- chk_i 32 (y + dy) ;; Ok ((x, e, yy, dy) :: stack)
                    else Ok stack) ;;
          e <- chk_i 32 (x1 - 1) ;;
          stack <- (if x2 <? e
                    then s <- chk_i 32 (x2 + 1) ;; yy <- chk_i 32 (y - dy) ;; Ok ((s, e, yy, - dy) :: stack)
                    else Ok stack) ;;
          x1 <- chk_i 32 (x1 + 1) ;;
          x1 <- skip fuel target im x1 x2 y ;;
          scan_row n rf target fill im x1 x1 x2 y dy stack
        else Ok (im, stack)
    end.

  (** fill.rs 28-55: the body of the outer loop for one popped entry *)
  Definition flood_entry (target fill : A) (im : image A) (e : entry) (stack : list entry)
      : res (image A * list entry) :=
    let '(x1, x2, y, dy) := e in
    let fuel := Z.to_nat (iw im + 2) in
    ' r <- (if inside im x1 y target then
              ' r <- scan_left fuel target fill im x1 y ;; let '(im, x) := r in
              stack <- (if x <? x1
                        then b <- chk_i 32 (x1 - 1) ;; yy <- chk_i 32 (y - dy) ;; Ok ((x, b, yy, - dy) :: stack)
                        else Ok stack) ;;
              Ok (im, x, stack)
            else Ok (im, x1, stack)) ;;
    let '(im, x, stack) := r in
    scan_row (Z.to_nat (x2 - x1 + 3)) fuel target fill im x x1 x2 y dy stack.

  (** fill.rs 27-56: while let Some(..) = stack.pop() *)
  Fixpoint flood_loop (fuel : nat) (target fill : A) (im : image A) (stack : list entry) : res (image A) :=
    match fuel with
    | O => Timeout
    | S n =>
        match stack with
        | [] => Ok im
        | e :: stack =>
            ' r <- flood_entry target fill im e stack ;; let '(im, stack) := r in
            flood_loop n target fill im stack
        end
    end.

  (** fill.rs 16-57 flood_fill_mut (and 6-13 flood_fill, which clones first).
      [fuel] bounds the number of rounds of the outer loop. *)
  Definition flood_fill (fuel : nat) (im : image A) (x y : Z) (fill : A) : res (image A) :=
    target <- get_pixel im x y ;;
    let xi := wrap_i32 x in let yi := wrap_i32 y in
    y1 <- chk_i 32 (yi - 1) ;;
    flood_loop fuel target fill im [(xi, xi, y1, -1); (xi, xi, yi, 1)].
End Flood.
