(** Prefix sums and window sums, independently of the algorithms. *)
From Verif Require Import Base.

(** value of channel c of pixel (x, y) (0 outside the image) *)
Definition chan (im : image (list Z)) (c x y : Z) : Z :=
  match get im x y with
  | Some p => match znth p c with Some v => v | None => 0 end
  | None => 0
  end.

(** an image with [ch] 8-bit channels *)
Definition channels8 (ch : Z) (im : image (list Z)) : Prop :=
  wf im /\ forall x y p, get im x y = Some p -> zlen p = ch /\ forall v, In v p -> is_u8 v.

(** sum of f over x0 <= x < x1, y0 <= y < y1 *)
Definition rect_sum (f : Z -> Z -> Z) (x0 x1 y0 y1 : Z) : Z :=
  zsum y0 y1 (fun y => zsum x0 x1 (fun x => f x y)).

(** a sequence extended by repeating its first and last entries *)
Definition replicate (f : Z -> Z) (len i : Z) : Z := f (zclamp 0 (len - 1) i).

Definition px (im : image Z) (x y : Z) : Z :=
  match get im x y with Some v => v | None => 0 end.
