(** What the functions of src/compose.rs should do, pixel by pixel. *)
From Verif Require Import Base.

Definition same_size {A B} (a : image A) (b : image B) : Prop :=
  iw a = iw b /\ ih a = ih b.

(** [out] is [im] mirrored left-right / top-bottom *)
Definition mirrored_h {A} (im out : image A) : Prop :=
  wf out /\ same_size out im /\
  forall x y, 0 <= x < iw im -> 0 <= y < ih im ->
    get out x y = get im (iw im - 1 - x) y.
Definition mirrored_v {A} (im out : image A) : Prop :=
  wf out /\ same_size out im /\
  forall x y, 0 <= x < iw im -> 0 <= y < ih im ->
    get out x y = get im x (ih im - 1 - y).

(** [out] is the window of [im] with top-left corner (rx,ry) and size rw x rh *)
Definition window {A} (im out : image A) (rx ry rw rh : Z) : Prop :=
  wf out /\ iw out = rw /\ ih out = rh /\
  forall x y, 0 <= x < rw -> 0 <= y < rh -> get out x y = get im (rx + x) (ry + y).

(** pixel (px,py) of the bottom image lies under [top] placed at (x,y) *)
Definition covered {A} (top : image A) (x y px py : Z) : Prop :=
  x <= px < x + iw top /\ y <= py < y + ih top.

(** the documented effect of [replace] *)
Definition replaced {A} (bottom top out : image A) (x y : Z) : Prop :=
  wf out /\ same_size out bottom /\
  forall px py, 0 <= px < iw bottom -> 0 <= py < ih bottom ->
    (covered top x y px py -> get out px py = get top (px - x) (py - y)) /\
    (~ covered top x y px py -> get out px py = get bottom px py).

(** the documented effect of [overlay] *)
Definition overlaid {A} (blend : A -> A -> A) (bottom top out : image A) (x y : Z) : Prop :=
  wf out /\ same_size out bottom /\
  forall px py b, get bottom px py = Some b ->
    (forall t, get top (px - x) (py - y) = Some t -> get out px py = Some (blend b t)) /\
    (~ covered top x y px py -> get out px py = Some b).

(** image dimensions are u32 *)
Definition u32_dims {A} (im : image A) : Prop := iw im < 2 ^ 32 /\ ih im < 2 ^ 32.
