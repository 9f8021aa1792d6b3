(** Conventions shared by all models: results with panics, loops, images.

    Nothing here models a specific function of imageproc, except the accessors
    of [image::ImageBuffer] (crate image 0.25) that imageproc is written
    against: [width], [height], [get_pixel], [put_pixel], [from_fn], [new]. *)
From Coq Require Export List ZArith Lia Bool Arith.
From Coq Require Export ZifyBool ZifyNat.
Export ListNotations.
Global Open Scope Z_scope.

(** Outcome of a Rust function: a value, a panic, or fuel exhausted in a
    [loop]/[while] (only produced by loops that carry explicit fuel). *)
Inductive res (A : Type) : Type :=
| Ok (a : A)
| Panic
| Timeout.
Arguments Ok {A} a.
Arguments Panic {A}.
Arguments Timeout {A}.

Definition bind {A B} (m : res A) (k : A -> res B) : res B :=
  match m with Ok a => k a | Panic => Panic | Timeout => Timeout end.

Notation "x <- m ;; k" := (bind m (fun x => k))
  (at level 61, m at next level, right associativity).
Notation "' p <- m ;; k" := (bind m (fun p => k))
  (at level 61, p pattern, m at next level, right associativity).
Notation "m ;;; k" := (bind m (fun _ => k)) (at level 61, right associativity).

(** Rust [assert!] *)
Definition assert (b : bool) : res unit := if b then Ok tt else Panic.

(** Rust [Option::unwrap] / slice indexing *)
Definition unwrap {A} (o : option A) : res A :=
  match o with Some a => Ok a | None => Panic end.

(** Fixed-width unsigned/signed checked arithmetic (debug-build semantics:
    overflow panics).  [uN n z] is the check that [z] fits in n bits. *)
Definition u_fits (n : Z) (z : Z) : bool := (0 <=? z) && (z <? 2 ^ n).
Definition i_fits (n : Z) (z : Z) : bool := (- 2 ^ (n - 1) <=? z) && (z <? 2 ^ (n - 1)).
Definition chk_u (n : Z) (z : Z) : res Z := if u_fits n z then Ok z else Panic.
Definition chk_i (n : Z) (z : Z) : res Z := if i_fits n z then Ok z else Panic.

(** [for i in lo..hi { s = body i s }] *)
Fixpoint for_up {S} (n : nat) (i : Z) (body : Z -> S -> res S) (s : S) : res S :=
  match n with
  | O => Ok s
  | Datatypes.S n' => s' <- body i s ;; for_up n' (i + 1) body s'
  end.
Definition for_range {S} (lo hi : Z) (body : Z -> S -> res S) (s : S) : res S :=
  for_up (Z.to_nat (hi - lo)) lo body s.

(** [for i in (lo..hi).rev() { s = body i s }] *)
Fixpoint for_down {S} (n : nat) (i : Z) (body : Z -> S -> res S) (s : S) : res S :=
  match n with
  | O => Ok s
  | Datatypes.S n' => s' <- body (i + Z.of_nat n') s ;; for_down n' i body s'
  end.
Definition for_range_rev {S} (lo hi : Z) (body : Z -> S -> res S) (s : S) : res S :=
  for_down (Z.to_nat (hi - lo)) lo body s.

(** [for x in list { s = body x s }] *)
Fixpoint for_each {X S} (l : list X) (body : X -> S -> res S) (s : S) : res S :=
  match l with
  | [] => Ok s
  | x :: l' => s' <- body x s ;; for_each l' body s'
  end.

(** collecting an iterator of fallible computations *)
Fixpoint mapM {X Y} (f : X -> res Y) (l : list X) : res (list Y) :=
  match l with
  | [] => Ok []
  | x :: l' => y <- f x ;; ys <- mapM f l' ;; Ok (y :: ys)
  end.

(** The list lo, lo+1, ..., hi-1 *)
Fixpoint zseq (i : Z) (n : nat) : list Z :=
  match n with O => [] | S n' => i :: zseq (i + 1) n' end.
Definition zrange (lo hi : Z) : list Z := zseq lo (Z.to_nat (hi - lo)).

(** ** Lists indexed by Z *)
Definition znth {A} (l : list A) (i : Z) : option A :=
  if 0 <=? i then nth_error l (Z.to_nat i) else None.
Fixpoint list_upd {A} (l : list A) (n : nat) (a : A) : list A :=
  match l, n with
  | [], _ => []
  | _ :: l', O => a :: l'
  | b :: l', S n' => b :: list_upd l' n' a
  end.
Definition zupd {A} (l : list A) (i : Z) (a : A) : list A :=
  if 0 <=? i then list_upd l (Z.to_nat i) a else l.
(** Rust [v[i]] (panics out of bounds) and [v[i] = a] *)
Definition vget {A} (l : list A) (i : Z) : res A := unwrap (znth l i).
Definition vset {A} (l : list A) (i : Z) (a : A) : res (list A) :=
  if (0 <=? i) && (i <? Z.of_nat (length l)) then Ok (zupd l i a) else Panic.

Definition zlen {A} (l : list A) : Z := Z.of_nat (length l).

(** ** Images: row-major pixel buffers *)
Record image (A : Type) := mkImage { iw : Z; ih : Z; idata : list A }.
Arguments mkImage {A} iw ih idata.
Arguments iw {A} _.
Arguments ih {A} _.
Arguments idata {A} _.

Definition inb {A} (im : image A) (x y : Z) : bool :=
  (0 <=? x) && (x <? iw im) && (0 <=? y) && (y <? ih im).

(** pixel lookup, [None] outside *)
Definition get {A} (im : image A) (x y : Z) : option A :=
  if inb im x y then znth (idata im) (y * iw im + x) else None.

(** [image.get_pixel(x, y)]: panics outside the image *)
Definition get_pixel {A} (im : image A) (x y : Z) : res A := unwrap (get im x y).
(** [image.put_pixel(x, y, a)]: panics outside the image *)
Definition put_pixel {A} (im : image A) (x y : Z) (a : A) : res (image A) :=
  if inb im x y then Ok (mkImage (iw im) (ih im) (zupd (idata im) (y * iw im + x) a))
  else Panic.

(** [Image::from_fn(w, h, f)] *)
Definition gen {A} (w h : Z) (f : Z -> Z -> A) : image A :=
  mkImage w h (flat_map (fun y => map (fun x => f x y) (zrange 0 w)) (zrange 0 h)).
(** [Image::from_pixel(w, h, a)], and [Image::new] with [a] the zero pixel *)
Definition new_image {A} (w h : Z) (a : A) : image A := gen w h (fun _ _ => a).
(** [Image::from_fn] with a closure that may panic *)
Definition gen_res {A} (w h : Z) (f : Z -> Z -> res A) : res (image A) :=
  rows <- mapM (fun y => mapM (fun x => f x y) (zrange 0 w)) (zrange 0 h) ;;
  Ok (mkImage w h (concat rows)).

(** An [ImageBuffer] always has exactly width*height pixels. *)
Definition wf {A} (im : image A) : Prop :=
  0 <= iw im /\ 0 <= ih im /\ zlen (idata im) = iw im * ih im.

(** Specification-level: every pixel satisfies [P]. *)
Definition all_px {A} (P : A -> Prop) (im : image A) : Prop :=
  forall x y a, get im x y = Some a -> P a.
Definition is_u8 (v : Z) : Prop := 0 <= v <= 255.
Definition gray8 (im : image Z) : Prop := wf im /\ all_px is_u8 im.

(** clamp a coordinate into [lo, hi] *)
Definition zclamp (lo hi x : Z) : Z := Z.max lo (Z.min hi x).

(** Sum of [f] over lo <= i < hi *)
Definition zsum (lo hi : Z) (f : Z -> Z) : Z :=
  fold_right (fun i acc => f i + acc) 0 (zrange lo hi).
