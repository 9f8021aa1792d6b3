(** Model of src/map.rs and of the way the crate uses rayon.

    Images here are raw interleaved buffers: [rc] channels per pixel. *)
From Verif Require Import Base ComposeModel.

Record raw (S : Type) := mkRaw { rw : Z; rh : Z; rc : Z; rdata : list S }.
Arguments mkRaw {S} rw rh rc rdata.
Arguments rw {S} _.
Arguments rh {S} _.
Arguments rc {S} _.
Arguments rdata {S} _.
Definition rwf {S} (r : raw S) : Prop :=
  0 <= rw r /\ 0 <= rh r /\ 0 < rc r /\ zlen (rdata r) = rw r * rh r * rc r.

(** channels of the i-th pixel in row-major order *)
Definition nth_pixel {S} (r : raw S) (i : Z) : list S :=
  firstn (Z.to_nat (rc r)) (skipn (Z.to_nat (i * rc r)) (rdata r)).
(** [image.get_pixel(x,y).channels()] *)
Definition rpixel {S} (r : raw S) (x y : Z) : list S := nth_pixel r (y * rw r + x).
(** [image.pixels()] *)
Definition pixels {S} (r : raw S) : list (list S) :=
  map (nth_pixel r) (zrange 0 (rw r * rh r)).
(** [image.enumerate_pixels()] *)
Definition enumerate_pixels {S} (r : raw S) : list (Z * Z * list S) :=
  map (fun i => (i mod rw r, i / rw r, nth_pixel r i)) (zrange 0 (rw r * rh r)).

(** [Image::from_vec(w, h, data).expect(..)]: the [image] crate accepts any
    vector that is long enough and ignores what exceeds width*height*channels
    (the excess stays in the container but is not visible through the API). *)
Definition from_vec {S} (w h c : Z) (data : list S) : res (raw S) :=
  if w * h * c <=? zlen data then Ok (mkRaw w h c (firstn (Z.to_nat (w * h * c)) data))
  else Panic.

(** src/map.rs:77-89 [map_subpixels] *)
Definition map_subpixels {S T} (r : raw S) (f : S -> T) : res (raw T) :=
  from_vec (rw r) (rh r) (rc r) (map f (rdata r)).

(** src/map.rs:91-99 [map_subpixels_mut]: one pass over the buffer *)
Definition map_subpixels_mut {S} (r : raw S) (f : S -> S) : res (raw S) :=
  d <- for_range 0 (zlen (rdata r)) (fun i d => a <- vget d i ;; vset d i (f a)) (rdata r) ;;
  Ok (mkRaw (rw r) (rh r) (rc r) d).

(** src/map.rs:159-175 [map_pixels]; the output pixel type has [c'] channels,
    i.e. [f] is applied to a pixel and returns [c'] channels *)
Definition map_pixels {S T} (c' : Z) (r : raw S) (f : list S -> list T) : res (raw T) :=
  from_vec (rw r) (rh r) c' (flat_map f (pixels r)).

(** src/map.rs:246-262 [map_enumerated_pixels] *)
Definition map_enumerated_pixels {S T} (c' : Z) (r : raw S) (f : Z -> Z -> list S -> list T)
  : res (raw T) :=
  from_vec (rw r) (rh r) c' (flat_map (fun '(x, y, p) => f x y p) (enumerate_pixels r)).

(** src/map.rs:347-365 [map_pixels2]: width of the first image, height of the
    second, pixels zipped *)
Definition map_pixels2 {S S' T} (c' : Z) (r1 : raw S) (r2 : raw S')
    (f : list S -> list S' -> list T) : res (raw T) :=
  from_vec (rw r1) (rh r2) c'
    (flat_map (fun '(p, q) => f p q) (combine (pixels r1) (pixels r2))).

(** ** Parallel execution (rayon)

    A parallel in-place pass runs one task per element.  A task first loads its
    element, then stores the new value: two separate steps, so that any
    interleaving of the steps of different tasks is a schedule.  [None] means
    the task panicked; rayon re-raises the panic after all tasks finished. *)
Inductive tstat (A : Type) := Todo | Loaded (a : A) | Done | Panicked.
Arguments Todo {A}.
Arguments Loaded {A} a.
Arguments Done {A}.
Arguments Panicked {A}.

Definition pstep {A} (f : Z -> A -> option A) (s : list A * list (tstat A)) (i : Z)
  : list A * list (tstat A) :=
  let '(buf, st) := s in
  match znth st i, znth buf i with
  | Some Todo, Some a => (buf, zupd st i (Loaded a))
  | Some (Loaded a), _ =>
      match f i a with
      | Some b => (zupd buf i b, zupd st i Done)
      | None => (buf, zupd st i Panicked)
      end
  | _, _ => s
  end.

Definition par_run {A} (f : Z -> A -> option A) (sched : list Z) (l : list A)
  : list A * list (tstat A) :=
  fold_left (pstep f) sched (l, map (fun _ => Todo) l).

Definition is_done {A} (t : tstat A) : bool :=
  match t with Done | Panicked => true | _ => false end.
Definition is_panicked {A} (t : tstat A) : bool :=
  match t with Panicked => true | _ => false end.

(** a schedule is complete when every task ran to its end *)
Definition complete {A} (f : Z -> A -> option A) (sched : list Z) (l : list A) : bool :=
  forallb is_done (snd (par_run f sched l)).

(** result of a parallel in-place pass under a (complete) schedule *)
Definition par_for_each {A} (f : Z -> A -> option A) (sched : list Z) (l : list A)
  : res (list A) :=
  let '(buf, st) := par_run f sched l in
  if existsb is_panicked st then Panic else Ok buf.

(** the same pass done sequentially *)
Definition seq_for_each {A} (f : Z -> A -> option A) (l : list A) : res (list A) :=
  for_range 0 (zlen l) (fun i d => a <- vget d i ;; b <- unwrap (f i a) ;; vset d i b) l.

(** rayon's indexed [collect]: task i computes [g i] and stores it in slot i *)
Definition cstep {B} (g : Z -> option B) (s : list (tstat B)) (i : Z) : list (tstat B) :=
  match znth s i with
  | Some Todo => match g i with
                 | Some b => zupd s i (Loaded b)
                 | None => zupd s i Panicked
                 end
  | _ => s
  end.
Definition collect_run {B} (g : Z -> option B) (sched : list Z) (n : Z) : list (tstat B) :=
  fold_left (cstep g) sched (map (fun _ => Todo) (zrange 0 n)).
Definition stored {B} (t : tstat B) : bool :=
  match t with Loaded _ | Panicked => true | _ => false end.
Definition collect_complete {B} (g : Z -> option B) sched n : bool :=
  forallb stored (collect_run g sched n).
Definition slot_value {B} (t : tstat B) : res B :=
  match t with Loaded b => Ok b | _ => Panic end.
Definition par_collect {B} (g : Z -> option B) (sched : list Z) (n : Z) : res (list B) :=
  mapM slot_value (collect_run g sched n).
Definition seq_collect {B} (g : Z -> option B) (n : Z) : res (list B) :=
  mapM (fun i => unwrap (g i)) (zrange 0 n).

(** rayon's unindexed [flat_map ... collect]: the input is split recursively at
    arbitrary points, the halves are processed independently and the two result
    vectors are concatenated in order. *)
Inductive splits_tree := Leaf | Node (k : nat) (l r : splits_tree).
Fixpoint par_flat_map {A B} (t : splits_tree) (f : A -> list B) (l : list A) : list B :=
  match t with
  | Leaf => flat_map f l
  | Node k a b => par_flat_map a f (firstn k l) ++ par_flat_map b f (skipn k l)
  end.

(** src/map.rs:102-118 [map_subpixels_parallel] *)
Definition map_subpixels_parallel {S T} (sched : list Z) (r : raw S) (f : S -> T) : res (raw T) :=
  d <- par_collect (fun i => option_map f (znth (rdata r) i)) sched (zlen (rdata r)) ;;
  from_vec (rw r) (rh r) (rc r) d.

(** src/map.rs:121-133 [map_subpixels_mut_parallel] *)
Definition map_subpixels_mut_parallel {S} (sched : list Z) (r : raw S) (f : S -> S) : res (raw S) :=
  d <- par_for_each (fun _ a => Some (f a)) sched (rdata r) ;;
  Ok (mkRaw (rw r) (rh r) (rc r) d).

(** src/map.rs:186-206 [map_pixels_parallel] *)
Definition map_pixels_parallel {S T} (t : splits_tree) (c' : Z) (r : raw S) (f : list S -> list T)
  : res (raw T) :=
  from_vec (rw r) (rh r) c' (par_flat_map t f (pixels r)).

(** src/map.rs:275-295 [map_enumerated_pixels_parallel] *)
Definition map_enumerated_pixels_parallel {S T} (t : splits_tree) (c' : Z) (r : raw S)
    (f : Z -> Z -> list S -> list T) : res (raw T) :=
  from_vec (rw r) (rh r) c'
    (par_flat_map t (fun '(x, y, p) => f x y p) (enumerate_pixels r)).

(** In-place pixel passes work on the buffer of whole pixels (an [image]).
    src/map.rs:177-183 [map_pixels_mut], 264-272 [map_enumerated_pixels_mut]
    (the former is the latter with a function that ignores the position). *)
Definition map_enumerated_pixels_mut {A} (im : image A) (f : Z -> Z -> A -> A) : res (image A) :=
  d <- seq_for_each (fun i a => Some (f (i mod iw im) (i / iw im) a)) (idata im) ;;
  Ok (mkImage (iw im) (ih im) d).
Definition map_pixels_mut {A} (im : image A) (f : A -> A) : res (image A) :=
  map_enumerated_pixels_mut im (fun _ _ => f).

(** src/map.rs:298-309 [map_enumerated_pixels_mut_parallel], 209-218
    [map_pixels_mut_parallel] *)
Definition map_enumerated_pixels_mut_parallel {A} (sched : list Z) (im : image A)
    (f : Z -> Z -> A -> A) : res (image A) :=
  d <- par_for_each (fun i a => Some (f (i mod iw im) (i / iw im) a)) sched (idata im) ;;
  Ok (mkImage (iw im) (ih im) d).
Definition map_pixels_mut_parallel {A} (sched : list Z) (im : image A) (f : A -> A) : res (image A) :=
  map_enumerated_pixels_mut_parallel sched im (fun _ _ => f).

(** [Image::from_par_fn(w, h, f)] of the image crate: fills a new buffer in
    parallel, one task per pixel *)
Definition from_par_fn {A} (sched : list Z) (zero : A) (w h : Z) (f : Z -> Z -> option A) : res (image A) :=
  d <- par_for_each (fun i _ => f (i mod w) (i / w)) sched (idata (new_image w h zero)) ;;
  Ok (mkImage w h d).

(** src/compose.rs:51-64 [crop_parallel] *)
Definition crop_parallel {A} (sched : list Z) (zero : A) (im : image A) (rx ry rw rh : Z)
  : res (image A) :=
  xe <- chk_u 32 (rx + rw) ;;
  assert (xe <=? iw im) ;;;
  ye <- chk_u 32 (ry + rh) ;;
  assert (ye <=? ih im) ;;;
  from_par_fn sched zero rw rh (fun x y => get im (rx + x) (ry + y)).

(** The row-parallel pattern of src/filter/mod.rs:74-119 [filter_parallel] and
    src/template_matching.rs:184-203 [match_template_parallel]: one task per
    row computes the row's pixels [f x y] left to right, the rows are collected
    and the image is built by indexing them. *)
Fixpoint row_task {A} (f : Z -> Z -> option A) (y : Z) (xs : list Z) : option (list A) :=
  match xs with
  | [] => Some []
  | x :: xs' => match f x y, row_task f y xs' with
                | Some a, Some l => Some (a :: l)
                | _, _ => None
                end
  end.
Definition rows_parallel {A} (sched : list Z) (w h : Z) (f : Z -> Z -> option A) : res (image A) :=
  rows <- par_collect (fun y => row_task f y (zrange 0 w)) sched h ;;
  gen_res w h (fun x y => row <- vget rows y ;; vget row x).
(** the sequential counterpart: [Image::from_fn] *)
Definition rows_sequential {A} (w h : Z) (f : Z -> Z -> option A) : res (image A) :=
  gen_res w h (fun x y => unwrap (f x y)).

(** src/geometric_transformations.rs:632-659 [warp_inner]: one task per row
    chunk; task y overwrites row y with [f x y].  Rows are the elements. *)
Definition warp_rows_parallel {A} (sched : list Z) (w : Z) (f : Z -> Z -> A) (rows : list (list A))
  : res (list (list A)) :=
  par_for_each (fun y _ => Some (map (fun x => f x y) (zrange 0 w))) sched rows.
