(** Properties C07, C08: pixel maps and their parallel variants *)
From Verif Require Import Base ComposeModel MapModel MapProofs.

(** ** C07.  A schedule is any list of task numbers: at each entry that task
    performs its next step (load, then store).  [complete] / [collect_complete]
    say that every task has finished, which rayon guarantees before returning. *)
Theorem c07_map_subpixels_parallel :
  forall (S T : Type) (sched : list Z) (r : raw S) (f : S -> T),
  collect_complete (fun i => option_map f (znth (rdata r) i)) sched (zlen (rdata r)) = true ->
  map_subpixels_parallel sched r f = map_subpixels r f.
Proof. exact @map_subpixels_par. Qed.
Print Assumptions c07_map_subpixels_parallel.

Theorem c07_map_subpixels_mut_parallel :
  forall (S : Type) (sched : list Z) (r : raw S) (f : S -> S),
  complete (fun _ a => Some (f a)) sched (rdata r) = true ->
  map_subpixels_mut_parallel sched r f = map_subpixels_mut r f.
Proof. exact @map_subpixels_mut_par. Qed.
Print Assumptions c07_map_subpixels_mut_parallel.

Theorem c07_map_subpixels_mut_agrees :
  forall (S : Type) (r : raw S) (f : S -> S),
  rwf r -> map_subpixels_mut r f = map_subpixels r f.
Proof. exact @map_subpixels_agree. Qed.
Print Assumptions c07_map_subpixels_mut_agrees.

(** however the work is split *)
Theorem c07_map_pixels_parallel :
  forall (S T : Type) (t : splits_tree) c' (r : raw S) (f : list S -> list T),
  map_pixels_parallel t c' r f = map_pixels c' r f.
Proof. intros; unfold map_pixels_parallel, map_pixels. rewrite par_flat_map_seq. reflexivity. Qed.
Print Assumptions c07_map_pixels_parallel.

Theorem c07_map_enumerated_pixels_parallel :
  forall (S T : Type) (t : splits_tree) c' (r : raw S) (f : Z -> Z -> list S -> list T),
  map_enumerated_pixels_parallel t c' r f = map_enumerated_pixels c' r f.
Proof. intros; unfold map_enumerated_pixels_parallel, map_enumerated_pixels. rewrite par_flat_map_seq. reflexivity. Qed.
Print Assumptions c07_map_enumerated_pixels_parallel.

Theorem c07_map_enumerated_pixels_mut_parallel :
  forall (A : Type) (sched : list Z) (im : image A) (f : Z -> Z -> A -> A),
  complete (fun i a => Some (f (i mod iw im) (i / iw im) a)) sched (idata im) = true ->
  map_enumerated_pixels_mut_parallel sched im f = map_enumerated_pixels_mut im f.
Proof.
  intros; unfold map_enumerated_pixels_mut_parallel, map_enumerated_pixels_mut.
  rewrite par_for_each_seq by auto. reflexivity.
Qed.
Print Assumptions c07_map_enumerated_pixels_mut_parallel.

Theorem c07_map_pixels_mut_parallel :
  forall (A : Type) (sched : list Z) (im : image A) (f : A -> A),
  complete (fun i a => Some (f a)) sched (idata im) = true ->
  map_pixels_mut_parallel sched im f = map_pixels_mut im f.
Proof. intros; apply c07_map_enumerated_pixels_mut_parallel; auto. Qed.
Print Assumptions c07_map_pixels_mut_parallel.

(** the maps are pointwise (so the common result is the documented one) *)
Theorem c07_map_enumerated_pixels_pointwise :
  forall (S T : Type) c' (r : raw S) (f : Z -> Z -> list S -> list T),
  rwf r -> 0 < c' -> (forall x y p, zlen p = rc r -> zlen (f x y p) = c') ->
  exists out, map_enumerated_pixels c' r f = Ok out /\ rwf out /\ rw out = rw r /\ rh out = rh r /\ rc out = c' /\
    forall x y, 0 <= x < rw r -> 0 <= y < rh r -> rpixel out x y = f x y (rpixel r x y).
Proof. exact @map_enumerated_pixels_pointwise. Qed.
Print Assumptions c07_map_enumerated_pixels_pointwise.

Theorem c07_map_pixels_pointwise :
  forall (S T : Type) c' (r : raw S) (f : list S -> list T),
  rwf r -> 0 < c' -> (forall p, zlen p = rc r -> zlen (f p) = c') ->
  exists out, map_pixels c' r f = Ok out /\ rwf out /\ rw out = rw r /\ rh out = rh r /\ rc out = c' /\
    forall x y, 0 <= x < rw r -> 0 <= y < rh r -> rpixel out x y = f (rpixel r x y).
Proof. exact @map_pixels_pointwise. Qed.
Print Assumptions c07_map_pixels_pointwise.

Theorem c07_crop_parallel :
  forall (A : Type) (sched : list Z) (zero : A) im rx ry rw rh,
  0 <= rw -> 0 <= rh ->
  complete (fun i _ => get im (rx + i mod rw) (ry + i / rw)) sched (idata (new_image rw rh zero)) = true ->
  crop_parallel sched zero im rx ry rw rh = crop im rx ry rw rh.
Proof. exact @crop_parallel_eq. Qed.
Print Assumptions c07_crop_parallel.

(** row-parallel computations (2D filters, template matching): [f x y] is the
    per-pixel computation, [None] when it panics *)
Theorem c07_rows_parallel :
  forall (A : Type) (sched : list Z) w h (f : Z -> Z -> option A),
  0 <= w -> 0 <= h ->
  collect_complete (fun y => row_task f y (zrange 0 w)) sched h = true ->
  rows_parallel sched w h f = rows_sequential w h f.
Proof. exact @rows_parallel_seq. Qed.
Print Assumptions c07_rows_parallel.

(** the row-parallel warp writes every row exactly as the sequential loop *)
Theorem c07_warp_rows_parallel :
  forall (A : Type) (sched : list Z) w (f : Z -> Z -> A) rows,
  complete (fun y _ => Some (map (fun x => f x y) (zrange 0 w))) sched rows = true ->
  warp_rows_parallel sched w f rows
  = Ok (map (fun y => map (fun x => f x y) (zrange 0 w)) (zrange 0 (zlen rows))).
Proof. exact @warp_rows_parallel_ok. Qed.
Print Assumptions c07_warp_rows_parallel.

(** complete schedules exist for every task set, so the hypotheses are met *)
Theorem c07_complete_schedules_exist :
  forall (A : Type) (f : Z -> A -> option A) (l : list A), exists sched, complete f sched l = true.
Proof. intros A f l. eexists. apply complete_twice. Qed.
Print Assumptions c07_complete_schedules_exist.

Example c07_ex_interleaved :
  let r := mkRaw 2 1 2 [10; 20; 30; 40] in
  let sched := [3; 1; 0; 1; 2; 3; 2; 0] in
  complete (fun _ a => Some (a + 1)) sched (rdata r) = true /\
  map_subpixels_mut_parallel sched r (fun a => a + 1) = Ok (mkRaw 2 1 2 [11; 21; 31; 41]).
Proof. split; reflexivity. Qed.

(** ** C08: false as documented.  Full statement: *)
Definition c08_statement : Prop :=
  forall (S S' T : Type) c' (r1 : raw S) (r2 : raw S') (f : list S -> list S' -> list T),
  rwf r1 -> rwf r2 -> 0 < c' ->
  (forall p q, zlen p = rc r1 -> zlen q = rc r2 -> zlen (f p q) = c') ->
  (rw r1 = rw r2 /\ rh r1 = rh r2 ->
   exists out, map_pixels2 c' r1 r2 f = Ok out /\ rw out = rw r1 /\ rh out = rh r1 /\
     forall x y, 0 <= x < rw r1 -> 0 <= y < rh r1 ->
       rpixel out x y = f (rpixel r1 x y) (rpixel r2 x y)) /\
  (~ (rw r1 = rw r2 /\ rh r1 = rh r2) -> map_pixels2 c' r1 r2 f = Panic).

(** a 1x2 and a 2x1 image do not panic: the result is 1x1 *)
Theorem c08_map_pixels2_refuted : ~ c08_statement.
Proof.
  intros H. specialize (H Z Z Z 1 (mkRaw 1 2 1 [1; 2]) (mkRaw 2 1 1 [3; 4])
    (fun p q => firstn 1 (map (fun x => x + 1) p))).
  destruct H as [_ H]; try (unfold rwf, zlen; simpl; lia).
  - intros p q Hp Hq. destruct p as [|a [|b p]]; unfold zlen in *; simpl in *; lia.
  - assert (X : ~ (rw (mkRaw 1 2 1 [1; 2]) = rw (mkRaw 2 1 1 [3; 4]) /\
                  rh (mkRaw 1 2 1 [1; 2]) = rh (mkRaw 2 1 1 [3; 4]))) by (simpl; lia).
    specialize (H X). vm_compute in H. discriminate.
Qed.
Print Assumptions c08_map_pixels2_refuted.

(** What holds: pointwise on equal dimensions, and the exact panic condition.
    Missing from C08: panicking on every pair of different dimensions. *)
Theorem c08_map_pixels2_partial :
  forall (S S' T : Type) c' (r1 : raw S) (r2 : raw S') (f : list S -> list S' -> list T),
  rwf r1 -> rwf r2 -> 0 < c' ->
  (forall p q, zlen p = rc r1 -> zlen q = rc r2 -> zlen (f p q) = c') ->
  (rw r1 = rw r2 -> rh r1 = rh r2 ->
   exists out, map_pixels2 c' r1 r2 f = Ok out /\ rwf out /\ rw out = rw r1 /\ rh out = rh r1 /\ rc out = c' /\
     forall x y, 0 <= x < rw r1 -> 0 <= y < rh r1 ->
       rpixel out x y = f (rpixel r1 x y) (rpixel r2 x y)) /\
  (map_pixels2 c' r1 r2 f = Panic <->
     Z.min (rw r1 * rh r1) (rw r2 * rh r2) < rw r1 * rh r2).
Proof.
  intros; split; intros.
  - apply map_pixels2_pointwise; auto.
  - apply map_pixels2_panics_iff; auto.
Qed.
Print Assumptions c08_map_pixels2_partial.

Example c08_ex : map_pixels2 1 (mkRaw 2 1 1 [1; 2]) (mkRaw 2 1 1 [10; 20])
    (fun p q => map (fun '(a, b) => a + b) (combine p q)) = Ok (mkRaw 2 1 1 [11; 22]).
Proof. reflexivity. Qed.
