(** What line detection and polar lines should do. *)
From Flocq Require Import Core BinarySingleNaN.
From Coq Require Import Reals.
From Verif Require Import Base Float SuppressSpec HoughModel.

(** A table of 180 pairs (sin, cos) good enough for the detection: finite
    floats in [-1, 1] with sin² + cos² at most 1 + 2^-20. *)
Definition trig_pair (sc : f32 * f32) : Prop :=
  is_finite (fst sc) = true /\ is_finite (snd sc) = true /\
  (Rabs (B2R (fst sc)) <= 1 /\ Rabs (B2R (snd sc)) <= 1 /\
   B2R (fst sc) * B2R (fst sc) + B2R (snd sc) * B2R (snd sc) <= 1 + / 1048576)%R.
Definition trig_table (lut : list (f32 * f32)) : Prop :=
  zlen lut = 180 /\ Forall trig_pair lut.

(** The bucket of pixel (x, y) for the angle with sine s and cosine c: the
    signed distance x * c + y * s computed in f32, truncated to an integer. *)
Definition bucket (sc : f32 * f32) (x y : Z) : Z :=
  i32_of_f32 (fadd (fmul (of_int x) (snd sc)) (fmul (of_int y) (fst sc))).

(** The number of foreground pixels of [im]. *)
Definition foreground (im : image Z) (x y : Z) : Z :=
  match get im x y with Some p => if 0 <? p then 1 else 0 | None => 0 end.
Definition foreground_count (im : image Z) : Z :=
  zsum 0 (ih im) (fun y => zsum 0 (iw im) (fun x => foreground im x y)).

(** The number of foreground pixels in bucket [d] of angle [m]. *)
Definition votes (lut : list (f32 * f32)) (im : image Z) (d m : Z) : Z :=
  zsum 0 (ih im) (fun y => zsum 0 (iw im) (fun x =>
    match znth lut m with
    | Some sc => if bucket sc x y =? d then foreground im x y else 0
    | None => 0
    end)).

(** The largest distance: the integer part of the diagonal. *)
Definition diagonal (im : image Z) : Z := Z.sqrt (iw im * iw im + ih im * ih im).

(** (d, m) is a bucket of the accumulator. *)
Definition is_bucket (im : image Z) (d m : Z) : Prop := Z.abs d <= diagonal im /\ 0 <= m < 180.

(** (d, m) has the greatest vote of its block; equal votes are decided in
    favour of the smaller (d, m). *)
Definition top_bucket (lut : list (f32 * f32)) (im : image Z) (rad d m : Z) : Prop :=
  forall d' m', is_bucket im d' m' -> Z.abs (d' - d) <= rad -> Z.abs (m' - m) <= rad ->
    ~ preferred (votes lut im d' m') d' m' (votes lut im d m) d m.

(** Real arithmetic for [intersection_points]. *)
Definition calc_R : calc R := mkCalc R 0%R Rle_bool Ropp Rdiv (fun a b c => (a * b + c)%R).

Section Lines.
  Local Open Scope R_scope.
  (** (x, y) lies in the closed box [0, w] x [0, h] *)
  Definition in_rect (w h : R) (p : R * R) : Prop := 0 <= fst p <= w /\ 0 <= snd p <= h.
  (** (x, y) lies on the line at signed distance r whose normal has the given sine and cosine *)
  Definition on_polar (r sn cs : R) (p : R * R) : Prop := fst p * cs + snd p * sn = r.
  (** z lies on the segment from p to q *)
  Definition on_segment (p q z : R * R) : Prop :=
    exists t, 0 <= t <= 1 /\ fst z = fst p + t * (fst q - fst p) /\ snd z = snd p + t * (snd q - snd p).
  (** the sine and cosine of m degrees, m < 180: exact for 0 and 90, non-zero otherwise *)
  Definition trig_of (m : Z) (sn cs : R) : Prop :=
    (m = 0%Z /\ sn = 0 /\ cs = 1) \/ (m = 90%Z /\ sn = 1 /\ cs = 0) \/
    (m <> 0%Z /\ m <> 90%Z /\ sn <> 0 /\ cs <> 0).
End Lines.

(** The list of the kept buckets, by angle and then by distance. *)
Definition kept_lines (R : Z) (keep : Z -> Z -> bool) : list polar_line :=
  flat_map (fun m => map (fun d => (of_int d, m)) (filter (fun d => keep d m) (zrange (- R) (R + 1))))
    (zrange 0 180).
