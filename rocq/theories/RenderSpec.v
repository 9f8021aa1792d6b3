(** What a rendered histogram should look like. *)
From Flocq Require Import BinarySingleNaN.
From Coq Require Import Reals.
From Verif Require Import Base Float LineModel ClampModel HogCellsModel.
Open Scope Z_scope.

(** All that most theorems ask of sine and cosine: finite values of at most 2. *)
Definition bounded_trig (f : f32 -> f32) : Prop :=
  forall x : f32, is_finite x = true -> is_finite (f x) = true /\ (Rabs (B2R (f x)) <= 2)%R.

(** (x, y) is a pixel of the line from a to b (BresenhamLineIter, see C31) *)
Definition on_line (a b : f32 * f32) (x y : Z) : bool :=
  match bres_points a b with
  | Ok pts => existsb (fun p => (fst p =? x) && (snd p =? y)) pts
  | _ => false
  end.

Section Star.
  Context (sin cos : f32 -> f32).

  (** The pixels of the ray of a w x h picture in direction theta, measured
      clockwise from the downward vertical: the line from the middle to the
      point half the longer side away. *)
  Definition middle (w h : Z) : f32 * f32 := (of_int (w / 2), of_int (h / 2)).
  Definition ray_end (w h : Z) (theta : f32) : f32 * f32 :=
    let r := fdiv (of_int (Z.max w h)) (of_int 2) in
    (fadd (of_int (w / 2)) (fmul (fneg r) (sin theta)), fadd (of_int (h / 2)) (fmul r (cos theta))).
  Definition on_ray (w h : Z) (theta : f32) (x y : Z) : bool := on_line (middle w h) (ray_end w h theta) x y.

  (** direction of bucket b of n: the buckets divide the whole turn, or half a
      turn if directions have no sign *)
  Definition bucket_direction (signed : bool) (n b : Z) : f32 :=
    fdiv (fmul (if signed then fmul (of_int 2) pi32 else pi32) (of_int b)) (of_int n).

  (** the pixel belongs to the ray of bucket b, or without sign to the ray
      opposite to it *)
  Definition on_bucket (w h : Z) (signed : bool) (n b x y : Z) : bool :=
    on_ray w h (bucket_direction signed n b) x y ||
    negb signed && on_ray w h (fadd (bucket_direction signed n b) pi32) x y.

  (** value of the pixel (x, y) of a star: the strength of the last bucket whose
      rays go through it, cut to 0..255; black if there is none *)
  Definition star_value (w h : Z) (signed : bool) (hist : list f32) (x y v : Z) : Prop :=
    (exists b s, 0 <= b < zlen hist /\ znth hist b = Some s /\ v = clamp_f32_u8 s /\
       on_bucket w h signed (zlen hist) b x y = true /\
       forall b', b < b' < zlen hist -> on_bucket w h signed (zlen hist) b' x y = false) \/
    (forall b, 0 <= b < zlen hist -> on_bucket w h signed (zlen hist) b x y = false) /\ v = 0.
End Star.

(** the histogram of the cell in column x, row y of a grid of l0 buckets and
    l1 columns stored cell by cell, row by row *)
Definition cell_hist (data : list f32) (l0 l1 x y : Z) : list f32 :=
  firstn (Z.to_nat l0) (skipn (Z.to_nat ((y * l1 + x) * l0)) data).
