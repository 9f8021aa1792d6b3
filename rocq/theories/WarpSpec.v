(** What warping promises: the value of a point of the plane, in the three
    interpolation modes. *)
From Coq Require Import Reals.
From Flocq Require Import Core BinarySingleNaN.
From Verif Require Import Base Float WarpModel.
Local Open Scope Z_scope.

(** [n] channels with values in 0..hi *)
Definition pixel_ok (hi n : Z) (p : pixel) : Prop := zlen p = n /\ forall v, In v p -> 0 <= v <= hi.
Definition channels_ok (hi n : Z) (im : image pixel) : Prop := wf im /\ all_px (pixel_ok hi n) im.

(** [k] is a nearest integer of x (up to a relative rounding error of 2^-24). *)
Definition nearest_to (x : R) (k : Z) : Prop := (Rabs (IZR k - x) <= / 2 + (Rabs x + 1) / 16777216)%R.
Definition nearest_value (im : image pixel) (x y : R) (default o : pixel) : Prop :=
  exists i j, nearest_to x i /\ nearest_to y j /\
    o = match get im i j with Some p => p | None => default end.

(** The exact bilinear combination of four values. *)
Definition bilinear (a b c d : Z) (u v : R) : R :=
  ((1 - v) * ((1 - u) * IZR a + u * IZR b) + v * ((1 - u) * IZR c + u * IZR d))%R.
(** Bilinear mode: when all four surrounding pixels exist, each channel is their
    bilinear combination, less than 2 + 1/16 below and 1/16 above (values are
    truncated twice); otherwise the default. *)
Definition bilinear_value (im : image pixel) (x y : R) (default o : pixel) : Prop :=
  let l := Zfloor x in
  let t := Zfloor y in
  if (0 <=? l) && (l + 1 <? iw im) && (0 <=? t) && (t + 1 <? ih im) then
    exists p00 p10 p01 p11,
      get im l t = Some p00 /\ get im (l + 1) t = Some p10 /\ get im l (t + 1) = Some p01 /\ get im (l + 1) (t + 1) = Some p11 /\
      zlen o = zlen p00 /\
      forall k a b c d, znth p00 k = Some a -> znth p10 k = Some b -> znth p01 k = Some c -> znth p11 k = Some d ->
        exists v, znth o k = Some v /\
          (bilinear a b c d (x - IZR l) (y - IZR t) - (2 + / 16) <= IZR v <= bilinear a b c d (x - IZR l) (y - IZR t) + / 16)%R
  else o = default.

(** The Catmull-Rom cubic through four values, at offset [u] after the second. *)
Definition catmull (u p0 p1 p2 p3 : R) : R :=
  (p1 * (1 - u * u * (5 - 3 * u) / 2) + p2 * (u * (1 + 4 * u - 3 * (u * u)) / 2)
   - p0 * (u * ((1 - u) * (1 - u)) / 2) - p3 * (u * u * (1 - u) / 2))%R.
Definition rclamp (hi r : R) : R := Rmax 0 (Rmin hi r).
(** [v] is the clamped cubic, truncated, up to rounding. *)
Definition cubic_value (hi : Z) (u : R) (p0 p1 p2 p3 v : Z) : Prop :=
  let e := rclamp (IZR hi) (catmull u (IZR p0) (IZR p1) (IZR p2) (IZR p3)) in
  (e - (1 + IZR hi / 100000) <= IZR v <= e + IZR hi / 100000)%R.
Definition cubic_pixel (hi : Z) (u : R) (p0 p1 p2 p3 o : pixel) : Prop :=
  zlen o = zlen p0 /\
  forall k a b c d, znth p0 k = Some a -> znth p1 k = Some b -> znth p2 k = Some c -> znth p3 k = Some d ->
    exists v, znth o k = Some v /\ 0 <= v <= hi /\ cubic_value hi u a b c d v.
(** Bicubic mode: the window of 4 x 4 pixels from (l, t), rows first, when the
    window and one more row and column exist; otherwise the default. *)
Definition bicubic_value (hi : Z) (im : image pixel) (x y : R) (default o : pixel) : Prop :=
  let l := Zfloor x - 1 in
  let t := Zfloor y - 1 in
  if (0 <=? l) && (l + 4 <? iw im) && (0 <=? t) && (t + 4 <? ih im) then
    exists col : Z -> pixel,
      (forall r, 0 <= r < 4 -> exists q0 q1 q2 q3,
         get im l (t + r) = Some q0 /\ get im (l + 1) (t + r) = Some q1 /\
         get im (l + 2) (t + r) = Some q2 /\ get im (l + 3) (t + r) = Some q3 /\
         cubic_pixel hi (x - IZR (Zfloor x)) q0 q1 q2 q3 (col r)) /\
      cubic_pixel hi (y - IZR (Zfloor y)) (col 0) (col 1) (col 2) (col 3) o
  else o = default.

(** The value of the point (x, y): infinite points have the default value. *)
Definition value_at (hi : Z) (i : interpolation) (im : image pixel) (x y : f32) (default o : pixel) : Prop :=
  if (is_finite x && is_finite y)%bool then
    match i with
    | Nearest => nearest_value im (B2R x) (B2R y) default o
    | Bilinear => bilinear_value im (B2R x) (B2R y) default o
    | Bicubic => bicubic_value hi im (B2R x) (B2R y) default o
    end
  else o = default.

(** The positions at which a mode can produce a value other than the default:
    whole pixels (x, y) of a w x h image. *)
Definition covered (i : interpolation) (w h x y : Z) : bool :=
  match i with
  | Nearest => (0 <=? x) && (x <? w) && (0 <=? y) && (y <? h)
  | Bilinear => (0 <=? x) && (x + 1 <? w) && (0 <=? y) && (y + 1 <? h)
  | Bicubic => (1 <=? x) && (x + 3 <? w) && (1 <=? y) && (y + 3 <? h)
  end.
