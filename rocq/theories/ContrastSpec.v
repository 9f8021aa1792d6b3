From Verif Require Import Base IntegralSpec ContrastModel.

(** the window of radius r around (x, y), clipped to the image: its size and sum *)
Definition lo_ (c r : Z) := Z.max 0 (c - r).
Definition hi_ (n c r : Z) := Z.min (n - 1) (c + r).
Definition window_area (im : image Z) (r x y : Z) : Z :=
  (hi_ (iw im) x r - lo_ x r + 1) * (hi_ (ih im) y r - lo_ y r + 1).
Definition window_total (im : image Z) (r x y : Z) : Z :=
  rect_sum (px im) (lo_ x r) (hi_ (iw im) x r + 1) (lo_ y r) (hi_ (ih im) y r + 1).

(** C15 *)
Definition adaptive_spec (im : image Z) (r delta x y : Z) : Z :=
  if px im x y >=? window_total im r x y / window_area im r x y - delta then 255 else 0.

(** the table documented on ThresholdType, src/contrast.rs:174-185 *)
Definition documented_threshold (t : Z) (k : threshold_type) (src : Z) : Z :=
  match k with
  | Binary => if src >? t then 255 else 0
  | BinaryInverted => if src >? t then 0 else 255
  | Truncate => if src >? t then t else src
  | ToZero => if src >? t then src else 0
  | ToZeroInverted => if src >? t then 0 else src
  end.

(** the clamped affine map *)
Definition stretched (imin imax omin omax v : Z) : Z :=
  if v <=? imin then omin else if v >=? imax then omax
  else omin + (v - imin) * (omax - omin) / (imax - imin).
