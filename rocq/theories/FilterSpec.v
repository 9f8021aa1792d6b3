(** Correlation with border replication, stated independently of the loops. *)
From Verif Require Import Base.

(** source coordinate for an image side of length [len] *)
Definition border (len i : Z) : Z := zclamp 0 (len - 1) i.

(** channel c of the pixel at (x, y), coordinates clamped into the image;
    [d] is only used on an empty image *)
Definition rep_chan {S} (d : S) (im : image (list S)) (c x y : Z) : S :=
  match get im (border (iw im) x) (border (ih im) y) with
  | Some p => match znth p c with Some v => v | None => d end
  | None => d
  end.

(** 0 + into (src 0) * w_0 + into (src 1) * w_1 + ..., from the left *)
Definition weighted_sum {S K} (zero : K) (add mul : K -> K -> K) (into : S -> K) (ws : list K) (src : Z -> S) : K :=
  fold_left (fun acc '(i, w) => add acc (mul (into (src i)) w)) (combine (zrange 0 (zlen ws)) ws) zero.

(** every pixel has [ch] channels *)
Definition channels {S} (ch : Z) (im : image (list S)) : Prop :=
  wf im /\ forall x y p, get im x y = Some p -> zlen p = ch.

(** [out] is w x h with [ch] channels, and channel c of pixel (x, y) is [v c x y] *)
Definition image_of {T} (ch w h : Z) (out : image (list T)) (v : Z -> Z -> Z -> T) : Prop :=
  iw out = w /\ ih out = h /\ channels ch out /\
  forall x y, 0 <= x < w -> 0 <= y < h -> exists p, get out x y = Some p /\
    forall c, 0 <= c < ch -> znth p c = Some (v c x y).

(** sum over the kernel of img(x + i - kw/2, y + j - kh/2) * k(i, j) *)
Definition correlation_Z (im : image (list Z)) (k : Z -> Z -> Z) (kw kh c x y : Z) : Z :=
  zsum 0 kh (fun j => zsum 0 kw (fun i => rep_chan 0 im c (x + i - kw / 2) (y + j - kh / 2) * k i j)).

(** mean over the horizontal window, then over the vertical window of those
    means, each rounded down *)
Definition gray_rep (im : image Z) (x y : Z) : Z :=
  match get im (border (iw im) x) (border (ih im) y) with Some v => v | None => 0 end.
Definition row_mean (im : image Z) (rx x y : Z) : Z :=
  zsum (x - rx) (x + rx + 1) (fun i => gray_rep im i y) / (2 * rx + 1).
Definition box_mean (im : image Z) (rx ry x y : Z) : Z :=
  zsum (y - ry) (y + ry + 1) (fun j => row_mean im rx x j) / (2 * ry + 1).
