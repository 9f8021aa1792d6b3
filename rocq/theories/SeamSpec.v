(** Vertical seams, stated independently of the carving code.  A seam is a list
    of columns, bottom row first. *)
From Verif Require Import Base FilterSpec GradientSpec.

(** column of seam s in row y of an image of height h *)
Definition seam_at (s : list Z) (h y : Z) : Z :=
  match znth s (h - 1 - y) with Some x => x | None => 0 end.

(** one column per row, inside the image, 8-connected *)
Definition valid_seam (w h : Z) (s : list Z) : Prop :=
  zlen s = h /\
  (forall y, 0 <= y < h -> 0 <= seam_at s h y < w) /\
  (forall y, 0 <= y -> y + 1 < h -> Z.abs (seam_at s h (y + 1) - seam_at s h y) <= 1).

(** mean over the channels (rounded down) of the Sobel gradient magnitudes *)
Definition pixel_energy (ch : Z) (im : image (list Z)) (x y : Z) : Z :=
  zsum 0 ch (fun c => Z.sqrt (deriv_x 1 2 im c x y ^ 2 + deriv_y 1 2 im c x y ^ 2)) / ch.

Definition seam_energy (ch : Z) (im : image (list Z)) (s : list Z) : Z :=
  zsum 0 (ih im) (fun y => pixel_energy ch im (seam_at s (ih im) y) y).

Definition minimal_seam (ch : Z) (im : image (list Z)) (s : list Z) : Prop :=
  valid_seam (iw im) (ih im) s /\
  forall t, valid_seam (iw im) (ih im) t -> seam_energy ch im s <= seam_energy ch im t.

(** [out] is [im] with the pixel in column [c y] deleted from every row y *)
Definition row_deletion {A} (im out : image A) (c : Z -> Z) : Prop :=
  wf out /\ iw out = iw im - 1 /\ ih out = ih im /\
  forall x y, 0 <= x < iw im - 1 -> 0 <= y < ih im ->
    get out x y = get im (if x <? c y then x else x + 1) y.

(** every row of [out] is a subsequence of the same row of [im] *)
Definition rows_subsequence {A} (im out : image A) : Prop :=
  ih out = ih im /\
  forall y, 0 <= y < ih im -> exists g : Z -> Z,
    (forall x, 0 <= x < iw out -> 0 <= g x < iw im /\ get out x y = get im (g x) y) /\
    (forall x x', 0 <= x < x' -> x' < iw out -> g x < g x').

(** Original columns of the pixels deleted one after another from one row:
    [left] are the original columns still present, [cols] the columns deleted,
    each counted in the row as it is at that time. *)
Fixpoint removed_columns (left : list Z) (cols : list Z) : list Z :=
  match cols with
  | [] => []
  | c :: cs => match znth left c with
               | Some o => o :: removed_columns (firstn (Z.to_nat c) left ++ skipn (Z.to_nat c + 1) left) cs
               | None => []
               end
  end.
(** the same for row y of an image of width w and a sequence of seams *)
Definition removed_in_row (w h : Z) (seams : list (list Z)) (y : Z) : list Z :=
  removed_columns (zrange 0 w) (map (fun s => seam_at s h y) seams).
