(** src/image_hash/phash.rs.  [resize] is [image::imageops::resize] to the given
    width and height with the Lanczos3 filter and [dct n] the one-dimensional
    transform of the crate rustdct; both are external and therefore parameters. *)
From Verif Require Import Base Float SignalsModel ComposeModel BriefModel.
Open Scope Z_scope.

(** phash.rs:56-81 phash.  [reduce] adds the 64 samples of the buffer from left to
    right; [x > mean] is [flt mean x]. *)
Definition phash (resize : image f32 -> Z -> Z -> res (image f32)) (dct : Z -> list f32 -> list f32) (im : image f32) : res Z :=
  small <- resize im (4 * 8) (4 * 8) ;;
  d <- dct2d dct small ;;
  t <- crop d 1 1 8 8 ;;
  assert ((iw t =? 8) && (ih t =? 8)) ;;;
  assert (zlen (idata t) =? 8 * 8) ;;;
  sum <- unwrap (match idata t with [] => None | a :: l => Some (fold_left fadd l a) end) ;;
  let mean := fdiv sum (of_int (zlen (idata t))) in
  bits64_new (map (fun x => flt mean x) (idata t)).

(** phash.rs:30-32 PHash::hamming_distance *)
Definition phash_distance (a b : Z) : Z := hash_distance a b.
