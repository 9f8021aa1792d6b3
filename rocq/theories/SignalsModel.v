(** Model of src/image_hash/signals.rs.  The one-dimensional DCT is a function
    of the external crate rustdct: it is the parameter [dct n], which maps the n
    values of a row to n values. *)
From Verif Require Import Base.

(** src/image_hash/signals.rs:72-95 transpose_inplace; [at_] with its
    debug_asserts is lines 79-83 *)
Definition at_ (n row col : Z) : res Z :=
  assert (row <? n) ;;; assert (col <? n) ;;; Ok (row + n * col).
Definition transpose_inplace {F} (im : image F) : res (image F) :=
  assert (iw im =? ih im) ;;;
  let n := iw im in
  assert (zlen (idata im) =? n * n) ;;;
  buf <- for_range 0 n (fun row buf =>
    for_range row n (fun col buf =>
      rc <- at_ n row col ;;
      cr <- at_ n col row ;;
      a <- vget buf rc ;;
      b <- vget buf cr ;;
      buf <- vset buf rc b ;;
      vset buf cr a) buf) (idata im) ;;
  Ok (mkImage (iw im) (ih im) buf).

(** src/image_hash/signals.rs:97-101 transpose *)
Definition transpose {F} (im : image F) : res (image F) :=
  gen_res (ih im) (iw im) (fun x y => get_pixel im y x).

(** the y-th row of the buffer ([Image::rows]) *)
Definition row_of {F} (im : image F) (y : Z) : list F :=
  firstn (Z.to_nat (iw im)) (skipn (Z.to_nat (y * iw im)) (idata im)).

(** src/image_hash/signals.rs:38-70 dct1d: [n] is [ctx.len()]; the arena and
    its scratch space are not modelled *)
Definition dct1d {F} (dct : Z -> list F -> list F) (n : Z) (im : image F) : res (image F) :=
  assert (iw im =? n) ;;;
  buf <- for_range 0 (ih im) (fun y buf =>
    let row := row_of im y in
    assert (zlen row =? n) ;;;
    Ok (buf ++ dct n row)) [] ;;
  assert (zlen buf =? iw im * ih im) ;;;
  Ok (mkImage (iw im) (ih im) buf).

(** src/image_hash/signals.rs:8-32 dct2d; [T] is lines 10-18 *)
Definition T_ {F} (im : image F) : res (image F) :=
  if iw im =? ih im then transpose_inplace im else transpose im.
Definition dct2d {F} (dct : Z -> list F -> list F) (im : image F) : res (image F) :=
  t <- T_ im ;;
  d <- dct1d dct (ih im) t ;;
  t <- T_ d ;;
  dct1d dct (iw im) t.
