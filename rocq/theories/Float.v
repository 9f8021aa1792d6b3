(** IEEE 754 arithmetic as Rust's [f32] and [f64] perform it, taken from Flocq
    (BinarySingleNaN: one NaN, signed zeros, infinities, rounding to nearest,
    ties to even).  Nothing here models a function of imageproc; this file only
    names the primitive operations the models use. *)
From Flocq Require Import Core BinarySingleNaN.
From Verif Require Import Base.

Section Float.
  Context (prec emax : Z) {Hp : Prec_gt_0 prec} {Hm : Prec_lt_emax prec emax}.
  Notation F := (binary_float prec emax).

  Definition fadd (x y : F) : F := Bplus mode_NE x y.
  Definition fsub (x y : F) : F := Bminus mode_NE x y.
  Definition fmul (x y : F) : F := Bmult mode_NE x y.
  Definition fdiv (x y : F) : F := Bdiv mode_NE x y.
  Definition fsqrt (x : F) : F := Bsqrt mode_NE x.
  Definition fneg (x : F) : F := Bopp x.
  Definition fabs (x : F) : F := Babs x.
  (** [<], [<=], [==]: all false when an operand is NaN. *)
  Definition flt (x y : F) : bool := Bltb x y.
  Definition fle (x y : F) : bool := Bleb x y.
  Definition feq (x y : F) : bool := Beqb x y.
  Definition fis_nan (x : F) : bool := is_nan x.
  (** [n as f32] for any integer type (rounded to nearest, ties to even), and
      the decimal literal m * 2^e. *)
  Definition of_int (z : Z) : F := binary_normalize prec emax _ _ mode_NE z 0 false.
  Definition of_dyadic (m e : Z) : F := binary_normalize prec emax _ _ mode_NE m e false.
  (** [x as iN]/[x as uN]: truncate, saturate at the bounds of the type, NaN to 0. *)
  Definition to_int (lo hi : Z) (x : F) : Z :=
    match x with
    | B754_nan => 0
    | B754_infinity s => if s then lo else hi
    | _ => zclamp lo hi (Btrunc x)
    end.
  (** [f32::round] (half away from zero), [floor], [trunc], [fract]. *)
  Definition fround (x : F) : F := Bnearbyint mode_NA x.
  Definition ffloor (x : F) : F := Bnearbyint mode_DN x.
  Definition fceil (x : F) : F := Bnearbyint mode_UP x.
  Definition ftrunc (x : F) : F := Bnearbyint mode_ZR x.
  Definition ffract (x : F) : F := fsub x (ftrunc x).
  (** [f32::min]/[f32::max]: the other operand when one is NaN. *)
  Definition fmin (x y : F) : F :=
    if fis_nan x then y else if fis_nan y then x else if flt y x then y else x.
  Definition fmax (x y : F) : F :=
    if fis_nan x then y else if fis_nan y then x else if flt x y then y else x.
  (** [f32::clamp lo hi] (NaN stays NaN). *)
  Definition fclamp (x lo hi : F) : F :=
    if flt x lo then lo else if flt hi x then hi else x.
End Float.

#[global] Instance prec32 : Prec_gt_0 24 := eq_refl.
#[global] Instance emax32 : Prec_lt_emax 24 128 := eq_refl.
#[global] Instance prec64 : Prec_gt_0 53 := eq_refl.
#[global] Instance emax64 : Prec_lt_emax 53 1024 := eq_refl.

Notation f32 := (binary_float 24 128).
Notation f64 := (binary_float 53 1024).
Arguments fadd {prec emax Hp Hm}.
Arguments fsub {prec emax Hp Hm}.
Arguments fmul {prec emax Hp Hm}.
Arguments fdiv {prec emax Hp Hm}.
Arguments fsqrt {prec emax Hp Hm}.
Arguments fneg {prec emax}.
Arguments fabs {prec emax}.
Arguments flt {prec emax}.
Arguments fle {prec emax}.
Arguments feq {prec emax}.
Arguments fis_nan {prec emax}.
Arguments of_int {prec emax Hp Hm}.
Arguments of_dyadic {prec emax Hp Hm}.
Arguments to_int {prec emax}.
Arguments fround {prec emax Hm}.
Arguments ffloor {prec emax Hm}.
Arguments fceil {prec emax Hm}.
Arguments ftrunc {prec emax Hm}.
Arguments ffract {prec emax Hp Hm}.
Arguments fmin {prec emax}.
Arguments fmax {prec emax}.
Arguments fclamp {prec emax}.

Definition i32_of_f32 (x : f32) : Z := to_int (- 2 ^ 31) (2 ^ 31 - 1) x.
Definition u8_of_f32 (x : f32) : Z := to_int 0 255 x.
