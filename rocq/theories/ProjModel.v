(** Model of [Projection] (src/geometric_transformations.rs 9-273 and 661-736).
    The arithmetic is a parameter [num], so that the same definitions can be read
    with f32 operations ([num_f32], what the program does) and with real numbers
    (what the algebra promises). *)
From Verif Require Import Base Float.

Record num (T : Type) := mkNum {
  nadd : T -> T -> T; nsub : T -> T -> T; nmul : T -> T -> T; ndiv : T -> T -> T;
  nneg : T -> T; nabs : T -> T; nlt : T -> T -> bool;
  n0 : T; n1 : T; ntiny : T  (** the literal 1e-10 *) }.
Arguments nadd {T}. Arguments nsub {T}. Arguments nmul {T}. Arguments ndiv {T}. Arguments nneg {T}.
Arguments nabs {T}. Arguments nlt {T}. Arguments n0 {T}. Arguments n1 {T}. Arguments ntiny {T}.

(** f32; the literal 1e-10 is 14411519 * 2^-57 *)
Definition num_f32 : num f32 :=
  mkNum f32 fadd fsub fmul fdiv fneg fabs flt (of_int 0) (of_int 1) (of_dyadic 14411519 (-57)).

(** a row-major [[f32; 9]] *)
Record mat (T : Type) := mkMat { t00 : T; t01 : T; t02 : T; t10 : T; t11 : T; t12 : T; t20 : T; t21 : T; t22 : T }.
Arguments mkMat {T}.
Arguments t00 {T}. Arguments t01 {T}. Arguments t02 {T}. Arguments t10 {T}. Arguments t11 {T}.
Arguments t12 {T}. Arguments t20 {T}. Arguments t21 {T}. Arguments t22 {T}.

(** 9-14 TransformationClass *)
Inductive class := Translation | Affine | Projective.
(** 34-39 Projection *)
Record projection (T : Type) := mkProj { transform : mat T; inverse : mat T; pclass : class }.
Arguments mkProj {T}. Arguments transform {T}. Arguments inverse {T}. Arguments pclass {T}.

Section Projection.
  Context {T : Type} (N : num T).
  Notation "a + b" := (nadd N a b).
  Notation "a - b" := (nsub N a b).
  Notation "a * b" := (nmul N a b).
  Notation "a / b" := (ndiv N a b).
  Notation zero := (n0 N).
  Notation one := (n1 N).

  (** 662-675 class_from_matrix *)
  Definition class_from_matrix (m : mat T) : class :=
    let near a b := nlt N (nabs N (a - b)) (ntiny N) in
    if near (t20 m) zero && near (t21 m) zero && near (t22 m) one then
      if near (t00 m) one && near (t01 m) zero && near (t10 m) zero && near (t11 m) one
      then Translation else Affine
    else Projective.

  (** 677-689 normalize *)
  Definition normalize (m : mat T) : mat T :=
    mkMat (t00 m / t22 m) (t01 m / t22 m) (t02 m / t22 m)
          (t10 m / t22 m) (t11 m / t22 m) (t12 m / t22 m)
          (t20 m / t22 m) (t21 m / t22 m) one.

  (** 692-720 try_inverse *)
  Definition try_inverse (m : mat T) : option (mat T) :=
    let '(mkMat a00 a01 a02 a10 a11 a12 a20 a21 a22) := m in
    let m00 := a11 * a22 - a12 * a21 in
    let m01 := a10 * a22 - a12 * a20 in
    let m02 := a10 * a21 - a11 * a20 in
    let det := a00 * m00 - a01 * m01 + a02 * m02 in
    if nlt N (nabs N det) (ntiny N) then None
    else
      let m10 := a01 * a22 - a02 * a21 in
      let m11 := a00 * a22 - a02 * a20 in
      let m12 := a00 * a21 - a01 * a20 in
      let m20 := a01 * a12 - a02 * a11 in
      let m21 := a00 * a12 - a02 * a10 in
      let m22 := a00 * a11 - a01 * a10 in
      Some (normalize
        (mkMat (m00 / det) (nneg N m10 / det) (m20 / det)
               (nneg N m01 / det) (m11 / det) (nneg N m21 / det)
               (m02 / det) (nneg N m12 / det) (m22 / det))).

  (** 45-53 from_matrix *)
  Definition from_matrix (m : mat T) : option (projection T) :=
    let m := normalize m in
    match try_inverse m with
    | Some i => Some (mkProj m i (class_from_matrix m))
    | None => None
    end.

  (** 63-77 translate *)
  Definition translate (tx ty : T) : projection T :=
    mkProj (mkMat one zero tx zero one ty zero zero one)
           (mkMat one zero (nneg N tx) zero one (nneg N ty) zero zero one) Translation.
  (** 81-96 rotate; [s] and [c] are the results of [theta.sin_cos()] *)
  Definition rotate (s c : T) : projection T :=
    mkProj (mkMat c (nneg N s) zero s c zero zero zero one)
           (mkMat c s zero (nneg N s) c zero zero zero one) Affine.
  (** 103-117 scale *)
  Definition scale (sx sy : T) : projection T :=
    mkProj (mkMat sx zero zero zero sy zero zero zero one)
           (mkMat (one / sx) zero zero zero (one / sy) zero zero zero one) Affine.
  (** 120-126 invert *)
  Definition invert (p : projection T) : projection T := mkProj (inverse p) (transform p) (pclass p).

  (** 722-736 mul3x3 *)
  Definition mul3x3 (a b : mat T) : mat T :=
    mkMat
      (t00 a * t00 b + t01 a * t10 b + t02 a * t20 b)
      (t00 a * t01 b + t01 a * t11 b + t02 a * t21 b)
      (t00 a * t02 b + t01 a * t12 b + t02 a * t22 b)
      (t10 a * t00 b + t11 a * t10 b + t12 a * t20 b)
      (t10 a * t01 b + t11 a * t11 b + t12 a * t21 b)
      (t10 a * t02 b + t11 a * t12 b + t12 a * t22 b)
      (t20 a * t00 b + t21 a * t10 b + t22 a * t20 b)
      (t20 a * t01 b + t21 a * t11 b + t22 a * t21 b)
      (t20 a * t02 b + t21 a * t12 b + t22 a * t22 b).
  (** 220-243 Mul<Projection> *)
  Definition compose (p q : projection T) : projection T :=
    mkProj (mul3x3 (transform p) (transform q)) (mul3x3 (inverse q) (inverse p))
      (match pclass p, pclass q with
       | Translation, Translation => Translation
       | Translation, Affine => Affine
       | Affine, Translation => Affine
       | Affine, Affine => Affine
       | _, _ => Projective
       end).
  (** 57-59 and_then *)
  Definition and_then (p q : projection T) : projection T := compose q p.

  (** 194-217 map_projective, map_affine, map_translation *)
  Definition map_projective (p : projection T) (x y : T) : T * T :=
    let t := transform p in
    let d := t20 t * x + t21 t * y + t22 t in
    ((t00 t * x + t01 t * y + t02 t) / d, (t10 t * x + t11 t * y + t12 t) / d).
  Definition map_affine (p : projection T) (x y : T) : T * T :=
    let t := transform p in
    (t00 t * x + t01 t * y + t02 t, t10 t * x + t11 t * y + t12 t).
  Definition map_translation (p : projection T) (x y : T) : T * T :=
    let t := transform p in (x + t02 t, y + t12 t).
  (** 253-264 Mul<(f32, f32)> *)
  Definition apply (p : projection T) (x y : T) : T * T :=
    match pclass p with
    | Translation => map_translation p x y
    | Affine => map_affine p x y
    | Projective => map_projective p x y
    end.

  (** 129-191 from_control_points: the rows and right-hand sides of the linear
      system; [solve] stands for nalgebra's SVD solver, applied to them in row
      order.  The program computes the system in f64 and rounds the solution to
      f32; here both use the same arithmetic. *)
  Definition control_rows (from to : T * T) : list (list T * T) :=
    let '(xf, yf) := from in
    let '(x, y) := to in
    [ ([zero; zero; zero; nneg N xf; nneg N yf; nneg N one; y * xf; y * yf], nneg N y);
      ([xf; yf; one; zero; zero; zero; nneg N x * xf; nneg N x * yf], x) ].
  Definition from_control_points (solve : list (list T) -> list T -> option (list T))
      (from to : list (T * T)) : option (projection T) :=
    let rows := flat_map (fun '(f, t) => control_rows f t) (combine from to) in
    match solve (map fst rows) (map snd rows) with
    | Some [h0; h1; h2; h3; h4; h5; h6; h7] =>
      let m := normalize (mkMat h0 h1 h2 h3 h4 h5 h6 h7 one) in
      match try_inverse m with
      | Some i => Some (mkProj m i (class_from_matrix m))
      | None => None
      end
    | _ => None
    end.
End Projection.
