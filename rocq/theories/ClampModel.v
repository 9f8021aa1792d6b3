(** Model of the Clamp trait, src/definitions.rs. *)
From Verif Require Import Base Float.

(** [x as uN] and [x as iN] between integer types: wrap around *)
Definition as_u (n x : Z) : Z := x mod 2 ^ n.
Definition as_i (n x : Z) : Z := (x + 2 ^ (n - 1)) mod 2 ^ n - 2 ^ (n - 1).

(** definitions.rs 89-105 implement_clamp!: [cast] is [x as $to]; [min], [max]
    are both the bounds of the target and, cast to it, of the source type *)
Definition clamp_with (cast : Z -> Z) (min max x : Z) : Z :=
  if x <? max then if min <? x then cast x else min else max.
Definition clamp_float {prec emax} {Hp : Flocq.Core.FLX.Prec_gt_0 prec} {Hm : Flocq.IEEE754.BinarySingleNaN.Prec_lt_emax prec emax}
    (min max : Z) (x : Flocq.IEEE754.BinarySingleNaN.binary_float prec emax) : Z :=
  if flt x (of_int max) then if flt (of_int min) x then to_int min max x else min else max.

(** definitions.rs 118-123: to u8 from i16, u16, i32, u32, f32, f64 *)
Definition clamp_i16_u8 : Z -> Z := clamp_with (as_u 8) 0 255.
Definition clamp_u16_u8 : Z -> Z := clamp_with (as_u 8) 0 255.
Definition clamp_i32_u8 : Z -> Z := clamp_with (as_u 8) 0 255.
Definition clamp_u32_u8 : Z -> Z := clamp_with (as_u 8) 0 255.
Definition clamp_f32_u8 (x : f32) : Z := clamp_float 0 255 x.
Definition clamp_f64_u8 (x : f64) : Z := clamp_float 0 255 x.
(** definitions.rs 125-148: to u16 from i32, f32, f64 *)
Definition clamp_i32_u16 : Z -> Z := clamp_with (as_u 16) 0 65535.
Definition clamp_f32_u16 (x : f32) : Z := clamp_float 0 65535 x.
Definition clamp_f64_u16 (x : f64) : Z := clamp_float 0 65535 x.
(** definitions.rs 150-157: to i16 from i32 *)
Definition clamp_i32_i16 : Z -> Z := clamp_with (as_i 16) (-32768) 32767.
(** definitions.rs 108-116, 159: from a type to itself *)
Definition clamp_same {T} (x : T) : T := x.
