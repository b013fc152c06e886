(** IEEE 754 single and double precision, from Flocq's BinarySingleNaN: round to
    nearest even, one NaN (sign and payload of NaNs are not modelled). Also the
    Rust casts between floats and integers, and the functions of the C library
    that the crate calls, which the model takes as an argument. *)
From Coq Require Import ZArith NArith List Bool.
From Flocq Require Import IEEE754.BinarySingleNaN.
From Flocq Require IEEE754.Binary IEEE754.Bits.
From Flocq Require Import Core.Zaux Core.FLX.
From Verif Require Import Base.
Import ListNotations.

Definition f32 := binary_float 24 128.
Definition f64 := binary_float 53 1024.

Definition gt0_24 : Prec_gt_0 24 := eq_refl.
Definition lt_24_128 : Prec_lt_emax 24 128 := eq_refl.
Definition gt0_53 : Prec_gt_0 53 := eq_refl.
Definition lt_53_1024 : Prec_lt_emax 53 1024 := eq_refl.

(** Arithmetic on f32. *)
Definition fadd (x y : f32) : f32 := @Bplus 24 128 gt0_24 lt_24_128 mode_NE x y.
Definition fsub (x y : f32) : f32 := @Bminus 24 128 gt0_24 lt_24_128 mode_NE x y.
Definition fmul (x y : f32) : f32 := @Bmult 24 128 gt0_24 lt_24_128 mode_NE x y.
Definition fdiv (x y : f32) : f32 := @Bdiv 24 128 gt0_24 lt_24_128 mode_NE x y.
Definition fsqrt (x : f32) : f32 := @Bsqrt 24 128 gt0_24 lt_24_128 mode_NE x.
Definition fneg (x : f32) : f32 := Bopp x.
Definition fabs (x : f32) : f32 := Babs x.
(** f32::ceil *)
Definition fceil (x : f32) : f32 := @Bnearbyint 24 128 lt_24_128 mode_UP x.
(** [<], [<=], [==] (false on NaN). *)
Definition flt (x y : f32) : bool := Bltb x y.
Definition fle (x y : f32) : bool := Bleb x y.
Definition feq (x y : f32) : bool := Beqb x y.
(** f32::min and f32::max: a NaN operand is ignored. For operands that compare
    equal (two zeros) Rust may return either; the model returns the first. *)
Definition fmin (x y : f32) : f32 :=
  if is_nan x then y else if is_nan y then x else if flt y x then y else x.
Definition fmax (x y : f32) : f32 :=
  if is_nan x then y else if is_nan y then x else if flt x y then y else x.

(** Arithmetic on f64. *)
Definition dadd (x y : f64) : f64 := @Bplus 53 1024 gt0_53 lt_53_1024 mode_NE x y.
Definition dsub (x y : f64) : f64 := @Bminus 53 1024 gt0_53 lt_53_1024 mode_NE x y.
Definition dmul (x y : f64) : f64 := @Bmult 53 1024 gt0_53 lt_53_1024 mode_NE x y.
Definition ddiv (x y : f64) : f64 := @Bdiv 53 1024 gt0_53 lt_53_1024 mode_NE x y.

(** [as f32] / [as f64] from an integer. *)
Definition f32_of_Z (z : Z) : f32 := @binary_normalize 24 128 gt0_24 lt_24_128 mode_NE z 0 false.
Definition f64_of_Z (z : Z) : f64 := @binary_normalize 53 1024 gt0_53 lt_53_1024 mode_NE z 0 false.
Definition f32_of_N (n : N) : f32 := f32_of_Z (Z.of_N n).
Definition f64_of_N (n : N) : f64 := f64_of_Z (Z.of_N n).

(** [as f64] from f32 and back. *)
Definition f64_of_f32 (x : f32) : f64 :=
  match x with
  | B754_zero s => B754_zero s
  | B754_infinity s => B754_infinity s
  | B754_nan => B754_nan
  | B754_finite s m e _ =>
    @binary_normalize 53 1024 gt0_53 lt_53_1024 mode_NE (cond_Zopp s (Zpos m)) e s
  end.
Definition f32_of_f64 (x : f64) : f32 :=
  match x with
  | B754_zero s => B754_zero s
  | B754_infinity s => B754_infinity s
  | B754_nan => B754_nan
  | B754_finite s m e _ =>
    @binary_normalize 24 128 gt0_24 lt_24_128 mode_NE (cond_Zopp s (Zpos m)) e s
  end.

(** [as u8], [as u64] from f32: truncation, saturating, 0 for NaN. [mx] is the
    largest value of the integer type. *)
Definition sat_cast (mx : N) (x : f32) : N :=
  match x with
  | B754_nan => 0%N
  | B754_infinity s => if s then 0%N else mx
  | _ => N.min mx (Z.to_N (Btrunc x))
  end.
Definition u64_of_f32 (x : f32) : N := sat_cast (two64 - 1) x.
Definition u8_of_f32 (x : f32) : nat := N.to_nat (sat_cast 255 x).

(** f64::to_le_bytes / from_le_bytes as 64-bit patterns. *)
Definition bits_of_f64 (x : f64) : N :=
  Z.to_N (Bits.bits_of_b64 (Binary.BSN2B 53 1024 Bits.default_nan_pl64 x)).
Definition f64_of_bits (n : N) : f64 :=
  Binary.B2BSN 53 1024 (Bits.b64_of_bits (Z.of_N n)).

(** Decimal literals: quotient of two exactly representable integers, rounded once. *)
Definition flit (num den : Z) : f32 := fdiv (f32_of_Z num) (f32_of_Z den).
Definition dlit (num den : Z) : f64 := ddiv (f64_of_Z num) (f64_of_Z den).
Definition f0 : f32 := B754_zero false.
Definition f1 : f32 := f32_of_Z 1.
(** f32::INFINITY, f32::MAX, f32::MIN *)
Definition f32_inf : f32 := B754_infinity false.
Definition f32_MAX : f32 :=
  @binary_normalize 24 128 gt0_24 lt_24_128 mode_NE (2 ^ 24 - 1) 104 false.
Definition f32_MIN : f32 := fneg f32_MAX.

(** std::f64::consts::PI as f32, i.e. 0x40490FDB (src/normals.rs L125). *)
Definition f32_PI : f32 :=
  @binary_normalize 24 128 gt0_24 lt_24_128 mode_NE 13176795 (-22) false.
(** std::f32::consts::FRAC_PI_2, i.e. 0x3FC90FDB. *)
Definition f32_FRAC_PI_2 : f32 :=
  @binary_normalize 24 128 gt0_24 lt_24_128 mode_NE 13176795 (-23) false.

(** The mathematical functions of the platform. No assumption is made about them
    except where a theorem states one. *)
Record libm := mk_libm {
  m_log2 : f32 -> f32;
  m_asin : f32 -> f32;
  m_sin_cos : f32 -> f32 * f32 }.

(** Vectors (src/lib.rs L77-81) and tangents (src/tangents.rs L45). *)
Definition vec2 : Type := f32 * f32.
Definition vec3 : Type := f32 * f32 * f32.
Definition vec4 : Type := f32 * f32 * f32 * f32.
Definition tangent : Type := vec3 * f32.

(** [((1 << precision) - 1) as FloatType] with an i32 literal, as in
    src/uv.rs L39, src/normals.rs L71, src/vertices.rs L84-86,
    src/custom_data.rs L104 and L120: the shift amount and the subtraction are
    overflow checked in debug builds and wrap in release builds. *)
Definition wrap_i32 (z : Z) : Z := ((z + 2 ^ 31) mod 2 ^ 32 - 2 ^ 31)%Z.
Definition mask_i32 {E} (oc : bool) (p : nat) : res E Z :=
  let* s := (if (p <? 32)%nat then Ok (wrap_i32 (2 ^ Z.of_nat p))
             else if oc then Panic else Ok (wrap_i32 (2 ^ Z.of_nat (p mod 32)))) in
  if (- 2 ^ 31 <=? s - 1)%Z then Ok (s - 1)%Z
  else if oc then Panic else Ok (wrap_i32 (s - 1)).
Definition mask_f32 {E} (oc : bool) (p : nat) : res E f32 :=
  let* z := mask_i32 oc p in Ok (f32_of_Z z).

(** [((1_u64 << precision) - 1)] for a precision below 64. *)
Definition mask_u64 (p : nat) : N := (2 ^ N.of_nat p - 1)%N.
