(** Model of the fast_trig feature: src/utilis.rs L24-45 and the lines of
    src/normals.rs it switches. *)
From Coq Require Import ZArith NArith List.
From Flocq Require Import IEEE754.BinarySingleNaN.
From Verif Require Import Base Floats.

(* src/utilis.rs L29 : F_PI, i.e. 0x400921FB54442D18 *)
Definition d_PI : f64 := @binary_normalize 53 1024 gt0_53 lt_53_1024 mode_NE 884279719003555 (-48) false.
(* src/utilis.rs L34 : 0.3183098861837907 and 6755399441055744.0 *)
Definition d_inv_pi : f64 := dlit 3183098861837907 (10 ^ 16).
Definition d_shift : f64 := f64_of_Z 6755399441055744.
(* src/utilis.rs L39 : the coefficients *)
Definition d_a : f64 := dlit 73524681968701 (10 ^ 16).
Definition d_b : f64 := dlit 1652891139701474 (10 ^ 16).
Definition d_c : f64 := dlit 9996919862959676 (10 ^ 16).
(* src/utilis.rs L35 : the first four bytes of the f64, read as an i32. Simplification:
   a little-endian target. *)
Definition low_i32 (z : f64) : Z :=
  let v := Z.of_N (bits_of_f64 z mod 2 ^ 32)%N in
  if (v <? 2 ^ 31)%Z then v else (v - 2 ^ 32)%Z.

(* src/utilis.rs L33-45 : fsin *)
Definition fsin (x : f64) : f64 :=
  let z := dadd (dmul x d_inv_pi) d_shift in
  let k := low_i32 z in
  let z := dmul (f64_of_Z k) d_PI in
  let x := dsub x z in
  let y := dmul x x in
  let z := dadd (dmul (dsub (dmul d_a y) d_b) y) d_c in
  let x := dmul x z in
  let k := Z.land k 1 in
  let k := (k + k)%Z in
  let z := dmul (f64_of_Z k) x in
  dsub x z.

(* src/normals.rs L108-111 : what replaces [asine.sin_cos()] *)
Definition fast_sin_cos (asine : f32) : f32 * f32 :=
  let x := f32_of_f64 (fsin (f64_of_f32 asine)) in
  (x, fsqrt (fsub f1 (fmul x x))).
(** A build with fast_trig is a build with this library: nothing else changes. *)
Definition fast (lm : libm) : libm := mk_libm (m_log2 lm) (m_asin lm) fast_sin_cos.
