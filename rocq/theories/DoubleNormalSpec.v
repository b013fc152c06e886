(** Specification of how accurately a program built with [double_precision] stores directions,
    over the real numbers: as ValueSpec.v, for f64. Nothing here refers to the encoder or the
    decoder. *)
From Coq Require Import Reals Bool.
From Flocq Require Import Core IEEE754.BinarySingleNaN.
From Verif Require Import Floats Double DoubleSpec DoubleSave DoubleValueSpec.
Local Open Scope R_scope.

(** Accuracy of the platform's arc sine, sine and cosine on f64: an error of 2^-49 (8 units in
    the last place of a number near 1); asin never exceeds the f64 nearest to pi/2. *)
Definition asin_64_ok (lm : libm64) : Prop :=
  forall x, finite64 x -> 0 <= val64 x <= 1 ->
    finite64 (l_asin lm x) /\ 0 <= val64 (l_asin lm x) <= 884279719003555 / 562949953421312 /\
    Rabs (val64 (l_asin lm x) - asin (val64 x)) <= / 2 ^ 49.
Definition sin_cos64_sharp (sc : f64 -> f64 * f64) : Prop :=
  forall x, finite64 x -> 0 <= val64 x <= 2 ->
    finite64 (fst (sc x)) /\ finite64 (snd (sc x)) /\
    Rabs (val64 (fst (sc x)) - sin (val64 x)) <= / 2 ^ 49 /\
    Rabs (val64 (snd (sc x)) - cos (val64 x)) <= / 2 ^ 49.

(** Scalar product, length, cosine of the angle between two vectors. *)
Definition dot3_d (a b : dvec3) : R :=
  val64 (fst (fst a)) * val64 (fst (fst b)) + val64 (snd (fst a)) * val64 (snd (fst b)) + val64 (snd a) * val64 (snd b).
Definition norm3_d (a : dvec3) : R := sqrt (dot3_d a a).
Definition cosine_d (a b : dvec3) : R := dot3_d a b / (norm3_d a * norm3_d b).
(** A vector whose length is 1 up to rounding and whose components are at most 1. *)
Definition unit_vector_d (a : dvec3) : Prop :=
  finite3_d a /\ Rabs (dot3_d a a - 1) <= / 2 ^ 49 /\
  Rabs (val64 (fst (fst a))) <= 1 /\ Rabs (val64 (snd (fst a))) <= 1 /\ Rabs (val64 (snd a)) <= 1.
(** The sign of [x] is kept in [y], up to [e]. *)
Definition same_side_d (e : R) (x y : f64) : Prop :=
  (0 <= val64 x -> - e <= val64 y) /\ (val64 x < 0 -> val64 y <= e).
