(** Specification of the accuracy properties, over the real numbers. Nothing here
    refers to the encoder or the decoder. *)
From Coq Require Import List Reals Bool.
From Flocq Require Import Core IEEE754.BinarySingleNaN.
From Verif Require Import Floats.
Import ListNotations.
Local Open Scope R_scope.

(** The real number a finite f32 stands for. *)
Definition val (x : f32) : R := B2R x.
Definition finite (x : f32) : Prop := is_finite x = true.
(** A number in [0,1]. *)
Definition in_unit (x : f32) : Prop := finite x /\ 0 <= val x <= 1.
(** At most [e] apart. *)
Definition within (e : R) (x y : f32) : Prop := Rabs (val y - val x) <= e.

(** Both arrays absent, or both present with related elements in the same order. *)
Definition arrays {A B} (P : A -> B -> Prop) (a : option (list A)) (b : option (list B)) : Prop :=
  match a, b with
  | Some x, Some y => Forall2 P x y
  | None, None => True
  | _, _ => False
  end.

(** Accuracy of the platform's functions, used as a hypothesis where a width or an
    angle is computed with them: an error of 2^-20 (8 units in the last place of a
    number near 1), relative for results above 1; asin never exceeds the f32 nearest to
    pi/2. *)
Definition log2 (x : R) : R := ln x / ln 2.
Definition accurate (y : f32) (x : R) : Prop := finite y /\ Rabs (val y - x) <= / 2 ^ 20 * (1 + Rabs x).
Definition log2_ok (lm : libm) : Prop :=
  forall x, finite x -> 0 < val x -> accurate (m_log2 lm x) (log2 (val x)).
Definition asin_ok (lm : libm) : Prop :=
  forall x, finite x -> 0 <= val x <= 1 ->
    finite (m_asin lm x) /\ 0 <= val (m_asin lm x) <= val f32_FRAC_PI_2 /\ Rabs (val (m_asin lm x) - asin (val x)) <= / 2 ^ 20.
Definition sin_cos_ok (lm : libm) : Prop :=
  forall x, finite x -> 0 <= val x <= 2 ->
    finite (fst (m_sin_cos lm x)) /\ finite (snd (m_sin_cos lm x)) /\
    Rabs (val (fst (m_sin_cos lm x)) - sin (val x)) <= / 2 ^ 20 /\
    Rabs (val (snd (m_sin_cos lm x)) - cos (val x)) <= / 2 ^ 20.

(** Vectors. *)
Definition dot3 (a b : vec3) : R :=
  val (fst (fst a)) * val (fst (fst b)) + val (snd (fst a)) * val (snd (fst b)) + val (snd a) * val (snd b).
Definition norm3 (a : vec3) : R := sqrt (dot3 a a).
(** The cosine of the angle between two vectors. *)
Definition cosine (a b : vec3) : R := dot3 a b / (norm3 a * norm3 b).
Definition finite3 (a : vec3) : Prop := finite (fst (fst a)) /\ finite (snd (fst a)) /\ finite (snd a).
(** A vector whose length is 1 up to rounding and whose components are at most 1. *)
Definition unit_vector (a : vec3) : Prop :=
  finite3 a /\ Rabs (dot3 a a - 1) <= / 2 ^ 20 /\
  Rabs (val (fst (fst a))) <= 1 /\ Rabs (val (snd (fst a))) <= 1 /\ Rabs (val (snd a)) <= 1.
(** A vector of ordinary size: no component above 2^50, one at least 2^-50. *)
Definition ordinary (a : vec3) : Prop :=
  finite3 a /\ (Rabs (val (fst (fst a))) <= 2 ^ 50 /\ Rabs (val (snd (fst a))) <= 2 ^ 50 /\ Rabs (val (snd a)) <= 2 ^ 50) /\
  (/ 2 ^ 50 <= Rabs (val (fst (fst a))) \/ / 2 ^ 50 <= Rabs (val (snd (fst a))) \/ / 2 ^ 50 <= Rabs (val (snd a))).
(** [b] is [a] divided by its length, up to [e] in each component. *)
Definition same_direction (e : R) (a b : vec3) : Prop :=
  Rabs (val (fst (fst b)) - val (fst (fst a)) / norm3 a) <= e /\
  Rabs (val (snd (fst b)) - val (snd (fst a)) / norm3 a) <= e /\
  Rabs (val (snd b) - val (snd a) / norm3 a) <= e.
(** The sign of [x] is kept in [y], up to [e]. *)
Definition same_side (e : R) (x y : f32) : Prop :=
  (0 <= val x -> - e <= val y) /\ (val x < 0 -> val y <= e).
