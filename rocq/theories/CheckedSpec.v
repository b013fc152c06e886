(** Specification used by C53_with_vertices_saved: two more facts about the platform's
    logarithm, both of which correctly rounded libraries have. *)
From Coq Require Import Reals.
From Flocq Require Import IEEE754.BinarySingleNaN.
From Verif Require Import Floats ValueSpec.
Local Open Scope R_scope.

(** The logarithm of zero is minus infinity, and a larger number has no smaller
    logarithm. *)
Definition log2_standard (lm : libm) : Prop :=
  (forall x, finite x -> val x = 0 -> m_log2 lm x = B754_infinity true) /\
  (forall x y, finite x -> finite y -> 0 < val x <= val y -> val (m_log2 lm x) <= val (m_log2 lm y)).
