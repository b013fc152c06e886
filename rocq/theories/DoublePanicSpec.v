(** Specification of when saving in double precision is possible: as in SaveSpec.v and
    CheckedSpec.v, for meshes of f64. *)
From Coq Require Import List NArith ZArith Arith Bool Reals.
From Flocq Require Import IEEE754.BinarySingleNaN.
From Verif Require Import Floats ValueSpec FileSpec SaveSpec Double DoubleSpec DoubleSave.
Import ListNotations.

Definition corner_d (vs : list dvec3) (i : N) (v : dvec3) : Prop := nth_error vs (N.to_nat i) = Some v.
(** All corners of complete triangles exist. *)
Definition corners_exist_d (vs : list dvec3) (t : list N) : Prop :=
  Forall (fun '(a, b, c) => (a < len vs /\ b < len vs /\ c < len vs)%N) (triples t).
(** Some complete triangle has an edge whose computed length is finite. *)
Definition finite_edge_d (dist : dvec3 -> dvec3 -> f64) (vs : list dvec3) (t : list N) : Prop :=
  Exists (fun '(a, b, c) => exists va vb vc, corner_d vs a va /\ corner_d vs b vb /\ corner_d vs c vc /\
            (is_finite (dist va vb) = true \/ is_finite (dist vb vc) = true \/ is_finite (dist vc va) = true))
         (triples t).

(** The logarithm of zero is minus infinity, and a larger number has no smaller logarithm. *)
Definition log2_64_standard (lm : libm64) : Prop :=
  (forall x, finite64 x -> val64 x = 0%R -> l_log2 lm x = B754_infinity true) /\
  (forall x y, finite64 x -> finite64 y -> (0 < val64 x <= val64 y)%R -> (val64 (l_log2 lm x) <= val64 (l_log2 lm y))%R).
