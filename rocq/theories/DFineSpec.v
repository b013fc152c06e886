(** Specification for C81 in double precision: as FineSpec.v, for meshes of f64. *)
From Coq Require Import List NArith Reals.
From Flocq Require Import IEEE754.BinarySingleNaN.
From Verif Require Import Floats FileSpec SaveSpec Double DoubleSpec DoubleSave DoublePanicSpec.
Import ListNotations.

(** The logarithm of infinity is infinity. *)
Definition log2_64_infinite (lm : libm64) : Prop := l_log2 lm (B754_infinity false) = B754_infinity false.

(** The same finite point (the two zeros are the same number). *)
Definition same_place_d (p q : dvec3) : Prop :=
  finite64 (dvx p) /\ finite64 (dvy p) /\ finite64 (dvz p) /\ finite64 (dvx q) /\ finite64 (dvy q) /\ finite64 (dvz q) /\
  val64 (dvx p) = val64 (dvx q) /\ val64 (dvy p) = val64 (dvy q) /\ val64 (dvz p) = val64 (dvz q).
(** Some triangle has two corners in one place. *)
Definition degenerate_d (m : dmesh) : Prop :=
  exists v t a b c pa pb pc, d_vertices m = Some v /\ d_vertex_triangles m = Some t /\ In (a, b, c) (triples t) /\
    corner_d v a pa /\ corner_d v b pb /\ corner_d v c pc /\
    (same_place_d pa pb \/ same_place_d pb pc \/ same_place_d pc pa).

(** Arrays that fit in a file even at 255 bits for a number. *)
Definition modest_d (m : dmesh) : Prop :=
  (forall v, d_vertices m = Some v -> (len v <= 2 ^ 24)%N) /\
  Forall (fun s => match x_data s with XFloat l _ => (len l <= 2 ^ 25)%N | _ => True end) (d_custom_data m).
