(** Specification for C81: meshes that need very many bits. *)
From Coq Require Import List NArith Reals.
From Flocq Require Import IEEE754.BinarySingleNaN.
From Verif Require Import Floats Utilis Mesh CustomData FileSpec SaveSpec ValueSpec.
Import ListNotations.

(** The logarithm of infinity is infinity. *)
Definition log2_infinite (lm : libm) : Prop := m_log2 lm (B754_infinity false) = B754_infinity false.

(** The same finite point (the two zeros are the same number). *)
Definition same_place (p q : vec3) : Prop :=
  finite (vx p) /\ finite (vy p) /\ finite (vz p) /\ finite (vx q) /\ finite (vy q) /\ finite (vz q) /\
  val (vx p) = val (vx q) /\ val (vy p) = val (vy q) /\ val (vz p) = val (vz q).
(** Some triangle has two corners in one place. *)
Definition degenerate (m : mesh) : Prop :=
  exists v t a b c pa pb pc, vertices m = Some v /\ vertex_triangles m = Some t /\ In (a, b, c) (triples t) /\
    corner v a pa /\ corner v b pb /\ corner v c pc /\
    (same_place pa pb \/ same_place pb pc \/ same_place pc pa).

(** Arrays that fit in a file even at 255 bits for a number. *)
Definition modest (m : mesh) : Prop :=
  (forall v, vertices m = Some v -> (len v <= 2 ^ 24)%N) /\
  Forall (fun s => match c_data s with CFloat l _ => (len l <= 2 ^ 25)%N | _ => True end) (custom_data m).
