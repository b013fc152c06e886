(** Specification of the ranges of loaded values. Nothing here refers to the decoder. *)
From Coq Require Import List NArith Reals.
From Flocq Require Import IEEE754.BinarySingleNaN.
From Verif Require Import Base Floats CustomData Mesh ValueSpec.
Import ListNotations.
Local Open Scope R_scope.

(** 1.0 or -1.0 *)
Definition is_sign (x : f32) : Prop := x = f1 \/ x = fneg f1.
(** A finite vector of length 1 (up to 2^-17 in the square), or one of the eight
    vectors (+-1, +-1, +-1). *)
Definition unit_or_corner (n : vec3) : Prop :=
  (finite3 n /\ Rabs (dot3 n n - 1) <= / 2 ^ 17) \/
  (is_sign (fst (fst n)) /\ is_sign (snd (fst n)) /\ is_sign (snd n)).
(** Each of the four channels is in [0,1], or each is NaN. *)
Definition colour_ok (v : vec4) : Prop :=
  (in_unit (fst (fst (fst v))) /\ in_unit (snd (fst (fst v))) /\ in_unit (snd (fst v)) /\ in_unit (snd v)) \/
  v = (B754_nan, B754_nan, B754_nan, B754_nan).

Record values_in_range (m : mesh) : Prop := {
  vr_uvs : forall l, uvs m = Some l -> Forall (fun u => in_unit (fst u) /\ in_unit (snd u)) l;
  vr_normals : forall l, normals m = Some l -> Forall unit_or_corner l;
  vr_tangents : forall l, tangents m = Some l -> Forall (fun t => unit_or_corner (fst t) /\ is_sign (snd t)) l;
  vr_colours : forall s l p, In s (custom_data m) -> c_data s = CColor l p -> Forall colour_ok l }.
