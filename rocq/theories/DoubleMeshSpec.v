(** Specification of normalising with [double_precision], over the real numbers: as
    ValueSpec.v, for f64. *)
From Coq Require Import Reals Bool.
From Flocq Require Import Core IEEE754.BinarySingleNaN.
From Verif Require Import Floats Double DoubleSpec DoubleSave DoubleValueSpec DoubleNormalSpec.
Local Open Scope R_scope.

(** A vector of ordinary size: no component above 2^50, one at least 2^-50. *)
Definition ordinary_d (a : dvec3) : Prop :=
  finite3_d a /\ (Rabs (val64 (fst (fst a))) <= 2 ^ 50 /\ Rabs (val64 (snd (fst a))) <= 2 ^ 50 /\ Rabs (val64 (snd a)) <= 2 ^ 50) /\
  (/ 2 ^ 50 <= Rabs (val64 (fst (fst a))) \/ / 2 ^ 50 <= Rabs (val64 (snd (fst a))) \/ / 2 ^ 50 <= Rabs (val64 (snd a))).
(** [b] is [a] divided by its length, up to [e] in each component. *)
Definition same_direction_d (e : R) (a b : dvec3) : Prop :=
  Rabs (val64 (fst (fst b)) - val64 (fst (fst a)) / norm3_d a) <= e /\
  Rabs (val64 (snd (fst b)) - val64 (snd (fst a)) / norm3_d a) <= e /\
  Rabs (val64 (snd b) - val64 (snd a) / norm3_d a) <= e.
