(** Specification for normals loaded with the fast_trig feature. Nothing here refers to
    the decoder. *)
From Coq Require Import Reals.
From Verif Require Import Base Floats Mesh ValueSpec.
Local Open Scope R_scope.

(** The distance between two vectors. *)
Definition dist3 (a b : vec3) : R :=
  sqrt ((val (fst (fst a)) - val (fst (fst b))) ^ 2 + (val (snd (fst a)) - val (snd (fst b))) ^ 2
        + (val (snd a) - val (snd b)) ^ 2).
(** Finite vectors at a distance of at most [e]. *)
Definition near_by (e : R) (a b : vec3) : Prop := finite3 a /\ finite3 b /\ dist3 a b <= e.
