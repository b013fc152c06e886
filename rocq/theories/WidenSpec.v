(** What a logarithm must be like for the statements about repeated saves. *)
From Coq Require Import Reals.
From Verif Require Import Floats ValueSpec.
Local Open Scope R_scope.

(** Four times as accurate as [log2_ok] asks for: a few units in the last place. *)
Definition log2_sharp (lm : libm) : Prop :=
  forall x, finite x -> 0 < val x ->
    finite (m_log2 lm x) /\ Rabs (val (m_log2 lm x) - log2 (val x)) <= / 2 ^ 22 * (1 + Rabs (log2 (val x))).
