(** Specification of the LZ77 coder: what a repeat in the data is. *)
From Coq Require Import List NArith Arith.
Import ListNotations.

(** The [n] values from position [pos] equal those [dist] positions earlier. The two
    runs may overlap. *)
Definition repeats (data : list N) (pos dist n : nat) : Prop :=
  dist <= pos /\ pos + n <= length data /\ forall k, k < n -> nth_error data (pos + k) = nth_error data (pos - dist + k).
(** No repeat at a distance the coder looks at is too long for the field width. *)
Definition repeats_fit (w : nat) (data : list N) : Prop :=
  forall pos dist n, 1 <= dist <= 127 -> repeats data pos dist n -> (N.of_nat n < 2 ^ N.of_nat w)%N.
Definition values_fit (w : nat) (data : list N) : Prop := Forall (fun v => (v < 2 ^ N.of_nat w)%N) data.
