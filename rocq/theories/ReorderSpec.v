(** Specification of the reordering of triangles. *)
From Coq Require Import List NArith Arith Permutation Sorted.
Import ListNotations.

(** Triangle number [t] of an index array: three indices. *)
Definition triangle (a : list N) (t : nat) : list N := firstn 3 (skipn (3 * t) a).
(** The triangles with the given numbers, in that order. *)
Definition pick_triangles (a : list N) (ts : list nat) : list N := concat (map (triangle a) ts).

(** How far the index at position [j] is from the one before it; the first is compared
    with 0. *)
Definition jump (a : list N) (j : nat) : N :=
  let x := nth j a 0%N in
  let y := match j with O => 0%N | S i => nth i a 0%N end in
  N.max (x - y) (y - x).
(** All three corners of the triangle are near the corner before them, in every array. *)
Definition compact (arrays : list (list N)) (t : nat) : Prop :=
  forall a j, In a arrays -> 3 * t <= j < 3 * t + 3 -> (jump a j < 16)%N.
(** The order: the compact triangles, then the others, each group in its old order. *)
Definition new_order (arrays : list (list N)) (n : nat) (order : list nat) : Prop :=
  exists near far, order = near ++ far /\ Permutation order (seq 0 n) /\
    StronglySorted lt near /\ StronglySorted lt far /\ Forall (compact arrays) near /\ Forall (fun t => ~ compact arrays t) far.
