(** What cutting a polygon into triangles means. Independent of the model. *)
From Coq Require Import List NArith ZArith Arith Bool.
From Verif Require Import FileSpec.
Import ListNotations.

Definition at_pos {A} (l : list A) (i : N) (x : A) : Prop := nth_error l (N.to_nat i) = Some x.
(** The list without the element at position [i]. *)
Definition without {A} (l : list A) (i : N) : list A := firstn (N.to_nat i) l ++ skipn (S (N.to_nat i)) l.

(** [clips pr l ts]: the triangles [ts] come from cutting off corners of the polygon [l]
    one by one until three are left. A corner is cut off with the one after it and the
    one at the place [pr n i] that is taken for the place before [i] of [n]. *)
Inductive clips (pr : N -> N -> N) : list N -> list (N * N * N) -> Prop :=
| clips_last a b c : clips pr [a; b; c] [(a, b, c)]
| clips_corner l i p c q ts : (3 < len l)%N -> at_pos l (pr (len l) i) p -> at_pos l i c -> at_pos l ((i + 1) mod len l)%N q ->
    clips pr (without l i) ts -> clips pr l ((p, c, q) :: ts).
(** The place before [i] of [n], and what the program takes for it: at 0 the largest
    64 bit number modulo [n]. *)
Definition place_before (n i : N) : N := ((i + n - 1) mod n)%N.
Definition wrapped_before (n i : N) : N := if (i =? 0)%N then ((2 ^ 64 - 1) mod n)%N else (i - 1)%N.

(** The corners 0 .. n-1, the corners of a list of triangles, and the elements at
    some positions. *)
Definition corners (n : nat) : list N := map N.of_nat (seq 0 n).
Definition flat (ts : list (N * N * N)) : list N := concat (map (fun t => [fst (fst t); snd (fst t); snd t]) ts).
Definition picks (l : list N) (ps : list N) (r : list N) : Prop := Forall2 (fun p x => at_pos l p x) ps r.
