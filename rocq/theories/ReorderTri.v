(** Model of src/reorder_triangles.rs. [triangles] holds ARRAY_COUNT index arrays. An
    index (u32) and a difference (usize) are [N]; positions are [nat]. *)
From Coq Require Import List NArith Arith Bool.
From Verif Require Import Base.
Import ListNotations.
Open Scope res_scope.

(** [(a as isize - b as isize).unsigned_abs()] *)
Definition abs_diff (a b : N) : N := if (a <=? b)%N then (b - a)%N else (a - b)%N.
(** [array[i]], which panics out of range. *)
Definition at_index {E A} (l : list A) (i : nat) : res E A := match nth_error l i with Some x => Ok x | None => Panic end.

(* src/reorder_triangles.rs L14-18 : the inner loop. Result: the largest difference
   and the new [last]. *)
Fixpoint delta_loop {E} (triangles : list (list N)) (last : list N) (index : nat) (delta : N) : res E (N * list N) :=
  match triangles, last with
  | a :: t, l :: ls =>
    let* curr := at_index a index in
    let* (delta, ls) := delta_loop t ls index (N.max delta (abs_diff curr l)) in
    Ok (delta, curr :: ls)
  | _, _ => Ok (delta, [])
  end.
(* src/reorder_triangles.rs L12-20 : the differences at the positions [indices] *)
Fixpoint deltas_loop {E} (triangles : list (list N)) (last : list N) (indices : list nat) : res E (list N) :=
  match indices with
  | [] => Ok []
  | i :: t =>
    let* (delta, last) := delta_loop triangles last i 0 in
    let* ds := deltas_loop triangles last t in
    Ok (delta :: ds)
  end.
(** [triangles.iter().map(|t| t[i])] *)
Fixpoint column {E} (triangles : list (list N)) (i : nat) : res E (list N) :=
  match triangles with
  | [] => Ok []
  | a :: t => let* v := at_index a i in let* vs := column t i in Ok (v :: vs)
  end.
(* src/reorder_triangles.rs L24-41 : sorting the triangles. A value of the two vectors
   is a column: the indices of one corner in all arrays. *)
Fixpoint sort_loop {E} (triangles : list (list N)) (max_deltas : list N) (indices : list nat) (sorted unorganized : list (list N))
  : res E (list (list N) * list (list N)) :=
  match indices with
  | [] => Ok (sorted, unorganized)
  | index :: t =>
    let* d0 := at_index max_deltas (index * 3) in
    let* d1 := at_index max_deltas (index * 3 + 1) in
    let* d2 := at_index max_deltas (index * 3 + 2) in
    let max := N.max (N.max d0 d1) d2 in
    let* v0 := column triangles (index * 3) in
    let* v1 := column triangles (index * 3 + 1) in
    let* v2 := column triangles (index * 3 + 2) in
    if (max <? 16)%N then sort_loop triangles max_deltas t (sorted ++ [v0; v1; v2]) unorganized
    else sort_loop triangles max_deltas t sorted (unorganized ++ [v0; v1; v2])
  end.
(** [iter().map(|arrays| arrays[array_index]).collect()] *)
Fixpoint pick {E} (l : list (list N)) (array_index : nat) : res E (list N) :=
  match l with
  | [] => Ok []
  | c :: t => let* v := at_index c array_index in let* vs := pick t array_index in Ok (v :: vs)
  end.
(* src/reorder_triangles.rs L43-51 : the new arrays *)
Fixpoint new_indices_loop {E} (sorted unorganized : list (list N)) (array_indices : list nat) : res E (list (list N)) :=
  match array_indices with
  | [] => Ok []
  | a :: t =>
    let* s := pick sorted a in
    let* u := pick unorganized a in
    let* rest := new_indices_loop sorted unorganized t in
    Ok ((s ++ u) :: rest)
  end.
(* src/reorder_triangles.rs L2-54 : reorder_triangles. The assertions and
   [triangles[0]] panic. *)
Definition reorder_triangles {E} (array_count : nat) (triangles : list (list N)) : res E (list (list N)) :=
  if negb (length triangles =? array_count) then Panic
  else
    let* first := at_index triangles 0 in
    let len := length first in
    if negb (forallb (fun a => length a =? len) triangles) then Panic
    else
      let* max_deltas := deltas_loop triangles (repeat 0%N array_count) (seq 0 len) in
      let* (sorted, unorganized) := sort_loop triangles max_deltas (seq 0 (len / 3)) [] [] in
      (* L52 prints new_indices[0].len(): ARRAY_COUNT is not zero here *)
      new_indices_loop sorted unorganized (seq 0 array_count).
