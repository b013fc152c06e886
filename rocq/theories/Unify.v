(** Model of src/unify_data.rs L1-201. *)
From Coq Require Import List NArith Arith Bool.
From Verif Require Import Base Utilis.
Import ListNotations.
Open Scope res_scope.

(** Comparison of index slices. *)
Fixpoint list_eqb (a b : list N) : bool :=
  match a, b with
  | [], [] => true
  | x :: s, y :: t => (x =? y)%N && list_eqb s t
  | _, _ => false
  end.

(** Position of a combination among those seen so far. The Rust code keeps a
    HashMap from combinations to consecutive ids and later lists its keys sorted
    by id; the model keeps that list, an id being a position in it. *)
Fixpoint position (c : list N) (combos : list (list N)) (k : N) : option N :=
  match combos with
  | [] => None
  | d :: t => if list_eqb c d then Some k else position c t (k + 1)
  end.

(* src/unify_data.rs L18-30 : the loop over the rows. A row is a curr_combo. *)
Fixpoint combo_loop (rows : list (list N)) (combos : list (list N)) (new_indices : list N)
  : list N * list (list N) :=
  match rows with
  | [] => (new_indices, combos)
  | c :: t =>
    match position c combos 0 with
    | Some id => combo_loop t combos (new_indices ++ [(id mod two32)%N])
    | None => combo_loop t (combos ++ [c]) (new_indices ++ [(N.of_nat (length combos) mod two32)%N])
    end
  end.

(** Row [i] of equally long columns. *)
Definition row (cols : list (list N)) (i : nat) : list N := map (fun c => nth i c 0%N) cols.
Definition rows (cols : list (list N)) (len : nat) : list (list N) := map (row cols) (seq 0 len).

(* src/unify_data.rs L5-42 : unfiy_data_common, called with DATA_COUNT arrays. The
   result is the new index array and, per array, the old index of each new element. *)
Definition unify_data_common {E} (indices : list (list N)) : res E (list N * list (list N)) :=
  match indices with
  | [] => Panic
  | a :: _ =>
    let len := length a in
    if forallb (fun c => length c =? len) indices then
      let '(new_indices, combos) := combo_loop (rows indices len) [] [] in
      Ok (new_indices, map (fun j => map (fun c => nth j c 0%N) combos) (seq 0 (length indices)))
    else Panic
  end.

(** [index_map[j].iter().map(|index| data[*index as usize]).collect()] *)
Definition gather {E A} (index_map : list (list N)) (j : nat) (data : list A) : res E (list A) :=
  map_res (index data) (nth j index_map []).

(* src/unify_data.rs L43-105 : merge_data_2, merge_data_3, merge_data_4 *)
Definition merge_data_2 {E A B} (ia ib : list N) (a : list A) (b : list B)
  : res E (list N * list A * list B) :=
  let* (indices, index_map) := unify_data_common [ia; ib] in
  let* a := gather index_map 0 a in
  let* b := gather index_map 1 b in
  Ok (indices, a, b).
Definition merge_data_3 {E A B C} (ia ib ic : list N) (a : list A) (b : list B) (c : list C)
  : res E (list N * list A * list B * list C) :=
  let* (indices, index_map) := unify_data_common [ia; ib; ic] in
  let* a := gather index_map 0 a in
  let* b := gather index_map 1 b in
  let* c := gather index_map 2 c in
  Ok (indices, a, b, c).
Definition merge_data_4 {E A B C D} (ia ib ic id : list N) (a : list A) (b : list B) (c : list C)
  (d : list D) : res E (list N * list A * list B * list C * list D) :=
  let* (indices, index_map) := unify_data_common [ia; ib; ic; id] in
  let* a := gather index_map 0 a in
  let* b := gather index_map 1 b in
  let* c := gather index_map 2 c in
  let* d := gather index_map 3 d in
  Ok (indices, a, b, c, d).

Definition somes {A} (l : list (option A)) : list A :=
  flat_map (fun o => match o with Some x => [x] | None => [] end) l.

(* src/unify_data.rs L107-115 : is_merge_needed *)
Definition is_merge_needed (indices : list (option (list N))) : bool :=
  match somes indices with
  | [] => false
  | first :: t => negb (forallb (fun a => list_eqb a first) t)
  end.

(** [!x.is_some_and(|data| !data.is_empty()) || i.is_none()] *)
Definition unusable {A} (x : option (list A)) (i : option (list N)) : bool :=
  match x, i with
  | Some (_ :: _), Some _ => false
  | _, _ => true
  end.

Definition oarr (A : Type) : Type := option (list A).

(* src/unify_data.rs L116-130 : smart_merge_data_2 *)
Definition smart_merge_data_2 {E A B} (a : oarr A) (b : oarr B) (ia ib : oarr N)
  : res E (oarr A * oarr B * oarr N) :=
  if negb (is_merge_needed [ia; ib]) then Ok (None, None, None)
  else
    match a, ia, b, ib with
    | Some a, Some ia, Some b, Some ib =>
      let* (indices, a, b) := merge_data_2 ia ib a b in Ok (Some a, Some b, Some indices)
    | _, _, _, _ => Ok (None, None, None)
    end.

(* src/unify_data.rs L131-159 : smart_merge_data_3 *)
Definition smart_merge_data_3 {E A B C} (a : oarr A) (b : oarr B) (c : oarr C) (ia ib ic : oarr N)
  : res E (oarr A * oarr B * oarr C * oarr N) :=
  if negb (is_merge_needed [ia; ib; ic]) then Ok (None, None, None, None)
  else if unusable a ia then
    let* (b, c, indices) := smart_merge_data_2 b c ib ic in Ok (None, b, c, indices)
  else if unusable b ib then
    let* (a, c, indices) := smart_merge_data_2 a c ia ic in Ok (a, None, c, indices)
  else if unusable c ic then
    let* (a, b, indices) := smart_merge_data_2 a b ia ib in Ok (a, b, None, indices)
  else
    match a, ia, b, ib, c, ic with
    | Some a, Some ia, Some b, Some ib, Some c, Some ic =>
      let* (indices, a, b, c) := merge_data_3 ia ib ic a b c in
      Ok (Some a, Some b, Some c, Some indices)
    | _, _, _, _, _, _ => Ok (None, None, None, None)
    end.

(* src/unify_data.rs L160-201 : smart_merge_data_4 *)
Definition smart_merge_data_4 {E A B C D} (a : oarr A) (b : oarr B) (c : oarr C) (d : oarr D)
  (ia ib ic id : oarr N) : res E (oarr A * oarr B * oarr C * oarr D * oarr N) :=
  if negb (is_merge_needed [ia; ib; ic; id]) then Ok (None, None, None, None, None)
  else if unusable a ia then
    let* (b, c, d, indices) := smart_merge_data_3 b c d ib ic id in Ok (None, b, c, d, indices)
  else if unusable b ib then
    let* (a, c, d, indices) := smart_merge_data_3 a c d ia ic id in Ok (a, None, c, d, indices)
  else if unusable c ic then
    let* (a, b, d, indices) := smart_merge_data_3 a b d ia ib id in Ok (a, b, None, d, indices)
  else if unusable d id then
    let* (a, b, c, indices) := smart_merge_data_3 a b c ia ib ic in Ok (a, b, c, None, indices)
  else
    match a, ia, b, ib, c, ic, d, id with
    | Some a, Some ia, Some b, Some ib, Some c, Some ic, Some d, Some id =>
      let* (indices, a, b, c, d) := merge_data_4 ia ib ic id a b c d in
      Ok (Some a, Some b, Some c, Some d, Some indices)
    | _, _, _, _, _, _, _, _ => Ok (None, None, None, None, None)
    end.
