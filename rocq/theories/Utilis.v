(** Model of src/utilis.rs L1-109. Indices (u32) are [N]. *)
From Coq Require Import List NArith ZArith Arith Bool.
From Flocq Require Import IEEE754.BinarySingleNaN.
From Verif Require Import Base Floats.
Import ListNotations.
Open Scope res_scope.

(** Slice access [data.get(i as usize)]. *)
Fixpoint get {A} (l : list A) (i : N) : option A :=
  match l with
  | [] => None
  | x :: t => if (i =? 0)%N then Some x else get t (i - 1)
  end.
(** [data[i as usize]], which panics out of range. *)
Definition index {E A} (l : list A) (i : N) : res E A :=
  match get l i with Some x => Ok x | None => Panic end.
(** [data[i as usize] = v] *)
Fixpoint update {A} (l : list A) (i : N) (v : A) : list A :=
  match l with
  | [] => []
  | x :: t => if (i =? 0)%N then v :: t else x :: update t (i - 1) v
  end.
(** [xs.iter().map(f).collect()] for an [f] that may panic. *)
Fixpoint map_res {E A B} (f : A -> res E B) (l : list A) : res E (list B) :=
  match l with
  | [] => Ok []
  | a :: t => let* b := f a in let* bs := map_res f t in Ok (b :: bs)
  end.

(* src/utilis.rs L12-17 : the scan for the smallest index, [None] for the early
   return on index 0 *)
Fixpoint prune_scan (indices : list N) (min_index : N) : option N :=
  match indices with
  | [] => Some min_index
  | i :: t => if (i =? 0)%N then None else prune_scan t (N.min min_index i)
  end.
(* src/utilis.rs L6-23 : fast_prune *)
Definition fast_prune {A} (data : list A) (indices : list N) : list A * list N :=
  let min_index := (N.of_nat (length data) mod two32)%N in
  let min_index := match indices with [] => 0%N | _ => min_index end in
  match prune_scan indices min_index with
  | None => (data, indices)
  | Some m => (skipn (N.to_nat m) data, map (fun i => (i - m)%N) indices)
  end.

Definition vx (v : vec3) : f32 := fst (fst v).
Definition vy (v : vec3) : f32 := snd (fst v).
Definition vz (v : vec3) : f32 := snd v.

(* src/utilis.rs L46-51 : magnitude *)
Definition magnitude (i : vec3) : f32 :=
  fsqrt (fadd (fadd (fmul (vx i) (vx i)) (fmul (vy i) (vy i))) (fmul (vz i) (vz i))).
(* src/utilis.rs L52-62 : normalize *)
Definition normalize (i : vec3) : vec3 :=
  let mag := fsqrt (fadd (fadd (fmul (vx i) (vx i)) (fmul (vy i) (vy i))) (fmul (vz i) (vz i))) in
  if is_nan mag then (f0, f0, f0)
  else (fdiv (vx i) mag, fdiv (vy i) mag, fdiv (vz i) mag).
(* src/utilis.rs L63-68 : distance *)
Definition distance (a b : vec3) : f32 :=
  let dx := fsub (vx a) (vx b) in
  let dy := fsub (vy a) (vy b) in
  let dz := fsub (vz a) (vz b) in
  fsqrt (fadd (fadd (fmul dx dx) (fmul dy dy)) (fmul dz dz)).
(* src/utilis.rs L69-84 : dot, cross, sub_vec3, add_vec3 *)
Definition dot (a b : vec3) : f32 :=
  fadd (fadd (fmul (vx a) (vx b)) (fmul (vy a) (vy b))) (fmul (vz a) (vz b)).
Definition cross (a b : vec3) : vec3 :=
  (fsub (fmul (vy a) (vz b)) (fmul (vz a) (vy b)),
   fsub (fmul (vz a) (vx b)) (fmul (vx a) (vz b)),
   fsub (fmul (vx a) (vy b)) (fmul (vy a) (vx b))).
Definition sub_vec3 (a b : vec3) : vec3 :=
  (fsub (vx a) (vx b), fsub (vy a) (vy b), fsub (vz a) (vz b)).
Definition add_vec3 (a b : vec3) : vec3 :=
  (fadd (vx a) (vx b), fadd (vy a) (vy b), fadd (vz a) (vz b)).

(* src/utilis.rs L96-103 : the loop that assigns new indices. [None] in the map is
   INDEX_NOT_MAPPED; curr_map_index is the length of data_mapped. *)
Fixpoint opt_loop {E A} (data : list A) (indices : list N) (index_map : list (option N))
  (data_mapped : list A) : res E (list (option N) * list A) :=
  match indices with
  | [] => Ok (index_map, data_mapped)
  | i :: t =>
    let* m := index index_map i in
    match m with
    | None =>
      let* d := index data i in
      opt_loop data t (update index_map i (Some (N.of_nat (length data_mapped)))) (data_mapped ++ [d])
    | Some _ => opt_loop data t index_map data_mapped
    end
  end.
(* src/utilis.rs L85-109 : optimize_triangle_indices. An index left unmapped would
   be read as usize::MAX. *)
Definition optimize_triangle_indices {E A} (indices : list N) (data : list A)
  : res E (list N * list A) :=
  match indices, data with
  | [], _ => Ok (indices, data)
  | _, [] => Ok (indices, data)
  | _, _ =>
    let* (index_map, data_mapped) := opt_loop data indices (map (fun _ => None) data) [] in
    let* new_indices := map_res (fun i =>
      let* m := index index_map i in
      Ok (match m with Some k => k | None => two64 - 1 end mod two32)%N) indices in
    Ok (new_indices, data_mapped)
  end.
