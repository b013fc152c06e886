(** Reordering and unifying with another IndexType (src/lib.rs L61-70): [iw] is its size in
    bits. With [iw = 32] these are the definitions of Utilis.v, Unify.v and Mesh.v. *)
From Coq Require Import List NArith ZArith Arith Bool.
From Verif Require Import Base Floats Utilis Unify CustomData Mesh IndexWidth.
Import ListNotations.
Open Scope res_scope.

Section Width.
Variable iw : nat.

(* src/utilis.rs L85-109 : optimize_triangle_indices, the cast in L106 *)
Definition optimize_triangle_indices_w {E A} (indices : list N) (data : list A)
  : res E (list N * list A) :=
  match indices, data with
  | [], _ => Ok (indices, data)
  | _, [] => Ok (indices, data)
  | _, _ =>
    let* (index_map, data_mapped) := opt_loop data indices (map (fun _ => None) data) [] in
    let* new_indices := map_res (fun i =>
      let* m := index index_map i in
      Ok (match m with Some k => k | None => two64 - 1 end mod imod iw)%N) indices in
    Ok (new_indices, data_mapped)
  end.
(* src/lib.rs L167-189 : reorder_data *)
Definition reorder_data_w {E} (m : mesh) : res E mesh :=
  let* m :=
    match vertices m, vertex_triangles m with
    | Some v, Some t =>
      let* (t, v) := optimize_triangle_indices_w t v in
      Ok (fst (set_vertex_triangles (fst (set_vertices m v)) t))
    | _, _ => Ok m
    end in
  let* m :=
    match normals m, normal_triangles m with
    | Some v, Some t =>
      let* (t, v) := optimize_triangle_indices_w t v in
      Ok (fst (set_normal_triangles (fst (set_normals m v)) t))
    | _, _ => Ok m
    end in
  match uvs m, uv_triangles m with
  | Some v, Some t =>
    let* (t, v) := optimize_triangle_indices_w t v in
    Ok (fst (set_uv_triangles (fst (set_uvs m v)) t))
  | _, _ => Ok m
  end.

(* src/unify_data.rs L18-30, the cast in L28 *)
Fixpoint combo_loop_w (rows : list (list N)) (combos : list (list N)) (new_indices : list N)
  : list N * list (list N) :=
  match rows with
  | [] => (new_indices, combos)
  | c :: t =>
    match position c combos 0 with
    | Some id => combo_loop_w t combos (new_indices ++ [(id mod imod iw)%N])
    | None => combo_loop_w t (combos ++ [c]) (new_indices ++ [(N.of_nat (length combos) mod imod iw)%N])
    end
  end.
(* src/unify_data.rs L5-42 : unfiy_data_common *)
Definition unify_data_common_w {E} (indices : list (list N)) : res E (list N * list (list N)) :=
  match indices with
  | [] => Panic
  | a :: _ =>
    let len := length a in
    if forallb (fun c => length c =? len) indices then
      let '(new_indices, combos) := combo_loop_w (rows indices len) [] [] in
      Ok (new_indices, map (fun j => map (fun c => nth j c 0%N) combos) (seq 0 (length indices)))
    else Panic
  end.
(* src/unify_data.rs L43-105 : merge_data_2, merge_data_3, merge_data_4 *)
Definition merge_data_2_w {E A B} (ia ib : list N) (a : list A) (b : list B)
  : res E (list N * list A * list B) :=
  let* (indices, index_map) := unify_data_common_w [ia; ib] in
  let* a := gather index_map 0 a in
  let* b := gather index_map 1 b in
  Ok (indices, a, b).
Definition merge_data_3_w {E A B C} (ia ib ic : list N) (a : list A) (b : list B) (c : list C)
  : res E (list N * list A * list B * list C) :=
  let* (indices, index_map) := unify_data_common_w [ia; ib; ic] in
  let* a := gather index_map 0 a in
  let* b := gather index_map 1 b in
  let* c := gather index_map 2 c in
  Ok (indices, a, b, c).
Definition merge_data_4_w {E A B C D} (ia ib ic id : list N) (a : list A) (b : list B) (c : list C)
  (d : list D) : res E (list N * list A * list B * list C * list D) :=
  let* (indices, index_map) := unify_data_common_w [ia; ib; ic; id] in
  let* a := gather index_map 0 a in
  let* b := gather index_map 1 b in
  let* c := gather index_map 2 c in
  let* d := gather index_map 3 d in
  Ok (indices, a, b, c, d).
(* src/unify_data.rs L116-130 : smart_merge_data_2 *)
Definition smart_merge_data_2_w {E A B} (a : oarr A) (b : oarr B) (ia ib : oarr N)
  : res E (oarr A * oarr B * oarr N) :=
  if negb (is_merge_needed [ia; ib]) then Ok (None, None, None)
  else
    match a, ia, b, ib with
    | Some a, Some ia, Some b, Some ib =>
      let* (indices, a, b) := merge_data_2_w ia ib a b in Ok (Some a, Some b, Some indices)
    | _, _, _, _ => Ok (None, None, None)
    end.
(* src/unify_data.rs L131-159 : smart_merge_data_3 *)
Definition smart_merge_data_3_w {E A B C} (a : oarr A) (b : oarr B) (c : oarr C) (ia ib ic : oarr N)
  : res E (oarr A * oarr B * oarr C * oarr N) :=
  if negb (is_merge_needed [ia; ib; ic]) then Ok (None, None, None, None)
  else if unusable a ia then
    let* (b, c, indices) := smart_merge_data_2_w b c ib ic in Ok (None, b, c, indices)
  else if unusable b ib then
    let* (a, c, indices) := smart_merge_data_2_w a c ia ic in Ok (a, None, c, indices)
  else if unusable c ic then
    let* (a, b, indices) := smart_merge_data_2_w a b ia ib in Ok (a, b, None, indices)
  else
    match a, ia, b, ib, c, ic with
    | Some a, Some ia, Some b, Some ib, Some c, Some ic =>
      let* (indices, a, b, c) := merge_data_3_w ia ib ic a b c in
      Ok (Some a, Some b, Some c, Some indices)
    | _, _, _, _, _, _ => Ok (None, None, None, None)
    end.
(* src/unify_data.rs L160-201 : smart_merge_data_4 *)
Definition smart_merge_data_4_w {E A B C D} (a : oarr A) (b : oarr B) (c : oarr C) (d : oarr D)
  (ia ib ic id : oarr N) : res E (oarr A * oarr B * oarr C * oarr D * oarr N) :=
  if negb (is_merge_needed [ia; ib; ic; id]) then Ok (None, None, None, None, None)
  else if unusable a ia then
    let* (b, c, d, indices) := smart_merge_data_3_w b c d ib ic id in Ok (None, b, c, d, indices)
  else if unusable b ib then
    let* (a, c, d, indices) := smart_merge_data_3_w a c d ia ic id in Ok (a, None, c, d, indices)
  else if unusable c ic then
    let* (a, b, d, indices) := smart_merge_data_3_w a b d ia ib id in Ok (a, b, None, d, indices)
  else if unusable d id then
    let* (a, b, c, indices) := smart_merge_data_3_w a b c ia ib ic in Ok (a, b, c, None, indices)
  else
    match a, ia, b, ib, c, ic, d, id with
    | Some a, Some ia, Some b, Some ib, Some c, Some ic, Some d, Some id =>
      let* (indices, a, b, c, d) := merge_data_4_w ia ib ic id a b c d in
      Ok (Some a, Some b, Some c, Some d, Some indices)
    | _, _, _, _, _, _, _, _ => Ok (None, None, None, None, None)
    end.
(* src/lib.rs L211-247 : unify_index_data *)
Definition unify_index_data_w {E} (m : mesh) : res E mesh :=
  let* (v, n, u, t, indices) :=
    smart_merge_data_4_w (vertices m) (normals m) (uvs m) (tangents m)
      (vertex_triangles m) (normal_triangles m) (uv_triangles m) (tangent_triangles m) in
  match indices with
  | None => Ok m
  | Some indices =>
    let m := match v with
             | Some v => fst (set_vertex_triangles (fst (set_vertices m v)) indices)
             | None => m end in
    let m := match n with
             | Some n => fst (set_normal_triangles (fst (set_normals m n)) indices)
             | None => m end in
    let m := match u with
             | Some u => fst (set_uv_triangles (fst (set_uvs m u)) indices)
             | None => m end in
    let m := match t with
             | Some t => fst (set_tangent_triangles (fst (set_tangents m t)) indices)
             | None => m end in
    Ok m
  end.
End Width.
