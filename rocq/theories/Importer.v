(** Model of src/model_importer.rs and of src/triangulation.rs (which is included in
    it when the feature "triangulation" is on). *)
From Coq Require Import List NArith ZArith Arith Bool.
From Flocq Require Import IEEE754.BinarySingleNaN.
From Verif Require Import Base Floats Utilis Mesh.
Import ListNotations.
Open Scope res_scope.

(* src/model_importer.rs L9-17 : struct ModelImporter *)
Record importer := mk_importer {
  i_vertices : list vec3;
  i_normals : list vec3;
  i_uvs : list vec2;
  i_vertex_triangles : list N;
  i_normal_triangles : list N;
  i_uv_triangles : list N;
  i_name : list N }.
(* src/model_importer.rs L19-29 : new *)
Definition importer_new : importer := mk_importer [] [] [] [] [] [] [].

(* src/model_importer.rs L36-53 and L62-80 : the mesh made of what was read so far *)
Definition imported_mesh (s : importer) : mesh :=
  let (vertices, vertex_triangles) := fast_prune (i_vertices s) (i_vertex_triangles s) in
  let (normals, normal_triangles) := fast_prune (i_normals s) (i_normal_triangles s) in
  let (uvs, uv_triangles) := fast_prune (i_uvs s) (i_uv_triangles s) in
  let m := empty in
  let m := fst (set_vertices m vertices) in
  let m := fst (set_normals m normals) in
  let m := fst (set_uvs m uvs) in
  let m := fst (set_vertex_triangles m vertex_triangles) in
  let m := fst (set_normal_triangles m normal_triangles) in
  fst (set_uv_triangles m uv_triangles).
(* src/model_importer.rs L30-60 : next_mesh *)
Definition next_mesh (s : importer) (name : list N) : importer * option (mesh * list N) :=
  match i_vertex_triangles s with
  | [] => (mk_importer (i_vertices s) (i_normals s) (i_uvs s) (i_vertex_triangles s)
                       (i_normal_triangles s) (i_uv_triangles s) name, None)
  | _ => (mk_importer (i_vertices s) (i_normals s) (i_uvs s) [] [] [] name,
          Some (imported_mesh s, i_name s))
  end.
(* src/model_importer.rs L61-83 : finish. It never returns an error. *)
Definition importer_finish (s : importer) : mesh * list N := (imported_mesh s, i_name s).

(* src/model_importer.rs L84-104 : the push functions *)
Definition push_vertex (s : importer) (v : vec3) : importer :=
  mk_importer (i_vertices s ++ [v]) (i_normals s) (i_uvs s) (i_vertex_triangles s)
              (i_normal_triangles s) (i_uv_triangles s) (i_name s).
Definition push_normal (s : importer) (v : vec3) : importer :=
  mk_importer (i_vertices s) (i_normals s ++ [v]) (i_uvs s) (i_vertex_triangles s)
              (i_normal_triangles s) (i_uv_triangles s) (i_name s).
Definition push_uv (s : importer) (v : vec2) : importer :=
  mk_importer (i_vertices s) (i_normals s) (i_uvs s ++ [v]) (i_vertex_triangles s)
              (i_normal_triangles s) (i_uv_triangles s) (i_name s).
Definition push_vertex_index (s : importer) (i : N) : importer :=
  mk_importer (i_vertices s) (i_normals s) (i_uvs s) (i_vertex_triangles s ++ [i])
              (i_normal_triangles s) (i_uv_triangles s) (i_name s).
Definition push_normal_index (s : importer) (i : N) : importer :=
  mk_importer (i_vertices s) (i_normals s) (i_uvs s) (i_vertex_triangles s)
              (i_normal_triangles s ++ [i]) (i_uv_triangles s) (i_name s).
Definition push_uv_index (s : importer) (i : N) : importer :=
  mk_importer (i_vertices s) (i_normals s) (i_uvs s) (i_vertex_triangles s)
              (i_normal_triangles s) (i_uv_triangles s ++ [i]) (i_name s).

(** ** src/triangulation.rs *)

(* src/triangulation.rs L6-12 : compute_angle *)
Definition compute_angle (acos : f32 -> f32) (prev curr next : vec3) : f32 :=
  let cp := normalize (sub_vec3 curr prev) in
  let cn := normalize (sub_vec3 curr next) in
  acos (dot cp cn).
(* src/triangulation.rs L13-25 : eval_ear, with L26-33 : is_line_inside_poly, which
   is always true *)
Definition eval_ear {E} (acos : f32 -> f32) (tri : N * N * N) (vertices : list vec3) : res E f32 :=
  let '(p0, p1, p2) := tri in
  let* v0 := index vertices p0 in
  let* v1 := index vertices p1 in
  let* v2 := index vertices p2 in
  Ok (compute_angle acos v0 v1 v2).
(** usize: wrapping_sub(1) and wrapping_add(1). *)
Definition pred64 (i : N) : N := if (i =? 0)%N then (two64 - 1)%N else (i - 1)%N.
Definition succ64 (i : N) : N := ((i + 1) mod two64)%N.
Definition ulen {A} (l : list A) : N := N.of_nat (length l).
(* src/triangulation.rs L34-49 : calc_ear_val_at_index. The length is not 0 where it
   is called. *)
Definition calc_ear_val_at_index {E} (acos : f32 -> f32) (indices : list N) (i : N) (vertices : list vec3) : res E f32 :=
  let* p0 := index indices (pred64 i mod ulen indices)%N in
  let* p1 := index indices i in
  let* p2 := index indices (succ64 i mod ulen indices)%N in
  eval_ear acos (p0, p1, p2) vertices.
(* src/triangulation.rs L58-61 : the loop filling ear_vals, from index [i] with [n]
   more to do *)
Fixpoint all_ears {E} (acos : f32 -> f32) (indices : list N) (vertices : list vec3) (n : nat) (i : N) : res E (list f32) :=
  match n with
  | O => Ok []
  | S k =>
    let* e := calc_ear_val_at_index acos indices i vertices in
    let* t := all_ears acos indices vertices k (i + 1)%N in
    Ok (e :: t)
  end.
(* src/triangulation.rs L63-68 : the search for the best ear *)
Fixpoint best_ear {E} (ear_vals : list f32) (n : nat) (i best : N) : res E N :=
  match n with
  | O => Ok best
  | S k =>
    let* a := index ear_vals i in
    let* b := index ear_vals best in
    best_ear ear_vals k (i + 1)%N (if flt b a then i else best)
  end.
(** Vec::remove, for an index in range. *)
Fixpoint remove {A} (l : list A) (i : N) : list A :=
  match l with
  | [] => []
  | x :: t => if (i =? 0)%N then t else x :: remove t (i - 1)
  end.
(** Pushing the corners at three positions of the three index arrays. *)
Definition push_corner {E} (s : importer) (v n u : list N) (i : N) : res E importer :=
  let* a := index v i in
  let* b := index n i in
  let* c := index u i in
  Ok (push_uv_index (push_normal_index (push_vertex_index s a) b) c).
(* src/triangulation.rs L62-96 : the main loop; each round removes a corner, [fuel]
   rounds at most. L73-83 push the three vertex indices first, then the normals',
   then the uvs'; these go to different arrays, so the order does not matter.
   L91-94: both ear values are computed from the new index list. *)
Fixpoint cut_ears {E} (acos : f32 -> f32) (fuel : nat) (s : importer) (v n u : list N) (ear_vals : list f32)
  : res E (importer * list N * list N * list N) :=
  match fuel with
  | O => Ok (s, v, n, u)
  | S fuel =>
    if (ulen v <=? 3)%N then Ok (s, v, n, u)
    else
      let* best := best_ear ear_vals (length v) 0 0 in
      let* s := push_corner s v n u (pred64 best mod ulen v)%N in
      let* s := push_corner s v n u best in
      let* s := push_corner s v n u (succ64 best mod ulen v)%N in
      let v := remove v best in
      let n := remove n best in
      let u := remove u best in
      let ear_vals := remove ear_vals best in
      let curr := (best mod ulen v)%N in
      let prev := (pred64 best mod ulen v)%N in
      let* e := calc_ear_val_at_index acos v curr (i_vertices s) in
      let ear_vals := update ear_vals curr e in
      let* e := calc_ear_val_at_index acos v prev (i_vertices s) in
      let ear_vals := update ear_vals prev e in
      cut_ears acos fuel s v n u ear_vals
  end.
(* src/triangulation.rs L51-108 : triangulate. The caller made sure that the lengths
   are equal (the debug_assert of L57). *)
Definition triangulate {E} (acos : f32 -> f32) (s : importer) (v n u : list N) : res E importer :=
  let* ear_vals := all_ears acos v (i_vertices s) (length v) 0 in
  let* (s, v, n, u) := cut_ears acos (length v) s v n u ear_vals in
  let* s := push_corner s v n u 0 in
  let* s := push_corner s v n u 1 in
  push_corner s v n u 2.

(** The error of push_face is a message; only that there is one is modelled. *)
Inductive face_error := BadFace.
(* src/model_importer.rs L105-148 : push_face. [tri] is the platform's acos if the
   feature "triangulation" is on. *)
Definition push_face (tri : option (f32 -> f32)) (s : importer) (v u n : list N) : res face_error importer :=
  if negb ((length v =? length u) && (length v =? length n)) then Err BadFace
  else match v with
  | [] | [_] | [_; _] => Err BadFace
  | [_; _; _] =>
    let s := fold_left push_vertex_index v s in
    let s := fold_left push_uv_index u s in
    Ok (fold_left push_normal_index n s)
  | _ =>
    match tri with
    | None => Err BadFace
    | Some acos => triangulate acos s v n u
    end
  end.
