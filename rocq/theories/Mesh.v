(** Model of TMFMesh: src/lib.rs L127-1108 (file reading and writing is in File.v)
    and of src/verify.rs. *)
From Coq Require Import List NArith ZArith Arith Bool.
From Flocq Require Import IEEE754.BinarySingleNaN.
From Verif Require Import Base Floats Utilis Unify CustomData.
Import ListNotations.
Open Scope res_scope.

(* src/lib.rs L128-139 : struct TMFMesh. The getters (L411-514) are the fields. *)
Record mesh := mk_mesh {
  normals : option (list vec3);
  normal_triangles : option (list N);
  vertices : option (list vec3);
  vertex_triangles : option (list N);
  uvs : option (list vec2);
  uv_triangles : option (list N);
  tangents : option (list tangent);
  tangent_triangles : option (list N);
  custom_data : list cseg }.

(* src/lib.rs L788-801 : empty *)
Definition empty : mesh := mk_mesh None None None None None None None None [].

(* src/lib.rs L270-402 : the setters. Result: the mesh after the call and the
   returned previous value. *)
Definition with_normals (m : mesh) x :=
  mk_mesh x (normal_triangles m) (vertices m) (vertex_triangles m) (uvs m) (uv_triangles m)
          (tangents m) (tangent_triangles m) (custom_data m).
Definition with_normal_triangles (m : mesh) x :=
  mk_mesh (normals m) x (vertices m) (vertex_triangles m) (uvs m) (uv_triangles m)
          (tangents m) (tangent_triangles m) (custom_data m).
Definition with_vertices (m : mesh) x :=
  mk_mesh (normals m) (normal_triangles m) x (vertex_triangles m) (uvs m) (uv_triangles m)
          (tangents m) (tangent_triangles m) (custom_data m).
Definition with_vertex_triangles (m : mesh) x :=
  mk_mesh (normals m) (normal_triangles m) (vertices m) x (uvs m) (uv_triangles m)
          (tangents m) (tangent_triangles m) (custom_data m).
Definition with_uvs (m : mesh) x :=
  mk_mesh (normals m) (normal_triangles m) (vertices m) (vertex_triangles m) x (uv_triangles m)
          (tangents m) (tangent_triangles m) (custom_data m).
Definition with_uv_triangles (m : mesh) x :=
  mk_mesh (normals m) (normal_triangles m) (vertices m) (vertex_triangles m) (uvs m) x
          (tangents m) (tangent_triangles m) (custom_data m).
Definition with_tangents (m : mesh) x :=
  mk_mesh (normals m) (normal_triangles m) (vertices m) (vertex_triangles m) (uvs m)
          (uv_triangles m) x (tangent_triangles m) (custom_data m).
Definition with_tangent_triangles (m : mesh) x :=
  mk_mesh (normals m) (normal_triangles m) (vertices m) (vertex_triangles m) (uvs m)
          (uv_triangles m) (tangents m) x (custom_data m).
Definition with_custom_data (m : mesh) x :=
  mk_mesh (normals m) (normal_triangles m) (vertices m) (vertex_triangles m) (uvs m)
          (uv_triangles m) (tangents m) (tangent_triangles m) x.

(* src/lib.rs L270-272, L294-296, L318-320, L344-346, L355-360, L369-374,
   L383-388, L397-402 *)
Definition set_vertices (m : mesh) l := (with_vertices m (Some l), vertices m).
Definition set_normals (m : mesh) l := (with_normals m (Some l), normals m).
Definition set_tangents (m : mesh) l := (with_tangents m (Some l), tangents m).
Definition set_uvs (m : mesh) l := (with_uvs m (Some l), uvs m).
Definition set_vertex_triangles (m : mesh) l := (with_vertex_triangles m (Some l), vertex_triangles m).
Definition set_normal_triangles (m : mesh) l := (with_normal_triangles m (Some l), normal_triangles m).
Definition set_uv_triangles (m : mesh) l := (with_uv_triangles m (Some l), uv_triangles m).
Definition set_tangent_triangles (m : mesh) l := (with_tangent_triangles m (Some l), tangent_triangles m).

(* src/lib.rs L974-981, L992-999, L1010-1017, L1028-1035, L1046-1053, L1064-1071,
   L1082-1089, L1100-1107 : the appenders *)
Definition append_vertices (m : mesh) l : mesh :=
  match vertices m with
  | Some v => with_vertices m (Some (v ++ l)) | None => fst (set_vertices m l) end.
Definition append_normals (m : mesh) l : mesh :=
  match normals m with
  | Some v => with_normals m (Some (v ++ l)) | None => fst (set_normals m l) end.
Definition append_tangents (m : mesh) l : mesh :=
  match tangents m with
  | Some v => with_tangents m (Some (v ++ l)) | None => fst (set_tangents m l) end.
Definition append_uvs (m : mesh) l : mesh :=
  match uvs m with
  | Some v => with_uvs m (Some (v ++ l)) | None => fst (set_uvs m l) end.
Definition append_vertex_triangles (m : mesh) l : mesh :=
  match vertex_triangles m with
  | Some v => with_vertex_triangles m (Some (v ++ l)) | None => fst (set_vertex_triangles m l) end.
Definition append_normal_triangles (m : mesh) l : mesh :=
  match normal_triangles m with
  | Some v => with_normal_triangles m (Some (v ++ l)) | None => fst (set_normal_triangles m l) end.
Definition append_uv_triangles (m : mesh) l : mesh :=
  match uv_triangles m with
  | Some v => with_uv_triangles m (Some (v ++ l)) | None => fst (set_uv_triangles m l) end.
Definition append_tangent_triangles (m : mesh) l : mesh :=
  match tangent_triangles m with
  | Some v => with_tangent_triangles m (Some (v ++ l)) | None => fst (set_tangent_triangles m l) end.

(* src/lib.rs L921-923 : add_custom_data_seg *)
Definition add_custom_data_seg (m : mesh) (s : cseg) : mesh :=
  with_custom_data m (custom_data m ++ [s]).
(* src/lib.rs L913-920 : add_custom_data. On an error the mesh is not touched. *)
Definition add_custom_data (m : mesh) (d : cdata) (name : list N) : res dserr mesh :=
  let* s := cseg_new d name in Ok (add_custom_data_seg m s).

(* src/lib.rs L955-961 : the loop of lookup_custom_data. Slicing the stored name
   panics if it is shorter than name_len. *)
Fixpoint lookup_loop {E} (segs : list cseg) (bytes : list N) (bytes_len : N) : res E (option cdata) :=
  match segs with
  | [] => Ok None
  | s :: t =>
    if (c_name_len s =? bytes_len)%N then
      if (N.of_nat (length (c_name s)) <? c_name_len s)%N then Panic
      else if list_eqb bytes (firstn (N.to_nat (c_name_len s)) (c_name s)) then Ok (Some (c_data s))
      else lookup_loop t bytes bytes_len
    else lookup_loop t bytes bytes_len
  end.
(* src/lib.rs L949-963 : lookup_custom_data *)
Definition lookup_custom_data {E} (m : mesh) (name : list N) : res E (option cdata) :=
  if (255 <? N.of_nat (length name))%N then Ok None
  else lookup_loop (custom_data m) name (N.of_nat (length name)).

(* src/lib.rs L533-540, L561-568, L588-595 : the loop of the buffer getters *)
Fixpoint buffer_loop {A} (data : list A) (triangles : list N) (acc : list A) : option (list A) :=
  match triangles with
  | [] => Some acc
  | i :: t => match get data i with
              | Some x => buffer_loop data t (acc ++ [x])
              | None => None
              end
  end.
Definition buffer {A} (data : option (list A)) (triangles : option (list N)) : option (list A) :=
  match data with
  | None => None
  | Some d => match triangles with None => None | Some t => buffer_loop d t [] end
  end.
(* src/lib.rs L530-541, L558-569, L585-596 *)
Definition get_vertex_buffer (m : mesh) := buffer (vertices m) (vertex_triangles m).
Definition get_normal_buffer (m : mesh) := buffer (normals m) (normal_triangles m).
Definition get_uv_buffer (m : mesh) := buffer (uvs m) (uv_triangles m).

(* src/lib.rs L626-632 : normalize; src/normals.rs L62-66 : normalize_arr *)
Definition mesh_normalize (m : mesh) : mesh :=
  match normals m with
  | Some l => with_normals m (Some (map normalize l))
  | None => m
  end.

(* src/lib.rs L167-189 : reorder_data *)
Definition reorder_data {E} (m : mesh) : res E mesh :=
  let* m :=
    match vertices m, vertex_triangles m with
    | Some v, Some t =>
      let* (t, v) := optimize_triangle_indices t v in
      Ok (fst (set_vertex_triangles (fst (set_vertices m v)) t))
    | _, _ => Ok m
    end in
  let* m :=
    match normals m, normal_triangles m with
    | Some v, Some t =>
      let* (t, v) := optimize_triangle_indices t v in
      Ok (fst (set_normal_triangles (fst (set_normals m v)) t))
    | _, _ => Ok m
    end in
  match uvs m, uv_triangles m with
  | Some v, Some t =>
    let* (t, v) := optimize_triangle_indices t v in
    Ok (fst (set_uv_triangles (fst (set_uvs m v)) t))
  | _, _ => Ok m
  end.

(* src/lib.rs L211-247 : unify_index_data *)
Definition unify_index_data {E} (m : mesh) : res E mesh :=
  let* (v, n, u, t, indices) :=
    smart_merge_data_4 (vertices m) (normals m) (uvs m) (tangents m)
      (vertex_triangles m) (normal_triangles m) (uv_triangles m) (tangent_triangles m) in
  match indices with
  | None => Ok m
  | Some indices =>
    let m := match v with
             | Some v => fst (set_vertex_triangles (fst (set_vertices m v)) indices)
             | None => m end in
    let m := match n with
             | Some n => fst (set_normal_triangles (fst (set_normals m n)) indices)
             | None => m end in
    let m := match u with
             | Some u => fst (set_uv_triangles (fst (set_uvs m u)) indices)
             | None => m end in
    let m := match t with
             | Some t => fst (set_tangent_triangles (fst (set_tangents m t)) indices)
             | None => m end in
    Ok m
  end.

(** src/verify.rs *)
(* src/verify.rs L5-24 : TMFIntegrityStatus *)
Inductive integrity : Type :=
| VertexArrayMissing
| IndexOutsideVertexArray (i len : N)
| NormalArrayMissing
| NormalsNotNormalized
| IndexOutsideNormalArray (i len : N)
| UVOutsideRange (x y : f32)
| UVArrayMissing
| IndexOutsideUVArray (i len : N)
| CompositeError (l : list integrity).

(* src/verify.rs L62-69 : indices_inside_array *)
Fixpoint indices_inside_array (array : list N) (len : N) : option N :=
  match array with
  | [] => None
  | i :: t => if (len <? i)%N then Some i else indices_inside_array t len
  end.
(** [x.len() as IndexType] *)
Definition len32 {A} (l : list A) : N := (N.of_nat (length l) mod two32)%N.

(* src/verify.rs L70-90 : verify_vertices ([None] is Ok(())) *)
Definition verify_vertices (m : mesh) : option integrity :=
  match vertices m with
  | None => match vertex_triangles m with Some _ => Some VertexArrayMissing | None => None end
  | Some v =>
    match vertex_triangles m with
    | Some t => match indices_inside_array t (len32 v) with
                | Some i => Some (IndexOutsideVertexArray i (len32 v))
                | None => None
                end
    | None => None
    end
  end.
(* src/verify.rs L101-105 *)
Fixpoint uv_range_loop (l : list vec2) : option integrity :=
  match l with
  | [] => None
  | uv :: t =>
    if flt (fst uv) f0 && flt (snd uv) f0 && flt f1 (fst uv) && flt f1 (snd uv)
    then Some (UVOutsideRange (fst uv) (snd uv))
    else uv_range_loop t
  end.
(* src/verify.rs L91-118 : verify_uvs *)
Definition verify_uvs (m : mesh) : option integrity :=
  match uvs m with
  | None => match uv_triangles m with Some _ => Some UVArrayMissing | None => None end
  | Some v =>
    match uv_range_loop v with
    | Some e => Some e
    | None =>
      match uv_triangles m with
      | Some t => match indices_inside_array t (len32 v) with
                  | Some i => Some (IndexOutsideUVArray i (len32 v))
                  | None => None
                  end
      | None => None
      end
    end
  end.
(* src/verify.rs L131 : the test for one normal *)
Definition not_normalized (n : vec3) : bool := flt (flit 1 1000) (fabs (fsub f1 (magnitude n))).
(* src/verify.rs L120-149 : verify_normals *)
Definition verify_normals (m : mesh) : option integrity :=
  match normals m with
  | None => match normal_triangles m with Some _ => Some NormalArrayMissing | None => None end
  | Some v =>
    if existsb not_normalized v then Some NormalsNotNormalized
    else
      match normal_triangles m with
      | Some t => match indices_inside_array t (len32 v) with
                  | Some i => Some (IndexOutsideNormalArray i (len32 v))
                  | None => None
                  end
      | None => None
      end
  end.
(* src/verify.rs L150-173 : verify_tmf_mesh *)
Definition verify_tmf_mesh (m : mesh) : res integrity unit :=
  let errors := somes [verify_vertices m; verify_normals m; verify_uvs m] in
  match errors with
  | [] => Ok tt
  | [e] => Err e
  | _ => Err (CompositeError errors)
  end.
