(** Model of editing a mesh in a program built with the feature [double_precision]:
    FloatType is f64 (src/lib.rs L74-75). The code is that of Mesh.v with the other float
    type; the functions of Unify.v and Utilis.v work on arrays of anything. *)
From Coq Require Import List NArith ZArith Arith Bool.
From Flocq Require Import IEEE754.BinarySingleNaN.
From Verif Require Import Base Floats Utilis Unify CustomData Mesh FastTrig Double.
Import ListNotations.
Open Scope res_scope.

(* src/custom_data.rs L19-26 : new_raw. The Rust buffer is the name followed by
   zeros up to 255 bytes, of which name_len are kept. *)
Definition d_new_raw (data : dcdata) (name : list N) (name_len : N) : dcseg :=
  mk_dcseg (firstn (N.to_nat name_len) (name ++ repeat 0%N (255 - length name))) name_len data.

(* src/custom_data.rs L36-48 : CustomDataSegment::new. [name] is the name's bytes. *)
Definition d_cseg_new (data : dcdata) (name : list N) : res dserr dcseg :=
  let len := length name in
  if (255 <? N.of_nat len)%N then Err NameTooLong
  else if len =? 0 then Err NoName
  else Ok (d_new_raw data name (N.of_nat len)).

(* src/lib.rs L270-402 : the setters. Result: the mesh after the call and the
   returned previous value. *)
Definition d_with_normals (m : dmesh) x :=
  mk_dmesh x (d_normal_triangles m) (d_vertices m) (d_vertex_triangles m) (d_uvs m) (d_uv_triangles m)
          (d_tangents m) (d_tangent_triangles m) (d_custom_data m).
Definition d_with_normal_triangles (m : dmesh) x :=
  mk_dmesh (d_normals m) x (d_vertices m) (d_vertex_triangles m) (d_uvs m) (d_uv_triangles m)
          (d_tangents m) (d_tangent_triangles m) (d_custom_data m).
Definition d_with_vertices (m : dmesh) x :=
  mk_dmesh (d_normals m) (d_normal_triangles m) x (d_vertex_triangles m) (d_uvs m) (d_uv_triangles m)
          (d_tangents m) (d_tangent_triangles m) (d_custom_data m).
Definition d_with_vertex_triangles (m : dmesh) x :=
  mk_dmesh (d_normals m) (d_normal_triangles m) (d_vertices m) x (d_uvs m) (d_uv_triangles m)
          (d_tangents m) (d_tangent_triangles m) (d_custom_data m).
Definition d_with_uvs (m : dmesh) x :=
  mk_dmesh (d_normals m) (d_normal_triangles m) (d_vertices m) (d_vertex_triangles m) x (d_uv_triangles m)
          (d_tangents m) (d_tangent_triangles m) (d_custom_data m).
Definition d_with_uv_triangles (m : dmesh) x :=
  mk_dmesh (d_normals m) (d_normal_triangles m) (d_vertices m) (d_vertex_triangles m) (d_uvs m) x
          (d_tangents m) (d_tangent_triangles m) (d_custom_data m).
Definition d_with_tangents (m : dmesh) x :=
  mk_dmesh (d_normals m) (d_normal_triangles m) (d_vertices m) (d_vertex_triangles m) (d_uvs m)
          (d_uv_triangles m) x (d_tangent_triangles m) (d_custom_data m).
Definition d_with_tangent_triangles (m : dmesh) x :=
  mk_dmesh (d_normals m) (d_normal_triangles m) (d_vertices m) (d_vertex_triangles m) (d_uvs m)
          (d_uv_triangles m) (d_tangents m) x (d_custom_data m).
Definition d_with_custom_data (m : dmesh) x :=
  mk_dmesh (d_normals m) (d_normal_triangles m) (d_vertices m) (d_vertex_triangles m) (d_uvs m)
          (d_uv_triangles m) (d_tangents m) (d_tangent_triangles m) x.

(* src/lib.rs L270-272, L294-296, L318-320, L344-346, L355-360, L369-374,
   L383-388, L397-402 *)
Definition d_set_vertices (m : dmesh) l := (d_with_vertices m (Some l), d_vertices m).
Definition d_set_normals (m : dmesh) l := (d_with_normals m (Some l), d_normals m).
Definition d_set_tangents (m : dmesh) l := (d_with_tangents m (Some l), d_tangents m).
Definition d_set_uvs (m : dmesh) l := (d_with_uvs m (Some l), d_uvs m).
Definition d_set_vertex_triangles (m : dmesh) l := (d_with_vertex_triangles m (Some l), d_vertex_triangles m).
Definition d_set_normal_triangles (m : dmesh) l := (d_with_normal_triangles m (Some l), d_normal_triangles m).
Definition d_set_uv_triangles (m : dmesh) l := (d_with_uv_triangles m (Some l), d_uv_triangles m).
Definition d_set_tangent_triangles (m : dmesh) l := (d_with_tangent_triangles m (Some l), d_tangent_triangles m).

(* src/lib.rs L974-981, L992-999, L1010-1017, L1028-1035, L1046-1053, L1064-1071,
   L1082-1089, L1100-1107 : the appenders *)
Definition d_append_vertices (m : dmesh) l : dmesh :=
  match d_vertices m with
  | Some v => d_with_vertices m (Some (v ++ l)) | None => fst (d_set_vertices m l) end.
Definition d_append_normals (m : dmesh) l : dmesh :=
  match d_normals m with
  | Some v => d_with_normals m (Some (v ++ l)) | None => fst (d_set_normals m l) end.
Definition d_append_tangents (m : dmesh) l : dmesh :=
  match d_tangents m with
  | Some v => d_with_tangents m (Some (v ++ l)) | None => fst (d_set_tangents m l) end.
Definition d_append_uvs (m : dmesh) l : dmesh :=
  match d_uvs m with
  | Some v => d_with_uvs m (Some (v ++ l)) | None => fst (d_set_uvs m l) end.
Definition d_append_vertex_triangles (m : dmesh) l : dmesh :=
  match d_vertex_triangles m with
  | Some v => d_with_vertex_triangles m (Some (v ++ l)) | None => fst (d_set_vertex_triangles m l) end.
Definition d_append_normal_triangles (m : dmesh) l : dmesh :=
  match d_normal_triangles m with
  | Some v => d_with_normal_triangles m (Some (v ++ l)) | None => fst (d_set_normal_triangles m l) end.
Definition d_append_uv_triangles (m : dmesh) l : dmesh :=
  match d_uv_triangles m with
  | Some v => d_with_uv_triangles m (Some (v ++ l)) | None => fst (d_set_uv_triangles m l) end.
Definition d_append_tangent_triangles (m : dmesh) l : dmesh :=
  match d_tangent_triangles m with
  | Some v => d_with_tangent_triangles m (Some (v ++ l)) | None => fst (d_set_tangent_triangles m l) end.

(* src/lib.rs L921-923 : add_custom_data_seg *)
Definition d_add_custom_data_seg (m : dmesh) (s : dcseg) : dmesh :=
  d_with_custom_data m (d_custom_data m ++ [s]).
(* src/lib.rs L913-920 : add_custom_data. On an error the mesh is not touched. *)
Definition d_add_custom_data (m : dmesh) (d : dcdata) (name : list N) : res dserr dmesh :=
  let* s := d_cseg_new d name in Ok (d_add_custom_data_seg m s).

(* src/lib.rs L955-961 : the loop of lookup_custom_data. Slicing the stored name
   panics if it is shorter than name_len. *)
Fixpoint d_lookup_loop {E} (segs : list dcseg) (bytes : list N) (bytes_len : N) : res E (option dcdata) :=
  match segs with
  | [] => Ok None
  | s :: t =>
    if (x_name_len s =? bytes_len)%N then
      if (N.of_nat (length (x_name s)) <? x_name_len s)%N then Panic
      else if list_eqb bytes (firstn (N.to_nat (x_name_len s)) (x_name s)) then Ok (Some (x_data s))
      else d_lookup_loop t bytes bytes_len
    else d_lookup_loop t bytes bytes_len
  end.
(* src/lib.rs L949-963 : lookup_custom_data *)
Definition d_lookup_custom_data {E} (m : dmesh) (name : list N) : res E (option dcdata) :=
  if (255 <? N.of_nat (length name))%N then Ok None
  else d_lookup_loop (d_custom_data m) name (N.of_nat (length name)).

(* src/lib.rs L530-541, L558-569, L585-596 *)
Definition d_get_vertex_buffer (m : dmesh) := buffer (d_vertices m) (d_vertex_triangles m).
Definition d_get_normal_buffer (m : dmesh) := buffer (d_normals m) (d_normal_triangles m).
Definition d_get_uv_buffer (m : dmesh) := buffer (d_uvs m) (d_uv_triangles m).

(* src/lib.rs L167-189 : reorder_data *)
Definition d_reorder_data {E} (m : dmesh) : res E dmesh :=
  let* m :=
    match d_vertices m, d_vertex_triangles m with
    | Some v, Some t =>
      let* (t, v) := optimize_triangle_indices t v in
      Ok (fst (d_set_vertex_triangles (fst (d_set_vertices m v)) t))
    | _, _ => Ok m
    end in
  let* m :=
    match d_normals m, d_normal_triangles m with
    | Some v, Some t =>
      let* (t, v) := optimize_triangle_indices t v in
      Ok (fst (d_set_normal_triangles (fst (d_set_normals m v)) t))
    | _, _ => Ok m
    end in
  match d_uvs m, d_uv_triangles m with
  | Some v, Some t =>
    let* (t, v) := optimize_triangle_indices t v in
    Ok (fst (d_set_uv_triangles (fst (d_set_uvs m v)) t))
  | _, _ => Ok m
  end.

(* src/lib.rs L211-247 : unify_index_data *)
Definition d_unify_index_data {E} (m : dmesh) : res E dmesh :=
  let* (v, n, u, t, indices) :=
    smart_merge_data_4 (d_vertices m) (d_normals m) (d_uvs m) (d_tangents m)
      (d_vertex_triangles m) (d_normal_triangles m) (d_uv_triangles m) (d_tangent_triangles m) in
  match indices with
  | None => Ok m
  | Some indices =>
    let m := match v with
             | Some v => fst (d_set_vertex_triangles (fst (d_set_vertices m v)) indices)
             | None => m end in
    let m := match n with
             | Some n => fst (d_set_normal_triangles (fst (d_set_normals m n)) indices)
             | None => m end in
    let m := match u with
             | Some u => fst (d_set_uv_triangles (fst (d_set_uvs m u)) indices)
             | None => m end in
    let m := match t with
             | Some t => fst (d_set_tangent_triangles (fst (d_set_tangents m t)) indices)
             | None => m end in
    Ok m
  end.
