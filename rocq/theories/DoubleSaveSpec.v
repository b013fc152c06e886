(** What a save by a program built with [double_precision] must keep: as SaveSpec.v, for meshes
    whose numbers are f64. Written in terms of meshes only. *)
From Coq Require Import List NArith ZArith Arith Bool.
From Verif Require Import Floats CustomData Mesh FileSpec SaveSpec Double.
Import ListNotations.

Definition same_data_d (a b : dcdata) : Prop :=
  match a, b with
  | XIndex l _, XIndex l' _ => l = l'
  | XInteger l _, XInteger l' _ => l = l'
  | XFloat l _, XFloat l' _ => length l = length l'
  | XColor l _, XColor l' _ => length l = length l'
  | _, _ => False
  end.
Definition same_custom_d (a b : dcseg) : Prop :=
  x_name a = x_name b /\ x_name_len a = x_name_len b /\ same_data_d (x_data a) (x_data b).
(** Everything of a mesh that is stored without loss, with the custom data in the opposite order. *)
Record same_shape_rev_d (a b : dmesh) : Prop := {
  da_vertex_triangles : d_vertex_triangles a = d_vertex_triangles b;
  da_normal_triangles : d_normal_triangles a = d_normal_triangles b;
  da_uv_triangles : d_uv_triangles a = d_uv_triangles b;
  da_tangent_triangles : d_tangent_triangles a = d_tangent_triangles b;
  da_vertices : same_len (d_vertices a) (d_vertices b);
  da_normals : same_len (d_normals a) (d_normals b);
  da_uvs : same_len (d_uvs a) (d_uvs b);
  da_tangents : same_len (d_tangents a) (d_tangents b);
  da_custom : Forall2 same_custom_d (rev (d_custom_data a)) (d_custom_data b) }.
(** The same, when the file is loaded by a program built without the feature. *)
Definition same_data_df (a : dcdata) (b : cdata) : Prop :=
  match a, b with
  | XIndex l _, CIndex l' _ => l = l'
  | XInteger l _, CInteger l' _ => l = l'
  | XFloat l _, CFloat l' _ => length l = length l'
  | XColor l _, CColor l' _ => length l = length l'
  | _, _ => False
  end.
Definition same_custom_df (a : dcseg) (b : cseg) : Prop :=
  x_name a = c_name b /\ x_name_len a = c_name_len b /\ same_data_df (x_data a) (c_data b).
Definition same_len2 {A B} (a : option (list A)) (b : option (list B)) : Prop :=
  match a, b with
  | Some x, Some y => length x = length y
  | None, None => True
  | _, _ => False
  end.
Record same_shape_rev_df (a : dmesh) (b : mesh) : Prop := {
  df_vertex_triangles : d_vertex_triangles a = vertex_triangles b;
  df_normal_triangles : d_normal_triangles a = normal_triangles b;
  df_uv_triangles : d_uv_triangles a = uv_triangles b;
  df_tangent_triangles : d_tangent_triangles a = tangent_triangles b;
  df_vertices : same_len2 (d_vertices a) (vertices b);
  df_normals : same_len2 (d_normals a) (normals b);
  df_uvs : same_len2 (d_uvs a) (uvs b);
  df_tangents : same_len2 (d_tangents a) (tangents b);
  df_custom : Forall2 same_custom_df (rev (d_custom_data a)) (custom_data b) }.

(** The limits of the format, as in SaveSpec.v. *)
Definition custom_ok_d (s : dcseg) : Prop :=
  Forall (fun b => (b < 256)%N) (x_name s) /\ x_name_len s = len (x_name s) /\ (x_name_len s <= 255)%N /\
  match x_data s with
  | XIndex l m | XInteger l m => integers_ok l m
  | XFloat l _ => (len l <= 2 ^ 27)%N
  | XColor l _ => (len l <= 2 ^ 27)%N
  end.
Record storable_d (m : dmesh) : Prop := {
  sd_vertices : small (d_vertices m);
  sd_normals : small (d_normals m);
  sd_uvs : small (d_uvs m);
  sd_tangents : small (d_tangents m);
  sd_vertex_triangles : indices_ok (d_vertex_triangles m);
  sd_normal_triangles : indices_ok (d_normal_triangles m);
  sd_uv_triangles : indices_ok (d_uv_triangles m);
  sd_tangent_triangles : indices_ok (d_tangent_triangles m);
  sd_custom : Forall custom_ok_d (d_custom_data m) }.
