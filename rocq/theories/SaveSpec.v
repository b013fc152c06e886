(** What a save must keep. Written in terms of meshes only. *)
From Coq Require Import List NArith ZArith Arith Bool.
From Flocq Require Import IEEE754.BinarySingleNaN.
From Verif Require Import Floats CustomData Mesh FileSpec.
Import ListNotations.

(** Both absent, or both present and equally long. *)
Definition same_len {A} (a b : option (list A)) : Prop :=
  match a, b with
  | Some x, Some y => length x = length y
  | None, None => True
  | _, _ => False
  end.

(** Custom data with the same name and kind; index and integer arrays are equal,
    float and colour arrays equally long. *)
Definition same_data (a b : cdata) : Prop :=
  match a, b with
  | CIndex l _, CIndex l' _ => l = l'
  | CInteger l _, CInteger l' _ => l = l'
  | CFloat l _, CFloat l' _ => length l = length l'
  | CColor l _, CColor l' _ => length l = length l'
  | _, _ => False
  end.
Definition same_custom (a b : cseg) : Prop :=
  c_name a = c_name b /\ c_name_len a = c_name_len b /\ same_data (c_data a) (c_data b).

(** Everything of a mesh that is stored without loss. *)
Record same_arrays (a b : mesh) : Prop := {
  sa_vertex_triangles : vertex_triangles a = vertex_triangles b;
  sa_normal_triangles : normal_triangles a = normal_triangles b;
  sa_uv_triangles : uv_triangles a = uv_triangles b;
  sa_tangent_triangles : tangent_triangles a = tangent_triangles b;
  sa_vertices : same_len (vertices a) (vertices b);
  sa_normals : same_len (normals a) (normals b);
  sa_uvs : same_len (uvs a) (uvs b);
  sa_tangents : same_len (tangents a) (tangents b) }.
(** ... with the custom data in the same order / in the opposite order. *)
Definition same_shape (a b : mesh) : Prop :=
  same_arrays a b /\ Forall2 same_custom (custom_data a) (custom_data b).
Definition same_shape_rev (a b : mesh) : Prop :=
  same_arrays a b /\ Forall2 same_custom (rev (custom_data a)) (custom_data b).

(** The limits of the format: 2^27 elements per array, indices below 2^31. *)
Definition small {A} (o : option (list A)) : Prop :=
  forall l, o = Some l -> (len l <= 2 ^ 27)%N.
Definition indices_ok (o : option (list N)) : Prop :=
  forall l, o = Some l -> (len l <= 2 ^ 27)%N /\ Forall (fun i => (i < 2 ^ 31)%N) l.
(** A declared maximum [m] of custom integer data must be one. *)
Definition integers_ok (l : list N) (m : N) : Prop :=
  (len l <= 2 ^ 27)%N /\ Forall (fun i => (i < 2 ^ 31 /\ i <= m)%N) l /\
  (m < 2 ^ 31 \/ 2 ^ 32 <= m < 2 ^ 63)%N.
Definition custom_ok (s : cseg) : Prop :=
  Forall (fun b => (b < 256)%N) (c_name s) /\ c_name_len s = len (c_name s) /\ (c_name_len s <= 255)%N /\
  match c_data s with
  | CIndex l m | CInteger l m => integers_ok l m
  | CFloat l _ => (len l <= 2 ^ 27)%N
  | CColor l _ => (len l <= 2 ^ 27)%N
  end.
Record storable (m : mesh) : Prop := {
  st_vertices : small (vertices m);
  st_normals : small (normals m);
  st_uvs : small (uvs m);
  st_tangents : small (tangents m);
  st_vertex_triangles : indices_ok (vertex_triangles m);
  st_normal_triangles : indices_ok (normal_triangles m);
  st_uv_triangles : indices_ok (uv_triangles m);
  st_tangent_triangles : indices_ok (tangent_triangles m);
  st_custom : Forall custom_ok (custom_data m) }.

(** The complete triangles of an index array. *)
Fixpoint triples (t : list N) : list (N * N * N) :=
  match t with
  | a :: b :: c :: rest => (a, b, c) :: triples rest
  | _ => []
  end.
Definition corner (vs : list vec3) (i : N) (v : vec3) : Prop := nth_error vs (N.to_nat i) = Some v.
(** All corners of complete triangles exist. *)
Definition corners_exist (vs : list vec3) (t : list N) : Prop :=
  Forall (fun '(a, b, c) => (a < len vs /\ b < len vs /\ c < len vs)%N) (triples t).
(** Some complete triangle has an edge whose computed length is finite. *)
Definition finite_edge (dist : vec3 -> vec3 -> f32) (vs : list vec3) (t : list N) : Prop :=
  Exists (fun '(a, b, c) => exists va vb vc, corner vs a va /\ corner vs b vb /\ corner vs c vc /\
            (is_finite (dist va vb) = true \/ is_finite (dist vb vc) = true \/ is_finite (dist vc va) = true))
         (triples t).

(** Number of elements a mesh holds. *)
Definition osize {A} (o : option (list A)) : nat := match o with Some l => length l | None => 0 end.
Definition size (m : mesh) : nat :=
  osize (vertices m) + osize (normals m) + osize (uvs m) + osize (tangents m) +
  osize (vertex_triangles m) + osize (normal_triangles m) + osize (uv_triangles m) +
  osize (tangent_triangles m) + length (custom_data m).

(** Size of a file: 15 bytes of header, per mesh the name and 4 bytes, per segment
    the payload and 6 bytes. *)
Definition sum_by {A} (f : A -> N) (l : list A) : N := fold_right (fun a s => (f a + s)%N) 0%N l.
Definition raw_size (ms : list raw_mesh) : N :=
  (15 + sum_by (fun m => 4 + len (fst m) + sum_by (fun s => 6 + len (r_payload s)) (snd m)) ms)%N.
