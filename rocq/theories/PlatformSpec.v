(** Specification for loading the same bytes with two mathematics libraries. Nothing
    here refers to the decoder. *)
From Coq Require Import List NArith Reals.
From Verif Require Import Base Floats CustomData Mesh ValueSpec.
Import ListNotations.
Local Open Scope R_scope.

(** Two loaded meshes with the same name and the same contents, except that [P] holds
    between corresponding normals and between the directions of corresponding tangents
    (whose handedness is the same). *)
Record same_but (P : vec3 -> vec3 -> Prop) (a b : mesh * list N) : Prop := {
  sb_name : snd a = snd b;
  sb_vertices : vertices (fst a) = vertices (fst b);
  sb_uvs : uvs (fst a) = uvs (fst b);
  sb_vertex_triangles : vertex_triangles (fst a) = vertex_triangles (fst b);
  sb_normal_triangles : normal_triangles (fst a) = normal_triangles (fst b);
  sb_uv_triangles : uv_triangles (fst a) = uv_triangles (fst b);
  sb_tangent_triangles : tangent_triangles (fst a) = tangent_triangles (fst b);
  sb_custom : custom_data (fst a) = custom_data (fst b);
  sb_normals : arrays P (normals (fst a)) (normals (fst b));
  sb_tangents : arrays (fun t t' => P (fst t) (fst t') /\ snd t = snd t') (tangents (fst a)) (tangents (fst b)) }.

(** The same error, or both a panic, or values related by [R]. *)
Definition same_outcome {E A B} (R : A -> B -> Prop) (a : res E A) (b : res E B) : Prop :=
  match a, b with
  | Ok x, Ok y => R x y
  | Err e, Err e' => e = e'
  | Panic, Panic => True
  | _, _ => False
  end.

(** The third components are the same float. *)
Definition same_z (n n' : vec3) : Prop := snd n = snd n'.
(** No component differs by more than [e]; all are finite. *)
Definition near3 (e : R) (n n' : vec3) : Prop :=
  finite3 n /\ finite3 n' /\
  within e (fst (fst n)) (fst (fst n')) /\ within e (snd (fst n)) (snd (fst n')) /\ within e (snd n) (snd n').
