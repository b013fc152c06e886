(** Specification for loading and saving with another index type. Nothing here refers to
    the loader or the writer. *)
From Coq Require Import List NArith.
From Verif Require Import Base Floats CustomData Mesh.
Import ListNotations.

(** An index cut down to [w] bits: what a cast to an unsigned type of [w] bits does. *)
Definition cut (w : nat) (i : N) : N := (i mod 2 ^ N.of_nat w)%N.
Definition cut_array (w : nat) (o : option (list N)) : option (list N) := option_map (map (cut w)) o.
(** The largest element of an array, 0 if there is none. *)
Definition largest (l : list N) : N := fold_right N.max 0%N l.
(** A custom segment whose indices or integers are cut, which also determines the largest
    value remembered beside them. *)
Definition cut_custom (w : nat) (a b : cseg) : Prop :=
  c_name a = c_name b /\ c_name_len a = c_name_len b /\
  match c_data a with
  | CIndex l _ => c_data b = CIndex (map (cut w) l) (largest (map (cut w) l))
  | CInteger l _ => c_data b = CInteger (map (cut w) l) (largest (map (cut w) l))
  | d => c_data b = d
  end.

(** [b] is [a] with every index cut down to [w] bits. *)
Record cut_mesh (w : nat) (a b : mesh * list N) : Prop := {
  cm_name : snd b = snd a;
  cm_vertices : vertices (fst b) = vertices (fst a);
  cm_normals : normals (fst b) = normals (fst a);
  cm_uvs : uvs (fst b) = uvs (fst a);
  cm_tangents : tangents (fst b) = tangents (fst a);
  cm_vertex_triangles : vertex_triangles (fst b) = cut_array w (vertex_triangles (fst a));
  cm_normal_triangles : normal_triangles (fst b) = cut_array w (normal_triangles (fst a));
  cm_uv_triangles : uv_triangles (fst b) = cut_array w (uv_triangles (fst a));
  cm_tangent_triangles : tangent_triangles (fst b) = cut_array w (tangent_triangles (fst a));
  cm_custom : Forall2 (cut_custom w) (custom_data (fst a)) (custom_data (fst b)) }.

(** Every index of the mesh (and every custom index or integer) fits in [w] bits. *)
Definition fits_all (w : nat) (l : list N) : Prop := Forall (fun i => (i < 2 ^ N.of_nat w)%N) l.
Definition fits_opt (w : nat) (o : option (list N)) : Prop :=
  match o with Some l => fits_all w l | None => True end.
Definition fits_custom (w : nat) (s : cseg) : Prop :=
  match c_data s with
  | CIndex l _ => fits_all w l
  | CInteger l _ => fits_all w l
  | _ => True
  end.
Record indices_fit (w : nat) (m : mesh) : Prop := {
  if_vertex : fits_opt w (vertex_triangles m);
  if_normal : fits_opt w (normal_triangles m);
  if_uv : fits_opt w (uv_triangles m);
  if_tangent : fits_opt w (tangent_triangles m);
  if_custom : Forall (fits_custom w) (custom_data m) }.
