(** Specification of property C88 for builds with other number types: what every imported OBJ text
    gives. [F] is the float type, [top] the number of values of the index type. *)
From Coq Require Import List NArith Bool.
From Verif Require Import FileSpec MeshSpec ObjAny.
Import ListNotations.

(** [k] triangles. The index array has three entries for each, all below the largest number of
    the index type. *)
Definition any_triangle_indices (top : N) (k : nat) (t : list N) : Prop :=
  length t = 3 * k /\ Forall (fun i => (i + 1 < top)%N) t.
(** A mesh of [k] triangles with vertices, normals and UVs and their three index arrays. *)
Definition any_imported {F} (top : N) (k : nat) (m : any_mesh F) : Prop :=
  exists v tv n tn u tu, m = mk_any_mesh (Some n) (Some tn) (Some v) (Some tv) (Some u) (Some tu) /\
    any_triangle_indices top k tv /\ any_triangle_indices top k tn /\ any_triangle_indices top k tu.
(** All indices are in range. *)
Definition any_inside {A} (d : option (list A)) (t : option (list N)) : Prop :=
  forall d0 t0, d = Some d0 -> t = Some t0 -> in_range d0 t0.
Definition any_complete {F} (m : any_mesh F) : Prop :=
  any_inside (a_vertices m) (a_vertex_triangles m) /\ any_inside (a_normals m) (a_normal_triangles m) /\ any_inside (a_uvs m) (a_uv_triangles m).
