(** Which meshes can be exported in builds with other number types. Independent of the model. *)
From Coq Require Import List NArith Bool.
From Verif Require Import FileSpec ObjSpec ObjAny ObjAnySpec.
Import ListNotations.

(** The other index arrays are as long as that of the vertices; there is none without that. *)
Definition any_consistent {F} (m : any_mesh F) : Prop :=
  match a_vertex_triangles m with
  | None => a_normal_triangles m = None /\ a_uv_triangles m = None
  | Some t => same_length t (a_normal_triangles m) /\ same_length t (a_uv_triangles m)
  end.
(** Indices plus a position in the file are numbers of the index type. *)
Definition any_small_indices (top bound : N) (o : option (list N)) : Prop :=
  forall l, o = Some l -> Forall (fun i => (i + bound < top)%N) l.
Definition any_small_file {F} (top : N) (l : list (any_mesh F * list N)) : Prop :=
  any_numbered top l /\ Forall (fun mn => any_small_indices top (any_total a_vertices l + 1) (a_vertex_triangles (fst mn)) /\
    any_small_indices top (any_total a_normals l + 1) (a_normal_triangles (fst mn)) /\ any_small_indices top (any_total a_uvs l + 1) (a_uv_triangles (fst mn))) l.
