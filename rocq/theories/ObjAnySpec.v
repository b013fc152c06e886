(** What exporting to and importing from .obj text must do in builds with other number types.
    Independent of the model. *)
From Coq Require Import List NArith ZArith Arith Bool.
From Verif Require Import MeshSpec FileSpec Obj ObjSpec ObjAny.
Import ListNotations.

(** The numbers of values of u16, u32 and u64. *)
Definition index_type (top : N) : Prop := top = (2 ^ 16)%N \/ top = (2 ^ 32)%N \/ top = (2 ^ 64)%N.
(** Printing a float and parsing it gives the float back, and the text is made of
    visible ASCII characters other than the slash. *)
Definition any_text_ok {F} (ft : any_text F) : Prop :=
  forall x, a_parse ft (a_show ft x) = Some x /\ Forall plain (a_show ft x).
(** A mesh with [3 * k] corners, each with a vertex and a normal, and all or none
    with a UV. *)
Definition any_exportable {F} (m : any_mesh F) : Prop :=
  exists k, (0 < k)%nat /\ indexed (a_vertices m) (a_vertex_triangles m) (3 * k) /\
    indexed (a_normals m) (a_normal_triangles m) (3 * k) /\
    (indexed (a_uvs m) (a_uv_triangles m) (3 * k) \/ a_uv_triangles m = None).
Definition any_total {F A} (f : any_mesh F -> option (list A)) (l : list (any_mesh F * list N)) : N :=
  fold_right (fun mn a => (size (f (fst mn)) + a)%N) 0%N l.
(** The positions in the file are below [top]. *)
Definition any_numbered {F} (top : N) (l : list (any_mesh F * list N)) : Prop :=
  (any_total a_vertices l + 1 < top)%N /\ (any_total a_normals l + 1 < top)%N /\ (any_total a_uvs l + 1 < top)%N.
(** What a mesh and its name become by export and import. *)
Definition any_reimported {F} (a b : any_mesh F * list N) : Prop :=
  first_word (snd a) (snd b) /\
  front_cut (a_vertices (fst a)) (a_vertex_triangles (fst a)) (a_vertices (fst b)) (a_vertex_triangles (fst b)) /\
  front_cut (a_normals (fst a)) (a_normal_triangles (fst a)) (a_normals (fst b)) (a_normal_triangles (fst b)) /\
  (a_uv_triangles (fst a) <> None -> front_cut (a_uvs (fst a)) (a_uv_triangles (fst a)) (a_uvs (fst b)) (a_uv_triangles (fst b))) /\
  (forall t, a_uv_triangles (fst a) = None -> a_vertex_triangles (fst a) = Some t -> a_uv_triangles (fst b) = Some (map (fun _ => 0%N) t)).
(** The index that a part of a face stands for: the number, if the index type has it, or 1. *)
Definition any_stands_for (top : N) (s : list N) (n : N) : Prop :=
  (exists d, (s = d \/ s = 43%N :: d) /\ d <> [] /\ Forall digit d /\ decimal d = n /\ (n < top)%N) \/
  ((forall d, (s = d \/ s = 43%N :: d) -> d <> [] -> Forall digit d -> (decimal d < top)%N -> False) /\ n = 1%N).
(** How the data and the indices of the first mesh of a file are read by a build with an index
    type of [top] values: as they are (without unused elements at the front), or, if the position
    of some element is not a number of that type, with 0 for the index of each such element. *)
Definition any_seen {A} (top : N) (d : option (list A)) (t : option (list N)) (d' : option (list A)) (t' : option (list N)) : Prop :=
  forall t0, t = Some t0 ->
    (Forall (fun i => (i + 1 < top)%N) t0 -> front_cut d t d' t') /\
    (Exists (fun i => (top <= i + 1)%N) t0 -> d' = d /\ t' = Some (map (fun i => if (i + 1 <? top)%N then i else 0%N) t0)).
