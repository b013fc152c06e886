(** Specification of property C88: what every imported OBJ text gives. *)
From Coq Require Import List NArith Bool.
From Verif Require Import Floats Mesh FileSpec MeshSpec.
Import ListNotations.

(** [k] triangles. The index array has three entries for each, all below the largest
    32 bit number. *)
Definition triangle_indices (k : nat) (t : list N) : Prop :=
  length t = 3 * k /\ Forall (fun i => (i + 1 < 2 ^ 32)%N) t.
(** A name as an OBJ line gives it: UTF-8 without space, slash or newline. *)
Definition one_word (name : list N) : Prop :=
  utf8 name /\ ~ In 32%N name /\ ~ In 47%N name /\ ~ In 10%N name.
(** A mesh of [k] triangles with vertices, normals and UVs, their three index arrays, and
    nothing else. *)
Definition imported (k : nat) (m : mesh) : Prop :=
  exists v tv n tn u tu, m = mk_mesh (Some n) (Some tn) (Some v) (Some tv) (Some u) (Some tu) None None [] /\
    triangle_indices k tv /\ triangle_indices k tn /\ triangle_indices k tu.
(** All indices are in range: the mesh has its three buffers. *)
Definition complete (m : mesh) : Prop :=
  get_vertex_buffer m <> None /\ get_normal_buffer m <> None /\ get_uv_buffer m <> None.
