(** Specification of property C87: what a mesh that was reordered or unified, saved and
    loaded draws, compared with the mesh it was made from. *)
From Coq Require Import List NArith Reals Bool.
From Verif Require Import Floats Mesh MeshSpec ValueSpec VertexSpec.
Import ListNotations.
Local Open Scope R_scope.

(** The index arrays that have data all list [k] corners, and their indices are in range. *)
Definition fitting (k : nat) (m : mesh) : Prop :=
  fits k (vertices m) (vertex_triangles m) /\ fits k (normals m) (normal_triangles m) /\
  fits k (uvs m) (uv_triangles m) /\ fits k (tangents m) (tangent_triangles m).

(** How far a point [v] moves to [v'] when [t] is a tenth of the shortest edge. It is stored
    with some of the points [vs], and the box stored with them decides, as in [piece_moved]. *)
Definition moved_among (vs : list vec3) (B t : R) (v v' : vec3) : Prop :=
  exists part x0 x1 y0 y1 z0 z1, incl part vs /\ In v part /\ stored_box part x0 x1 y0 y1 z0 z1 /\
    (between x0 x1 (fst (fst v)) -> finite (fst (fst v')) /\
       within (2.003 * t + 0.000001001 + / 2 ^ 19 * B) (fst (fst v)) (fst (fst v'))) /\
    (between y0 y1 (snd (fst v)) -> finite (snd (fst v')) /\
       within (2.003 * t + 0.000001001 + / 2 ^ 19 * B) (snd (fst v)) (snd (fst v'))) /\
    finite (snd v') /\
    within (2.003 * t * ((val z1 - val z0) / Rmax (val y1 - val y0) 0.000001) + 0.000001001 + / 2 ^ 19 * B) (snd v) (snd v').

(** A coordinate of a UV, if in 0..1, moves by less than a tenth of a pixel of a texture of 1024. *)
Definition texel_near (x y : f32) : Prop := in_unit x -> in_unit y /\ Rabs (val y - val x) * 1024 < / 10.
(** A unit vector turns by less than 7.3 degrees. *)
Definition turned_little (n n' : vec3) : Prop := unit_vector n -> 0.9919 <= cosine n n'.
