(** Specification of property C87 for double precision, as PrepareSpec.v. *)
From Coq Require Import List NArith Reals Bool.
From Verif Require Import Floats Mesh MeshSpec ValueSpec VertexSpec Double DoubleSpec DoubleSaveSpec DoubleValueSpec DoubleNormalSpec.
Import ListNotations.
Local Open Scope R_scope.

(** The index arrays that have data all list [k] corners, and their indices are in range. *)
Definition fitting_d (k : nat) (m : dmesh) : Prop :=
  fits k (d_vertices m) (d_vertex_triangles m) /\ fits k (d_normals m) (d_normal_triangles m) /\
  fits k (d_uvs m) (d_uv_triangles m) /\ fits k (d_tangents m) (d_tangent_triangles m).

(** How far a point [v] moves to [v'] when [t] is a tenth of the shortest edge. It is stored
    with some of the points [vs], and the box stored with them decides, as in [piece_moved_d]. *)
Definition moved_among_d (vs : list dvec3) (B t : R) (v v' : dvec3) : Prop :=
  exists part x0 x1 y0 y1 z0 z1, incl part vs /\ In v part /\ stored_box_d part x0 x1 y0 y1 z0 z1 /\
    (between_d x0 x1 (fst (fst v)) -> finite64 (fst (fst v')) /\
       within_d (2.003 * t + 0.000001001 + / 2 ^ 48 * B) (fst (fst v)) (fst (fst v'))) /\
    (between_d y0 y1 (snd (fst v)) -> finite64 (snd (fst v')) /\
       within_d (2.003 * t + 0.000001001 + / 2 ^ 48 * B) (snd (fst v)) (snd (fst v'))) /\
    finite64 (snd v') /\
    within_d (2.003 * t * ((val64 z1 - val64 z0) / Rmax (val64 y1 - val64 y0) 0.000001) + 0.000001001 + / 2 ^ 48 * B) (snd v) (snd v').

(** A coordinate of a UV, if in 0..1, moves by less than a tenth of a pixel of a texture of 1024. *)
Definition texel_near_d (x y : f64) : Prop := in_unit_d x -> in_unit_d y /\ Rabs (val64 y - val64 x) * 1024 < / 10.
(** A unit vector turns by less than 7.3 degrees. *)
Definition turned_little_d (n n' : dvec3) : Prop := unit_vector_d n -> 0.9919 <= cosine_d n n'.
