(** Specification for loading the same file with and without the feature [double_precision].
    Nothing here refers to a decoder. *)
From Coq Require Import List NArith Reals.
From Flocq Require Import Core IEEE754.BinarySingleNaN.
From Verif Require Import Floats CustomData Mesh ValueSpec FileSpec LayoutSpec Double.
Import ListNotations.
Local Open Scope R_scope.

Definition val64 (x : f64) : R := B2R x.
Definition finite64 (x : f64) : Prop := is_finite x = true.
(** An f32 and an f64, finite and at most [e] apart. *)
Definition close (e : R) (x : f32) (y : f64) : Prop := finite x /\ finite64 y /\ Rabs (val x - val64 y) <= e.

(** [lo] and [hi] are stored in a vertex segment as the ends of the box along an axis (0, 1, 2). *)
Definition box_of (payload : list N) (axis : nat) (lo hi : f64) : Prop :=
  exists n a l h b, payload = lend 8 n ++ a ++ lend 8 l ++ lend 8 h ++ b /\ length a = (16 * axis)%nat /\
    (l < 2 ^ 64)%N /\ (h < 2 ^ 64)%N /\ lo = f64_of_bits l /\ hi = f64_of_bits h.
(** Two coordinates from a box that reaches up to [M], if that is less than 2^125: both NaN, or
    finite and at most [M] * 2^-19 apart (2^-140 if [M] is tiny). *)
Definition near_coord (lo hi : f64) (x : f32) (y : f64) : Prop :=
  let M := Rmax (Rabs (val64 lo)) (Rabs (val64 hi)) in
  finite64 lo -> finite64 hi -> M <= 2 ^ 125 ->
  (x = B754_nan /\ y = B754_nan) \/ close (M * / 2 ^ 19 + / 2 ^ 140) x y.
(** A vertex of a mesh, from one of its vertex segments (kind 1). *)
Definition near_vertex (raw : raw_mesh) (v : vec3) (v' : dvec3) : Prop :=
  exists s lx hx ly hy lz hz, In s (snd raw) /\ r_kind s = 1%N /\
    box_of (r_payload s) 0 lx hx /\ box_of (r_payload s) 1 ly hy /\ box_of (r_payload s) 2 lz hz /\
    near_coord lx hx (fst (fst v)) (fst (fst v')) /\ near_coord ly hy (snd (fst v)) (snd (fst v')) /\
    near_coord lz hz (snd v) (snd v').
(** Directions: at most 2^-10 apart in the first two components and 2^-22 in the third. *)
Definition near_direction (v : vec3) (v' : dvec3) : Prop :=
  close (/ 2 ^ 10) (fst (fst v)) (fst (fst v')) /\ close (/ 2 ^ 10) (snd (fst v)) (snd (fst v')) /\
  close (/ 2 ^ 22) (snd v) (snd v').
Definition near_uv (v : vec2) (v' : dvec2) : Prop :=
  close (/ 2 ^ 22) (fst v) (fst v') /\ close (/ 2 ^ 22) (snd v) (snd v').
(** The f32 is the f64 rounded. *)
Definition rounded (x : f32) (y : f64) : Prop := x = f32_of_f64 y.
Definition rounded4 (c : vec4) (c' : dvec4) : Prop :=
  rounded (fst (fst (fst c))) (fst (fst (fst c'))) /\ rounded (snd (fst (fst c))) (snd (fst (fst c'))) /\
  rounded (snd (fst c)) (snd (fst c')) /\ rounded (snd c) (snd c').
(** The precision recorded with custom data, for a value of ordinary size. *)
Definition near_precision (p : f32) (p' : f64) : Prop :=
  finite64 p' -> / 2 ^ 100 <= Rabs (val64 p') <= 2 ^ 100 ->
  finite p /\ Rabs (val p - val64 p') <= / 2 ^ 22 * Rabs (val64 p').
Definition near_data (d : cdata) (d' : dcdata) : Prop :=
  match d, d' with
  | CIndex l m, XIndex l' m' => l = l' /\ m = m'
  | CInteger l m, XInteger l' m' => l = l' /\ m = m'
  | CFloat l p, XFloat l' p' => Forall2 rounded l l' /\ near_precision p p'
  | CColor l p, XColor l' p' => Forall2 rounded4 l l' /\ near_precision p p'
  | _, _ => False
  end.
Definition near_custom (s : cseg) (s' : dcseg) : Prop :=
  c_name s = x_name s' /\ c_name_len s = x_name_len s' /\ near_data (c_data s) (x_data s').

(** A mesh with its name as stored, and as loaded without and with the feature. *)
Record same_mesh (raw : raw_mesh) (a : mesh * list N) (b : dmesh * list N) : Prop := {
  sm_name : snd a = fst raw /\ snd b = fst raw;
  sm_vertices : arrays (near_vertex raw) (vertices (fst a)) (d_vertices (fst b));
  sm_normals : arrays near_direction (normals (fst a)) (d_normals (fst b));
  sm_uvs : arrays near_uv (uvs (fst a)) (d_uvs (fst b));
  sm_tangents : arrays (fun t t' => near_direction (fst t) (fst t') /\ close 0 (snd t) (snd t')) (tangents (fst a)) (d_tangents (fst b));
  sm_vertex_triangles : vertex_triangles (fst a) = d_vertex_triangles (fst b);
  sm_normal_triangles : normal_triangles (fst a) = d_normal_triangles (fst b);
  sm_uv_triangles : uv_triangles (fst a) = d_uv_triangles (fst b);
  sm_tangent_triangles : tangent_triangles (fst a) = d_tangent_triangles (fst b);
  sm_custom : Forall2 near_custom (custom_data (fst a)) (d_custom_data (fst b)) }.

(** The mesh has a colour array (kind 23) that claims to have 2^58 or more colours. *)
Definition huge_colours (raw : raw_mesh) : Prop :=
  exists s name n rest, In s (snd raw) /\ r_kind s = 23%N /\ r_payload s = len name :: name ++ lend 8 n ++ rest /\
    (2 ^ 58 <= n < 2 ^ 64)%N.
(** One of the meshes [src] starts with, of those it declares, has. *)
Definition huge_file (src : list N) : Prop :=
  exists n ms raw, starts_with src n ms /\ (len ms <= n)%N /\ In raw ms /\ huge_colours raw.
(** The meshes that [src] holds, as loaded without and with the feature. *)
Definition same_file (src : list N) (l : list (mesh * list N)) (l' : list (dmesh * list N)) : Prop :=
  exists ms, holds src ms /\ Forall3 same_mesh ms l l'.
(** f64::sin_cos is accurate to 2^-20 (far less than its type allows). *)
Definition sin_cos64_ok (sc : f64 -> f64 * f64) : Prop :=
  forall x, finite64 x -> 0 <= val64 x <= 2 ->
    finite64 (fst (sc x)) /\ finite64 (snd (sc x)) /\
    Rabs (val64 (fst (sc x)) - sin (val64 x)) <= / 2 ^ 20 /\
    Rabs (val64 (snd (sc x)) - cos (val64 x)) <= / 2 ^ 20.
