(** Model of normalising and verifying in a program built with the feature
    [double_precision]: FloatType is f64 (src/lib.rs L74-75). The code is that of Mesh.v and
    Utilis.v with the other float type. *)
From Coq Require Import List NArith ZArith Arith Bool.
From Flocq Require Import IEEE754.BinarySingleNaN.
From Verif Require Import Base Floats FastTrig CustomData Unify Mesh Double DoubleSave.
Import ListNotations.

Definition dvx (v : dvec3) : f64 := fst (fst v).
Definition dvy (v : dvec3) : f64 := snd (fst v).
Definition dvz (v : dvec3) : f64 := snd v.

(* src/utilis.rs L46-51 : magnitude *)
Definition magnitude_d (i : dvec3) : f64 :=
  dsqrt (dadd (dadd (dmul (dvx i) (dvx i)) (dmul (dvy i) (dvy i))) (dmul (dvz i) (dvz i))).
(* src/utilis.rs L52-62 : normalize *)
Definition normalize_d (i : dvec3) : dvec3 :=
  let mag := dsqrt (dadd (dadd (dmul (dvx i) (dvx i)) (dmul (dvy i) (dvy i))) (dmul (dvz i) (dvz i))) in
  if is_nan mag then (d0, d0, d0)
  else (ddiv (dvx i) mag, ddiv (dvy i) mag, ddiv (dvz i) mag).
(* src/lib.rs L626-632 : normalize; src/normals.rs L62-66 : normalize_arr *)
Definition mesh_normalize_d (m : dmesh) : dmesh :=
  match d_normals m with
  | Some l => mk_dmesh (Some (map normalize_d l)) (d_normal_triangles m) (d_vertices m) (d_vertex_triangles m)
                (d_uvs m) (d_uv_triangles m) (d_tangents m) (d_tangent_triangles m) (d_custom_data m)
  | None => m
  end.

(* src/verify.rs L5-24 : TMFIntegrityStatus *)
Inductive dintegrity : Type :=
| DVertexArrayMissing
| DIndexOutsideVertexArray (i len : N)
| DNormalArrayMissing
| DNormalsNotNormalized
| DIndexOutsideNormalArray (i len : N)
| DUVOutsideRange (x y : f64)
| DUVArrayMissing
| DIndexOutsideUVArray (i len : N)
| DCompositeError (l : list dintegrity).

(* src/verify.rs L70-90 : verify_vertices ([None] is Ok(())) *)
Definition verify_vertices_d (m : dmesh) : option dintegrity :=
  match d_vertices m with
  | None => match d_vertex_triangles m with Some _ => Some DVertexArrayMissing | None => None end
  | Some v =>
    match d_vertex_triangles m with
    | Some t => match indices_inside_array t (len32 v) with
                | Some i => Some (DIndexOutsideVertexArray i (len32 v))
                | None => None
                end
    | None => None
    end
  end.
(* src/verify.rs L101-105 *)
Fixpoint uv_range_loop_d (l : list dvec2) : option dintegrity :=
  match l with
  | [] => None
  | uv :: t =>
    if dlt (fst uv) d0 && dlt (snd uv) d0 && dlt d1 (fst uv) && dlt d1 (snd uv)
    then Some (DUVOutsideRange (fst uv) (snd uv))
    else uv_range_loop_d t
  end.
(* src/verify.rs L91-118 : verify_uvs *)
Definition verify_uvs_d (m : dmesh) : option dintegrity :=
  match d_uvs m with
  | None => match d_uv_triangles m with Some _ => Some DUVArrayMissing | None => None end
  | Some v =>
    match uv_range_loop_d v with
    | Some e => Some e
    | None =>
      match d_uv_triangles m with
      | Some t => match indices_inside_array t (len32 v) with
                  | Some i => Some (DIndexOutsideUVArray i (len32 v))
                  | None => None
                  end
      | None => None
      end
    end
  end.
(* src/verify.rs L131 : the test for one normal *)
Definition not_normalized_d (n : dvec3) : bool := dlt (dlit 1 1000) (dabs (dsub d1 (magnitude_d n))).
(* src/verify.rs L120-149 : verify_normals *)
Definition verify_normals_d (m : dmesh) : option dintegrity :=
  match d_normals m with
  | None => match d_normal_triangles m with Some _ => Some DNormalArrayMissing | None => None end
  | Some v =>
    if existsb not_normalized_d v then Some DNormalsNotNormalized
    else
      match d_normal_triangles m with
      | Some t => match indices_inside_array t (len32 v) with
                  | Some i => Some (DIndexOutsideNormalArray i (len32 v))
                  | None => None
                  end
      | None => None
      end
  end.
(* src/verify.rs L150-173 : verify_tmf_mesh *)
Definition verify_tmf_mesh_d (m : dmesh) : res dintegrity unit :=
  let errors := somes [verify_vertices_d m; verify_normals_d m; verify_uvs_d m] in
  match errors with
  | [] => Ok tt
  | [e] => Err e
  | _ => Err (DCompositeError errors)
  end.
