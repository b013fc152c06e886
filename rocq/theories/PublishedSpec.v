(** The format as TMF_SPEC.md publishes it (version 0.1), as byte strings, with
    the values it says they stand for. Written from that document; nothing here
    mentions how the model reads a file. *)
From Coq Require Import List NArith ZArith Reals.
From Verif Require Import Floats FileSpec BitSpec ValueSpec DoubleSpec Mesh Double.
Import ListNotations.

(** Section 2.1 : the kinds of segment. Vertices (kind 1, section 2.2), triangles
    (kinds 2, 4 and 6, section 2.3) and the kinds a reader is to ignore or for
    which the document gives no layout (0, 7 and 8).
    The kinds 3 and 5 are marked "TODO" in the document and are left out. *)
Inductive pseg :=
| PPoints (x0 x1 y0 y1 z0 z1 : N) (px py pz : nat) (codes : list (N * N * N))
| PIndices (kind : N) (width : nat) (indices : list N)
| POther (kind : N) (payload : list N).

Definition pkind (s : pseg) : N :=
  match s with PPoints _ _ _ _ _ _ _ _ _ _ => 1 | PIndices k _ _ => k | POther k _ => k end%N.

(** The payload of a segment. The six numbers of a vertex segment are f64 bit
    patterns; its codes follow one another as an unaligned binary array. *)
Definition ppayload (s : pseg) (payload : list N) : Prop :=
  match s with
  | PPoints x0 x1 y0 y1 z0 z1 px py pz codes =>
    exists uba,
      payload = lend 8 (len codes) ++
        lend 8 x0 ++ lend 8 x1 ++ lend 8 y0 ++ lend 8 y1 ++ lend 8 z0 ++ lend 8 z1 ++
        [N.of_nat px] ++ [N.of_nat py] ++ [N.of_nat pz] ++ uba /\
      packs uba (field_bits (flat_map
        (fun c => [(px, fst (fst c)); (py, snd (fst c)); (pz, snd c)]) codes))
  | PIndices _ w l =>
    exists uba, payload = [N.of_nat w] ++ lend 8 (len l) ++ uba /\
      packs uba (field_bits (map (fun i => (w, i)) l))
  | POther _ p => payload = p
  end.

(** A published file: segments framed with a two byte kind, an eight byte length
    and the compression code 0 (none). *)
Definition pframe (s : pseg) (r : raw_seg) : Prop :=
  r_kind r = pkind s /\ r_comp r = 0%N /\ ppayload s (r_payload r) /\ (len (r_payload r) <= 2 ^ 31)%N.
Definition published (ms : list (list N * list pseg)) (file : list N) : Prop :=
  exists major minor min_minor raws,
    (major < 65536)%N /\ (minor < 65536)%N /\ (min_minor < 2)%N /\
    Forall2 (fun m r => fst r = fst m /\ Forall2 pframe (snd m) (snd r)) ms raws /\
    file = old_file_bytes major minor min_minor raws.

(** The number an f64 bit pattern stands for. *)
Definition number (n : N) : R := val64 (f64_of_bits n).
(** The numbers a segment may hold: the bounds of a vertex segment are finite and
    at most [B] in absolute value, a coordinate takes 1 to 63 bits, an index any
    width below 64 other than 32, and every number fits its width. *)
Definition bound_ok (B : R) (n : N) : Prop :=
  (n < 2 ^ 64)%N /\ finite64 (f64_of_bits n) /\ (Rabs (number n) <= B)%R.
Definition fits_in (w : nat) (v : N) : Prop := (v < 2 ^ N.of_nat w)%N.
Definition pseg_ok (B : R) (s : pseg) : Prop :=
  match s with
  | PPoints x0 x1 y0 y1 z0 z1 px py pz codes =>
    Forall (bound_ok B) [x0; x1; y0; y1; z0; z1] /\ Forall (fun p => 1 <= p < 64) [px; py; pz] /\
    Forall (fun c => fits_in px (fst (fst c)) /\ fits_in py (snd (fst c)) /\ fits_in pz (snd c)) codes /\
    (len codes <= 2 ^ 31)%N
  | PIndices k w l =>
    In k [2; 4; 6]%N /\ w < 64 /\ w <> 32 /\
    Forall (fun i => fits_in w i /\ (i < 2 ^ 32)%N) l /\ (len l <= 2 ^ 31)%N
  | POther k _ => In k [0; 7; 8]%N
  end.
Definition pfile_ok (B : R) (ms : list (list N * list pseg)) : Prop :=
  (len ms < 2 ^ 32)%N /\
  Forall (fun m => name_ok (fst m) /\ (len (snd m) < 65536)%N /\ Forall (pseg_ok B) (snd m)) ms.

(** Section 2.2 : the coordinate a code stands for,
    min + code / (2^precision - 1) * (max - min). *)
Definition coordinate (lo hi : N) (p : nat) (code : N) : R :=
  (number lo + IZR (Z.of_N code) / (2 ^ p - 1) * (number hi - number lo))%R.

(** What the document says a mesh holds: the points of its vertex segments one
    after another, and for each kind of triangle segment the indices. [None] when
    there is no such segment. *)
Fixpoint gather {A} (f : pseg -> option (list A)) (l : list pseg) : option (list A) :=
  match l with
  | [] => None
  | s :: t => match f s, gather f t with
              | Some a, Some b => Some (a ++ b)
              | Some a, None => Some a
              | None, r => r
              end
  end.
Definition points (s : pseg) : option (list (R * R * R)) :=
  match s with
  | PPoints x0 x1 y0 y1 z0 z1 px py pz codes =>
    Some (map (fun c => (coordinate x0 x1 px (fst (fst c)), coordinate y0 y1 py (snd (fst c)),
                         coordinate z0 z1 pz (snd c))) codes)
  | _ => None
  end.
Definition indices_of (kind : N) (s : pseg) : option (list N) :=
  match s with PIndices k _ l => if (k =? kind)%N then Some l else None | _ => None end.

(** A loaded coordinate is as far from the published one as single precision
    arithmetic on numbers up to [B] has it. *)
Definition coord_near (B : R) (r : R) (x : f32) : Prop :=
  finite x /\ (Rabs (val x - r) <= B * / 2 ^ 19 + / 2 ^ 140)%R.
Definition point_near (B : R) (r : R * R * R) (v : vec3) : Prop :=
  coord_near B (fst (fst r)) (fst (fst v)) /\ coord_near B (snd (fst r)) (snd (fst v)) /\ coord_near B (snd r) (snd v).

(** The loaded mesh is the published one and holds nothing else. *)
Definition mesh_is (B : R) (segs : list pseg) (m : mesh) : Prop :=
  arrays (point_near B) (gather points segs) (vertices m) /\
  vertex_triangles m = gather (indices_of 2) segs /\
  normal_triangles m = gather (indices_of 4) segs /\
  uv_triangles m = gather (indices_of 6) segs /\
  normals m = None /\ uvs m = None /\ tangents m = None /\ tangent_triangles m = None /\
  custom_data m = [].

(** The same for a program built with the feature double_precision, where the
    coordinates are f64. *)
Definition coord_near_d (B : R) (r : R) (x : f64) : Prop :=
  finite64 x /\ (Rabs (val64 x - r) <= B * / 2 ^ 48 + / 2 ^ 1000)%R.
Definition point_near_d (B : R) (r : R * R * R) (v : dvec3) : Prop :=
  coord_near_d B (fst (fst r)) (fst (fst v)) /\ coord_near_d B (snd (fst r)) (snd (fst v)) /\ coord_near_d B (snd r) (snd v).
Definition mesh_is_d (B : R) (segs : list pseg) (m : dmesh) : Prop :=
  arrays (point_near_d B) (gather points segs) (d_vertices m) /\
  d_vertex_triangles m = gather (indices_of 2) segs /\
  d_normal_triangles m = gather (indices_of 4) segs /\
  d_uv_triangles m = gather (indices_of 6) segs /\
  d_normals m = None /\ d_uvs m = None /\ d_tangents m = None /\ d_tangent_triangles m = None /\
  d_custom_data m = [].
