(** Model of src/tmf.rs and of the segment decoders of src/tmf_importer.rs. *)
From Coq Require Import List NArith ZArith Arith Bool.
From Verif Require Import Base UnalignedRW ReadExt Triangles OptTris Floats Utilis Unify
  Vertices Uv Normals CustomData OptVertices Mesh.
Import ListNotations.
Open Scope res_scope.

(* src/tmf.rs L15-41 : SectionType *)
Inductive section :=
| SInvalid | SVertex | SVertexTri | SNormal | SNormalTri | SUv | SUvTri | STangent | STangentTri
| SCustom (k : ckind) | SShared.
(** The discriminants. *)
Definition section_code (s : section) : N :=
  match s with
  | SInvalid => 0
  | SVertex => 1 | SVertexTri => 2 | SNormal => 3 | SNormalTri => 4 | SUv => 5 | SUvTri => 6
  | STangent => 9 | STangentTri => 10
  | SCustom KIndex => 15 | SCustom KFloat => 16 | SCustom KColor => 23 | SCustom KInteger => 24
  | SShared => 25
  end%N.
(* src/tmf.rs L60-77 : SectionType::from_u8 *)
Definition section_from_u8 (b : N) : section :=
  match b with
  | 1 => SVertex | 2 => SVertexTri | 3 => SNormal | 4 => SNormalTri | 5 => SUv | 6 => SUvTri
  | 9 => STangent | 10 => STangentTri
  | 15 => SCustom KIndex | 16 => SCustom KFloat | 23 => SCustom KColor | 24 => SCustom KInteger
  | 25 => SShared
  | _ => SInvalid
  end%N.
(* src/tmf.rs L53-59 : from_u16 *)
Definition section_from_u16 (b : N) : section :=
  if (255 <? b)%N then SInvalid else section_from_u8 b.

(* src/tmf.rs L81-98 : CompressionType, its codes and from_u8 *)
Inductive compression := CNone | COmmited | CUnalignedLZZ | CSequence.
Definition compression_code (c : compression) : N :=
  match c with CNone => 0 | COmmited => 1 | CUnalignedLZZ => 2 | CSequence => 255 end%N.
Definition compression_from_u8 (b : N) : res ierr compression :=
  match b with
  | 0 => Ok CNone
  | 1 => Ok COmmited
  | 2 => Ok CUnalignedLZZ
  | 255 => Ok CSequence
  | _ => Err (ECompressionTypeUnknown b)
  end%N.

(* src/tmf.rs L113-117 : EncodedSegment *)
Record eseg := mk_eseg { e_type : section; e_comp : compression; e_data : list N }.

(* src/tmf.rs L132-138 : EncodedSegment::write, as the chunks passed to write_all *)
Definition eseg_chunks (s : eseg) : list (list N) :=
  [[(section_code (e_type s) mod 256)%N]; le_bytes 4 (N.of_nat (length (e_data s)));
   [compression_code (e_comp s)]; e_data s].

(* src/tmf_importer.rs L25-30 : SegLenWidth::read *)
Definition seg_len_read (w : seg_len_width) (src : list N) : res ioerr (N * list N) :=
  match w with LenU32 => read_u32 src | LenU64 => read_u64 src end.
(* src/tmf_importer.rs L45-50 : SegTypeWidth::read *)
Definition seg_type_read (w : seg_type_width) (src : list N) : res ioerr (section * list N) :=
  match w with
  | TypeU8 => let* (b, src) := read_u8 src in Ok (section_from_u8 b, src)
  | TypeU16 => let* (b, src) := read_u16 src in Ok (section_from_u16 b, src)
  end.
(* src/tmf.rs L139-156 : EncodedSegment::read *)
Definition eseg_read (ctx : import_ctx) (src : list N) : res ierr (eseg * list N) :=
  let* (seg_type, src) := io (seg_type_read (segment_type_width ctx) src) in
  let* (data_length, src) := io (seg_len_read (segment_length_width ctx) src) in
  if (MAX_SEG_SIZE <? data_length)%N then Err ESegmentTooLong
  else
    let* (b, src) := io (read_u8 src) in
    let* comp := compression_from_u8 b in
    let* (data, src) := io (read_exact data_length src) in
    Ok (mk_eseg seg_type comp data, src).

(* src/tmf.rs L100-112 : DecodedSegment. SharedSegmentKind is its mask. *)
Inductive dseg :=
| DNothing
| DVertex (l : list vec3)
| DNormal (l : list vec3)
| DUV (l : list vec2)
| DTangent (l : list tangent)
| DTriVertex (l : list N)
| DTriNormal (l : list N)
| DTriUV (l : list N)
| DTriTangent (l : list N)
| DShared (mask : N) (l : list N)
| DCustom (s : cseg).

(* src/tmf.rs L162-180 : the bits of SharedSegmentKind *)
Definition MASK_VERTEX : N := 1.
Definition MASK_NORMAL : N := 2.
Definition MASK_UV : N := 4.
Definition has_mask (mask bit : N) : bool := negb (N.land mask bit =? 0)%N.

(* src/tmf.rs L264-285 : as_triangles and shared_kind together: the only segments
   that can be merged into another one, with the mask they contribute *)
Definition as_triangles (d : dseg) : option (list N * N) :=
  match d with
  | DTriVertex l => Some (l, MASK_VERTEX)
  | DTriNormal l => Some (l, MASK_NORMAL)
  | _ => None
  end.
(* src/tmf.rs L209-263 : merge(self, other), returning both after the call *)
Definition merge (self other : dseg) : dseg * dseg :=
  match as_triangles other with
  | None => (self, other)
  | Some (l, k) =>
    let go (kind : N) (indices : list N) :=
      if list_eqb indices l then (DShared (N.lor kind k) indices, DNothing) else (self, other) in
    match self with
    | DShared kind indices => go kind indices
    | DTriVertex indices => go MASK_VERTEX indices
    | DTriNormal indices => go MASK_NORMAL indices
    | DTriUV indices => go MASK_UV indices
    | _ => (self, other)
    end
  end.

(* src/tmf.rs L286-288 : is_something *)
Definition is_something (d : dseg) : bool := match d with DNothing => false | _ => true end.

(* src/tmf.rs L289-342 : optimize *)
Definition optimize (lm : libm) (oc : bool) (d : dseg) : res no_fuel (list dseg) :=
  match d with
  | DTriVertex l => let* o := opt_tris oc l in Ok (map DTriVertex o)
  | DTriUV l => let* o := opt_tris oc l in Ok (map DTriUV o)
  | DTriNormal l => let* o := opt_tris oc l in Ok (map DTriNormal o)
  | DTriTangent l => let* o := opt_tris oc l in Ok (map DTriTangent o)
  | DVertex l => let* o := opt_vertices lm oc l in Ok (map DVertex o)
  | DShared k l => let* o := opt_tris oc l in Ok (map (DShared k) o)
  | _ => Ok [d]
  end.

(* src/lib.rs L105-114 : TMFPrecisionInfo *)
Record prec_info := mk_prec {
  vertex_precision : f32; normal_precision : nat; uv_prec : nat; tangent_prec : nat }.

(* src/tmf.rs L343-405 : encode *)
Definition encode (lm : libm) (oc : bool) (prec : prec_info) (shortest_edge : f32) (d : dseg)
  : res ioerr eseg :=
  let* (seg_type, data) :=
    match d with
    | DVertex l =>
      let* b := save_tmf_vertices lm oc l (vertex_precision prec) shortest_edge [] in Ok (SVertex, b)
    | DTangent l => let* b := save_tangents lm oc l (tangent_prec prec) [] in Ok (STangent, b)
    | DNormal l => let* b := save_normal_array lm oc l (normal_precision prec) [] in Ok (SNormal, b)
    | DUV l => let* b := save_uvs oc l (uv_prec prec) [] in Ok (SUv, b)
    | DTriVertex l => let* b := save_triangles oc l (max_or 0 l) [] in Ok (SVertexTri, b)
    | DTriNormal l => let* b := save_triangles oc l (max_or 0 l) [] in Ok (SNormalTri, b)
    | DTriUV l => let* b := save_triangles oc l (max_or 0 l) [] in Ok (SUvTri, b)
    | DTriTangent l => let* b := save_triangles oc l (max_or 0 l) [] in Ok (STangentTri, b)
    | DCustom s => let* b := cseg_encode lm oc s [] in Ok (SCustom (cdata_kind (c_data s)), b)
    | DShared k l => let* b := save_triangles oc l (max_or 0 l) [k] in Ok (SShared, b)
    | DNothing => Ok (SInvalid, [])
    end in
  Ok (mk_eseg seg_type CNone data).

(* src/tmf_importer.rs L304-321 : the compression check of decode_triangle_seg *)
Definition decode_triangle_data (oc : bool) (ctx : import_ctx) (seg : eseg) : res ierr (list N) :=
  match e_comp seg with
  | CNone => read_default_triangles oc ctx (e_data seg)
  | CSequence => Err (EUnsuportedCompressionType (compression_code COmmited))
  | COmmited => Err (EUnsuportedCompressionType (compression_code COmmited))
  | CUnalignedLZZ => Err (EUnsuportedCompressionType (compression_code CUnalignedLZZ))
  end.

(* src/tmf.rs L406-453 : decode; src/tmf_importer.rs L205-257, L297-338 *)
Definition decode (lm : libm) (oc : bool) (ctx : import_ctx) (seg : eseg) : res ierr dseg :=
  match e_type seg with
  | SInvalid => Ok DNothing
  | SVertex => let* l := read_tmf_vertices (e_data seg) in Ok (DVertex l)
  | SNormal => let* l := read_normal_array lm oc (e_data seg) in Ok (DNormal l)
  | SUv => let* l := read_uvs oc (e_data seg) in Ok (DUV l)
  | STangent => let* l := read_tangents lm (e_data seg) in Ok (DTangent l)
  | SVertexTri => let* l := decode_triangle_data oc ctx seg in Ok (DTriVertex l)
  | SNormalTri => let* l := decode_triangle_data oc ctx seg in Ok (DTriNormal l)
  | SUvTri => let* l := decode_triangle_data oc ctx seg in Ok (DTriUV l)
  | STangentTri => let* l := decode_triangle_data oc ctx seg in Ok (DTriTangent l)
  | SCustom k => let* s := cseg_read oc ctx k (e_data seg) in Ok (DCustom s)
  | SShared =>
    match e_data seg with
    | [] => Err (EIO UnexpectedEof)
    | kind :: data =>
      match e_comp seg with
      | CNone => let* l := read_default_triangles oc ctx data in Ok (DShared kind l)
      | c => Err (EUnsuportedCompressionType (compression_code c))
      end
    end
  end.

(* src/tmf.rs L454-489 : apply *)
Definition apply (m : mesh) (d : dseg) : mesh :=
  match d with
  | DVertex l => append_vertices m l
  | DNormal l => append_normals m l
  | DUV l => append_uvs m l
  | DTriVertex l => append_vertex_triangles m l
  | DTriNormal l => append_normal_triangles m l
  | DTriUV l => append_uv_triangles m l
  | DCustom s => add_custom_data_seg m s
  | DTangent l => append_tangents m l
  | DTriTangent l => append_tangent_triangles m l
  | DNothing => m
  | DShared mask l =>
    let m := if has_mask mask MASK_VERTEX then append_vertex_triangles m l else m in
    let m := if has_mask mask MASK_NORMAL then append_normal_triangles m l else m in
    if has_mask mask MASK_UV then append_uv_triangles m l else m
  end.
