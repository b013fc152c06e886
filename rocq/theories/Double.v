(** Model of loading in a program built with the feature [double_precision]: FloatType is f64
    (src/lib.rs L74-75). The bit reader, the index arrays, the segments and the header do not
    depend on FloatType and are those of the other files. *)
From Coq Require Import List NArith ZArith Arith Bool.
From Flocq Require Import IEEE754.BinarySingleNaN.
From Verif Require Import Base UnalignedRW ReadExt Triangles Floats Vertices Normals CustomData Tmf File FastTrig.
Import ListNotations.
Open Scope res_scope.

(** f64 constants and operations that only this build needs. *)
Definition d0 : f64 := B754_zero false.
Definition d1 : f64 := f64_of_Z 1.
Definition dneg (x : f64) : f64 := Bopp x.
Definition dsqrt (x : f64) : f64 := @Bsqrt 53 1024 gt0_53 lt_53_1024 mode_NE x.
(** 0.99999 (f64 literal) *)
Definition d099999 : f64 := dlit 99999 100000.
(** [PI / 2.0] with [PI = std::f64::consts::PI] (src/normals.rs L125, L105). *)
Definition d_half_pi : f64 := ddiv d_PI (f64_of_Z 2).

(* src/lib.rs L77-81, src/tangents.rs L45 *)
Definition dvec2 : Type := f64 * f64.
Definition dvec3 : Type := f64 * f64 * f64.
Definition dvec4 : Type := f64 * f64 * f64 * f64.
Definition dtangent : Type := dvec3 * f64.

(* src/custom_data.rs L52-57, L5-9 *)
Inductive dcdata : Type :=
| XIndex (l : list N) (max_index : N)
| XInteger (l : list N) (max_integer : N)
| XFloat (l : list f64) (prec : f64)
| XColor (l : list dvec4) (prec : f64).
Record dcseg := mk_dcseg { x_name : list N; x_name_len : N; x_data : dcdata }.

(* src/lib.rs L128-139 : struct TMFMesh *)
Record dmesh := mk_dmesh {
  d_normals : option (list dvec3);
  d_normal_triangles : option (list N);
  d_vertices : option (list dvec3);
  d_vertex_triangles : option (list N);
  d_uvs : option (list dvec2);
  d_uv_triangles : option (list N);
  d_tangents : option (list dtangent);
  d_tangent_triangles : option (list N);
  d_custom_data : list dcseg }.
(* src/lib.rs L788-801 : empty *)
Definition d_empty : dmesh := mk_dmesh None None None None None None None None [].

(** A loop of [n] rounds that pushes what [step] reads. *)
Fixpoint read_many {A} (step : reader -> res ierr (A * reader)) (n : nat) (r : reader) (acc : list A)
  : res ierr (list A) :=
  match n with
  | O => Ok acc
  | S n => let* (a, r) := step r in read_many step n r (acc ++ [a])
  end.

(* src/vertices.rs L150-155 : value of one coordinate *)
Definition dequantize_d (q : N) (div s mn : f64) : f64 := dadd (dmul (ddiv (f64_of_N q) div) s) mn.
(* src/vertices.rs L105-159 : read_tmf_vertices; the casts of L108-113 change nothing *)
Definition read_tmf_vertices_d (src : list N) : res ierr (list dvec3) :=
  let* (vertex_count, src) := io (read_u64 src) in
  let* (minx, src) := io (read_f64 src) in
  let* (maxx, src) := io (read_f64 src) in
  let* (miny, src) := io (read_f64 src) in
  let* (maxy, src) := io (read_f64 src) in
  let* (minz, src) := io (read_f64 src) in
  let* (maxz, src) := io (read_f64 src) in
  let* (prec_x, src) := read_prec src in
  let* (prec_y, src) := read_prec src in
  let* (prec_z, src) := read_prec src in
  let div_x := f64_of_N (mask_u64 prec_x) in
  let div_y := f64_of_N (mask_u64 prec_y) in
  let div_z := f64_of_N (mask_u64 prec_z) in
  let sx := dsub maxx minx in
  let sy := dsub maxy miny in
  let sz := dsub maxz minz in
  if (MAX_SEG_SIZE <? vertex_count)%N then Err ESegmentTooLong
  else
    read_many (fun r =>
      let* (x, r) := io (read_unaligned r prec_x) in
      let* (y, r) := io (read_unaligned r prec_y) in
      let* (z, r) := io (read_unaligned r prec_z) in
      Ok ((dequantize_d x div_x sx minx, dequantize_d y div_y sy miny, dequantize_d z div_z sz minz), r))
      (N.to_nat vertex_count) (reader_new (slice src)) [].

(* src/normals.rs L87-124 : normal_from_encoding. [sc] is f64::sin_cos. *)
Definition normal_from_encoding_d (sc : f64 -> f64 * f64) (c : ncode) (precision : nat) : dvec3 :=
  if precision =? 0 then
    ((if n_sx c then dneg d1 else d1), (if n_sy c then dneg d1 else d1), (if n_sz c then dneg d1 else d1))
  else
    let divisor := f64_of_N (mask_u64 precision) in
    let asine := ddiv (f64_of_N (n_asine c)) divisor in
    let asine := dmul asine d_half_pi in
    let z := ddiv (f64_of_N (n_z c)) divisor in
    let '(x, y) := sc asine in
    let xy_mag := dsqrt (dsub d1 (dmul z z)) in
    let y := dmul y xy_mag in
    let x := dmul x xy_mag in
    ((if n_sx c then dneg x else x), (if n_sy c then dneg y else y), (if n_sz c then dneg z else z)).
(* src/normals.rs L143-155, L171-188 : read_normal, read_normal_array *)
Definition read_normal_array_d (sc : f64 -> f64 * f64) (oc : bool) (src : list N) : res ierr (list dvec3) :=
  let* (count, src) := io (read_u64 src) in
  if (MAX_SEG_SIZE <? count)%N then Err ESegmentTooLong
  else
    let* (precision, src) := read_prec src in
    read_many (fun r =>
      let* (sx, r) := io (read_bit r) in
      let* (sy, r) := io (read_bit r) in
      let* (sz, r) := io (read_bit r) in
      let* (p, r) := io (read2_unaligned oc r precision) in
      Ok (normal_from_encoding_d sc (mk_ncode (fst p) (snd p) sx sy sz) precision, r))
      (N.to_nat count) (reader_new (slice src)) [].
(* src/tangents.rs L37-43 : ht_from_bool *)
Definition ht_from_bool_d (b : bool) : f64 := if b then dneg d1 else d1.
(* src/tangents.rs L54-67, L91-118 : read_tangents *)
Definition read_tangents_d (sc : f64 -> f64 * f64) (src : list N) : res ierr (list dtangent) :=
  let* (count, src) := io (read_u64 src) in
  if (MAX_SEG_SIZE <? count)%N then Err ESegmentTooLong
  else
    let* (precision, src) := read_prec src in
    read_many (fun r =>
      let* (h, r) := io (read_bit r) in
      let* (sx, r) := io (read_bit r) in
      let* (sy, r) := io (read_bit r) in
      let* (sz, r) := io (read_bit r) in
      let* (asine, r) := io (read_unaligned r precision) in
      let* (z, r) := io (read_unaligned r precision) in
      Ok ((normal_from_encoding_d sc (mk_ncode asine z sx sy sz) precision, ht_from_bool_d h), r))
      (N.to_nat count) (reader_new (slice src)) [].

(* src/uv.rs L53-76 : read_uvs *)
Definition read_uvs_d (oc : bool) (src : list N) : res ierr (list dvec2) :=
  let* (precision, src) := io (read_u8 src) in
  let* (count, src) := io (read_u64 src) in
  if (MAX_SEG_SIZE <? count)%N then Err ESegmentTooLong
  else if (precision =? 0)%N then Ok (repeat (d0, d0) (N.to_nat count))
  else if (64 <=? precision)%N then Err (EInvalidPrecision precision)
  else
    let prec := N.to_nat precision in
    let divisor := f64_of_N (mask_u64 prec) in
    read_many (fun r =>
      let* (p, r) := io (read2_unaligned oc r prec) in
      Ok ((ddiv (f64_of_N (fst p)) divisor, ddiv (f64_of_N (snd p)) divisor), r))
      (N.to_nat count) (reader_new (slice src)) [].

(* src/custom_data.rs L220-242 : float data *)
Definition read_custom_float_d (src : list N) : res ierr dcdata :=
  let* (len, src) := io (read_u64 src) in
  if (MAX_SEG_SIZE <? len)%N then Err ESegmentTooLong
  else
    let* (mn, src) := io (read_f64 src) in
    let* (mx, src) := io (read_f64 src) in
    let* (prec, src) := read_prec src in
    let div := f64_of_N (mask_u64 prec) in
    let span := dsub mx mn in
    let* l := read_many (fun r =>
        let* (v, r) := io (read_unaligned r prec) in
        Ok (dadd (dmul (ddiv (f64_of_N v) div) span) mn, r))
      (N.to_nat len) (reader_new (slice src)) [] in
    Ok (XFloat l (dmul (ddiv (dsub mx mn) (f64_of_N (2 ^ N.of_nat prec))) d099999)).
(** [vec![(0.0,0.0,0.0,0.0); len]] takes 32 bytes for each colour in this build. *)
Definition color_alloc_ok_d (len : N) : bool := (len * 32 <? 2 ^ 63)%N.
(* src/custom_data.rs L249-267 : colour data *)
Definition read_custom_color_d (oc : bool) (src : list N) : res ierr dcdata :=
  let* (len, src) := io (read_u64 src) in
  let* (prec_bits, src) := io (read_u8 src) in
  if negb (color_alloc_ok_d len) then Panic
  else
    let prec := N.to_nat prec_bits in
    let* one := shl64 oc 1 prec in
    let div := f64_of_N (one - 1) in
    let mk v := ddiv (f64_of_N v) div in
    let* l := read_many (fun r =>
        let* (p, r) := io (read2_unaligned oc r prec) in
        let* (q, r) := io (read2_unaligned oc r prec) in
        Ok ((mk (fst p), mk (snd p), mk (fst q), mk (snd q)), r))
      (N.to_nat len) (reader_new (slice src)) [] in
    Ok (XColor l (dmul (ddiv (f64_of_N 1) (f64_of_N one)) d099999)).
(* src/custom_data.rs L192-276, L19-26 : CustomDataSegment::read, new_raw *)
Definition cseg_read_d (oc : bool) (ctx : import_ctx) (kind : ckind) (src : list N) : res ierr dcseg :=
  let* (name_len, src) := io (read_u8 src) in
  let* (name, src) := io (read_exact name_len src) in
  let* d :=
    match kind with
    | KIndex => let* l := read_triangles oc ctx src in Ok (XIndex l (max_or 0 l))
    | KInteger => let* l := read_triangles oc ctx src in Ok (XInteger l (max_or 0 l))
    | KFloat => read_custom_float_d src
    | KColor => read_custom_color_d oc src
    end in
  Ok (mk_dcseg (firstn (N.to_nat name_len) (name ++ repeat 0%N (255 - length name))) name_len d).

(* src/tmf.rs L100-112 : DecodedSegment *)
Inductive xseg :=
| XNothing
| XVertex (l : list dvec3)
| XNormal (l : list dvec3)
| XUV (l : list dvec2)
| XTangent (l : list dtangent)
| XTriVertex (l : list N)
| XTriNormal (l : list N)
| XTriUV (l : list N)
| XTriTangent (l : list N)
| XShared (mask : N) (l : list N)
| XCustom (s : dcseg).
(* src/tmf.rs L406-453 : decode *)
Definition decode_d (sc : f64 -> f64 * f64) (oc : bool) (ctx : import_ctx) (seg : eseg) : res ierr xseg :=
  match e_type seg with
  | SInvalid => Ok XNothing
  | SVertex => let* l := read_tmf_vertices_d (e_data seg) in Ok (XVertex l)
  | SNormal => let* l := read_normal_array_d sc oc (e_data seg) in Ok (XNormal l)
  | SUv => let* l := read_uvs_d oc (e_data seg) in Ok (XUV l)
  | STangent => let* l := read_tangents_d sc (e_data seg) in Ok (XTangent l)
  | SVertexTri => let* l := decode_triangle_data oc ctx seg in Ok (XTriVertex l)
  | SNormalTri => let* l := decode_triangle_data oc ctx seg in Ok (XTriNormal l)
  | SUvTri => let* l := decode_triangle_data oc ctx seg in Ok (XTriUV l)
  | STangentTri => let* l := decode_triangle_data oc ctx seg in Ok (XTriTangent l)
  | SCustom k => let* s := cseg_read_d oc ctx k (e_data seg) in Ok (XCustom s)
  | SShared =>
    match e_data seg with
    | [] => Err (EIO UnexpectedEof)
    | kind :: data =>
      match e_comp seg with
      | CNone => let* l := read_default_triangles oc ctx data in Ok (XShared kind l)
      | c => Err (EUnsuportedCompressionType (compression_code c))
      end
    end
  end.

(* src/lib.rs L974-1107 : the appenders, on one field *)
Definition extend {A} (o : option (list A)) (l : list A) : option (list A) :=
  match o with Some v => Some (v ++ l) | None => Some l end.
Definition append_vertex_triangles_d (m : dmesh) l : dmesh :=
  mk_dmesh (d_normals m) (d_normal_triangles m) (d_vertices m) (extend (d_vertex_triangles m) l) (d_uvs m) (d_uv_triangles m)
    (d_tangents m) (d_tangent_triangles m) (d_custom_data m).
Definition append_normal_triangles_d (m : dmesh) l : dmesh :=
  mk_dmesh (d_normals m) (extend (d_normal_triangles m) l) (d_vertices m) (d_vertex_triangles m) (d_uvs m) (d_uv_triangles m)
    (d_tangents m) (d_tangent_triangles m) (d_custom_data m).
Definition append_uv_triangles_d (m : dmesh) l : dmesh :=
  mk_dmesh (d_normals m) (d_normal_triangles m) (d_vertices m) (d_vertex_triangles m) (d_uvs m) (extend (d_uv_triangles m) l)
    (d_tangents m) (d_tangent_triangles m) (d_custom_data m).
(* src/tmf.rs L454-489 : apply *)
Definition apply_d (m : dmesh) (d : xseg) : dmesh :=
  match d with
  | XVertex l =>
    mk_dmesh (d_normals m) (d_normal_triangles m) (extend (d_vertices m) l) (d_vertex_triangles m) (d_uvs m) (d_uv_triangles m)
      (d_tangents m) (d_tangent_triangles m) (d_custom_data m)
  | XNormal l =>
    mk_dmesh (extend (d_normals m) l) (d_normal_triangles m) (d_vertices m) (d_vertex_triangles m) (d_uvs m) (d_uv_triangles m)
      (d_tangents m) (d_tangent_triangles m) (d_custom_data m)
  | XUV l =>
    mk_dmesh (d_normals m) (d_normal_triangles m) (d_vertices m) (d_vertex_triangles m) (extend (d_uvs m) l) (d_uv_triangles m)
      (d_tangents m) (d_tangent_triangles m) (d_custom_data m)
  | XTangent l =>
    mk_dmesh (d_normals m) (d_normal_triangles m) (d_vertices m) (d_vertex_triangles m) (d_uvs m) (d_uv_triangles m)
      (extend (d_tangents m) l) (d_tangent_triangles m) (d_custom_data m)
  | XTriTangent l =>
    mk_dmesh (d_normals m) (d_normal_triangles m) (d_vertices m) (d_vertex_triangles m) (d_uvs m) (d_uv_triangles m)
      (d_tangents m) (extend (d_tangent_triangles m) l) (d_custom_data m)
  | XCustom s =>
    mk_dmesh (d_normals m) (d_normal_triangles m) (d_vertices m) (d_vertex_triangles m) (d_uvs m) (d_uv_triangles m)
      (d_tangents m) (d_tangent_triangles m) (d_custom_data m ++ [s])
  | XTriVertex l => append_vertex_triangles_d m l
  | XTriNormal l => append_normal_triangles_d m l
  | XTriUV l => append_uv_triangles_d m l
  | XNothing => m
  | XShared mask l =>
    let m := if has_mask mask MASK_VERTEX then append_vertex_triangles_d m l else m in
    let m := if has_mask mask MASK_NORMAL then append_normal_triangles_d m l else m in
    if has_mask mask MASK_UV then append_uv_triangles_d m l else m
  end.

(* src/tmf_importer.rs L122-154 : import_mesh *)
Definition import_mesh_d (sc : f64 -> f64 * f64) (oc : bool) (ctx : import_ctx) (src : list N)
  : res ierr ((dmesh * list N) * list N) :=
  let* (name, src) := io (read_string src) in
  let* (segment_count, src) := io (read_u16 src) in
  let* (encoded, src) := read_segments ctx (N.to_nat segment_count) src in
  let* decoded := join_collect (map (decode_d sc oc ctx) encoded) in
  Ok ((fold_left apply_d decoded d_empty, name), src).
(* src/tmf_importer.rs L184-186 *)
Fixpoint import_meshes_d (sc : f64 -> f64 * f64) (oc : bool) (ctx : import_ctx) (n : nat) (src : list N)
  : res ierr (list (dmesh * list N) * list N) :=
  match n with
  | O => Ok ([], src)
  | S n' =>
    let* (m, src) := import_mesh_d sc oc ctx src in
    let* (l, src) := import_meshes_d sc oc ctx n' src in
    Ok (m :: l, src)
  end.
(* src/tmf_importer.rs L177-188, src/lib.rs L820-822 : import, read_tmf *)
Definition read_tmf_d (sc : f64 -> f64 * f64) (oc : bool) (src : list N) : res ierr (list (dmesh * list N)) :=
  let* (h, src) := read_tmf_header src in
  let* (mesh_count, src) := io (read_u32 src) in
  let* (meshes, _) := import_meshes_d sc oc (init_header h) (N.to_nat mesh_count) src in
  Ok meshes.
(* src/lib.rs L852-864 : read_tmf_one *)
Definition read_tmf_one_d (sc : f64 -> f64 * f64) (oc : bool) (src : list N) : res ierr (dmesh * list N) :=
  let* meshes := read_tmf_d sc oc src in
  match meshes with
  | [] => Err ENoMeshes
  | [m] => Ok m
  | _ => Err ETooManyMeshes
  end.
