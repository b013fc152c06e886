(** Model of builds with another IndexType (src/lib.rs L61-70): [iw] is its size in bits,
    32 by default, 16 with the feature short_indices, 64 with long_indices. With [iw = 32]
    these are the definitions of the other files (IndexWidth_proofs.v proves it). Only
    functions in which IndexType is the target of a cast, or whose limits are used, occur
    here, with their callers. *)
From Coq Require Import List NArith ZArith Arith Bool.
From Verif Require Import Base UnalignedRW ReadExt Triangles OptTris Floats Utilis Unify Vertices OptVertices Uv Normals
  CustomData Mesh Tmf File.
Import ListNotations.
Open Scope res_scope.

(** One more than IndexType::MAX. *)
Definition imod (iw : nat) : N := (2 ^ N.of_nat iw)%N.

Section Width.
Variable iw : nat.

(** *** Loading *)

(** [(i + min) as IndexType] *)
Definition add_min_w (oc : bool) (i min : N) : res ierr N :=
  let* s := add64 oc i min in Ok (s mod imod iw)%N.

(* src/vertices.rs L209-213 : first loop of read_triangles *)
Fixpoint read_tri_pairs_w (oc : bool) (n : nat) (r : reader) (prec : nat) (min : N) (acc : list N)
  : res ierr (list N * reader) :=
  match n with
  | O => Ok (acc, r)
  | S n' =>
    let* (p, r1) := io (read2_unaligned oc r prec) in
    let* a := add_min_w oc (fst p) min in
    let* b := add_min_w oc (snd p) min in
    read_tri_pairs_w oc n' r1 prec min (acc ++ [a; b])
  end.
(* src/vertices.rs L196-218 : read_triangles *)
Definition read_triangles_w (oc : bool) (ctx : import_ctx) (src : list N) : res ierr (list N) :=
  let* (precision, src) := io (read_u8 src) in
  let* (length, src) := io (read_u64 src) in
  let* (min, src) := io (read_triangle_min ctx src) in
  if (MAX_SEG_SIZE <? length)%N then Err ESegmentTooLong
  else
    let prec := N.to_nat precision in
    let* (res, r) := read_tri_pairs_w oc (N.to_nat (length / 2)) (reader_new (slice src)) prec min [] in
    if (length mod 2 =? 0)%N then Ok res
    else
      let* (i, _) := io (read_unaligned r prec) in
      let* v := add_min_w oc i min in
      Ok (res ++ [v]).
(* src/tmf_importer.rs L276-280 : pair loop of read_default_triangles *)
Fixpoint default_tri_pairs_w (oc : bool) (n index : nat) (r : reader) (prec : nat) (min : N) (buf : cells)
  : res ierr (cells * reader) :=
  match n with
  | O => Ok (buf, r)
  | S n' =>
    let* (p, r1) := io (read2_unaligned oc r prec) in
    let* a := add_min_w oc (fst p) min in
    let* buf := set_cell buf (index * 2) a in
    let* b := add_min_w oc (snd p) min in
    let* buf := set_cell buf (index * 2 + 1) b in
    default_tri_pairs_w oc n' (S index) r1 prec min buf
  end.
(* src/tmf_importer.rs L258-289 : read_default_triangles on an empty Vec, as in Triangles.v *)
Definition read_default_cells_w (oc : bool) (ctx : import_ctx) (spare : nat) (src : list N)
  : res ierr cells :=
  let* (precision_bits, src) := io (read_u8 src) in
  let* (length, src) := io (read_u64 src) in
  let* (min, src) := io (read_triangle_min ctx src) in
  if (MAX_SEG_SIZE <? length)%N then Err ESegmentTooLong
  else
    let len := N.to_nat length in
    let buf := repeat None (len + spare) in
    let prec := N.to_nat precision_bits in
    let* buf :=
      (if (precision_bits =? 0)%N then Ok (map (fun _ => Some 0%N) buf)
       else
         let* (buf, r) := default_tri_pairs_w oc (N.to_nat (length / 2)) 0
                                              (reader_new (slice src)) prec min buf in
         if (length mod 2 =? 0)%N then Ok buf
         else
           let* (i, _) := io (read_unaligned r prec) in
           let* v := add_min_w oc i min in
           set_cell buf (N.to_nat (length - 1)) v) in
    Ok (firstn len buf).
Definition read_default_triangles_w (oc : bool) (ctx : import_ctx) (src : list N) : res ierr (list N) :=
  let* c := read_default_cells_w oc ctx 0 src in
  match written c with Some l => Ok l | None => Panic end.

(* src/custom_data.rs L192-276 : CustomDataSegment::read *)
Definition cseg_read_w (oc : bool) (ctx : import_ctx) (kind : ckind) (src : list N) : res ierr cseg :=
  let* (name_len, src) := io (read_u8 src) in
  let* (name, src) := io (read_exact name_len src) in
  let* d :=
    match kind with
    | KIndex => let* l := read_triangles_w oc ctx src in Ok (new_index l)
    | KInteger => let* l := read_triangles_w oc ctx src in Ok (new_integer l)
    | KFloat => read_custom_float src
    | KColor => read_custom_color oc src
    end in
  Ok (new_raw d name name_len).
(* src/tmf_importer.rs L304-321 : the compression check of decode_triangle_seg *)
Definition decode_triangle_data_w (oc : bool) (ctx : import_ctx) (seg : eseg) : res ierr (list N) :=
  match e_comp seg with
  | CNone => read_default_triangles_w oc ctx (e_data seg)
  | CSequence => Err (EUnsuportedCompressionType (compression_code COmmited))
  | COmmited => Err (EUnsuportedCompressionType (compression_code COmmited))
  | CUnalignedLZZ => Err (EUnsuportedCompressionType (compression_code CUnalignedLZZ))
  end.
(* src/tmf.rs L406-453 : decode; src/tmf_importer.rs L205-257, L297-338 *)
Definition decode_w (lm : libm) (oc : bool) (ctx : import_ctx) (seg : eseg) : res ierr dseg :=
  match e_type seg with
  | SInvalid => Ok DNothing
  | SVertex => let* l := read_tmf_vertices (e_data seg) in Ok (DVertex l)
  | SNormal => let* l := read_normal_array lm oc (e_data seg) in Ok (DNormal l)
  | SUv => let* l := read_uvs oc (e_data seg) in Ok (DUV l)
  | STangent => let* l := read_tangents lm (e_data seg) in Ok (DTangent l)
  | SVertexTri => let* l := decode_triangle_data_w oc ctx seg in Ok (DTriVertex l)
  | SNormalTri => let* l := decode_triangle_data_w oc ctx seg in Ok (DTriNormal l)
  | SUvTri => let* l := decode_triangle_data_w oc ctx seg in Ok (DTriUV l)
  | STangentTri => let* l := decode_triangle_data_w oc ctx seg in Ok (DTriTangent l)
  | SCustom k => let* s := cseg_read_w oc ctx k (e_data seg) in Ok (DCustom s)
  | SShared =>
    match e_data seg with
    | [] => Err (EIO UnexpectedEof)
    | kind :: data =>
      match e_comp seg with
      | CNone => let* l := read_default_triangles_w oc ctx data in Ok (DShared kind l)
      | c => Err (EUnsuportedCompressionType (compression_code c))
      end
    end
  end.
(* src/tmf_importer.rs L122-154 : import_mesh *)
Definition import_mesh_w (lm : libm) (oc : bool) (ctx : import_ctx) (src : list N)
  : res ierr ((mesh * list N) * list N) :=
  let* (name, src) := io (read_string src) in
  let* (segment_count, src) := io (read_u16 src) in
  let* (encoded, src) := read_segments ctx (N.to_nat segment_count) src in
  let* decoded := join_collect (map (decode_w lm oc ctx) encoded) in
  Ok ((fold_left apply decoded empty, name), src).
(* src/tmf_importer.rs L184-186 *)
Fixpoint import_meshes_w (lm : libm) (oc : bool) (ctx : import_ctx) (n : nat) (src : list N)
  : res ierr (list (mesh * list N) * list N) :=
  match n with
  | O => Ok ([], src)
  | S n' =>
    let* (m, src) := import_mesh_w lm oc ctx src in
    let* (l, src) := import_meshes_w lm oc ctx n' src in
    Ok (m :: l, src)
  end.
(* src/tmf_importer.rs L177-188 : import *)
Definition import_w (lm : libm) (oc : bool) (src : list N) : res ierr (list (mesh * list N) * list N) :=
  let* (h, src) := read_tmf_header src in
  let* (mesh_count, src) := io (read_u32 src) in
  import_meshes_w lm oc (init_header h) (N.to_nat mesh_count) src.
(* src/lib.rs L820-822 : read_tmf *)
Definition read_tmf_w (lm : libm) (oc : bool) (src : list N) : res ierr (list (mesh * list N)) :=
  let* (meshes, _) := import_w lm oc src in Ok meshes.
(* src/lib.rs L852-864 : read_tmf_one *)
Definition read_tmf_one_w (lm : libm) (oc : bool) (src : list N) : res ierr (mesh * list N) :=
  let* meshes := read_tmf_w lm oc src in
  match meshes with
  | [] => Err ENoMeshes
  | [m] => Ok m
  | _ => Err ETooManyMeshes
  end.

(** *** Saving *)

(* src/tmf_exporter.rs L227-280 : opt_tris, which starts from IndexType::MAX in L255 *)
Fixpoint opt_tris_fuel_w (oc : bool) (fuel : nat) (tris : list N) : res no_fuel (list (list N)) :=
  match fuel with
  | O => Err OutOfFuel
  | S fuel' =>
    let* best := scan_max oc tris 0 0 (max_or 1 tris) (isize_min, 0) in
    if (0 <? fst best)%Z then
      let* (s1, s2) := split_at tris (snd best) in
      let* r_1 := opt_tris_fuel_w oc fuel' s1 in
      let* r_2 := opt_tris_fuel_w oc fuel' s2 in
      Ok (r_1 ++ r_2)
    else
      let* best := scan_min oc tris 0 (imod iw - 1) (min_or 1 tris) (isize_min, 0) in
      if (0 <? fst best)%Z then
        let* (s1, s2) := split_at tris (snd best) in
        let* r_1 := opt_tris_fuel_w oc fuel' s1 in
        let* r_2 := opt_tris_fuel_w oc fuel' s2 in
        Ok (r_1 ++ r_2)
      else Ok [tris]
  end.
Definition opt_tris_w (oc : bool) (tris : list N) : res no_fuel (list (list N)) :=
  opt_tris_fuel_w oc (S (length tris)) tris.
(* src/tmf.rs L289-342 : optimize *)
Definition optimize_w (lm : libm) (oc : bool) (d : dseg) : res no_fuel (list dseg) :=
  match d with
  | DTriVertex l => let* o := opt_tris_w oc l in Ok (map DTriVertex o)
  | DTriUV l => let* o := opt_tris_w oc l in Ok (map DTriUV o)
  | DTriNormal l => let* o := opt_tris_w oc l in Ok (map DTriNormal o)
  | DTriTangent l => let* o := opt_tris_w oc l in Ok (map DTriTangent o)
  | DVertex l => let* o := opt_vertices lm oc l in Ok (map DVertex o)
  | DShared k l => let* o := opt_tris_w oc l in Ok (map (DShared k) o)
  | _ => Ok [d]
  end.
(* src/tmf_exporter.rs L96-101 *)
Fixpoint optimize_all_w (lm : libm) (oc : bool) (segs : list dseg) : res xerr (list dseg) :=
  match segs with
  | [] => Ok []
  | s :: t =>
    let* a := map_err (fun _ => XFuel) (optimize_w lm oc s) in
    let* b := optimize_all_w lm oc t in
    Ok (a ++ b)
  end.
(* src/tmf_exporter.rs L84-113 : write_mesh *)
Definition write_mesh_w (lm : libm) (oc : bool) (p : prec_info) (m : mesh) (name : list N) : action unit :=
  do* _ <- write_mesh_name name in
  do* shortest_edge <- pure (calc_shortest_edge (vertex_triangles m) (vertices m)) in
  do* segs <- pure (optimize_all_w lm oc (merge_segments (tmf_segs m))) in
  let encoded := map (fun s => map_err XIo (encode lm oc p shortest_edge s)) segs in
  do* _ <- pure (if existsb is_panic encoded then Panic else Ok tt) in
  do* _ <- write_all (le_bytes 2 (N.of_nat (length encoded))) in
  write_segments encoded.
Fixpoint write_meshes_w (lm : libm) (oc : bool) (p : prec_info) (l : list (mesh * list N)) : action unit :=
  match l with
  | [] => ret tt
  | (m, name) :: t => do* _ <- write_mesh_w lm oc p m name in write_meshes_w lm oc p t
  end.
(* src/tmf_exporter.rs L114-125 : write_tmf; src/lib.rs L773-779 *)
Definition write_tmf_w (lm : libm) (oc : bool) (p : prec_info) (l : list (mesh * list N)) : action unit :=
  do* _ <- write_tmf_header (N.of_nat (length l)) in write_meshes_w lm oc p l.
(** The bytes of a save into a sink that never fails (a Vec). *)
Definition saved_w (lm : libm) (oc : bool) (p : prec_info) (l : list (mesh * list N)) : res xerr (list N) :=
  let '(s, r) := write_tmf_w lm oc p l (mk_sink [] None) in
  let* _ := r in Ok (k_data s).

(** *** Verification *)

(** [array.len() as IndexType] *)
Definition len_w {A} (l : list A) : N := (N.of_nat (length l) mod imod iw)%N.
(* src/verify.rs L70-90 : verify_vertices ([None] is Ok(())) *)
Definition verify_vertices_w (m : mesh) : option integrity :=
  match vertices m with
  | None => match vertex_triangles m with Some _ => Some VertexArrayMissing | None => None end
  | Some v =>
    match vertex_triangles m with
    | Some t => match indices_inside_array t (len_w v) with
                | Some i => Some (IndexOutsideVertexArray i (len_w v))
                | None => None
                end
    | None => None
    end
  end.
(* src/verify.rs L91-118 : verify_uvs *)
Definition verify_uvs_w (m : mesh) : option integrity :=
  match uvs m with
  | None => match uv_triangles m with Some _ => Some UVArrayMissing | None => None end
  | Some v =>
    match uv_range_loop v with
    | Some e => Some e
    | None =>
      match uv_triangles m with
      | Some t => match indices_inside_array t (len_w v) with
                  | Some i => Some (IndexOutsideUVArray i (len_w v))
                  | None => None
                  end
      | None => None
      end
    end
  end.
(* src/verify.rs L120-149 : verify_normals *)
Definition verify_normals_w (m : mesh) : option integrity :=
  match normals m with
  | None => match normal_triangles m with Some _ => Some NormalArrayMissing | None => None end
  | Some v =>
    if existsb not_normalized v then Some NormalsNotNormalized
    else
      match normal_triangles m with
      | Some t => match indices_inside_array t (len_w v) with
                  | Some i => Some (IndexOutsideNormalArray i (len_w v))
                  | None => None
                  end
      | None => None
      end
  end.
(* src/verify.rs L150-173 : verify_tmf_mesh *)
Definition verify_tmf_mesh_w (m : mesh) : res integrity unit :=
  let errors := somes [verify_vertices_w m; verify_normals_w m; verify_uvs_w m] in
  match errors with
  | [] => Ok tt
  | [e] => Err e
  | _ => Err (CompositeError errors)
  end.
End Width.
