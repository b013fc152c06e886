(** Model of saving in a program built with the feature [double_precision] (src/lib.rs L74-75). The
    bit writer, the index arrays, the segments and the sinks do not depend on FloatType and are those
    of the other files. *)
From Coq Require Import List NArith ZArith Arith Bool.
From Flocq Require Import IEEE754.BinarySingleNaN.
From Verif Require Import Base UnalignedRW ReadExt Triangles OptTris Floats Utilis Unify Vertices Normals OptVertices CustomData Mesh Tmf File Double.
Import ListNotations.
Open Scope res_scope.

(** *** f64 operations *)
Definition dabs (x : f64) : f64 := Babs x.
(** f64::ceil *)
Definition dceil (x : f64) : f64 := @Bnearbyint 53 1024 lt_53_1024 mode_UP x.
Definition dlt (x y : f64) : bool := Bltb x y.
(** f64::min and f64::max, as for f32 in Floats.v. *)
Definition dmin (x y : f64) : f64 :=
  if is_nan x then y else if is_nan y then x else if dlt y x then y else x.
Definition dmax (x y : f64) : f64 :=
  if is_nan x then y else if is_nan y then x else if dlt x y then y else x.
(** [as u8], [as u64] from f64: truncation, saturating, 0 for NaN. *)
Definition sat_cast_d (mx : N) (x : f64) : N :=
  match x with
  | B754_nan => 0%N
  | B754_infinity s => if s then 0%N else mx
  | _ => N.min mx (Z.to_N (Btrunc x))
  end.
Definition u64_of_f64 (x : f64) : N := sat_cast_d (two64 - 1) x.
Definition u8_of_f64 (x : f64) : nat := N.to_nat (sat_cast_d 255 x).
(** f64::INFINITY, f64::MAX, f64::MIN *)
Definition d_inf : f64 := B754_infinity false.
Definition d_MAX : f64 := @binary_normalize 53 1024 gt0_53 lt_53_1024 mode_NE (2 ^ 53 - 1) 971 false.
Definition d_MIN : f64 := dneg d_MAX.
(** The mathematical functions of the platform on f64. *)
Record libm64 := mk_libm64 { l_log2 : f64 -> f64; l_asin : f64 -> f64; l_sin_cos : f64 -> f64 * f64 }.
(** [((1 << precision) - 1) as FloatType]: the shift is still done in i32. *)
Definition mask_f64 {E} (oc : bool) (p : nat) : res E f64 :=
  let* z := mask_i32 oc p in Ok (f64_of_Z z).
(** [(x as f64).to_le_bytes()]: the cast changes nothing. *)
Definition le_d (x : f64) : list N := le_bytes 8 (bits_of_f64 x).

Definition dvx (v : dvec3) : f64 := fst (fst v).
Definition dvy (v : dvec3) : f64 := snd (fst v).
Definition dvz (v : dvec3) : f64 := snd v.
(* src/utilis.rs L63-68 : distance *)
Definition distance_d (a b : dvec3) : f64 :=
  let dx := dsub (dvx a) (dvx b) in
  let dy := dsub (dvy a) (dvy b) in
  let dz := dsub (dvz a) (dvz b) in
  dsqrt (dadd (dadd (dmul dx dx) (dmul dy dy)) (dmul dz dz)).

(** *** Vertices *)
Record dbox := mk_dbox {
  dmin_x : f64; dmax_x : f64; dmin_y : f64; dmax_y : f64; dmin_z : f64; dmax_z : f64 }.
(* src/vertices.rs L37-42 *)
Definition dbox_init (v : dvec3) : dbox := mk_dbox (dvx v) (dvx v) (dvy v) (dvy v) (dvz v) (dvz v).
(* src/vertices.rs L46-51 : one iteration; each line uses the values the lines above it have just assigned. *)
Definition dbox_step (b : dbox) (v : dvec3) : dbox :=
  let minx := dmin (dmin_x b) (dvx v) in
  let maxx := dmax (dmax_y b) (dvy v) in
  let miny := dmin (dmin_z b) (dvz v) in
  let maxy := dmax maxx (dvx v) in
  let minz := dmin miny (dvy v) in
  let maxz := dmax (dmax_z b) (dvz v) in
  mk_dbox minx maxx miny maxy minz maxz.
(* src/vertices.rs L37-52; [vertices[0]] panics on an empty slice *)
Definition bounding_box_d {E} (vs : list dvec3) : res E dbox :=
  match vs with
  | [] => Panic
  | v :: _ => Ok (fold_left dbox_step vs (dbox_init v))
  end.
(* src/vertices.rs L64 : 0.000_001 *)
Definition min_extent_d : f64 := dlit 1 1000000.
(* src/vertices.rs L68-78 : width for one axis; [s] is the extent used in it *)
Definition axis_precision_d (lm : libm64) (shortest_edge s precision : f64) : nat :=
  let inc := dmul (ddiv shortest_edge s) precision in
  Nat.max (u8_of_f64 (dceil (l_log2 lm (ddiv d1 inc)))) 1.
(* src/vertices.rs L94-96 : code of one coordinate *)
Definition quantize_d (v mn s mul : f64) : N := u64_of_f64 (dmul (ddiv (dsub v mn) s) mul).
(* src/vertices.rs L31-104 : save_tmf_vertices *)
Definition save_tmf_vertices_d (lm : libm64) (oc : bool) (vs : list dvec3) (precision shortest_edge : f64)
  (sink : list N) : res ioerr (list N) :=
  let* b := bounding_box_d vs in
  let sink := sink ++ le_bytes 8 (N.of_nat (length vs)) in
  let sink := sink ++ le_d (dmin_x b) ++ le_d (dmax_x b) ++ le_d (dmin_y b)
                   ++ le_d (dmax_y b) ++ le_d (dmin_z b) ++ le_d (dmax_z b) in
  let sx := dmax (dsub (dmax_x b) (dmin_x b)) min_extent_d in
  let sy := dmax (dsub (dmax_y b) (dmin_y b)) min_extent_d in
  let sz := dmax (dsub (dmax_z b) (dmin_z b)) min_extent_d in
  let prec_x := axis_precision_d lm shortest_edge sx precision in
  let prec_y := axis_precision_d lm shortest_edge sy precision in
  let prec_z := axis_precision_d lm shortest_edge sy precision in
  let sink := sink ++ [N.of_nat prec_x; N.of_nat prec_y; N.of_nat prec_z] in
  let* mul_x := mask_f64 oc prec_x in
  let* mul_y := mask_f64 oc prec_y in
  let* mul_z := mask_f64 oc prec_z in
  let fields := flat_map (fun v =>
    [(prec_x, quantize_d (dvx v) (dmin_x b) sx mul_x);
     (prec_y, quantize_d (dvy v) (dmin_y b) sy mul_y);
     (prec_z, quantize_d (dvz v) (dmin_z b) sz mul_z)]) vs in
  let* w := write_fields oc (writer_new sink) fields in
  Ok (writer_finish w).

(** *** Splitting of vertex arrays *)
Definition dspan : Type := dvec3 * dvec3.
(* src/tmf_exporter.rs L285-290 *)
Definition axis_bits_d (lm : libm64) (shortest_edge d : f64) : nat :=
  u8_of_f64 (dceil (l_log2 lm (ddiv d1 (ddiv shortest_edge d)))).
(* src/tmf_exporter.rs L281-292 : range_to_vertex_bit_count (z uses dy) *)
Definition range_to_vertex_bit_count_d {E} (lm : libm64) (oc : bool) (s : dspan) (shortest_edge : f64)
  : res E nat :=
  let dx := dsub (dvx (snd s)) (dvx (fst s)) in
  let dy := dsub (dvy (snd s)) (dvy (fst s)) in
  let* p := add8 oc (axis_bits_d lm shortest_edge dx) (axis_bits_d lm shortest_edge dy) in
  add8 oc p (axis_bits_d lm shortest_edge dy).
(* src/tmf_exporter.rs L293-299 : expand_vertex_span *)
Definition expand_vertex_span_d (s : dspan) (point : dvec3) : dspan :=
  ((dmin (dvx (fst s)) (dvx point), dmin (dvy (fst s)) (dvy point), dmin (dvz (fst s)) (dvz point)),
   (dmax (dvx (snd s)) (dvx point), dmax (dvy (snd s)) (dvy point), dmax (dvz (snd s)) (dvz point))).
(* src/tmf_exporter.rs L300-307 : inside_span *)
Definition inside_span_d (s : dspan) (item : dvec3) : bool :=
  dlt (dvx (fst s)) (dvx item) && dlt (dvx item) (dvx (snd s)) &&
  dlt (dvy (fst s)) (dvy item) && dlt (dvy item) (dvy (snd s)) &&
  dlt (dvz (fst s)) (dvz item) && dlt (dvz item) (dvz (snd s)).
Definition zero_span_d : dspan := ((d0, d0, d0), (d0, d0, d0)).
(* src/tmf_exporter.rs L319-338 : the scan; [best] is (best_split_score, best_split_index) *)
Fixpoint vertex_scan_d {E} (lm : libm64) (oc : bool) (shortest_edge : f64) (total : nat)
  (vs : list dvec3) (idx : nat) (min_span : dspan) (per_vertex : nat) (best : Z * nat)
  : res E (Z * nat) :=
  match vs with
  | [] => Ok best
  | v :: t =>
    if negb (inside_span_d min_span v) then
      let min_span := expand_vertex_span_d min_span v in
      let* per_vertex := range_to_vertex_bit_count_d lm oc min_span shortest_edge in
      vertex_scan_d lm oc shortest_edge total t (S idx) min_span per_vertex best
    else
      let* gain_per_vert := sub8 oc total per_vertex in
      let* gain := mul64 oc (N.of_nat idx) (N.of_nat gain_per_vert) in
      let* score := sub_isize oc (to_isize gain) (to_isize vertex_split_loss) in
      vertex_scan_d lm oc shortest_edge total t (S idx) min_span per_vertex
        (if (fst best <? score)%Z then (score, idx) else best)
  end.
(* src/tmf_exporter.rs L308-345 : find_best_vertex_spilt *)
Definition find_best_vertex_split_d {E} (lm : libm64) (oc : bool) (vs : list dvec3) (shortest_edge : f64)
  : res E (option nat) :=
  let total_span := fold_left expand_vertex_span_d vs zero_span_d in
  let* total := range_to_vertex_bit_count_d lm oc total_span shortest_edge in
  let* best := vertex_scan_d lm oc shortest_edge total vs 0 zero_span_d 0 (isize_min, 0) in
  if (0 <? fst best)%Z then
    let* last := sub64 oc (N.of_nat (length vs)) 1 in
    if (N.of_nat (snd best) <? last)%N then Ok (Some (snd best)) else Panic
  else Ok None.
(* src/tmf_exporter.rs L348 : 0.01 *)
Definition split_edge_d : f64 := dlit 1 100.
(* src/tmf_exporter.rs L346-364 : opt_vertices *)
Fixpoint opt_vertices_fuel_d (lm : libm64) (oc : bool) (fuel : nat) (vs : list dvec3)
  : res no_fuel (list (list dvec3)) :=
  match fuel with
  | O => Err OutOfFuel
  | S fuel' =>
    let* split_pos := find_best_vertex_split_d lm oc vs split_edge_d in
    match split_pos with
    | Some p =>
      let* (i0, i1) := split_at vs p in
      let* r_0 := opt_vertices_fuel_d lm oc fuel' i0 in
      let* r_1 := opt_vertices_fuel_d lm oc fuel' i1 in
      Ok (r_0 ++ r_1)
    | None => Ok [vs]
    end
  end.
Definition opt_vertices_d (lm : libm64) (oc : bool) (vs : list dvec3) : res no_fuel (list (list dvec3)) :=
  opt_vertices_fuel_d lm oc (S (length vs)) vs.

(** *** The other arrays *)
(* src/uv.rs L45-46 : code of one coordinate *)
Definition uv_code_d (mul x : f64) : N := u64_of_f64 (dmul x mul).
(* src/uv.rs L33-52 : save_uvs *)
Definition save_uvs_d (oc : bool) (uvs : list dvec2) (precision : nat) (sink : list N) : res ioerr (list N) :=
  let* multiplier := mask_f64 oc precision in
  let sink := sink ++ [N.of_nat precision] in
  let sink := sink ++ le_bytes 8 (N.of_nat (length uvs)) in
  let fields := flat_map (fun uv =>
    [(precision, uv_code_d multiplier (fst uv)); (precision, uv_code_d multiplier (snd uv))]) uvs in
  let* w := write_fields oc (writer_new sink) fields in
  Ok (writer_finish w).
(* src/normals.rs L67-86 : normal_to_encoding *)
Definition normal_to_encoding_d {E} (lm : libm64) (oc : bool) (normal : dvec3) (precision : nat) : res E ncode :=
  let* multiplier := mask_f64 oc precision in
  let ax := dabs (dvx normal) in
  let ay := dabs (dvy normal) in
  let xy_mag := dsqrt (dadd (dmul ax ax) (dmul ay ay)) in
  let asine := l_asin lm (ddiv ax xy_mag) in
  let asine := ddiv asine d_half_pi in
  Ok (mk_ncode (u64_of_f64 (dmul asine multiplier))
               (u64_of_f64 (dmul (dabs (dvz normal)) multiplier))
               (dlt (dvx normal) d0) (dlt (dvy normal) d0) (dlt (dvz normal) d0)).
(* src/normals.rs L156-170 : save_normal_array, simplified as in Normals.v *)
Definition save_normal_array_d (lm : libm64) (oc : bool) (normals : list dvec3) (precision : nat)
  (sink : list N) : res ioerr (list N) :=
  let sink := sink ++ le_bytes 8 (N.of_nat (length normals)) ++ [N.of_nat precision] in
  let* codes := map_res (fun n => normal_to_encoding_d lm oc n precision) normals in
  let* w := write_fields oc (writer_new sink) (flat_map (fun c => normal_fields c precision) codes) in
  Ok (writer_finish w).
(* src/tangents.rs L34-36, L46-53, L68-90 : ht_to_bool, tangent_to_encoding, save_tangents *)
Definition save_tangents_d (lm : libm64) (oc : bool) (tangents : list dtangent) (precision : nat)
  (sink : list N) : res ioerr (list N) :=
  let sink := sink ++ le_bytes 8 (N.of_nat (length tangents)) ++ [N.of_nat precision] in
  let* codes := map_res (fun t =>
    let* c := normal_to_encoding_d lm oc (fst t) precision in Ok (Bsign (snd t), c)) tangents in
  let* w := write_fields oc (writer_new sink)
              (flat_map (fun hc => tangent_fields (fst hc) (snd hc) precision) codes) in
  Ok (writer_finish w).
(* src/custom_data.rs L94-99 : range of a float array *)
Definition float_range_d (l : list f64) : f64 * f64 :=
  fold_left (fun mm x => (dmax (fst mm) x, dmin (snd mm) x)) l (d_MIN, d_MAX).
Definition dc4 (v : dvec4) : list f64 := [fst (fst (fst v)); snd (fst (fst v)); snd (fst v); snd v].
(* src/custom_data.rs L84-139 : CustomData::write *)
Definition cdata_write_d (lm : libm64) (oc : bool) (d : dcdata) (sink : list N) : res ioerr (list N) :=
  match d with
  | XIndex l m => save_triangles oc l m sink
  | XInteger l m => save_triangles oc l m sink
  | XFloat l p =>
    let '(mx, mn) := float_range_d l in
    let span := dsub mx mn in
    let prec := Nat.max (u8_of_f64 (dceil (l_log2 lm (ddiv span p)))) 1 in
    let* mul := mask_f64 oc prec in
    let sink := sink ++ le_bytes 8 (N.of_nat (length l)) ++ le_d mn ++ le_d mx ++ [N.of_nat prec] in
    let* w := write_fields oc (writer_new sink)
                (map (fun x => (prec, u64_of_f64 (dmul (ddiv (dsub x mn) span) mul))) l) in
    Ok (writer_finish w)
  | XColor l p =>
    let prec := u8_of_f64 (dceil (l_log2 lm (ddiv d1 (dmin p d1)))) in
    let* mul := mask_f64 oc prec in
    let sink := sink ++ le_bytes 8 (N.of_nat (length l)) ++ [N.of_nat prec] in
    let* w := write_fields oc (writer_new sink)
                (flat_map (fun v => map (fun x => (prec, u64_of_f64 (dmul x mul))) (dc4 v)) l) in
    Ok (writer_finish w)
  end.
(* src/custom_data.rs L185-190 : CustomDataSegment::encode *)
Definition cseg_encode_d (lm : libm64) (oc : bool) (s : dcseg) (sink : list N) : res ioerr (list N) :=
  if (N.of_nat (length (x_name s)) <? x_name_len s)%N then Panic
  else cdata_write_d lm oc (x_data s)
         (sink ++ le_bytes 1 (x_name_len s) ++ firstn (N.to_nat (x_name_len s)) (x_name s)).
(* src/custom_data.rs L140-147 : section_type *)
Definition dcdata_kind (d : dcdata) : ckind :=
  match d with
  | XIndex _ _ => KIndex
  | XInteger _ _ => KInteger
  | XFloat _ _ => KFloat
  | XColor _ _ => KColor
  end.

(** *** Segments *)
(* src/tmf.rs L264-285 : as_triangles and shared_kind *)
Definition as_triangles_d (d : xseg) : option (list N * N) :=
  match d with
  | XTriVertex l => Some (l, MASK_VERTEX)
  | XTriNormal l => Some (l, MASK_NORMAL)
  | _ => None
  end.
(* src/tmf.rs L209-263 : merge *)
Definition merge_d (self other : xseg) : xseg * xseg :=
  match as_triangles_d other with
  | None => (self, other)
  | Some (l, k) =>
    let go (kind : N) (indices : list N) :=
      if list_eqb indices l then (XShared (N.lor kind k) indices, XNothing) else (self, other) in
    match self with
    | XShared kind indices => go kind indices
    | XTriVertex indices => go MASK_VERTEX indices
    | XTriNormal indices => go MASK_NORMAL indices
    | XTriUV indices => go MASK_UV indices
    | _ => (self, other)
    end
  end.
(* src/tmf.rs L286-288 : is_something *)
Definition is_something_d (d : xseg) : bool := match d with XNothing => false | _ => true end.
(* src/tmf.rs L289-342 : optimize *)
Definition optimize_d (lm : libm64) (oc : bool) (d : xseg) : res no_fuel (list xseg) :=
  match d with
  | XTriVertex l => let* o := opt_tris oc l in Ok (map XTriVertex o)
  | XTriUV l => let* o := opt_tris oc l in Ok (map XTriUV o)
  | XTriNormal l => let* o := opt_tris oc l in Ok (map XTriNormal o)
  | XTriTangent l => let* o := opt_tris oc l in Ok (map XTriTangent o)
  | XVertex l => let* o := opt_vertices_d lm oc l in Ok (map XVertex o)
  | XShared k l => let* o := opt_tris oc l in Ok (map (XShared k) o)
  | _ => Ok [d]
  end.
(* src/lib.rs L105-114 : TMFPrecisionInfo *)
Record dprec_info := mk_dprec {
  d_vertex_precision : f64; d_normal_precision : nat; d_uv_prec : nat; d_tangent_prec : nat }.
(* src/tmf.rs L343-405 : encode *)
Definition encode_d (lm : libm64) (oc : bool) (prec : dprec_info) (shortest_edge : f64) (d : xseg)
  : res ioerr eseg :=
  let* (seg_type, data) :=
    match d with
    | XVertex l =>
      let* b := save_tmf_vertices_d lm oc l (d_vertex_precision prec) shortest_edge [] in Ok (SVertex, b)
    | XTangent l => let* b := save_tangents_d lm oc l (d_tangent_prec prec) [] in Ok (STangent, b)
    | XNormal l => let* b := save_normal_array_d lm oc l (d_normal_precision prec) [] in Ok (SNormal, b)
    | XUV l => let* b := save_uvs_d oc l (d_uv_prec prec) [] in Ok (SUv, b)
    | XTriVertex l => let* b := save_triangles oc l (max_or 0 l) [] in Ok (SVertexTri, b)
    | XTriNormal l => let* b := save_triangles oc l (max_or 0 l) [] in Ok (SNormalTri, b)
    | XTriUV l => let* b := save_triangles oc l (max_or 0 l) [] in Ok (SUvTri, b)
    | XTriTangent l => let* b := save_triangles oc l (max_or 0 l) [] in Ok (STangentTri, b)
    | XCustom s => let* b := cseg_encode_d lm oc s [] in Ok (SCustom (dcdata_kind (x_data s)), b)
    | XShared k l => let* b := save_triangles oc l (max_or 0 l) [k] in Ok (SShared, b)
    | XNothing => Ok (SInvalid, [])
    end in
  Ok (mk_eseg seg_type CNone data).

(** *** Files *)
(* src/tmf_exporter.rs L39-53 : the loop over triangles; indexing panics out of range *)
Fixpoint shortest_loop_d (vs : list dvec3) (tris : list N) (shortest : f64) : res xerr f64 :=
  match tris with
  | a :: b :: c :: t =>
    let* va := index vs a in
    let* vb := index vs b in
    let* vc := index vs c in
    let e1 := distance_d va vb in
    let e2 := distance_d vb vc in
    let e3 := distance_d vc va in
    shortest_loop_d vs t (dmin shortest (dmin e1 (dmin e2 e3)))
  | _ => Ok shortest
  end.
(* src/tmf_exporter.rs L31, L36, L57 : 0.1 *)
Definition default_edge_d : f64 := dlit 1 10.
(* src/tmf_exporter.rs L23-64 : calc_shortest_edge *)
Definition calc_shortest_edge_d (tris : option (list N)) (vs : option (list dvec3)) : res xerr f64 :=
  match tris with
  | None => Ok default_edge_d
  | Some [] => Ok default_edge_d
  | Some t =>
    match vs with
    | None => Ok default_edge_d
    | Some v =>
      let* s := shortest_loop_d v t d_inf in
      if is_finite s then Ok s else Panic
    end
  end.
(* src/tmf_exporter.rs L71-83 : merge_segments, with the stack reversed as in File.v *)
Fixpoint merge_all_d (seg : xseg) (others : list xseg) : xseg * list xseg :=
  match others with
  | [] => (seg, [])
  | o :: t =>
    let '(seg, o) := merge_d seg o in
    let '(seg, t) := merge_all_d seg t in
    (seg, o :: t)
  end.
Fixpoint merge_loop_d (fuel : nat) (stack : list xseg) : list xseg :=
  match fuel with
  | O => []
  | S fuel' =>
    match stack with
    | [] => []
    | seg :: rest =>
      if is_something_d seg then
        let '(seg, others) := merge_all_d seg (rev rest) in
        seg :: merge_loop_d fuel' (rev others)
      else merge_loop_d fuel' rest
    end
  end.
Definition merge_segments_d (segments : list xseg) : list xseg :=
  merge_loop_d (length segments) (rev segments).
(* src/tmf_exporter.rs L141-197 : MeshSegIter *)
Definition opt_seg_d {A} (f : A -> xseg) (o : option A) : list xseg :=
  match o with Some x => [f x] | None => [] end.
Definition tmf_segs_d (m : dmesh) : list xseg :=
  opt_seg_d XVertex (d_vertices m) ++ opt_seg_d XNormal (d_normals m) ++ opt_seg_d XUV (d_uvs m) ++
  opt_seg_d XTriVertex (d_vertex_triangles m) ++ opt_seg_d XTriNormal (d_normal_triangles m) ++
  opt_seg_d XTriUV (d_uv_triangles m) ++ opt_seg_d XTangent (d_tangents m) ++
  opt_seg_d XTriTangent (d_tangent_triangles m) ++ map XCustom (d_custom_data m).
(* src/tmf_exporter.rs L96-101 *)
Fixpoint optimize_all_d (lm : libm64) (oc : bool) (segs : list xseg) : res xerr (list xseg) :=
  match segs with
  | [] => Ok []
  | s :: t =>
    let* a := map_err (fun _ => XFuel) (optimize_d lm oc s) in
    let* b := optimize_all_d lm oc t in
    Ok (a ++ b)
  end.
(* src/tmf_exporter.rs L84-113 : write_mesh *)
Definition write_mesh_d (lm : libm64) (oc : bool) (p : dprec_info) (m : dmesh) (name : list N) : action unit :=
  do* _ <- write_mesh_name name in
  do* shortest_edge <- pure (calc_shortest_edge_d (d_vertex_triangles m) (d_vertices m)) in
  do* segs <- pure (optimize_all_d lm oc (merge_segments_d (tmf_segs_d m))) in
  let encoded := map (fun s => map_err XIo (encode_d lm oc p shortest_edge s)) segs in
  do* _ <- pure (if existsb is_panic encoded then Panic else Ok tt) in
  do* _ <- write_all (le_bytes 2 (N.of_nat (length encoded))) in
  write_segments encoded.
Fixpoint write_meshes_d (lm : libm64) (oc : bool) (p : dprec_info) (l : list (dmesh * list N)) : action unit :=
  match l with
  | [] => ret tt
  | (m, name) :: t => do* _ <- write_mesh_d lm oc p m name in write_meshes_d lm oc p t
  end.
(* src/tmf_exporter.rs L114-125 : write_tmf; src/lib.rs L773-779 *)
Definition write_tmf_d (lm : libm64) (oc : bool) (p : dprec_info) (l : list (dmesh * list N)) : action unit :=
  do* _ <- write_tmf_header (N.of_nat (length l)) in write_meshes_d lm oc p l.
(** The bytes of a save into a sink that never fails (a Vec). *)
Definition saved_d (lm : libm64) (oc : bool) (p : dprec_info) (l : list (dmesh * list N)) : res xerr (list N) :=
  let '(s, r) := write_tmf_d lm oc p l (mk_sink [] None) in
  let* _ := r in Ok (k_data s).

(* src/normals.rs L24-27, src/tangents.rs L21-23 : from_deg_dev *)
Definition normal_from_deg_dev_d (lm : libm64) (deg : f64) : nat :=
  Nat.max (u8_of_f64 (dceil (l_log2 lm (ddiv (f64_of_Z 90) deg)))) 1.
(* src/normals.rs L36-39, src/tangents.rs L25-27 : from_rad_dev. [FRAC_PI_2] is the f64 nearest to
   pi/2, which [PI / 2.0] also gives. *)
Definition normal_from_rad_dev_d (lm : libm64) (rad : f64) : nat :=
  u8_of_f64 (dceil (l_log2 lm (ddiv d_half_pi rad))).
