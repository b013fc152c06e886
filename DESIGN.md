# Formal model of FractalFir/tmf in Rocq

Target: the Rust crate in /repo, default features (`IndexType = u32`, `FloatType = f32`, `obj_import`), plus the optional
`triangulation` feature, on a 64-bit target (`usize` = 64 bits). The code is read as text; nothing in /repo is built
or changed.

## How the model is built

* The model is made of total, computable Gallina functions, one per Rust function. Each carries a comment
  `(* src/<file>.rs L<from>-<to> : <symbol> *)` and says what is simplified.
* `res E A := Ok | Err | Panic`. `Panic` is a Rust panic (overflow check, out-of-range index, failed assertion,
  capacity overflow). `Err` carries the error value of the Rust function.
* `oc : bool` is the overflow-check mode (true: debug profile, arithmetic overflow panics; false: release profile,
  arithmetic wraps, shift amounts are masked). Where it matters functions take `oc` and theorems quantify over it.
* Bytes, u32 and u64 values are `N`; widths, counters of bits and lengths are `nat`; f32 and f64 are Flocq
  `BinarySingleNaN.binary_float 24 128` and `53 1024`. All NaNs are one value.
* A loop without an obvious bound takes fuel; running out is `Panic` and proved unreachable.
* Specifications live in `*Spec.v` files that do not mention the model's helpers. Model files hold no proofs.
  `*_proofs.v` and `*Lemmas.v` hold lemmas. The theorems are collected in `P_*.v` with `Print Assumptions` and with an
  `Example` that meets the hypotheses of each.
* Properties of a save or a load are stated about the public entry points (`write_tmf`, `read_tmf`, ...), not about the
  inner functions, except where the inner function is the subject (bit writer, splitting, pruning).

Files: Base, Floats (machine arithmetic); UnalignedRW, ReadExt, Triangles, Vertices, Normals, Uv, CustomData, OptTris,
OptVertices, Tmf, File, Async, Mesh, Unify, Utilis, Importer, Obj, Lz77, ReorderTri (the model); BitSpec, FileSpec,
SaveSpec, MeshSpec, ValueSpec, ObjSpec, PolygonSpec, LzSpec, ReorderSpec and others named `*Spec` (specifications).

## Properties: what is modelled and where it is proved

Status and notes per property are in MANIFEST.json. A theorem ending in `_refuted` shows with a witness that a
stronger or documented claim is false of the code; it stands beside the strongest variant that holds.

| id | title | model | theorems | file |
|---|---|---|---|---|
| C01 | Bit fields are laid out back to back, most significant bit first, zero padded | UnalignedRW.v: bit writer | ..._writer_layout, ..._packing_unique | P_BitIO.v |
| C02 | A bit read returns the next bits of the stream, however the source delivers its bytes | UnalignedRW.v: bit reader over a source with short reads | ..._reader_fields, ..._reader_histories | P_BitIO.v |
| C03 | Bit fields round-trip | both | ..._fields_roundtrip | P_BitIO.v |
| C04 | A paired read is two single reads, except at width 32 | read2 | ..._read2_is_two_reads, ..._read2_width32_reads_nothing, ..._read2_width32_refuted | P_BitIO.v |
| C05 | A triple read is three single reads | read3 | ..._read3_is_three_reads, ..._read3_width0_panics, ..._read3_width32_refuted, ..._read3_width32_result | P_BitIO.v, P_BitPair.v |
| C06 | A mixed-width pair read agrees with two single reads only when the widths agree | read_pair | ..._pair_equal_widths, ..._pair_mixed_widths_refuted, ..._pair_swaps_widths, ..._pair_mixed_widths_differ, ..._pair_zero_width_panics | P_BitIO.v, P_BitPair.v |
| C07 | The index field width is sufficient and minimal | Triangles.v: calc_prec | ..._width_minimal | P_Triangles.v |
| C08 | Index arrays round-trip exactly | Triangles.v: save and both loaders | ..._index_array_roundtrip, ..._general_loader_roundtrip, ..._width_32_result, ..._large_indices_refuted, ..._zero_width_loader | P_Triangles.v |
| C09 | Splitting an index array is lossless and terminates | OptTris.v: opt_tris | ..._split_lossless | P_Triangles.v |
| C10 | No element of a loaded index array is left uninitialised | Triangles.v: array of maybe-written cells | ..._no_uninitialised_element | P_Triangles.v |
| C11 | Segment framing round-trips and keeps the stream in step | Tmf.v: segments | ..._segments_roundtrip, ..._segment_layout, ..._too_long_refused, ..._too_long_refused_old, ..._unknown_compression_refused | P_File.v |
| C12 | Segments of an unknown kind do not change the loaded mesh | File.v: reader | ..._unknown_kinds_ignored, ..._insertion | P_File.v |
| C13 | The header decides acceptance exactly | File.v: header | ..._not_tmf_iff, ..._newer_iff, ..._short, ..._accepted | P_File.v |
| C14 | Files in the previous framing decode to the same content | File.v: old framing | ..._old_files | P_File.v |
| C15 | A truncated file is rejected, trailing bytes are ignored | File.v: reader | ..._truncation | P_File.v |
| C16 | A crash while saving never leaves a loadable wrong file | File.v: writer on a sink with a byte budget | ..._crash, ..._prefix_refused, ..._complete, ..._always_prefix | P_Save.v |
| C17 | Loading arbitrary bytes does not panic, up to the listed cases | File.v, Tmf.v, CustomData.v: Panic outcomes | ..._panics_only, ..._panics_where, ..._colour_count_panics, ..._colour_width_panics, ..._index_overflow, ..._index_values | P_File.v, P_IndexPanic.v, P_Layout.v |
| C18 | Declared sizes are bounded before allocation | the same | ..._declared_size_refused, ..._file_refused, ..._colour_refuted | P_File.v |
| C19 | Mesh count, mesh order and mesh names survive a save/load | File.v: writer and reader | ..._names_survive, ..._limits | P_Save.v |
| C20 | Index arrays and array lengths survive a save/load | the same | ..._arrays_survive, ..._large_index_refuted, ..._normal_precision_refuted | P_Save.v |
| C21 | Custom data survives a save/load by name, with the order of segments reversed | CustomData.v | ..._custom_data_survives, ..._lookup_before, ..._lookup_after, ..._same_name_refuted | P_Save.v |
| C22 | Sharing one segment between equal index arrays is invisible | Tmf.v: merge, apply | ..._sharing_invisible, ..._splitting_invisible, ..._stored_once, ..._each_once | P_Save.v, P_Share.v |
| C23 | Loading exactly one mesh | File.v: read_tmf_one | ..._one | P_File.v |
| C24 | The result of a load does not depend on the completion order of segment decoding | Async.v: tasks, completion orders | ..._completion_order, ..._runs_finish | P_File.v |
| C25 | Reordering data does not change what the mesh draws | Mesh.v, Utilis.v: reorder_data | ..._reorder_same_buffers, ..._reorder_panics | P_Mesh.v |
| C26 | Reordered data is compact and in order of first use | the same | ..._reorder_compacts | P_Mesh.v |
| C27 | Unifying index data does not change what the mesh draws | Unify.v | ..._unify_same_buffers, ..._unify_shares, ..._unify_returns, ..._panics_iff, ..._equal_arrays, ..._empty_array_refuted | P_Mesh.v, P_UnifyPanic.v |
| C28 | Unified data has no duplicates and unifying is idempotent | Unify.v | ..._unify_compact, ..._unify_idempotent | P_Mesh.v |
| C29 | What mesh verification guarantees | Mesh.v: verify | ..._verify_ok, ..._verify_errors, ..._verify_total, ..._verified_buffers, ..._verified_buffers_refuted, ..._uv_range_unchecked, ..._length_real, ..._nan_accepted, ..._infinite_reported | P_Mesh.v, P_VerifyReal.v |
| C30 | Buffers are returned exactly when all indices are in range | Mesh.v: buffers | ..._vertex_buffer, ..._normal_buffer, ..._uv_buffer, ..._buffer_exists | P_Mesh.v |
| C31 | Setters and appenders behave like a record of optional arrays | Mesh.v: histories of calls | ..._getters, ..._replies, ..._specification_unique | P_Mesh.v |
| C32 | Custom data: insertion and lookup by name | Mesh.v: custom data | ..._lookup, ..._add | P_Mesh.v |
| C33 | UV error bound | Uv.v on Flocq f32 | ..._uv_error_bound, ..._negative_coordinates, ..._wide_codes_lose_one, ..._above_one_refuted, ..._wraps, ..._not_numbers | P_Uv.v, P_UvWrap.v |
| C34 | UV pixel deviation | Uv.v | ..._default_pixel_deviation, ..._pixel_deviation, ..._one_pixel_refuted | P_Uv.v |
| C35 | Normal error bound | Normals.v on Flocq f32 | ..._normal_cosine_bound, ..._tangent_cosine_bound, ..._default_setting, ..._degrees, ..._radians, ..._degrees_refuted | P_Normals.v, P_Radians.v |
| C36 | Loaded normals have unit length and keep their side | Normals.v | ..._unit_length_and_sides, ..._precision_zero_refuted, ..._wide_codes_lose_z, ..._overlong_loses_z, ..._octant_refuted | P_Normals.v |
| C37 | Tangent handedness survives | Normals.v: tangents | ..._handedness | P_Normals.v |
| C38 | Stored bounding box | Vertices.v: bounding box loop | ..._stored_box, ..._box_contains, ..._last_vertex_refuted, ..._single_vertex_refuted | P_Vertices.v |
| C39 | Vertex quantisation error | Vertices.v: codes | ..._coordinates_stored | P_Vertices.v |
| C40 | Documented edge length guarantee | Vertices.v, File.v | ..._movement_bound, ..._edge_length_refuted | P_Vertices.v |
| C41 | Splitting a vertex array is lossless and terminates | OptVertices.v | ..._lossless, ..._returns, ..._ends, ..._assertion | P_Split.v |
| C42 | Custom float data | CustomData.v: floats | ..._float_error_bound, ..._wide_codes_lose_max, ..._precision_refuted, ..._range_refuted | P_Custom.v |
| C43 | Colour data | CustomData.v: colours | ..._color_error_bound, ..._default_precision, ..._negative_channels, ..._wide_codes_lose_one, ..._coarse_precision_refuted, ..._precision_refuted, ..._wraps, ..._not_numbers | P_ColorWrap.v, P_Custom.v |
| C44 | OBJ export/import round trip | Obj.v, Importer.v | ..._roundtrip, ..._same_buffers, ..._one, ..._no_normals_refused, ..._empty_list, ..._partial_triangle_refuted | P_Obj.v |
| C45 | OBJ export of a point cloud shifts later meshes | Obj.v | ..._cloud_shifts, ..._refuted | P_Obj.v |
| C46 | OBJ index parsing | Obj.v | ..._one_number, ..._face_line, ..._face_file | P_Obj.v |
| C47 | Removing unused data on import does not change geometry | Utilis.v: fast_prune | ..._prune_lookup, ..._prune_front, ..._prune_suffix | P_Split.v |
| C48 | LZ77 coded index arrays round-trip | Lz77.v | ..._roundtrip, ..._short_data, ..._triangles, ..._long_run_refuted, ..._narrow_refuted, ..._bad_distance_refuted | P_Lz.v |
| C49 | Triangle reordering permutes triangles | ReorderTri.v | ..._reorder, ..._same_triangles, ..._panics, ..._leftover_refuted | P_Reorder.v |
| C50 | Triangulation of polygons | Importer.v: triangulate | ..._triangulates, ..._count, ..._quad, ..._pentagon_refuted, ..._triangulates_any, ..._pentagon_double_refuted | P_ImportedAny.v, P_Polygon.v |
| C51 | Normalising | Mesh.v: normalize | ..._normalize, ..._verified, ..._too_small, ..._too_large, ..._nan, ..._zero_refuted, ..._nonzero_refuted, ..._saved | P_Normalize.v, P_NormalizeSave.v |
| C52 | Size of the written file | Triangles.v, File.v | ..._index_array_size, ..._file_size | P_Save.v, P_Triangles.v |
| C53 | Which meshes make a save panic | File.v: writer | ..._no_error, ..._panics, ..._short_index_array_panics, ..._release_exact, ..._without_vertices_saved, ..._verified_mesh_panics, ..._with_vertices_saved | P_Checked.v, P_Save.v |
| C54 | Segment count limit | File.v, Tmf.v | ..._few_segments, ..._count_wraps, ..._case | P_Save.v |
| C55 | Saving what was loaded | File.v | ..._cycles | P_Save.v |
| C56 | Builds with and without overflow checks agree | all, oc true against false | ..._save, ..._load | P_Save.v |
| C57 | OBJ import does not panic without triangulation | Obj.v, Importer.v | ..._import_no_panic, ..._at_least_one, ..._import_any | P_ImportedAny.v, P_Obj.v |
| C58 | Triangulation panics exactly on missing vertices | Importer.v | ..._panics, ..._file, ..._panics_any | P_ImportedAny.v, P_Polygon.v |
| C59 | What the OBJ export refuses | Obj.v | ..._export_refuses, ..._large_index, ..._export_refuses_any | P_ImportedAny.v, P_Obj.v |
| C60 | The size of the storage word does not matter | StorageSize.v: reader over any storage size | ..._storage_size, ..._fields | P_Storage.v |
| C61 | Loading hardly depends on the platform's mathematics library | Platform_proofs.v: two runs of the reader with two libraries | ..._platform_independent, ..._platform_independent_one, ..._accurate_platforms | P_Platform.v |
| C62 | Loaded values are in range | Range_proofs.v, Range2_proofs.v: ranges through the whole reader | ..._loaded_ranges, ..._colours_refuted, ..._vertices_refuted | P_Platform.v |
| C63 | Loading with the fast_trig feature | FastTrig.v: fsin on Flocq f64, a library built from it | ..._same_but_normals, ..._loaded_ranges, ..._normal_distance, ..._tangent_distance, ..._accuracy_refuted | P_FastTrig.v |
| C64 | Programs built with another index type exchange files | IndexWidth.v: reader, writer and verification over any index width | ..._default, ..._same_file, ..._same_file_one, ..._lossless, ..._same_bytes, ..._exchange, ..._wide_indices, ..._verify_same, ..._verify_sound, ..._wrap_refuted, ..._long_refuted, ..._verify_refuted | P_Index.v |
| C65 | Reordering and unifying with another index type | IndexMesh.v: reordering and unifying over any index width | ..._default, ..._reorder_same_buffers, ..._reorder_same, ..._unify_same, ..._unify_same_buffers, ..._unify_refuted | P_IndexMesh.v |
| C66 | The same file with and without double_precision | Double.v: loading with f64 coordinates; LayoutSpec.v: what a file holds, mesh by mesh | ..._same_file, ..._same_file_one, ..._long_colours_refuted | P_Double.v |
| C67 | Line ends, ignored lines and surplus words in OBJ text | Obj.v: lines, split, parse_line | ..._line_ends, ..._ignored_lines, ..._last_line, ..._surplus | P_ObjText.v |
| C68 | What the bytes of a file mean | LayoutSpec.v: header, meshes, segments as bytes; Layout_proofs.v, Layout2_proofs.v: the reader run against them | ..._layout, ..._unambiguous, ..._independent | P_Layout.v |
| C69 | The order of the segments of a mesh | LayoutSpec.v: rearranged; Layout3_proofs.v: decoding is per segment, applying commutes | ..._segment_order, ..._same_kind_refuted | P_Layout.v |
| C70 | Loading from a source that works in pieces or fails | StreamSpec.v: sources as sequences of events; Stream.v: the reader over them | ..._pieces, ..._failing_source, ..._no_half_file, ..._back_to_back, ..._one | P_Stream.v |
| C71 | Saving to a sink that works in pieces or fails | Stream.v: the writer over a sink with a sequence of answers | ..._patient_sink, ..._any_sink, ..._refused_never_loads, ..._always_prefix | P_Stream.v |
| C72 | OBJ sources and sinks that work in pieces or fail | ObjStream.v: lines over a source, BufWriter over a sink | ..._pieces, ..._failing_source, ..._any_sink, ..._patient_sink | P_Stream.v |
| C73 | Saving with double_precision, and files exchanged between builds | DoubleSave.v: saving with f64; DoubleSaveSpec.v: what must survive; Exchange_proofs.v: no saved file is the exception of C66 | ..._round_trip, ..._to_default, ..._from_default, ..._crash, ..._prefix_refused, ..._release | P_DoubleSave.v |
| C74 | How accurately double_precision stores numbers | DoubleValueSpec.v: bounds over the reals; DQuant, DVertex, DPiece and DCustom_proofs.v: rounding analysis in f64 | ..._uv_error_bound, ..._movement_bound, ..._float_error_bound, ..._color_error_bound, ..._last_vertex_refuted, ..._single_vertex_refuted, ..._edge_length_refuted, ..._uvs_wrap, ..._colors_wrap | P_DoubleValue.v, P_DoubleWrap.v |
| C75 | The numbers in OBJ text | FloatText.v: Display and FromStr of floats; FloatTextSpec.v: number syntax, nearest float, shortest decimal | ..._print_read, ..._print_read_double, ..._roundtrip, ..._read, ..._read_double, ..._accurate, ..._shortest, ..._same_number | P_FloatText.v |
| C76 | Normals and tangents with double_precision | DoubleNormalSpec.v: angles and sides over the reals; DNormal_proofs.v: rounding analysis of the normal codec in f64 | ..._normal_cosine_bound, ..._tangent_cosine_bound, ..._unit_length_and_sides, ..._degrees, ..._radians, ..._handedness, ..._degrees_refuted, ..._precision_zero_refuted, ..._overlong_refuted | P_DoubleNormals.v |
| C77 | Saving a loaded mesh again | Again_proofs.v: dividing a code by the number of steps and multiplying again gives the code back, in f32 and f64; induction over the cycles | ..._uvs_settle, ..._normal_z_settles, ..._signs_settle, ..._tangents_settle, ..._double_uvs_settle, ..._double_normal_z_settles, ..._double_tangents_settle, ..._direction_refuted | P_Again.v, P_AgainDouble.v |
| C78 | Colours and floats in repeated saves | Widen_proofs.v, WidenFloat_proofs.v: log2 of the loaded precision rounds up to the width plus one; induction over the cycles. Double precision: DWiden_proofs.v, DWidenFloat_proofs.v, P_DoubleWiden.v; the drift of the greatest float is bounded along the induction | ..._colours_widen, ..._white_turns_black, ..._saves_end, ..._floats_widen, ..._colours_widen_double, ..._saves_end_double, ..._floats_widen_double | P_DoubleWiden.v, P_Widen.v |
| C79 | OBJ files between builds | ObjAny.v (import and export, generic in the float type and in the size of the index type), ObjAnySpec.v; texts written line by line, read back line by line; induction over faces and meshes | ..._exchange, ..._numbers_survive, ..._one_number, ..._large_positions, ..._short_refuted, ..._full_type_panics | P_ObjAny.v |
| C80 | Saving and loading with the default settings | P_Default.v: default_precision, its widths computed from log2 of 10240 and of 90; C19, C20, C21, C34, C35, C40, C53 combined | ..._default_settings | P_Default.v |
| C81 | Data that needs more bits than the format has | FineSpec.v: degenerate triangles, modest sizes; Fine_proofs.v: each segment is read back or refused; Fine2_proofs.v: the shortest edge is zero, widths of 255; Fine3_proofs.v: rounding analysis for 33 to 61 bits; DFineSpec.v, DFine_proofs.v to DFine3_proofs.v, P_DoubleFine.v: the same for double precision | ..._release_outcome, ..._degenerate, ..._zero_precision, ..._zero_float_precision, ..._zero_color_precision, ..._verified_refuted, ..._collapse, ..._release_outcome_double, ..._degenerate_double, ..._zero_precision_double, ..._zero_float_precision_double, ..._zero_color_precision_double, ..._verified_refuted_double, ..._collapse_double | P_DoubleFine.v, P_Fine.v |
| C82 | Normalising and verifying with double precision | DoubleMesh.v, DoubleMeshSpec.v; DNormalize_proofs.v: rounding analysis of length and division for f64; DVerify_proofs.v: computed against true length; Cosine_proofs.v: Cauchy-Schwarz | ..._normalize, ..._verified, ..._saved, ..._too_small, ..._too_large, ..._nan, ..._zero_refuted, ..._nonzero_refuted, ..._verify_ok, ..._verify_errors, ..._verify_total, ..._uv_range_unchecked, ..._length_real, ..._nan_accepted, ..._infinite_reported | P_DoubleMesh.v, P_NormalizeSave.v |
| C83 | Editing meshes with double precision | DoubleEdit.v: setters, appenders, buffers, custom data, reordering and unifying of f64 meshes | ..._reorder_same_buffers, ..._reorder_panics, ..._reorder_compacts, ..._unify_same_buffers, ..._unify_shares, ..._unify_returns, ..._unify_compact, ..._unify_idempotent, ..._panics_iff, ..._equal_arrays, ..._vertex_buffer, ..._normal_buffer, ..._uv_buffer, ..._buffer_exists, ..._verified_buffers, ..._verified_buffers_refuted, ..._getters, ..._replies, ..._lookup, ..._add | P_DoubleEdit.v |
| C84 | Which saves with double precision panic | DSplit_proofs.v, DPanic_proofs.v, DVSave_proofs.v: when the f64 exporter panics or succeeds | ..._no_error, ..._panics, ..._short_index_array_panics, ..._without_vertices_saved, ..._with_vertices_saved, ..._release_exact, ..._verified_mesh_panics, ..._few_segments | P_DoubleChecked.v |
| C85 | Default settings with double precision | P_DoubleDefault.v: the default settings over the f64 exporter | ..._default_settings | P_DoubleDefault.v |
| C86 | Files as the published specification describes them | PublishedSpec.v: TMF_SPEC.md as a relation between meshes and bytes | ..._published_files_load, ..._published_files_load_double, ..._width_32_refuted, ..._omitted_refuted | P_Published.v |
| C87 | Reordering and unifying before saving | PrepareSpec.v; Mesh.v, Unify.v, File.v as before | ..._calls_return, ..._prepared_save, ..._calls_return_double, ..._prepared_save_double | P_DoublePrepare.v, P_Prepare.v |
| C88 | What every OBJ text gives | ImportedSpec.v; Importer.v, Obj.v as before; ImportedAnySpec.v, ObjAny.v, TriAny.v (triangulation for every float type) | ..._shape, ..._can_be_exported, ..._import_again, ..._to_tmf, ..._name_refuted, ..._no_faces_refuted, ..._shape_any, ..._can_be_exported_any, ..._import_again_any | P_Imported.v, P_ImportedAny.v |
| C89 | The text of an integrity error | VerifyText.v: the text of integrity errors | ..._text_tells, ..._verified_text | P_VerifyText.v |
| C90 | Custom floats that are not numbers | P_NotNumbers.v, P_DoubleNotNumbers.v: the range of an array skips NaN and keeps infinities; the rest is C42, C74 and C81 | ..._nan_is_least, ..._only_nan, ..._infinite, ..._nan_is_least_double, ..._only_nan_double, ..._infinite_double | P_DoubleNotNumbers.v, P_NotNumbers.v |
| C91 | Accuracy across builds | P_ExchangeValue.v, ExchangeValueSpec.v: the bounds of C33, C35, C42, C43 and C74, C76 composed with how the two builds' readings of one file differ (C66); P_ExchangeVertex.v, ExchangeBox_proofs.v: the same for vertices (C40, C74), with the boxes a save writes bounded by its coordinates | ..._uvs_to_default, ..._uvs_to_double, ..._normals_to_default, ..._normals_to_double, ..._tangents_to_default, ..._tangents_to_double, ..._floats_to_default, ..._floats_to_double, ..._colors_to_default, ..._colors_to_double, ..._vertices_to_default, ..._vertices_to_double | P_ExchangeValue.v, P_ExchangeVertex.v |
| C92 | Custom data made from a slice | CustomDefault.v, P_CustomDefault.v: the conversions of both builds; the bounds of C42, C43 and C74 at a precision of 0.01, and exactness of index data | ..._indices_fit, ..._indices, ..._indices_double, ..._floats, ..._floats_double, ..._colors_double | P_CustomDefault.v |

## Axioms per theorem

From `Print Assumptions` on every theorem named in MANIFEST.json (the commands are at the end of the P_ files).

* *Closed under the global context* (no axiom): C01_packing_unique, C01_writer_layout, C02_reader_fields, C02_reader_histories, C03_fields_roundtrip, C04_read2_is_two_reads, C04_read2_width32_reads_nothing, C04_read2_width32_refuted, C05_read3_is_three_reads, C05_read3_width0_panics, C05_read3_width32_refuted, C05_read3_width32_result, C06_pair_equal_widths, C06_pair_mixed_widths_differ, C06_pair_mixed_widths_refuted, C06_pair_swaps_widths, C06_pair_zero_width_panics, C07_width_minimal, C08_general_loader_roundtrip, C08_index_array_roundtrip, C08_large_indices_refuted, C08_width_32_result, C08_zero_width_loader, C09_split_lossless, C10_no_uninitialised_element, C11_segment_layout, C11_segments_roundtrip, C11_too_long_refused, C11_too_long_refused_old, C11_unknown_compression_refused, C17_index_values, C21_lookup_before, C22_each_once, C22_sharing_invisible, C22_stored_once, C25_reorder_panics, C25_reorder_same_buffers, C26_reorder_compacts, C27_equal_arrays, C27_panics_iff, C27_unify_returns, C27_unify_same_buffers, C27_unify_shares, C28_unify_compact, C28_unify_idempotent, C30_buffer_exists, C30_normal_buffer, C30_uv_buffer, C30_vertex_buffer, C31_getters, C31_replies, C31_specification_unique, C32_add, C32_lookup, C46_one_number, C47_prune_front, C47_prune_lookup, C47_prune_suffix, C48_bad_distance_refuted, C48_long_run_refuted, C48_narrow_refuted, C48_roundtrip, C48_short_data, C48_triangles, C49_leftover_refuted, C49_panics, C49_reorder, C49_same_triangles, C50_count, C50_triangulates_any, C52_index_array_size, C57_import_any, C58_panics_any, C59_export_refuses, C59_export_refuses_any, C59_large_index, C60_fields, C60_storage_size, C64_wide_indices, C65_default, C65_reorder_same, C65_reorder_same_buffers, C65_unify_same, C65_unify_same_buffers, C68_unambiguous, C72_any_sink, C72_patient_sink, C79_exchange, C79_full_type_panics, C79_large_positions, C79_one_number, C79_short_refuted, C83_add, C83_buffer_exists, C83_equal_arrays, C83_getters, C83_lookup, C83_normal_buffer, C83_panics_iff, C83_reorder_compacts, C83_reorder_panics, C83_reorder_same_buffers, C83_replies, C83_unify_compact, C83_unify_idempotent, C83_unify_returns, C83_unify_same_buffers, C83_unify_shares, C83_uv_buffer, C83_vertex_buffer, C88_can_be_exported_any, C88_import_again_any, C88_shape_any, C92_indices_fit.
* `ClassicalDedekindReals.sig_forall_dec`, `ClassicalDedekindReals.sig_not_dec`, `Classical_Prop.classic`, `FunctionalExtensionality.functional_extensionality_dep`: all the others.
* `ClassicalDedekindReals.sig_forall_dec`, `FunctionalExtensionality.functional_extensionality_dep`: C38_box_contains.
* `ClassicalDedekindReals.sig_forall_dec`, `ClassicalDedekindReals.sig_not_dec`, `FunctionalExtensionality.functional_extensionality_dep`: C87_calls_return, C87_calls_return_double.

## Trusted base

* Coq 8.16.1's kernel, including its `vm_compute` machine, which evaluates closed examples and witnesses.
* The axioms above, all from Coq's standard library: the classical real numbers
  (`ClassicalDedekindReals.sig_forall_dec`, `sig_not_dec`), `functional_extensionality_dep`, and `Classical_Prop.classic`.
  They come in with Flocq: the type of floats itself rests on them through the proofs inside float values, so theorems about
  whole files list them even when they say nothing about real numbers.
* A tool that walks the whole environment also lists the parameters of the sealed standard-library modules
  `Coq.Reals.Rdefinitions.RbaseSymbolsImpl` and `RinvImpl` (`R`, `R0`, `R1`, `Rplus`, `Rmult`, `Ropp`, `Rlt`, `Rabst`,
  `Rrepr`, `Rquot1`, `Rquot2`, the `_def` equations, `Rinv`, `Rinv_def`) and `Coq.ssr.ssrunder.Under_rel`. They are
  implemented inside those sealed modules and are not assumptions of their own. `Print Assumptions` does not list them.
* No axiom, parameter, admitted proof, functor or module type is defined here, and no kernel check is switched off.
* That the model says what the Rust code does. This was checked by reading only. The comments with line numbers are there to
  make the check repeatable.

### Hypotheses about the outside world

They are explicit premises of the theorems that need them, and each is shown to be satisfiable by an `Example`.

* `libm` (record in Floats.v) holds `log2`, `asin`, `sin_cos` as functions on f32 that may differ between the machine that saves
  and the one that loads. Structural theorems hold for every such record. Accuracy theorems assume `log2_ok`, `asin_ok`,
  `sin_cos_ok`: finite results within a stated error of the real function. `exact_libm` meets them.
  `log2_standard` (CheckedSpec.v) adds that `log2` of zero is minus infinity and that it is monotone; `ieee_libm` meets both.
  `log2_infinite` (FineSpec.v) says that `log2` of infinity is infinity; `full_libm` meets it and `log2_ok`.
* `float_text` (Obj.v) holds printing and parsing of an f32 as text. The round trip assumes `text_ok`: parsing undoes printing
  and the text has no separator in it. `demo_text` meets it.
* `tri : option (f32 -> f32)` is `None` when the triangulation feature is off, otherwise `acos`.
* A byte source delivers its bytes in pieces of any size (the schedule in `source`); a sink may fail after any number of bytes.

## What is modelled

| file in /repo/src | modelled | not modelled |
|---|---|---|
| unaligned_rw.rs | all | `BufWriter`, which only delays bytes; `read_to_internal_storage` for other storage sizes is in StorageSize.v |
| read_extension.rs | all | |
| vertices.rs, normals.rs, uv.rs, tangents.rs | all | (the `fast_trig` variant is in FastTrig.v) |
| custom_data.rs | all | |
| tmf.rs | all | `Display` for `SharedSegmentKind` |
| tmf_exporter.rs | all | |
| tmf_importer.rs | all that loads | `analize`, `analize_mesh` (print only), `read_triangle_sequence` (`todo!()`, dead code: its call is commented out) |
| lib.rs | constructors, setters, getters, appenders, buffers, verify, normalize, reorder, unify, load and save entry points, custom data | doc tests, `Default` wrappers other than `TMFPrecisionInfo::default` (P_Default.v) |
| verify.rs | all (the text of errors in VerifyText.v) | |
| unify_data.rs, utilis.rs | all used functions | `calc_deltas` (prints) |
| obj.rs, model_importer.rs, triangulation.rs | all | text of error messages |
| lz77.rs, reorder_triangles.rs | all | (dead code in the crate) |
| material.rs | none: a private constructor without behaviour | |

Simplifications, also noted at the definitions:

* The asynchronous decoding is a set of tasks that complete in any order; the executor's polling is not modelled. `tokio` is
  the same model with more orders.
* Running out of memory is not modelled. The deterministic "capacity overflow" panic is.
* A source that fails, is interrupted or delivers pieces, and such a sink, are in Stream.v and ObjStream.v; the other files use
  lists of bytes and sinks with room for so many bytes. The sink's own `flush` is taken to do nothing.
* `String` is a list of bytes with a UTF-8 check; printing to standard output is left out.
* The OBJ files take printing and parsing of floats as an argument; FloatText.v gives what the standard library does, from its documentation (C75).
* Feature `double_precision` is modelled for loading (Double.v), saving (DoubleSave.v), normalising and verifying (DoubleMesh.v) and editing (DoubleEdit.v); OBJ files and triangulation are modelled for every float type (ObjAny.v, TriAny.v). `long_indices` and `short_indices` are modelled for loading, saving and verification (IndexWidth.v) and for reordering and unifying (IndexMesh.v) and for OBJ files (ObjAny.v).

## What the proofs found

Each is a theorem with a witness, about the model of the code as it is.

* A paired read at width 32 returns zeros and reads nothing, so index arrays whose largest index is 2^31 or more are lost (C04, C08, C20).
* The mixed-width pair read is wrong for unequal widths (C06).
* A colour segment can make a load panic, and has no limit on the declared size (C17, C18).
* Custom data come back in reverse order, so entries of equal name swap (C21).
* Verification accepts an index equal to the array length (C29), meshes that cannot be saved (C53), and NaN normals (C51).
* UV coordinates above 1 wrap around (C33); UV precisions from 25 bits lose the coordinate 1.0; normal precisions from 25 lose z (C36).
* The documented maximal deviations of UVs (C34), normals (C35), vertices (C40), floats (C42) and colours (C43) do not hold as documented.
* A normal of length above 1 can lose its z component (C36).
* The stored bounding box leaves out parts of the last vertex (C38), and z is saved with the width of y (C40).
* 65536 or more segments wrap the stored count: the file loads as a smaller mesh without an error (C54).
* OBJ: faces without normals are exported but cannot be imported (C44); a point cloud shifts the meshes after it (C45); an index
  that does not parse reads as 1 (C46).
* Triangulating a face with five corners drops a corner (C50).
* Normalising turns zero and tiny normals into NaN (C51).
* The LZ77 coder loses long runs and narrow fields (C48); triangle reordering drops trailing indices (C49).
* The direction of a normal can go on moving when a loaded mesh is saved again, although its z component and the UVs settle (C77).
* Each save of a loaded colour or float array takes one bit more per value. After up to 25 cycles white is loaded as black and the greatest float as the least, and after 31 a mesh with colours cannot be saved (C78).
* OBJ between builds: an index that the reader's index type does not have is read as the first element without an error (C79_short_refuted), and a checked build panics when it exports as many vertices as its index type has numbers (C79_full_type_panics).
* Triangles with two corners in one place give a shortest edge of zero: a checked build panics on save, an unchecked one writes a
  file that no build loads, and verification accepts the mesh (C81). A vertex or float precision of zero does the same; a colour
  precision of zero makes checked readers panic and unchecked ones load black.
* Unifying a mesh with an empty tangent array panics although the mesh passes verification, while an empty normal array is left out (C27).
* TMF_SPEC.md allows index arrays of 32 bits and omitted normal triangle segments. The first are loaded as zeros (`C86_width_32_refuted`), a file with the second is refused (`C86_omitted_refuted`).
* An imported OBJ name may end with a carriage return, which the next export and import drops (`C88_name_refuted`). A last object without faces is given the data of all objects before it, and again with every further import (`C88_no_faces_refuted`).

## Testing the theorems

seeded/LOG.jsonl records wrong programs: a definition of the model was edited in a scratch copy the way a bug would change it, the
copy was rebuilt, and the theorems that no longer prove were noted. Where a theorem survived an edit that makes its claim false, it was tightened.
For most entries only the files with theorems of the property the edit was expected to break, and what they depend on, were rebuilt:
`theorems_failed` then lists failures among those, and a theorem it does not list may not have been rebuilt. An edit noted as harmless was rebuilt in full.
