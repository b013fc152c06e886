{
 "claims": [
  {
   "property": "C01",
   "status": "proved",
   "theorems": [
    "C01_writer_layout",
    "C01_packing_unique"
   ],
   "note": ""
  },
  {
   "property": "C02",
   "status": "proved",
   "theorems": [
    "C02_reader_fields",
    "C02_reader_histories"
   ],
   "note": ""
  },
  {
   "property": "C03",
   "status": "proved",
   "theorems": [
    "C03_fields_roundtrip"
   ],
   "note": ""
  },
  {
   "property": "C04",
   "status": "proved",
   "theorems": [
    "C04_read2_is_two_reads",
    "C04_read2_width32_reads_nothing",
    "C04_read2_width32_refuted"
   ],
   "note": "defect: width 32 paired read returns (0,0) and consumes nothing"
  },
  {
   "property": "C05",
   "status": "proved",
   "theorems": [
    "C05_read3_is_three_reads",
    "C05_read3_width0_panics",
    "C05_read3_width32_refuted",
    "C05_read3_width32_result"
   ],
   "note": ""
  },
  {
   "property": "C06",
   "status": "proved",
   "theorems": [
    "C06_pair_equal_widths",
    "C06_pair_mixed_widths_refuted",
    "C06_pair_swaps_widths",
    "C06_pair_mixed_widths_differ",
    "C06_pair_zero_width_panics"
   ],
   "note": "defect: unequal widths give wrong values"
  },
  {
   "property": "C07",
   "status": "proved",
   "theorems": [
    "C07_width_minimal"
   ],
   "note": ""
  },
  {
   "property": "C08",
   "status": "proved",
   "theorems": [
    "C08_index_array_roundtrip",
    "C08_general_loader_roundtrip",
    "C08_width_32_result",
    "C08_large_indices_refuted",
    "C08_zero_width_loader"
   ],
   "note": "defect: declared largest index of 2^31 or more loses the array"
  },
  {
   "property": "C09",
   "status": "proved",
   "theorems": [
    "C09_split_lossless"
   ],
   "note": "array length below 2^57 (more does not fit in memory)"
  },
  {
   "property": "C10",
   "status": "proved",
   "theorems": [
    "C10_no_uninitialised_element"
   ],
   "note": ""
  },
  {
   "property": "C11",
   "status": "proved",
   "theorems": [
    "C11_segments_roundtrip",
    "C11_segment_layout",
    "C11_too_long_refused",
    "C11_too_long_refused_old",
    "C11_unknown_compression_refused"
   ],
   "note": ""
  },
  {
   "property": "C12",
   "status": "proved",
   "theorems": [
    "C12_unknown_kinds_ignored",
    "C12_insertion"
   ],
   "note": ""
  },
  {
   "property": "C13",
   "status": "proved",
   "theorems": [
    "C13_not_tmf_iff",
    "C13_newer_iff",
    "C13_short",
    "C13_accepted"
   ],
   "note": ""
  },
  {
   "property": "C14",
   "status": "proved",
   "theorems": [
    "C14_old_files"
   ],
   "note": ""
  },
  {
   "property": "C15",
   "status": "proved",
   "theorems": [
    "C15_truncation"
   ],
   "note": ""
  },
  {
   "property": "C16",
   "status": "proved",
   "theorems": [
    "C16_crash",
    "C16_prefix_refused",
    "C16_complete",
    "C16_always_prefix"
   ],
   "note": ""
  },
  {
   "property": "C17",
   "status": "proved",
   "theorems": [
    "C17_panics_only",
    "C17_panics_where",
    "C17_colour_count_panics",
    "C17_colour_width_panics",
    "C17_index_overflow",
    "C17_index_values"
   ],
   "note": "memory exhaustion (an abort) is not modelled"
  },
  {
   "property": "C18",
   "status": "proved",
   "theorems": [
    "C18_declared_size_refused",
    "C18_file_refused",
    "C18_colour_refuted"
   ],
   "note": "defect: colour arrays have no size limit"
  },
  {
   "property": "C19",
   "status": "proved",
   "theorems": [
    "C19_names_survive",
    "C19_limits"
   ],
   "note": ""
  },
  {
   "property": "C20",
   "status": "proved",
   "theorems": [
    "C20_arrays_survive",
    "C20_large_index_refuted",
    "C20_normal_precision_refuted"
   ],
   "note": "for meshes within the limits of the format (storable), precisions up to 30 bits; the refutations show the limits are needed"
  },
  {
   "property": "C21",
   "status": "proved",
   "theorems": [
    "C21_custom_data_survives",
    "C21_lookup_before",
    "C21_lookup_after",
    "C21_same_name_refuted"
   ],
   "note": "defect: order reversed, so duplicate names swap"
  },
  {
   "property": "C22",
   "status": "proved",
   "theorems": [
    "C22_sharing_invisible",
    "C22_splitting_invisible",
    "C22_stored_once",
    "C22_each_once"
   ],
   "note": ""
  },
  {
   "property": "C23",
   "status": "proved",
   "theorems": [
    "C23_one"
   ],
   "note": ""
  },
  {
   "property": "C24",
   "status": "proved",
   "theorems": [
    "C24_completion_order",
    "C24_runs_finish"
   ],
   "note": "the executor's polling is not modelled, only completion orders"
  },
  {
   "property": "C25",
   "status": "proved",
   "theorems": [
    "C25_reorder_same_buffers",
    "C25_reorder_panics"
   ],
   "note": ""
  },
  {
   "property": "C26",
   "status": "proved",
   "theorems": [
    "C26_reorder_compacts"
   ],
   "note": ""
  },
  {
   "property": "C27",
   "status": "proved",
   "theorems": [
    "C27_unify_same_buffers",
    "C27_unify_shares",
    "C27_unify_returns",
    "C27_panics_iff",
    "C27_equal_arrays",
    "C27_empty_array_refuted"
   ],
   "note": ""
  },
  {
   "property": "C28",
   "status": "proved",
   "theorems": [
    "C28_unify_compact",
    "C28_unify_idempotent"
   ],
   "note": ""
  },
  {
   "property": "C29",
   "status": "proved",
   "theorems": [
    "C29_verify_ok",
    "C29_verify_errors",
    "C29_verify_total",
    "C29_verified_buffers",
    "C29_verified_buffers_refuted",
    "C29_uv_range_unchecked",
    "C29_length_real",
    "C29_nan_accepted",
    "C29_infinite_reported"
   ],
   "note": "C29_verified_buffers_refuted: a mesh that passes verification can have no vertex buffer."
  },
  {
   "property": "C30",
   "status": "proved",
   "theorems": [
    "C30_vertex_buffer",
    "C30_normal_buffer",
    "C30_uv_buffer",
    "C30_buffer_exists"
   ],
   "note": ""
  },
  {
   "property": "C31",
   "status": "proved",
   "theorems": [
    "C31_getters",
    "C31_replies",
    "C31_specification_unique"
   ],
   "note": ""
  },
  {
   "property": "C32",
   "status": "proved",
   "theorems": [
    "C32_lookup",
    "C32_add"
   ],
   "note": ""
  },
  {
   "property": "C33",
   "status": "proved",
   "theorems": [
    "C33_uv_error_bound",
    "C33_negative_coordinates",
    "C33_wide_codes_lose_one",
    "C33_above_one_refuted",
    "C33_wraps",
    "C33_not_numbers"
   ],
   "note": ""
  },
  {
   "property": "C34",
   "status": "proved",
   "theorems": [
    "C34_default_pixel_deviation",
    "C34_pixel_deviation",
    "C34_one_pixel_refuted"
   ],
   "note": "hypotheses on the platform's log2 are explicit; C34_one_pixel_refuted: the documented bound is false as stated"
  },
  {
   "property": "C35",
   "status": "proved",
   "theorems": [
    "C35_normal_cosine_bound",
    "C35_tangent_cosine_bound",
    "C35_default_setting",
    "C35_degrees",
    "C35_radians",
    "C35_degrees_refuted"
   ],
   "note": "For 1 to 24 bits and accurate asin, sin and cos (error 2^-20). The documented maximal angle is refuted with a witness."
  },
  {
   "property": "C36",
   "status": "proved",
   "theorems": [
    "C36_unit_length_and_sides",
    "C36_precision_zero_refuted",
    "C36_wide_codes_lose_z",
    "C36_overlong_loses_z",
    "C36_octant_refuted"
   ],
   "note": "For 1 to 24 bits and accurate asin, sin and cos. The exact octant claim is refuted with a witness."
  },
  {
   "property": "C37",
   "status": "proved",
   "theorems": [
    "C37_handedness"
   ],
   "note": ""
  },
  {
   "property": "C38",
   "status": "proved",
   "theorems": [
    "C38_stored_box",
    "C38_box_contains",
    "C38_last_vertex_refuted",
    "C38_single_vertex_refuted"
   ],
   "note": "defect: the stored box is not a bounding box of the last vertex"
  },
  {
   "property": "C39",
   "status": "proved",
   "theorems": [
    "C39_coordinates_stored"
   ],
   "note": "for coordinates up to 2^60 in absolute value"
  },
  {
   "property": "C40",
   "status": "proved",
   "theorems": [
    "C40_movement_bound",
    "C40_edge_length_refuted"
   ],
   "note": "C40_movement_bound gives how far vertices can move; C40_edge_length_refuted is the counterexample to the documented guarantee"
  },
  {
   "property": "C41",
   "status": "proved",
   "theorems": [
    "C41_lossless",
    "C41_returns",
    "C41_ends",
    "C41_assertion"
   ],
   "note": ""
  },
  {
   "property": "C42",
   "status": "proved",
   "theorems": [
    "C42_float_error_bound",
    "C42_wide_codes_lose_max",
    "C42_precision_refuted",
    "C42_range_refuted"
   ],
   "note": "log2 accurate (log2_ok); the refutations show that neither the precision nor the range of the data is a bound"
  },
  {
   "property": "C43",
   "status": "proved",
   "theorems": [
    "C43_color_error_bound",
    "C43_default_precision",
    "C43_negative_channels",
    "C43_wide_codes_lose_one",
    "C43_coarse_precision_refuted",
    "C43_precision_refuted",
    "C43_wraps",
    "C43_not_numbers"
   ],
   "note": "log2 accurate (log2_ok)"
  },
  {
   "property": "C44",
   "status": "proved",
   "theorems": [
    "C44_roundtrip",
    "C44_same_buffers",
    "C44_one",
    "C44_no_normals_refused",
    "C44_empty_list",
    "C44_partial_triangle_refuted"
   ],
   "note": "float printing and parsing abstract, with parsing undoing printing as hypothesis, which C75 proves of the standard library as modelled; defects: faces without normals and partial triangles are exported but refused on import"
  },
  {
   "property": "C45",
   "status": "proved",
   "theorems": [
    "C45_cloud_shifts",
    "C45_refuted"
   ],
   "note": "defect: exact description of the wrong result, and a witness"
  },
  {
   "property": "C46",
   "status": "proved",
   "theorems": [
    "C46_one_number",
    "C46_face_line",
    "C46_face_file"
   ],
   "note": ""
  },
  {
   "property": "C47",
   "status": "proved",
   "theorems": [
    "C47_prune_lookup",
    "C47_prune_front",
    "C47_prune_suffix"
   ],
   "note": ""
  },
  {
   "property": "C48",
   "status": "proved",
   "theorems": [
    "C48_roundtrip",
    "C48_short_data",
    "C48_triangles",
    "C48_long_run_refuted",
    "C48_narrow_refuted",
    "C48_bad_distance_refuted"
   ],
   "note": "dead code in the crate; defects shown by the refutations: long runs and widths under 7 corrupt the data, damaged data panic"
  },
  {
   "property": "C49",
   "status": "proved",
   "theorems": [
    "C49_reorder",
    "C49_same_triangles",
    "C49_panics",
    "C49_leftover_refuted"
   ],
   "note": "dead code in the crate; trailing indices that form no whole triangle are dropped"
  },
  {
   "property": "C50",
   "status": "proved",
   "theorems": [
    "C50_triangulates",
    "C50_count",
    "C50_quad",
    "C50_pentagon_refuted",
    "C50_triangulates_any",
    "C50_pentagon_double_refuted"
   ],
   "note": "acos abstract; defect: every face with five corners loses a corner and gets a degenerate first triangle"
  },
  {
   "property": "C51",
   "status": "proved",
   "theorems": [
    "C51_normalize",
    "C51_verified",
    "C51_too_small",
    "C51_too_large",
    "C51_nan",
    "C51_zero_refuted",
    "C51_nonzero_refuted",
    "C51_saved"
   ],
   "note": "proved for components up to 2^50 with one of at least 2^-50; the refutations show why some bound is needed (a zero or tiny normal becomes NaN or infinite, a huge one zero)"
  },
  {
   "property": "C52",
   "status": "proved",
   "theorems": [
    "C52_index_array_size",
    "C52_file_size"
   ],
   "note": ""
  },
  {
   "property": "C53",
   "status": "proved",
   "theorems": [
    "C53_no_error",
    "C53_panics",
    "C53_short_index_array_panics",
    "C53_release_exact",
    "C53_without_vertices_saved",
    "C53_verified_mesh_panics",
    "C53_with_vertices_saved"
   ],
   "note": ""
  },
  {
   "property": "C54",
   "status": "proved",
   "theorems": [
    "C54_few_segments",
    "C54_count_wraps",
    "C54_case"
   ],
   "note": "defect: segment count wraps"
  },
  {
   "property": "C55",
   "status": "proved",
   "theorems": [
    "C55_cycles"
   ],
   "note": ""
  },
  {
   "property": "C56",
   "status": "proved",
   "theorems": [
    "C56_save",
    "C56_load"
   ],
   "note": ""
  },
  {
   "property": "C57",
   "status": "proved",
   "theorems": [
    "C57_import_no_panic",
    "C57_at_least_one",
    "C57_import_any"
   ],
   "note": ""
  },
  {
   "property": "C58",
   "status": "proved",
   "theorems": [
    "C58_panics",
    "C58_file",
    "C58_panics_any"
   ],
   "note": ""
  },
  {
   "property": "C59",
   "status": "proved",
   "theorems": [
    "C59_export_refuses",
    "C59_large_index",
    "C59_export_refuses_any"
   ],
   "note": ""
  },
  {
   "property": "C60",
   "status": "proved",
   "theorems": [
    "C60_storage_size",
    "C60_fields"
   ],
   "note": ""
  },
  {
   "property": "C61",
   "status": "proved",
   "theorems": [
    "C61_platform_independent",
    "C61_platform_independent_one",
    "C61_accurate_platforms"
   ],
   "note": ""
  },
  {
   "property": "C62",
   "status": "proved",
   "theorems": [
    "C62_loaded_ranges",
    "C62_colours_refuted",
    "C62_vertices_refuted"
   ],
   "note": "the refutations show that the NaN cases occur"
  },
  {
   "property": "C63",
   "status": "proved",
   "theorems": [
    "C63_same_but_normals",
    "C63_loaded_ranges",
    "C63_normal_distance",
    "C63_tangent_distance",
    "C63_accuracy_refuted"
   ],
   "note": "little-endian target assumed for the integer read out of the f64 (src/utilis.rs L35)"
  },
  {
   "property": "C64",
   "status": "proved",
   "theorems": [
    "C64_default",
    "C64_same_file",
    "C64_same_file_one",
    "C64_lossless",
    "C64_same_bytes",
    "C64_exchange",
    "C64_wide_indices",
    "C64_verify_same",
    "C64_verify_sound",
    "C64_wrap_refuted",
    "C64_long_refuted",
    "C64_verify_refuted"
   ],
   "note": "the refutations show what happens to indices and lengths that do not fit"
  },
  {
   "property": "C65",
   "status": "proved",
   "theorems": [
    "C65_default",
    "C65_reorder_same_buffers",
    "C65_reorder_same",
    "C65_unify_same",
    "C65_unify_same_buffers",
    "C65_unify_refuted"
   ],
   "note": "the refutation: with short_indices a mesh of 65535 vertices and 65537 corners loses a normal"
  },
  {
   "property": "C66",
   "status": "proved",
   "theorems": [
    "C66_same_file",
    "C66_same_file_one",
    "C66_long_colours_refuted"
   ],
   "note": "the refutation shows that the exception occurs"
  },
  {
   "property": "C67",
   "status": "proved",
   "theorems": [
    "C67_line_ends",
    "C67_ignored_lines",
    "C67_last_line",
    "C67_surplus"
   ],
   "note": "an indented vertex line counts as a line with another word"
  },
  {
   "property": "C68",
   "status": "proved",
   "theorems": [
    "C68_layout",
    "C68_unambiguous",
    "C68_independent"
   ],
   "note": ""
  },
  {
   "property": "C69",
   "status": "proved",
   "theorems": [
    "C69_segment_order",
    "C69_same_kind_refuted"
   ],
   "note": "which error is reported when several segments are bad does depend on the order"
  },
  {
   "property": "C70",
   "status": "proved",
   "theorems": [
    "C70_pieces",
    "C70_failing_source",
    "C70_no_half_file",
    "C70_back_to_back",
    "C70_one"
   ],
   "note": "std's read_exact is modelled by its documented loop"
  },
  {
   "property": "C71",
   "status": "proved",
   "theorems": [
    "C71_patient_sink",
    "C71_any_sink",
    "C71_refused_never_loads",
    "C71_always_prefix"
   ],
   "note": "std's write_all is modelled by its documented loop; saving does not flush the sink"
  },
  {
   "property": "C72",
   "status": "proved",
   "theorems": [
    "C72_pieces",
    "C72_failing_source",
    "C72_any_sink",
    "C72_patient_sink"
   ],
   "note": "exports that are refused half way are in C59, without the text written so far"
  },
  {
   "property": "C73",
   "status": "proved",
   "theorems": [
    "C73_round_trip",
    "C73_to_default",
    "C73_from_default",
    "C73_crash",
    "C73_prefix_refused",
    "C73_release"
   ],
   "note": ""
  },
  {
   "property": "C74",
   "status": "proved",
   "theorems": [
    "C74_uv_error_bound",
    "C74_movement_bound",
    "C74_float_error_bound",
    "C74_color_error_bound",
    "C74_last_vertex_refuted",
    "C74_single_vertex_refuted",
    "C74_edge_length_refuted",
    "C74_uvs_wrap",
    "C74_colors_wrap"
   ],
   "note": "The last three show what the feature does not repair."
  },
  {
   "property": "C75",
   "status": "proved",
   "theorems": [
    "C75_print_read",
    "C75_print_read_double",
    "C75_roundtrip",
    "C75_read",
    "C75_read_double",
    "C75_accurate",
    "C75_shortest",
    "C75_same_number"
   ],
   "note": "std's Display and FromStr for floats are modelled in FloatText.v"
  },
  {
   "property": "C76",
   "status": "proved",
   "theorems": [
    "C76_normal_cosine_bound",
    "C76_tangent_cosine_bound",
    "C76_unit_length_and_sides",
    "C76_degrees",
    "C76_radians",
    "C76_handedness",
    "C76_degrees_refuted",
    "C76_precision_zero_refuted",
    "C76_overlong_refuted"
   ],
   "note": "The last three show where the documented guarantee fails."
  },
  {
   "property": "C77",
   "status": "proved",
   "theorems": [
    "C77_uvs_settle",
    "C77_normal_z_settles",
    "C77_signs_settle",
    "C77_tangents_settle",
    "C77_double_uvs_settle",
    "C77_double_normal_z_settles",
    "C77_double_tangents_settle",
    "C77_direction_refuted"
   ],
   "note": "The last one shows that the direction itself can go on moving."
  },
  {
   "property": "C78",
   "status": "proved",
   "theorems": [
    "C78_colours_widen",
    "C78_white_turns_black",
    "C78_saves_end",
    "C78_floats_widen",
    "C78_colours_widen_double",
    "C78_saves_end_double",
    "C78_floats_widen_double"
   ],
   "note": "The loaded precision is 0.99999 over 2^width of the range, so its logarithm is just above the width and rounds up to one more."
  },
  {
   "property": "C79",
   "status": "proved",
   "theorems": [
    "C79_exchange",
    "C79_numbers_survive",
    "C79_one_number",
    "C79_large_positions",
    "C79_short_refuted",
    "C79_full_type_panics"
   ],
   "note": "The float type and the size of the index type are parameters of the model; C79_numbers_survive shows that f32 and f64 as printed by the standard library meet the hypothesis on texts. The last two theorems show what happens at the limits."
  },
  {
   "property": "C80",
   "status": "proved",
   "theorems": [
    "C80_default_settings"
   ],
   "note": "Puts C19, C20, C21, C34, C35, C40 and C53_with_vertices_saved together, with the default settings computed. The libraries are assumed to be accurate to the stated bounds, log2 also to be monotone and to give minus infinity at zero (CheckedSpec.log2_standard); P_Checked.v and Trig_proofs.v exhibit one."
  },
  {
   "property": "C81",
   "status": "proved",
   "theorems": [
    "C81_release_outcome",
    "C81_degenerate",
    "C81_zero_precision",
    "C81_zero_float_precision",
    "C81_zero_color_precision",
    "C81_verified_refuted",
    "C81_collapse",
    "C81_release_outcome_double",
    "C81_degenerate_double",
    "C81_zero_precision_double",
    "C81_zero_float_precision_double",
    "C81_zero_color_precision_double",
    "C81_verified_refuted_double",
    "C81_collapse_double"
   ],
   "note": "Degenerate triangles give a shortest edge of zero, its logarithm is minus infinity and the width saturates at 255. The libraries are assumed to give infinity for log2 of infinity (FineSpec.log2_infinite); full_libm in P_Fine.v meets that and log2_ok."
  },
  {
   "property": "C82",
   "status": "proved",
   "theorems": [
    "C82_normalize",
    "C82_verified",
    "C82_saved",
    "C82_too_small",
    "C82_too_large",
    "C82_nan",
    "C82_zero_refuted",
    "C82_nonzero_refuted",
    "C82_verify_ok",
    "C82_verify_errors",
    "C82_verify_total",
    "C82_uv_range_unchecked",
    "C82_length_real",
    "C82_nan_accepted",
    "C82_infinite_reported"
   ],
   "note": "As C29 and C51, with f64. C82_zero_refuted: the zero vector becomes NaN and verification accepts it. C82_nonzero_refuted: so small and so large vectors are not normalised."
  },
  {
   "property": "C83",
   "status": "proved",
   "theorems": [
    "C83_reorder_same_buffers",
    "C83_reorder_panics",
    "C83_reorder_compacts",
    "C83_unify_same_buffers",
    "C83_unify_shares",
    "C83_unify_returns",
    "C83_unify_compact",
    "C83_unify_idempotent",
    "C83_panics_iff",
    "C83_equal_arrays",
    "C83_vertex_buffer",
    "C83_normal_buffer",
    "C83_uv_buffer",
    "C83_buffer_exists",
    "C83_verified_buffers",
    "C83_verified_buffers_refuted",
    "C83_getters",
    "C83_replies",
    "C83_lookup",
    "C83_add"
   ],
   "note": "The proofs of C25-C28 and C30-C32 for dmesh; the lemmas on arrays and index arrays are shared."
  },
  {
   "property": "C84",
   "status": "proved",
   "theorems": [
    "C84_no_error",
    "C84_panics",
    "C84_short_index_array_panics",
    "C84_without_vertices_saved",
    "C84_with_vertices_saved",
    "C84_release_exact",
    "C84_verified_mesh_panics",
    "C84_few_segments"
   ],
   "note": "f64 counterpart of C53 and C54; log2 accuracy and order are hypotheses of the theorem about vertices with overflow checks"
  },
  {
   "property": "C85",
   "status": "proved",
   "theorems": [
    "C85_default_settings"
   ],
   "note": "the width of texture coordinates is computed in f32 also with the feature"
  },
  {
   "property": "C86",
   "status": "proved",
   "theorems": [
    "C86_published_files_load",
    "C86_published_files_load_double",
    "C86_width_32_refuted",
    "C86_omitted_refuted"
   ],
   "note": "normal and UV segments are marked TODO in the document and left out; two of its permissions are refuted"
  },
  {
   "property": "C87",
   "status": "proved",
   "theorems": [
    "C87_calls_return",
    "C87_prepared_save",
    "C87_calls_return_double",
    "C87_prepared_save_double"
   ],
   "note": "by an invariant over the sequence of calls; for both float types"
  },
  {
   "property": "C88",
   "status": "proved",
   "theorems": [
    "C88_shape",
    "C88_can_be_exported",
    "C88_import_again",
    "C88_to_tmf",
    "C88_name_refuted",
    "C88_no_faces_refuted",
    "C88_shape_any",
    "C88_can_be_exported_any",
    "C88_import_again_any"
   ],
   "note": "by induction over the lines of the text; the two refuted theorems show that the conditions of C88_import_again are needed"
  },
  {
   "property": "C89",
   "status": "proved",
   "theorems": [
    "C89_text_tells",
    "C89_verified_text"
   ],
   "note": "floats are printed as in C75"
  },
  {
   "property": "C90",
   "status": "proved",
   "theorems": [
    "C90_nan_is_least",
    "C90_only_nan",
    "C90_infinite",
    "C90_nan_is_least_double",
    "C90_only_nan_double",
    "C90_infinite_double"
   ],
   "note": "platform log2 as in C42; that it maps infinity to infinity is a hypothesis"
  },
  {
   "property": "C91",
   "status": "proved",
   "theorems": [
    "C91_uvs_to_default",
    "C91_uvs_to_double",
    "C91_normals_to_default",
    "C91_normals_to_double",
    "C91_tangents_to_default",
    "C91_tangents_to_double",
    "C91_floats_to_default",
    "C91_floats_to_double",
    "C91_colors_to_default",
    "C91_colors_to_double",
    "C91_vertices_to_default",
    "C91_vertices_to_double"
   ],
   "note": "accuracy of log2, asin, sin and cos are hypotheses; for vertices, the bounds of C40 and C74 (with their mixed up axes) on coordinates within 2^50 and edges of at least 2^-20"
  },
  {
   "property": "C92",
   "status": "proved",
   "theorems": [
    "C92_indices_fit",
    "C92_indices",
    "C92_indices_double",
    "C92_floats",
    "C92_floats_double",
    "C92_colors_double"
   ],
   "note": "colours without the feature are C43_default_precision; accuracy of log2 is a hypothesis; a checked build may refuse floats whose span needs more than 30 bits (C53)"
  }
 ]
}