{
 "claims": [
  {
   "property": "C01",
   "status": "proved",
   "theorems": [
    "C01_set_get",
    "C01_set_succeeds_iff",
    "C01_aliases_agree"
   ],
   "note": "for every reachable heap of blocks/views, every handle, key, value"
  },
  {
   "property": "C02",
   "status": "proved",
   "theorems": [
    "C02_refines_flat"
   ],
   "note": "simulation with the flat machine of ConfigSpec.v, all histories"
  },
  {
   "property": "C03",
   "status": "proved",
   "theorems": [
    "C03_read_only_permanent"
   ],
   "note": ""
  },
  {
   "property": "C04",
   "status": "proved",
   "theorems": [
    "C04_failed_set_unset_no_effect",
    "C04_unset_outcome"
   ],
   "note": ""
  },
  {
   "property": "C05",
   "status": "proved",
   "theorems": [
    "C05_no_undefined_behaviour",
    "C05_description_iff_value"
   ],
   "note": ""
  },
  {
   "property": "C06",
   "status": "proved",
   "theorems": [
    "C06_merge"
   ],
   "note": "target and source in different roots; source keys readable (always so for a root source)"
  },
  {
   "property": "C07",
   "status": "proved",
   "theorems": [
    "C06_merge"
   ],
   "note": "same theorem: the l2 = k :: _ case"
  },
  {
   "property": "C08",
   "status": "proved",
   "theorems": [
    "C08_subblock_copy",
    "C08_independence"
   ],
   "note": "subblock of a root block; when a global key and a block key collide after stripping the later in key order wins (statement gives either)"
  },
  {
   "property": "C09",
   "status": "proved",
   "theorems": [
    "C09_available_values_root"
   ],
   "note": ""
  },
  {
   "property": "C11",
   "status": "proved",
   "theorems": [
    "C11_values_trimmed"
   ],
   "note": ""
  },
  {
   "property": "C13",
   "status": "proved",
   "theorems": [
    "C13_bool_cast",
    "C13_bool_round_trip"
   ],
   "note": ""
  },
  {
   "property": "C14",
   "status": "proved",
   "theorems": [
    "C14_get_value_default"
   ],
   "note": "any cast"
  },
  {
   "property": "C15",
   "status": "proved",
   "theorems": [
    "C15_expand_is_one_pass",
    "C15_expand_never_out_of_fuel",
    "C15_expand_plain"
   ],
   "note": "relation ExpandSpec.expands; arbitrary token tables"
  },
  {
   "property": "C16",
   "status": "proved",
   "theorems": [
    "C16_documents_mean_their_tree"
   ],
   "note": "all well-formed document trees, incl. macros and the read-only conflict"
  },
  {
   "property": "C17",
   "status": "proved",
   "theorems": [
    "C17_blanks_and_comments_irrelevant"
   ],
   "note": "whole worlds differing only in blanks/comments, incl. included files; same exception too"
  },
  {
   "property": "C18",
   "status": "proved",
   "theorems": [
    "C18_accepts_only_well_formed",
    "C18_accepts_all_well_formed"
   ],
   "note": "iff with the declarative grammar ParserSpec.good"
  },
  {
   "property": "C19",
   "status": "proved",
   "theorems": [
    "C19_terminates",
    "C19_no_includes",
    "C19_self_include_never_finishes"
   ],
   "note": ""
  },
  {
   "property": "C20",
   "status": "proved",
   "theorems": [
    "C20_read_only_entries",
    "C18_accepts_only_well_formed"
   ],
   "note": ""
  },
  {
   "property": "C61",
   "status": "proved",
   "theorems": [
    "C61_include_lookup"
   ],
   "note": ""
  },
  {
   "property": "C21",
   "status": "proved",
   "theorems": [
    "C21_write_read_round_trip",
    "C21_unrestricted_round_trip_refuted"
   ],
   "note": "the restrictions of the statement are necessary: refuted without them"
  },
  {
   "property": "C22",
   "status": "proved",
   "theorems": [
    "C22_comment_lines"
   ],
   "note": ""
  },
  {
   "property": "C23",
   "status": "proved",
   "theorems": [
    "C23_search_order"
   ],
   "note": ""
  },
  {
   "property": "C24",
   "status": "proved",
   "theorems": [
    "C24_merge_first_wins",
    "C24_unreadable_file_surfaces",
    "C24_first_file_without_merge",
    "C24_full_path_is_read_directly"
   ],
   "note": ""
  },
  {
   "property": "C25",
   "status": "proved",
   "theorems": [
    "C25_read_only_marks_of_last_file",
    "C25_read_only_survives_merge_refuted"
   ],
   "note": "exact characterisation plus the counterexample to the expected behaviour"
  },
  {
   "property": "C26",
   "status": "proved",
   "theorems": [
    "C26_tokenize_splits",
    "C26_split_is_unique",
    "C26_join_gives_text_back"
   ],
   "note": ""
  },
  {
   "property": "C27",
   "status": "proved",
   "theorems": [
    "C27_constructor_addresses",
    "C27_set_size_addresses",
    "C27_set_size_same_dims_keeps",
    "C27_accessors_check_bounds",
    "C27_empty",
    "C27_size_overflow_refuted"
   ],
   "note": "for w*h*d < 2^63; the size_t overflow beyond is refuted"
  },
  {
   "property": "C28",
   "status": "proved",
   "theorems": [
    "C28_copy_from_deep_copies",
    "C28_overlap_refuted"
   ],
   "note": ""
  },
  {
   "property": "C29",
   "status": "proved",
   "theorems": [
    "C29_equal_content_is_pixel_equality",
    "C29_equivalence"
   ],
   "note": ""
  },
  {
   "property": "C30",
   "status": "proved",
   "theorems": [
    "C30_transform_once_per_pixel"
   ],
   "note": ""
  },
  {
   "property": "C31",
   "status": "proved",
   "theorems": [
    "C31_copy_constructor",
    "C31_assignment",
    "C31_self_assignment",
    "C31_independent_storage",
    "C31_assignment_under_image_refuted"
   ],
   "note": ""
  },
  {
   "property": "C58",
   "status": "proved",
   "theorems": [
    "C58_new_from_data",
    "C58_large_source_refuted"
   ],
   "note": "offsets within int; refuted beyond 2^31"
  },
  {
   "property": "C34",
   "status": "proved",
   "theorems": [
    "C34_frames_increase",
    "C34_append_state",
    "C34_append_track",
    "C34_extent"
   ],
   "note": ""
  },
  {
   "property": "C35",
   "status": "proved",
   "theorems": [
    "C35_find_is_exact"
   ],
   "note": ""
  },
  {
   "property": "C36",
   "status": "proved",
   "theorems": [
    "C36_active_inactive_partition",
    "C36_offset_denotes_one_frame"
   ],
   "note": ""
  },
  {
   "property": "C37",
   "status": "proved",
   "theorems": [
    "C37_last_frame_is_largest",
    "C37_all_frame_ids",
    "C37_first_frame_is_zero",
    "C37_first_frame_refuted",
    "C37_negative_last_frame_refuted"
   ],
   "note": "first_frame is refuted: it is always 0 for non-negative frames; last_frame holds whenever a frame >= 0 is covered"
  },
  {
   "property": "C38",
   "status": "proved",
   "theorems": [
    "C38_percentage_is_a_ratio",
    "C38_between_0_and_1"
   ],
   "note": "exact rationals in place of doubles"
  },
  {
   "property": "C63",
   "status": "proved",
   "theorems": [
    "C63_new_and_terminated",
    "C63_empty_track_refuted"
   ],
   "note": ""
  },
  {
   "property": "C64",
   "status": "proved",
   "theorems": [
    "C64_frame_features",
    "C64_last_frame_features",
    "C64_empty_track_refuted"
   ],
   "note": "last_frame_features refuted for sets with an empty track"
  },
  {
   "property": "C65",
   "status": "proved",
   "theorems": [
    "C65_get_track"
   ],
   "note": ""
  },
  {
   "property": "C32",
   "status": "proved",
   "theorems": [
    "C32_compares_time_then_frame",
    "C32_trichotomy",
    "C32_converse",
    "C32_strict"
   ],
   "note": ""
  },
  {
   "property": "C33",
   "status": "proved",
   "theorems": [
    "C33_strict_weak_order_on_uniform_sets",
    "C33_transitivity_refuted"
   ],
   "note": ""
  },
  {
   "property": "C62",
   "status": "proved",
   "theorems": [
    "C62_setters",
    "C62_history",
    "C62_fresh",
    "C62_invalid_compares_with_nothing"
   ],
   "note": ""
  },
  {
   "property": "C66",
   "status": "proved",
   "theorems": [
    "C66_config_round_trip",
    "C66_validity_lost_refuted",
    "C66_short_value_refuted"
   ],
   "note": ""
  },
  {
   "property": "C48",
   "status": "proved",
   "theorems": [
    "C48_landmark_file_round_trip",
    "C48_empty_map"
   ],
   "note": "for every text format of doubles that the stream operators implement"
  },
  {
   "property": "C49",
   "status": "proved",
   "theorems": [
    "C49_reads_first_n_plus_one",
    "C49_exactly_n_refuted",
    "C49_no_end_header"
   ],
   "note": ""
  },
  {
   "property": "C50",
   "status": "proved",
   "theorems": [
    "C50_track_file_round_trip",
    "C50_equal_ids_refuted",
    "C50_empty_track_refuted",
    "C50_empty_set"
   ],
   "note": "distinct ids and non-empty tracks are needed: refuted otherwise"
  },
  {
   "property": "C67",
   "status": "proved",
   "theorems": [
    "C67_any_file",
    "C67_short_line_refuted",
    "C67_unordered_states_dropped_refuted"
   ],
   "note": ""
  },
  {
   "property": "C39",
   "status": "proved",
   "theorems": [
    "C39_create",
    "C39_create_def",
    "C39_names",
    "C39_names_def",
    "C39_all_names",
    "C39_colon_refuted"
   ],
   "note": "definition names without ':' (refuted otherwise for algorithm::create; algorithm_def::create needs no such condition)"
  },
  {
   "property": "C41",
   "status": "proved",
   "theorems": [
    "C41_loaded_exactly_once",
    "C41_one_instance",
    "C41_no_deadlock",
    "C41_no_data_race_refuted"
   ],
   "note": "sequentially consistent interleavings; the unsynchronised reads are data races in C++11 (refuted)"
  },
  {
   "property": "C43",
   "status": "proved",
   "theorems": [
    "C43_encode",
    "C43_alphabet",
    "C43_round_trip_length",
    "C43_round_trip_text",
    "C43_estimate_refuted"
   ],
   "note": "all byte sequences, all buffers; out-of-bounds accesses are a distinct outcome"
  },
  {
   "property": "C44",
   "status": "proved",
   "theorems": [
    "C44_marked_encode",
    "C44_marked_decode",
    "C44_exact_refuted"
   ],
   "note": "restated: exact behaviour of the end mark; the documented contract is refuted"
  },
  {
   "property": "C68",
   "status": "proved",
   "theorems": [
    "C68_decode_safe",
    "C68_decode_length_safe",
    "C68_stops_at_invalid",
    "C68_max_input_length_refuted"
   ],
   "note": ""
  },
  {
   "property": "C42",
   "status": "proved",
   "theorems": [
    "C42_retrievable",
    "C42_balanced",
    "C42_no_ops"
   ],
   "note": "histories shorter than 2^64 operations (the counter is a size_t)"
  },
  {
   "property": "C57",
   "status": "proved",
   "theorems": [
    "C57_string_new",
    "C57_string_new_null",
    "C57_error_message_refuted",
    "C57_string_list_refuted"
   ],
   "note": "restated: vital_string_new is safe; error messages and name lists always overrun by one byte"
  },
  {
   "property": "C69",
   "status": "proved",
   "theorems": [
    "C69_agree",
    "C69_destroy",
    "C69_create",
    "C69_answers",
    "C69_set_type_config",
    "C69_wrong_type_refuted",
    "C69_stale_pointer_refuted"
   ],
   "note": ""
  },
  {
   "property": "C70",
   "status": "proved",
   "theorems": [
    "C70_camera_map_new",
    "C70_get_map",
    "C70_get_map_fails",
    "C70_get_map_references",
    "C70_wide_frames_refuted"
   ],
   "note": ""
  },
  {
   "property": "C71",
   "status": "proved",
   "theorems": [
    "C71_check_type_config",
    "C71_check_impl_refuted"
   ],
   "note": ""
  },
  {
   "property": "C45",
   "status": "proved",
   "theorems": [
    "C45_visits_every_cell",
    "C45_iterator_equality",
    "C45_empty_matrix_refuted"
   ],
   "note": "Eigen's arrays and InnerIterator are modelled as library code"
  },
  {
   "property": "C46",
   "status": "proved",
   "theorems": [
    "C46_index",
    "C46_from_matrix",
    "C46_from_scalar",
    "C46_to_matrix",
    "C46_set",
    "C46_roundtrip",
    "C46_wide_refuted"
   ],
   "note": ""
  },
  {
   "property": "C47",
   "status": "proved",
   "theorems": [
    "C47_conversion",
    "C47_one",
    "C47_conversion_refuted"
   ],
   "note": "restated as the true characterisation: the code copies only N elements"
  },
  {
   "property": "C40",
   "status": "proved",
   "theorems": [
    "C40_set_selected",
    "C40_set_unselected",
    "C40_def_pointer",
    "C40_check",
    "C40_round_trip",
    "C40_get_without_algorithm",
    "C40_untrimmed_name_refuted",
    "C40_empty_type_refuted"
   ],
   "note": "virtual functions are parameters; non-empty type name"
  },
  {
   "property": "C51",
   "status": "proved",
   "theorems": [
    "C51_map",
    "C51_compose",
    "C51_compose_refuted",
    "C51_inverse",
    "C51_normalize",
    "C51_f2f_compose",
    "C51_f2f_laws"
   ],
   "note": "exact reals; unconditional composition law refuted"
  },
  {
   "property": "C52",
   "status": "proved",
   "theorems": [
    "C52_apply",
    "C52_compose",
    "C52_group",
    "C52_compose_nonunit_refuted",
    "C52_matrix_action",
    "C52_from_matrix",
    "C52_matrix_roundtrip",
    "C52_rejected_matrix_refuted"
   ],
   "note": "exact reals"
  },
  {
   "property": "C72",
   "status": "proved",
   "theorems": [
    "C72_matrix",
    "C72_from_angle_axis",
    "C72_from_rodrigues",
    "C72_angle_axis",
    "C72_angle_axis_readback",
    "C72_ypr_matrix",
    "C72_ypr_readback",
    "C72_ypr_rebuild",
    "C72_gimbal_lock_refuted",
    "C72_vec4_order_refuted"
   ],
   "note": "exact reals; Eigen conversions transcribed"
  },
  {
   "property": "C73",
   "status": "proved",
   "theorems": [
    "C73_interpolate",
    "C73_interpolated"
   ],
   "note": "exact reals"
  },
  {
   "property": "C75",
   "status": "proved",
   "theorems": [
    "C75_matrix",
    "C75_twisted",
    "C75_from_matrix"
   ],
   "note": "exact reals; the SVD is a hypothesis"
  },
  {
   "property": "C53",
   "status": "proved",
   "theorems": [
    "C53_map",
    "C53_unmap",
    "C53_undistort",
    "C53_unmap_error",
    "C53_calibration_matrix",
    "C53_unnormalised_matrix_refuted",
    "C53_translation",
    "C53_project",
    "C53_default_intrinsics"
   ],
   "note": "exact reals; Eigen's LDLT solve is a parameter"
  },
  {
   "property": "C54",
   "status": "proved",
   "theorems": [
    "C54_radial",
    "C54_jacobian",
    "C54_radial_only",
    "C54_jacobian_refuted"
   ],
   "note": "exact reals; restated as the true characterisation"
  },
  {
   "property": "C55",
   "status": "proved",
   "theorems": [
    "C55_map_points",
    "C55_vec_points"
   ],
   "note": ""
  },
  {
   "property": "C56",
   "status": "proved",
   "theorems": [
    "C56_valid",
    "C56_empty",
    "C56_access",
    "C56_equality"
   ],
   "note": "IEEE binary64 (Flocq)"
  },
  {
   "property": "C74",
   "status": "proved",
   "theorems": [
    "C74_look_at",
    "C74_parallel_refuted"
   ],
   "note": "exact reals"
  },
  {
   "property": "C76",
   "status": "proved",
   "theorems": [
    "C76_match_points"
   ],
   "note": ""
  },
  {
   "property": "C77",
   "status": "proved",
   "theorems": [
    "C77_filter"
   ],
   "note": "the filter is a parameter"
  },
  {
   "property": "C78",
   "status": "proved",
   "theorems": [
    "C78_optimize",
    "C78_null"
   ],
   "note": "the optimizer is a parameter"
  },
  {
   "property": "C79",
   "status": "proved",
   "theorems": [
    "C79_zone",
    "C79_diverges",
    "C79_undefined",
    "C79_exact_strip_refuted"
   ],
   "note": "IEEE binary64 (Flocq)"
  },
  {
   "property": "C10",
   "status": "proved",
   "theorems": [
    "C10_view_listing",
    "C10_view_keys",
    "C10_print",
    "C10_view_lists_unreadable_key_refuted"
   ],
   "note": "exact listing of a view; the naive claim is refuted"
  },
  {
   "property": "C12",
   "status": "proved",
   "theorems": [
    "C12_protected",
    "C12_mark_local",
    "C12_view_mark_protects_nothing",
    "C12_root_mark_protects",
    "C12_view_read_only_refuted"
   ],
   "note": "exact protection; the naive claim is refuted"
  },
  {
   "property": "C59",
   "status": "proved",
   "theorems": [
    "C59_ready",
    "C59_ready_accepts",
    "C59_failed",
    "C59_unfinished",
    "C59_session",
    "C59_reuse_after_exception_refuted"
   ],
   "note": "three parser states and what each does with the next file; the naive claim is refuted"
  },
  {
   "property": "C60",
   "status": "proved",
   "theorems": [
    "C60_kind_irrelevant",
    "C60_directives_are_words_refuted"
   ],
   "note": "the naive claim is refuted"
  },
  {
   "property": "C83",
   "status": "proved",
   "theorems": [
    "C83_name",
    "C83_extension",
    "C83_last_extension",
    "C83_parent"
   ],
   "note": ""
  },
  {
   "property": "C84",
   "status": "proved",
   "theorems": [
    "C84_exact",
    "C84_replace_string",
    "C84_plain",
    "C84_no_doubles",
    "C84_backslashes",
    "C84_tilde",
    "C84_trailing",
    "C84_idempotent_refuted",
    "C84_doubles_refuted"
   ],
   "note": "exact characterisation; the naive claims are refuted"
  },
  {
   "property": "C85",
   "status": "proved",
   "theorems": [
    "C85_collapse",
    "C85_only",
    "C85_parts_exist",
    "C85_total",
    "C85_idempotent",
    "C85_canonical",
    "C85_full",
    "C85_translation",
    "C85_home_recursion_refuted"
   ],
   "note": "exact characterisation; termination fails for HOME='~...'"
  },
  {
   "property": "C86",
   "status": "proved",
   "theorems": [
    "C86_relative",
    "C86_relative_not_full",
    "C86_full_path",
    "C86_relative_refuted",
    "C86_subdirectory",
    "C86_subdirectory_of_root_refuted"
   ],
   "note": ""
  },
  {
   "property": "C87",
   "status": "proved",
   "theorems": [
    "C87_get_path",
    "C87_get_path_unset",
    "C87_find_name",
    "C87_find_file",
    "C87_split",
    "C87_directory_hides_file_refuted",
    "C87_user_paths_first_refuted",
    "C87_empty_element_refuted"
   ],
   "note": "exact search order; naive claims refuted"
  },
  {
   "property": "C88",
   "status": "proved",
   "theorems": [
    "C88_make_directory",
    "C88_make_directory_free",
    "C88_image_load",
    "C88_image_save",
    "C88_tilde_refuted"
   ],
   "note": "file system without links, one process"
  },
  {
   "property": "C80",
   "status": "proved",
   "theorems": [
    "C80_reader",
    "C80_refused",
    "C80_round_trip",
    "C80_same_camera",
    "C80_no_distortion",
    "C80_distortion_refuted"
   ],
   "note": "text format of doubles is a parameter; geometry over exact reals"
  },
  {
   "property": "C81",
   "status": "proved",
   "theorems": [
    "C81_rotation",
    "C81_similarity",
    "C81_similarity_reader",
    "C81_intrinsics",
    "C81_intrinsics_exact",
    "C81_landmark",
    "C81_intrinsics_distortion_refuted",
    "C81_landmark_observations_refuted"
   ],
   "note": "text format of doubles is a parameter"
  },
  {
   "property": "C82",
   "status": "proved",
   "theorems": [
    "C82_path",
    "C82_files",
    "C82_one_file",
    "C82_missing_directory",
    "C82_entries",
    "C82_write",
    "C82_write_read",
    "C82_evaluation_order_refuted",
    "C82_silent_write_refuted"
   ],
   "note": "both evaluation orders of the unsequenced assignment"
  },
  {
   "property": "C89",
   "status": "proved",
   "theorems": [
    "C89_modules_tried",
    "C89_determined",
    "C89_file_tried",
    "C89_dotted_name",
    "C89_search_path"
   ],
   "note": ""
  },
  {
   "property": "C90",
   "status": "proved",
   "theorems": [
    "C90_account",
    "C90_listed_modules_are_open",
    "C90_no_dangling",
    "C90_last_module_wins",
    "C90_dangling_refuted",
    "C90_exception_refuted",
    "C90_environment_first_refuted"
   ],
   "note": "module entry points are arbitrary functions on the registrar"
  },
  {
   "property": "C91",
   "status": "proved",
   "theorems": [
    "C91_detailed_listing",
    "C91_colon_refuted"
   ],
   "note": ""
  },
  {
   "property": "C92",
   "status": "proved",
   "theorems": [
    "C92_compile_total",
    "C92_accepted_is_legal",
    "C92_legal_is_accepted",
    "C92_small_is_accepted",
    "C92_unambiguous",
    "C92_nine_groups",
    "C92_every_legal_accepted_refuted"
   ],
   "note": ""
  },
  {
   "property": "C93",
   "status": "proved",
   "theorems": [
    "C93_answer",
    "C93_leftmost_preferred",
    "C93_groups",
    "C93_group_reported",
    "C93_longest_refuted"
   ],
   "note": "recursion depth (stack) not modelled"
  },
  {
   "property": "C94",
   "status": "proved",
   "theorems": [
    "C94_token_pattern",
    "C94_finds_references",
    "C94_word_pattern",
    "C94_flag_pattern"
   ],
   "note": ""
  },
  {
   "property": "C95",
   "status": "proved",
   "theorems": [
    "C95_meaning",
    "C95_one_reading",
    "C95_unreadable",
    "C95_accepted",
    "C95_plain",
    "C95_literal",
    "C95_backwards_refuted",
    "C95_hidden_refuted"
   ],
   "note": ""
  },
  {
   "property": "C96",
   "status": "proved",
   "theorems": [
    "C96_find_files",
    "C96_well_defined",
    "C96_no_duplicates"
   ],
   "note": "Relative empty; GetRealPath succeeds; the path dir/name leads to entry name of dir"
  },
  {
   "property": "C97",
   "status": "proved",
   "theorems": [
    "C97_terminates",
    "C97_reaches_everything",
    "C97_listed_is_there",
    "C97_no_cycles",
    "C97_once_refuted"
   ],
   "note": "exact set also given by C96_find_files through found_deep"
  },
  {
   "property": "C98",
   "status": "proved",
   "theorems": [
    "C98_every_line",
    "C98_lines_unique",
    "C98_threshold",
    "C98_monotone",
    "C98_fraction_refuted",
    "C98_none_silences_refuted"
   ],
   "note": "clock text arbitrary, stream never fails"
  },
  {
   "property": "C99",
   "status": "proved",
   "theorems": [
    "C99_messages_do_not_mix",
    "C99_prefix",
    "C99_order_and_no_loss",
    "C99_no_deadlock"
   ],
   "note": "sequentially consistent interleavings"
  },
  {
   "property": "C100",
   "status": "proved",
   "theorems": [
    "C100_same_name_same_logger",
    "C100_level_is_own",
    "C100_set_then_get",
    "C100_name",
    "C100_new_logger_is_open",
    "C100_backend",
    "C100_stale_factory_refuted",
    "C100_null_plugin_refuted"
   ],
   "note": "one thread; log4cxx back end not modelled"
  },
  {
   "property": "C101",
   "status": "proved",
   "theorems": [
    "C101_member",
    "C101_function",
    "C101_file_name",
    "C101_operator_refuted"
   ],
   "note": ""
  },
  {
   "property": "C102",
   "status": "proved",
   "theorems": [
    "C102_handles_valid",
    "C102_released",
    "C102_no_leak",
    "C102_del_succeeds",
    "C102_set_config_shared",
    "C102_forgotten_parent_refuted"
   ],
   "note": "no reference cycles; fewer than 2^64 operations; one cache per class (C69 for the two caches of algorithms)"
  },
  {
   "property": "C103",
   "status": "proved",
   "theorems": [
    "C103_defined",
    "C103_set",
    "C103_reads",
    "C103_as_dict",
    "C103_merge",
    "C103_read_only",
    "C103_null",
    "C103_get_description_none_refuted",
    "C103_as_dict_of_view_refuted",
    "C103_merge_silent_refuted"
   ],
   "note": "file reading and writing are C21-C26; the one byte overruns of C71 taken as harmless"
  },
  {
   "property": "C104",
   "status": "proved",
   "theorems": [
    "C104_grey_round_trip",
    "C104_colour_in",
    "C104_interleaved_out",
    "C104_negative_refuted",
    "C104_colour_round_trip_refuted"
   ],
   "note": "PIL's tostring and raw decoder are library models"
  },
  {
   "property": "C105",
   "status": "proved",
   "theorems": [
    "C105_expander",
    "C105_add_twice_refuted",
    "C105_failed_lookup",
    "C105_good_lookup",
    "C105_return_code"
   ],
   "note": "the pattern matcher is the one proved equal to the regular expression in C94"
  },
  {
   "property": "C106",
   "status": "proved",
   "theorems": [
    "C106_parse",
    "C106_flags",
    "C106_complete",
    "C106_round_trip",
    "C106_long_word_refuted"
   ],
   "note": ""
  },
  {
   "property": "C107",
   "status": "proved",
   "theorems": [
    "C107_elapsed",
    "C107_nonnegative",
    "C107_scoped",
    "C107_never_started_refuted",
    "C107_clock_set_back_refuted"
   ],
   "note": "in ticks; conversion to seconds not modelled"
  },
  {
   "property": "C108",
   "status": "proved",
   "theorems": [
    "C108_executable",
    "C108_history",
    "C108_root_refuted",
    "C108_module_refuted"
   ],
   "note": "Linux branch; realpath and /proc/self/maps are given"
  },
  {
   "property": "C109",
   "status": "proved",
   "theorems": [
    "C109_safe",
    "C109_lifetime",
    "C109_open",
    "C109_stable",
    "C109_failure",
    "C109_load",
    "C109_convert",
    "C109_track",
    "C109_null_mask_refuted",
    "C109_save_write",
    "C109_image",
    "C109_set",
    "C109_silent_refuted"
   ],
   "note": "fewer than 2^64 calls for C109_open; NULL images and file names excluded; a new object gets an address no live object has"
  },
  {
   "property": "C110",
   "status": "proved",
   "theorems": [
    "C110_full_path",
    "C110_full_twice",
    "C110_full_which",
    "C110_config_names",
    "C110_defaults",
    "C110_config_round_trip",
    "C110_trailing_space_refuted",
    "C110_list",
    "C110_run",
    "C110_other_files",
    "C110_different_lengths",
    "C110_mask_options_refuted",
    "C110_old_tracks_lost_refuted",
    "C110_exit_code",
    "C110_success_refuted"
   ],
   "note": "algorithms are arbitrary oracles over the history of calls; os.path functions are library models"
  },
  {
   "property": "C111",
   "status": "proved",
   "theorems": [
    "C111_ends",
    "C111_nearest",
    "C111_unique",
    "C111_find",
    "C111_remembered",
    "C111_every_directory_refuted",
    "C111_unset_refuted",
    "C111_current_directory_refuted"
   ],
   "note": "listdir may raise only in C111_ends; CDLL itself is not modelled"
  },
  {
   "property": "C112",
   "status": "proved",
   "theorems": [
    "C112_sizes",
    "C112_sizes_made",
    "C112_write",
    "C112_element",
    "C112_others_keep",
    "C112_assign_reads",
    "C112_as_double",
    "C112_safe",
    "C112_program",
    "C112_copy_refuted",
    "C112_assign_leaks_refuted"
   ],
   "note": "memory exhaustion and element types with constructors not modelled; static_cast to double is a parameter"
  },
  {
   "property": "C113",
   "status": "proved",
   "theorems": [
    "C113_made_unique",
    "C113_unique_keeps",
    "C113_accessor_shares",
    "C113_assign_refuted",
    "C113_null_refuted",
    "C113_set",
    "C113_map",
    "C113_map_entries",
    "C113_box_copy",
    "C113_elements_shared"
   ],
   "note": "contents, inverse and product of homographies are parameters"
  },
  {
   "property": "C114",
   "status": "proved",
   "theorems": [
    "C114_closest",
    "C114_projection",
    "C114_idempotent",
    "C114_zero_refuted"
   ],
   "note": "exact arithmetic; JacobiSVD is a parameter satisfying its specification"
  },
  {
   "property": "C115",
   "status": "proved",
   "theorems": [
    "C115_line",
    "C115_parse",
    "C115_safe",
    "C115_values",
    "C115_strings",
    "C115_spell",
    "C115_int",
    "C115_explorer",
    "C115_remaining_refuted",
    "C115_null_refuted",
    "C115_int_refuted",
    "C115_spell_refuted",
    "C115_cstring_refuted"
   ],
   "note": "callbacks do not use the parser or the variables; option names stay unchanged; strtod is a parameter; fewer than 2^63 arguments"
  },
  {
   "property": "C116",
   "status": "proved",
   "theorems": [
    "C116_strip",
    "C116_lines",
    "C116_groups",
    "C116_line_length",
    "C116_text",
    "C116_get_help",
    "C116_blank",
    "C116_overflow_refuted",
    "C116_chain_refuted",
    "C116_self_refuted",
    "C116_blank_refuted"
   ],
   "note": "sizes below 2^32"
  },
  {
   "property": "C117",
   "status": "proved",
   "theorems": [
    "C117_history",
    "C117_methods",
    "C117_block",
    "C117_python_first",
    "C117_glibc",
    "C117_reuse_refuted",
    "C117_no_such_value_refuted",
    "C117_null_refuted",
    "C117_exact_refuted"
   ],
   "note": "allocator with one spare byte per block (the code writes one byte too many)"
  },
  {
   "property": "C118",
   "status": "proved",
   "theorems": [
    "C118_table",
    "C118_digest",
    "C118_one_digest",
    "C118_pieces",
    "C118_hex",
    "C118_reuse",
    "C118_continued",
    "C118_finalize_twice_refuted"
   ],
   "note": "reals for the table of sines (standard-library axioms); malloc does not fail"
  },
  {
   "property": "C119",
   "status": "proved",
   "theorems": [
    "C119_only_that_tree",
    "C119_whole_tree",
    "C119_remove_file",
    "C119_link_refuted",
    "C119_backslash_refuted",
    "C119_through_itself_refuted"
   ],
   "note": "one process; which calls are refused is any function of call and place; no hard links or mount points"
  },
  {
   "property": "C120",
   "status": "proved",
   "theorems": [
    "C120_same_place",
    "C120_ends",
    "C120_kept",
    "C120_hang_refuted",
    "C120_grows_refuted",
    "C120_dots_refuted",
    "C120_backslash_refuted",
    "C120_tilde_refuted",
    "C120_link_itself_refuted",
    "C120_other_name_refuted"
   ],
   "note": "file system of C119; realpath and getcwd are library models"
  },
  {
   "property": "C121",
   "status": "proved",
   "theorems": [
    "C121_differ",
    "C121_copy",
    "C121_tree",
    "C121_directory",
    "C121_emptied_refuted",
    "C121_emptied2_refuted",
    "C121_cut_off_refuted",
    "C121_empty_dir_refuted",
    "C121_link_lost_refuted",
    "C121_backslash_refuted",
    "C121_dir_over_file_refuted",
    "C121_into_itself_refuted",
    "C121_unlisted_refuted",
    "C121_in_the_way_refuted"
   ],
   "note": "One process, no hard links, one device; modes only as refusals; directory copies for trees named by their places"
  },
  {
   "property": "C122",
   "status": "proved",
   "theorems": [
    "C122_call",
    "C122_state",
    "C122_size",
    "C122_unique",
    "C122_copy_equal",
    "C122_room",
    "C122_next_prime",
    "C122_prime_sizes",
    "C122_lost_refuted",
    "C122_assign_refuted",
    "C122_own_key_refuted",
    "C122_equal_refuted"
   ],
   "note": "range insertion, printing and the const iterators are not modelled; node allocation and copying a value are one point of failure"
  },
  {
   "property": "C123",
   "status": "proved",
   "theorems": [
    "C123_line",
    "C123_last_line",
    "C123_file",
    "C123_any",
    "C123_ends",
    "C123_limit",
    "C123_failed",
    "C123_limit_refuted",
    "C123_limit_zero_refuted",
    "C123_cr_refuted",
    "C123_nul_refuted"
   ],
   "note": "std::istream::getline is a library model; a stream buffer that throws is not modelled"
  },
  {
   "property": "C124",
   "status": "proved",
   "theorems": [
    "C124_case",
    "C124_words",
    "C124_add_space",
    "C124_crop",
    "C124_escape",
    "C124_escape_refuted",
    "C124_identifier",
    "C124_identifier_refuted",
    "C124_output_path",
    "C124_output_path_refuted",
    "C124_split",
    "C124_split_lines"
   ],
   "note": "C locale, <cctype> total on bytes"
  },
  {
   "property": "C125",
   "status": "proved",
   "theorems": [
    "C125_append",
    "C125_count",
    "C125_remove",
    "C125_replace",
    "C125_starts_ends",
    "C125_find_last",
    "C125_null",
    "C125_remove_null_refuted",
    "C125_strucmp"
   ],
   "note": "new does not fail; arrays do not overlap"
  },
  {
   "property": "C126",
   "status": "proved",
   "theorems": [
    "C126_find_program",
    "C126_found",
    "C126_not_found",
    "C126_c_string",
    "C126_names",
    "C126_no_names",
    "C126_find_library",
    "C126_user_paths_first_refuted",
    "C126_working_directory_first_refuted",
    "C126_result_exists_refuted",
    "C126_split_program",
    "C126_split_program_refuted",
    "C126_program_path",
    "C126_program_path_null",
    "C126_locate",
    "C126_locate_dirs",
    "C126_locate_refuted",
    "C126_locate_ends",
    "C126_locate_home_refuted"
   ],
   "note": "Linux branches; the file system does not change during a call; LocateFileInDir's list of places for absolute file names"
  },
  {
   "property": "C127",
   "status": "proved",
   "theorems": [
    "C127_whole",
    "C127_longest",
    "C127_nothing",
    "C127_forever_refuted",
    "C127_program_exists_refuted"
   ],
   "note": "FileExists and FindProgram are arbitrary functions"
  },
  {
   "property": "C128",
   "status": "proved",
   "theorems": [
    "C128_url",
    "C128_one_reading",
    "C128_protocol",
    "C128_round_trip",
    "C128_at_in_path_refuted"
   ],
   "note": "the regular expressions are compiled and run by the model of RegularExpression (C92, C93); texts without NUL"
  },
  {
   "property": "C129",
   "status": "proved",
   "theorems": [
    "C129_ownership",
    "C129_no_leak",
    "C129_self_assign",
    "C129_two_owners_refuted",
    "C129_dropped_ref_refuted"
   ],
   "note": "types of the objects are left out; destructors do not throw or touch auto_ptrs"
  },
  {
   "property": "C130",
   "status": "proved",
   "theorems": [
    "C130_date",
    "C130_timestamp",
    "C130_refused",
    "C130_date_macro",
    "C130_timestamp_macro",
    "C130_numbers",
    "C130_no_date_refuted"
   ],
   "note": "mktime is an arbitrary function; atoi and strstr are library models"
  },
  {
   "property": "C131",
   "status": "proved",
   "theorems": [
    "C131_value",
    "C131_enough",
    "C131_plain",
    "C131_null",
    "C131_never_under_refuted",
    "C131_percent_at_end_refuted",
    "C131_arguments_refuted"
   ],
   "note": "va_arg of another type than the argument's is undefined; totals below 2^31"
  },
  {
   "property": "C132",
   "status": "proved",
   "theorems": [
    "C132_value",
    "C132_one_word",
    "C132_idempotent",
    "C132_only_blanks_refuted",
    "C132_backslash_refuted",
    "C132_windows",
    "C132_windows_idempotent",
    "C132_quoted_refuted"
   ],
   "note": "the reading of the shell is a small specification of its own; paths without NUL for the Unix form"
  },
  {
   "property": "C133",
   "status": "proved",
   "theorems": [
    "C133_signature",
    "C133_signature_else",
    "C133_unknown",
    "C133_share",
    "C133_default",
    "C133_documented_refuted"
   ],
   "note": "doubles are exact binary64; files of at most 2^53 bytes for the share; reads are not interrupted"
  },
  {
   "property": "C134",
   "status": "proved",
   "theorems": [
    "C134_call",
    "C134_history",
    "C134_nameless",
    "C134_nul_refuted"
   ],
   "note": "the branch with setenv and unsetenv; setenv does not run out of memory"
  },
  {
   "property": "C135",
   "status": "proved",
   "theorems": [
    "C135_compare",
    "C135_order",
    "C135_missing",
    "C135_touch",
    "C135_newest",
    "C135_create",
    "C135_unreadable",
    "C135_touched_refuted"
   ],
   "note": "the branch with utimensat and nanoseconds; no links; one program at a time"
  },
  {
   "property": "C136",
   "status": "proved",
   "theorems": [
    "C136_settings",
    "C136_determined",
    "C136_other_ids",
    "C136_null",
    "C136_failed_set_keeps_refuted"
   ],
   "note": "malloc and strdup do not fail; command lines parsed verbatim are shorter than 2^30 (C106)"
  },
  {
   "property": "C137",
   "status": "proved",
   "theorems": [
    "C137_table",
    "C137_told",
    "C137_actions",
    "C137_actions_restored_refuted"
   ],
   "note": "signals arrive between the functions or during the shift of a removal; SIGINT and SIGTERM themselves, which end the program, are not delivered"
  },
  {
   "property": "C138",
   "status": "proved",
   "theorems": [
    "C138_from_double",
    "C138_arithmetic",
    "C138_add_normal_refuted",
    "C138_deadline",
    "C138_left",
    "C138_no_timeout",
    "C138_length_normal_refuted"
   ],
   "note": "doubles are exact binary64; seconds do not overflow long in sums"
  },
  {
   "property": "C139",
   "status": "proved",
   "theorems": [
    "C139_data",
    "C139_finished",
    "C139_exit",
    "C139_progress",
    "C139_stolen_refuted",
    "C139_kill_twice_refuted"
   ],
   "note": "the kernel and the children are part of the model as sequences of moves; system calls are not interrupted; select, not polling; settings do not change while running"
  },
  {
   "property": "C140",
   "status": "proved",
   "theorems": [
    "C140_execute",
    "C140_children",
    "C140_wiring",
    "C140_lifetime",
    "C140_fork_refuted",
    "C140_leak_refuted"
   ],
   "note": "not detached; the parent's side of fork only; calls are not interrupted; the two exceptions in the statement have witnesses"
  },
  {
   "property": "C141",
   "status": "proved",
   "theorems": [
    "C141_plain",
    "C141_restored",
    "C141_history",
    "C141_width",
    "C141_width_range"
   ],
   "note": "the terminal is a model of a VT100 (SGR sequences); systems where isatty works, no console window; strtol is library code"
  },
  {
   "property": "C142",
   "status": "proved",
   "theorems": [
    "C142_memory",
    "C142_missing",
    "C142_old",
    "C142_number",
    "C142_release_refuted"
   ],
   "note": "Linux; the library functions fgets, sscanf and fscanf with %lu are part of the model; /proc/meminfo does not change while it is read"
  },
  {
   "property": "C143",
   "status": "proved",
   "theorems": [
    "C143_sockets",
    "C143_logical",
    "C143_one_socket_refuted"
   ],
   "note": "Linux; numbers that do not fit into an int are not modelled"
  },
  {
   "property": "C144",
   "status": "proved",
   "theorems": [
    "C144_identity",
    "C144_vendor",
    "C144_pa_risc"
   ],
   "note": "Linux; the processor name (RetrieveClassicalCPUIdentity) and the speed are not modelled"
  },
  {
   "property": "C145",
   "status": "proved",
   "theorems": [
    "C145_flags",
    "C145_no_revision_refuted",
    "C145_caches_refuted"
   ],
   "note": "Linux; one RunCPUCheck of a new SystemInformation"
  },
  {
   "property": "C146",
   "status": "proved",
   "theorems": [
    "C146_host",
    "C146_missing",
    "C146_available",
    "C146_used",
    "C146_name_refuted"
   ],
   "note": "Linux; no read errors; atoll does not wrap"
  },
  {
   "property": "C147",
   "status": "proved",
   "theorems": [
    "C147_description",
    "C147_no_model",
    "C147_unique"
   ],
   "note": "what the stream writes for the number of processors and the frequency is an input"
  }
 ]
}