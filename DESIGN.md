# DESIGN

A formal model, in Coq 8.16.1, of Purg/vital at the pinned commit (/repo), with the properties of properties.jsonl stated and proved about it. MANIFEST.json gives the theorems of each property; every theorem is followed in its file by `Print Assumptions`, and every theorem with hypotheses by an `Example` (or an `_ex` lemma) showing a non-trivial case that meets them.

Conventions.

- `*Model.v` files transcribe the code, function by function, and cite file and lines. `*Spec.v` files (or the first definitions of a Props file) hold the specification: declarative relations that use no helper of the model. `*Proofs*.v` are lemmas, `*Props*.v` the property theorems (names begin with the property's id).
- Undefined behaviour and exceptions are distinct outcomes of the model (`UB`, `Throw`, `Overrun`, `None`), never silently defined away. Loops without an obvious bound take fuel and running out is its own outcome; termination theorems show that enough fuel exists (or, where the code does not terminate, that none does).
- When a property one would expect from the documentation is false of the code, properties.jsonl states the true characterisation, that is what is proved, and the naive claim is disproved by a theorem with the suffix `_refuted`. No theorem in MANIFEST.json is partial (the two `_partial` theorems of ConfigProps.v are superseded by ConfigProps2.v).
- Theorems are tested against wrong programs: seeded/mutate.py edits the model in a scratch copy and rebuilds; seeded/LOG.jsonl records each attempt.

## Properties

For each property: how it is modelled and proved, the theorems (module in brackets), and what is left out. Status and theorem names are those of MANIFEST.json.

- **C01 Set/get coherence through every alias of a config block** (proved; area Configuration blocks). Method: heap of config_block objects (ConfigModel.v), each with optional parent; ops recurse along the parent chain; proved against a flat per-root spec (ConfigSpec.v). Theorems: `C01_set_get`, `C01_set_succeeds_iff`, `C01_aliases_agree` [ConfigProps]. Note: for every reachable heap of blocks/views, every handle, key, value.
- **C02 Any history of operations behaves like one flat map per root** (proved; area Configuration blocks). Method: same model, operation language + spec machine; refinement by induction over op lists. Theorems: `C02_refines_flat` [ConfigProps]. Note: simulation with the flat machine of ConfigSpec.v, all histories.
- **C03 Read-only values are immutable for ever** (proved; area Configuration blocks). Method: invariant over op lists. Theorems: `C03_read_only_permanent` [ConfigProps].
- **C04 A rejected set/unset has no effect** (proved; area Configuration blocks). Method: state equality on the error branch. Theorems: `C04_failed_set_unset_no_effect`, `C04_unset_outcome` [ConfigProps].
- **C05 Value and description stores stay in step** (proved; area Configuration blocks). Method: invariant over op lists; unset's erase(end()) is a distinct UB outcome. Theorems: `C05_no_undefined_behaviour`, `C05_description_iff_value` [ConfigProps].
- **C06 merge_config semantics** (proved; area Configuration blocks). Method: induction over the source's key list. Theorems: `C06_merge` [ConfigProps]. Note: target and source in different roots; source keys readable (always so for a root source).
- **C07 merge_config stopped by a read-only key is a prefix merge** (proved; area Configuration blocks). Method: induction over the key list with the failure point. Theorems: `C06_merge` [ConfigProps]. Note: same theorem: the l2 = k :: _ case.
- **C08 subblock is an independent snapshot** (proved; area Configuration blocks). Method: content lemma + heap frame over later histories. Theorems: `C08_subblock_copy`, `C08_independence` [ConfigProps]. Note: subblock of a root block; when a global key and a block key collide after stripping the later in key order wins (statement gives either).
- **C09 available_values is complete, duplicate free and sorted** (proved; area Configuration blocks). Method: sorted association list model of std::map. Theorems: `C09_available_values_root` [ConfigProps].
- **C10 What a view lists and what it can read** (proved; area Configuration blocks).  Theorems: `C10_view_listing`, `C10_view_keys`, `C10_print` [ConfigProps2]; `C10_view_lists_unreadable_key_refuted` [ConfigProps]. Note: exact listing of a view; the naive claim is refuted.
- **C11 Stored values carry no leading or trailing white space** (proved; area Configuration blocks). Method: invariant. Theorems: `C11_values_trimmed` [ConfigProps].
- **C12 Which read-only marks protect a value** (proved; area Configuration blocks).  Theorems: `C12_protected`, `C12_mark_local`, `C12_view_mark_protects_nothing`, `C12_root_mark_protects` [ConfigProps2]; `C12_view_read_only_refuted` [ConfigProps]. Note: exact protection; the naive claim is refuted.
- **C13 Boolean values are parsed and written consistently** (proved; area Configuration blocks). Method: case analysis on byte strings. Theorems: `C13_bool_cast`, `C13_bool_round_trip` [ConfigProps].
- **C14 get_value with default never throws and defaults only on error** (proved; area Configuration blocks). Method: case analysis. Theorems: `C14_get_value_default` [ConfigProps]. Note: any cast.
- **C15 Macro expansion is a single left-to-right pass** (proved; area Macro expansion). Method: scanner modelled on byte lists; declarative substitution relation; proof by strong induction on length. Theorems: `C15_expand_is_one_pass`, `C15_expand_never_out_of_fuel`, `C15_expand_plain` [ParserProps]. Note: relation ExpandSpec.expands; arbitrary token tables.
- **C16 Config files denote their block structure** (proved; area Configuration files). Method: lexer/parser model on byte lists; document AST + printer; simulation proof. Theorems: `C16_documents_mean_their_tree` [ParserProps]. Note: all well-formed document trees, incl. macros and the read-only conflict.
- **C17 Blank lines and comments never change the result** (proved; area Configuration files). Method: line-level normal form lemma, lifted over the file. Theorems: `C17_blanks_and_comments_irrelevant` [ParserProps]. Note: whole worlds differing only in blanks/comments, incl. included files; same exception too.
- **C18 Malformed input is never silently accepted** (proved; area Configuration files). Method: latch invariant. Theorems: `C18_accepts_only_well_formed`, `C18_accepts_all_well_formed` [ParserProps]. Note: iff with the declarative grammar ParserSpec.good.
- **C19 Parsing terminates** (proved; area Configuration files). Method: fuel model; enough-fuel lemma; self-include shown out-of-fuel for every fuel. Theorems: `C19_terminates`, `C19_no_includes`, `C19_self_include_never_finishes` [ParserProps].
- **C20 Read-only entries of a config file are protected** (proved; area Configuration files). Method: invariant over parser runs. Theorems: `C20_read_only_entries`, `C18_accepts_only_well_formed` [ParserProps].
- **C21 write_config / read_config_file round trip** (proved; area Configuration I/O). Method: writer model + parser model; induction over keys. Theorems: `C21_write_read_round_trip`, `C21_unrestricted_round_trip_refuted` [IoProps]. Note: the restrictions of the statement are necessary: refuted without them.
- **C22 Descriptions are written as 80 column comments** (proved; area Configuration I/O). Method: line-buffer invariant. Theorems: `C22_comment_lines` [IoProps].
- **C23 Configuration search order** (proved; area Configuration I/O). Method: list equations. Theorems: `C23_search_order` [IoProps].
- **C24 Merging over the search path gives priority to earlier directories** (proved; area Configuration I/O). Method: fold over the path list. Theorems: `C24_merge_first_wins`, `C24_unreadable_file_surfaces`, `C24_first_file_without_merge`, `C24_full_path_is_read_directly` [IoProps].
- **C25 Read-only flags after merging the search path files** (proved; area Configuration I/O).  Theorems: `C25_read_only_marks_of_last_file`, `C25_read_only_survives_merge_refuted` [IoProps]. Note: exact characterisation plus the counterexample to the expected behaviour.
- **C26 tokenize splits losslessly** (proved; area Configuration I/O). Method: induction on strings. Theorems: `C26_tokenize_splits`, `C26_split_is_unique`, `C26_join_gives_text_back` [IoProps].
- **C27 Image pixel addressing stays in bounds and is injective** (proved; area Images). Method: Z address arithmetic; explicit no-overflow hypothesis, overflow case refuted. Theorems: `C27_constructor_addresses`, `C27_set_size_addresses`, `C27_set_size_same_dims_keeps`, `C27_accessors_check_bounds`, `C27_empty`, `C27_size_overflow_refuted` [ImageProps]. Note: for w*h*d < 2^63; the size_t overflow beyond is refuted.
- **C28 image::copy_from makes an equal deep copy** (proved; area Images). Method: memory as byte map; triple-loop model. Theorems: `C28_copy_from_deep_copies`, `C28_overlap_refuted` [ImageProps].
- **C29 equal_content is layout independent equality** (proved; area Images). Method: triple-loop model. Theorems: `C29_equal_content_is_pixel_equality`, `C29_equivalence` [ImageProps].
- **C30 transform_image applies the operation once to every pixel** (proved; area Images). Method: loop model with memory writes, NoDup addresses. Theorems: `C30_transform_once_per_pixel` [ImageProps].
- **C31 image_memory assignment copies** (proved; area Images). Method: heap model of buffers. Theorems: `C31_copy_constructor`, `C31_assignment`, `C31_self_assignment`, `C31_independent_storage`, `C31_assignment_under_image_refuted` [ImageProps].
- **C32 Timestamp comparison laws** (proved; area Timestamps). Method: Z/record model. Theorems: `C32_compares_time_then_frame`, `C32_trichotomy`, `C32_converse`, `C32_strict` [TimestampProps].
- **C33 Timestamps are ordered within a time domain** (proved; area Timestamps).  Theorems: `C33_strict_weak_order_on_uniform_sets`, `C33_transitivity_refuted` [TimestampProps].
- **C34 Track history is strictly ordered by frame** (proved; area Tracks). Method: op-list invariant. Theorems: `C34_frames_increase`, `C34_append_state`, `C34_append_track`, `C34_extent` [TrackProps].
- **C35 Track find is exact** (proved; area Tracks). Method: lower_bound model + sortedness. Theorems: `C35_find_is_exact` [TrackProps].
- **C36 Active and inactive tracks partition the set** (proved; area Tracks). Method: filter model. Theorems: `C36_active_inactive_partition`, `C36_offset_denotes_one_frame` [TrackProps].
- **C37 Track set frame extent** (proved; area Tracks).  Theorems: `C37_last_frame_is_largest`, `C37_all_frame_ids`, `C37_first_frame_is_zero`, `C37_first_frame_refuted`, `C37_negative_last_frame_refuted` [TrackProps]. Note: first_frame is refuted: it is always 0 for non-negative frames; last_frame holds whenever a frame >= 0 is covered.
- **C38 Percentage tracked is a ratio** (proved; area Tracks). Method: set model over Q. Theorems: `C38_percentage_is_a_ratio`, `C38_between_0_and_1` [TrackProps]. Note: exact rationals in place of doubles.
- **C39 Registered algorithm lookup** (proved; area Algorithms and registrar). Method: map model, op-list. Theorems: `C39_create`, `C39_create_def`, `C39_names`, `C39_names_def`, `C39_all_names`, `C39_colon_refuted` [AlgoProps]. Note: definition names without ':' (refuted otherwise for algorithm::create; algorithm_def::create needs no such condition).
- **C40 Nested algorithm configuration** (proved; area Algorithms and registrar). Method: registry + config model. Theorems: `C40_set_selected`, `C40_set_unselected`, `C40_def_pointer`, `C40_check`, `C40_round_trip`, `C40_untrimmed_name_refuted`, `C40_empty_type_refuted` [AlgoProps]; `C40_get_without_algorithm` [AlgoProps2]. Note: virtual functions are parameters; non-empty type name.
- **C41 Plug-ins are loaded exactly once, whatever the schedule** (proved; area Plug-in loading). Method: small-step interleaving semantics, arbitrary thread count, inductive invariant. Theorems: `C41_loaded_exactly_once`, `C41_one_instance`, `C41_no_deadlock`, `C41_no_data_race_refuted` [OnceProps]. Note: sequentially consistent interleavings; the unsynchronised reads are data races in C++11 (refuted).
- **C42 C handles live exactly as long as their outstanding stores** (proved; area C interface). Method: op-list invariant. Theorems: `C42_retrievable`, `C42_balanced`, `C42_no_ops` [CacheProps]. Note: histories shorter than 2^64 operations (the counter is a size_t).
- **C43 Base64 encoding is RFC 4648 and round trips** (proved; area Base64). Method: byte list codec; 6-bit arithmetic. Theorems: `C43_encode`, `C43_alphabet`, `C43_round_trip_length`, `C43_round_trip_text`, `C43_estimate_refuted` [Base64Props]. Note: all byte sequences, all buffers; out-of-bounds accesses are a distinct outcome.
- **C44 Base64 end mark** (proved; area Base64).  Theorems: `C44_marked_encode`, `C44_marked_decode`, `C44_exact_refuted` [Base64Props]. Note: restated: exact behaviour of the end mark; the documented contract is refuted.
- **C45 Sparse matrix enumeration visits every stored element once** (proved; area Matrices). Method: iterator state machine over list of lists. Theorems: `C45_visits_every_cell`, `C45_iterator_equality`, `C45_empty_matrix_refuted` [SparseProps]. Note: Eigen's arrays and InnerIterator are modelled as library code.
- **C46 Covariance symmetric storage** (proved; area Matrices). Method: Z index arithmetic + matrix functions. Theorems: `C46_index`, `C46_from_matrix`, `C46_from_scalar`, `C46_to_matrix`, `C46_set`, `C46_roundtrip`, `C46_wide_refuted` [CovarProps].
- **C47 Covariance conversion between element types: what is carried over** (proved; area Matrices).  Theorems: `C47_conversion`, `C47_one`, `C47_conversion_refuted` [CovarProps]. Note: restated as the true characterisation: the code copies only N elements.
- **C48 Landmark PLY round trip** (proved; area Track and landmark files). Method: token-level file model. Theorems: `C48_landmark_file_round_trip`, `C48_empty_map` [PlyProps]. Note: for every text format of doubles that the stream operators implement.
- **C49 Which lines of a PLY file become landmarks** (proved; area Track and landmark files).  Theorems: `C49_reads_first_n_plus_one`, `C49_exactly_n_refuted`, `C49_no_end_header` [PlyProps].
- **C50 Track file round trip** (proved; area Track and landmark files). Method: token-level file model. Theorems: `C50_track_file_round_trip`, `C50_equal_ids_refuted`, `C50_empty_track_refuted`, `C50_empty_set` [TrackIoProps]. Note: distinct ids and non-empty tracks are needed: refuted otherwise.
- **C51 Homography mapping, composition, inversion and normalisation** (proved; area Geometry). Method: Coq reals. Theorems: `C51_map`, `C51_compose`, `C51_compose_refuted`, `C51_inverse`, `C51_normalize`, `C51_f2f_compose`, `C51_f2f_laws` [GeomProps]. Note: exact reals; unconditional composition law refuted.
- **C52 Similarity transforms form a group acting on points** (proved; area Geometry). Method: Coq reals. Theorems: `C52_apply`, `C52_compose`, `C52_group`, `C52_compose_nonunit_refuted`, `C52_matrix_action`, `C52_from_matrix`, `C52_matrix_roundtrip`, `C52_rejected_matrix_refuted` [GeomProps2]. Note: exact reals.
- **C53 Camera projection consistency** (proved; area Cameras). Method: Coq reals. Theorems: `C53_map`, `C53_unmap`, `C53_undistort`, `C53_unmap_error`, `C53_calibration_matrix`, `C53_unnormalised_matrix_refuted`, `C53_translation`, `C53_project`, `C53_default_intrinsics` [CameraProps]. Note: exact reals; Eigen's LDLT solve is a parameter.
- **C54 Distortion Jacobian used by undistort** (proved; area Cameras).  Theorems: `C54_radial`, `C54_jacobian`, `C54_radial_only`, `C54_jacobian_refuted` [CameraProps2]. Note: exact reals; restated as the true characterisation.
- **C55 Correspondences of keyed maps are exactly the shared keys** (proved; area Algorithm data handling). Method: sorted merge model. Theorems: `C55_map_points`, `C55_vec_points` [AlgoDataProps].
- **C56 Geographic coordinates: validity, emptiness, equality** (proved; area Geographic coordinates). Method: reals/decidable comparisons. Theorems: `C56_valid`, `C56_empty`, `C56_access`, `C56_equality` [GeoProps]. Note: IEEE binary64 (Flocq).
- **C57 Strings handed to C callers are inside their allocations** (proved; area C interface).  Theorems: `C57_string_new`, `C57_string_new_null`, `C57_error_message_refuted`, `C57_string_list_refuted` [CStringProps]. Note: restated: vital_string_new is safe; error messages and name lists always overrun by one byte.
- **C58 Image data handed through the C interface keeps its pixels** (proved; area Images). Method: memory model, loops. Theorems: `C58_new_from_data`, `C58_large_source_refuted` [ImageProps]. Note: offsets within int; refuted beyond 2^31.
- **C59 What a config_parser object does when it is reused** (proved; area Configuration files).  Theorems: `C59_ready`, `C59_ready_accepts`, `C59_failed`, `C59_unfinished`, `C59_session` [ParserProps2]; `C59_reuse_after_exception_refuted` [ParserProps]. Note: three parser states and what each does with the next file; the naive claim is refuted.
- **C60 Directives are recognised by text** (proved; area Configuration files).  Theorems: `C60_kind_irrelevant` [ParserProps2]; `C60_directives_are_words_refuted` [ParserProps]. Note: the naive claim is refuted.
- **C61 Include lookup order** (proved; area Configuration files).  Theorems: `C61_include_lookup` [ParserProps].
- **C62 Timestamp setters and invalidation** (proved; area Timestamps).  Theorems: `C62_setters`, `C62_history`, `C62_fresh`, `C62_invalid_compares_with_nothing` [TimestampProps].
- **C63 New and terminated tracks** (proved; area Tracks).  Theorems: `C63_new_and_terminated`, `C63_empty_track_refuted` [TrackProps].
- **C64 Features and descriptors of a frame** (proved; area Tracks).  Theorems: `C64_frame_features`, `C64_last_frame_features`, `C64_empty_track_refuted` [TrackProps]. Note: last_frame_features refuted for sets with an empty track.
- **C65 Track lookup by id** (proved; area Tracks).  Theorems: `C65_get_track` [TrackProps].
- **C66 Timestamp in a configuration** (proved; area Timestamps).  Theorems: `C66_config_round_trip`, `C66_validity_lost_refuted`, `C66_short_value_refuted` [TimestampProps].
- **C67 Reading any track file** (proved; area Track and landmark files).  Theorems: `C67_any_file`, `C67_short_line_refuted`, `C67_unordered_states_dropped_refuted` [TrackIoProps].
- **C68 Base64 decoder stays inside its buffers on any input** (proved; area Base64).  Theorems: `C68_decode_safe`, `C68_decode_length_safe`, `C68_stops_at_invalid`, `C68_max_input_length_refuted` [Base64Props].
- **C69 General and typed algorithm handles agree** (proved; area C interface).  Theorems: `C69_agree`, `C69_destroy`, `C69_create`, `C69_answers`, `C69_set_type_config`, `C69_wrong_type_refuted`, `C69_stale_pointer_refuted` [CacheProps].
- **C70 Camera maps through the C interface** (proved; area C interface).  Theorems: `C70_camera_map_new`, `C70_get_map`, `C70_get_map_fails`, `C70_get_map_references`, `C70_wide_frames_refuted` [CacheProps].
- **C71 Configuration checks through the C interface report the algorithm's verdict** (proved; area C interface).  Theorems: `C71_check_type_config`, `C71_check_impl_refuted` [CacheProps].
- **C72 Rotation representations denote the same rotation** (proved; area Geometry).  Theorems: `C72_matrix`, `C72_from_angle_axis`, `C72_from_rodrigues`, `C72_angle_axis`, `C72_angle_axis_readback`, `C72_ypr_matrix`, `C72_ypr_readback`, `C72_ypr_rebuild`, `C72_gimbal_lock_refuted`, `C72_vec4_order_refuted` [GeomProps3]. Note: exact reals; Eigen conversions transcribed.
- **C73 Interpolated rotations divide the way evenly** (proved; area Geometry).  Theorems: `C73_interpolate`, `C73_interpolated` [GeomProps3]. Note: exact reals.
- **C74 Looking at a point** (proved; area Cameras).  Theorems: `C74_look_at`, `C74_parallel_refuted` [CameraProps]. Note: exact reals.
- **C75 Essential matrix structure** (proved; area Geometry).  Theorems: `C75_matrix`, `C75_twisted`, `C75_from_matrix` [GeomProps2]. Note: exact reals; the SVD is a hypothesis.
- **C76 Points estimated from a match set are the matched features** (proved; area Algorithm data handling).  Theorems: `C76_match_points` [AlgoDataProps].
- **C77 Filtering features keeps descriptors aligned** (proved; area Algorithm data handling).  Theorems: `C77_filter` [AlgoDataProps]. Note: the filter is a parameter.
- **C78 Camera optimisation uses exactly each camera's observations** (proved; area Algorithm data handling).  Theorems: `C78_optimize`, `C78_null` [AlgoDataProps]. Note: the optimizer is a parameter.
- **C79 Standard zone of a longitude** (proved; area Geographic coordinates).  Theorems: `C79_zone`, `C79_diverges`, `C79_undefined`, `C79_exact_strip_refuted` [GeoProps]. Note: IEEE binary64 (Flocq).
- **C80 Camera (KRTD) text** (proved; area Camera files and stream operators).  Theorems: `C80_reader`, `C80_refused`, `C80_round_trip`, `C80_same_camera`, `C80_no_distortion`, `C80_distortion_refuted` [CamIoProps]. Note: text format of doubles is a parameter; geometry over exact reals.
- **C81 Stream operators of rotation, similarity, intrinsics and landmark** (proved; area Camera files and stream operators).  Theorems: `C81_rotation`, `C81_similarity`, `C81_similarity_reader`, `C81_intrinsics`, `C81_intrinsics_exact`, `C81_landmark`, `C81_intrinsics_distortion_refuted`, `C81_landmark_observations_refuted` [CamIoProps2]. Note: text format of doubles is a parameter.
- **C82 Directories of camera files** (proved; area Camera files and stream operators).  Theorems: `C82_path`, `C82_files`, `C82_one_file`, `C82_missing_directory`, `C82_entries`, `C82_write`, `C82_write_read`, `C82_evaluation_order_refuted`, `C82_silent_write_refuted` [CamIoProps2]. Note: both evaluation orders of the unsequenced assignment.
- **C83 Parts of a file name** (proved; area Paths and directories).  Theorems: `C83_name`, `C83_extension`, `C83_last_extension`, `C83_parent` [PathProps2].
- **C84 Slash conversion of paths** (proved; area Paths and directories).  Theorems: `C84_exact`, `C84_replace_string`, `C84_plain`, `C84_no_doubles`, `C84_idempotent_refuted`, `C84_doubles_refuted` [PathProps2]; `C84_backslashes` [PathProps3]; `C84_tilde`, `C84_trailing` [PathProps4]. Note: exact characterisation; the naive claims are refuted.
- **C85 Collapsing a path** (proved; area Paths and directories).  Theorems: `C85_collapse`, `C85_only`, `C85_parts_exist`, `C85_total`, `C85_idempotent`, `C85_canonical`, `C85_full`, `C85_home_recursion_refuted` [PathProps]; `C85_translation` [PathProps4]. Note: exact characterisation; termination fails for HOME='~...'.
- **C86 Relative paths and subdirectories** (proved; area Paths and directories).  Theorems: `C86_relative` [PathProps2]; `C86_relative_not_full`, `C86_full_path`, `C86_relative_refuted`, `C86_subdirectory`, `C86_subdirectory_of_root_refuted` [PathProps3].
- **C87 Searching for files** (proved; area Paths and directories).  Theorems: `C87_get_path`, `C87_get_path_unset`, `C87_find_name`, `C87_find_file`, `C87_split`, `C87_directory_hides_file_refuted`, `C87_user_paths_first_refuted`, `C87_empty_element_refuted` [PathProps3]. Note: exact search order; naive claims refuted.
- **C88 Creating directories and the path checks of image_io** (proved; area Paths and directories).  Theorems: `C88_make_directory`, `C88_make_directory_free`, `C88_image_load`, `C88_image_save`, `C88_tilde_refuted` [MkdirProps]. Note: file system without links, one process.
- **C89 Which plug-in modules are loaded** (proved; area Plug-in loading).  Theorems: `C89_modules_tried`, `C89_determined`, `C89_file_tried`, `C89_dotted_name`, `C89_search_path` [PluginProps].
- **C90 What loading modules leaves behind** (proved; area Plug-in loading).  Theorems: `C90_account`, `C90_listed_modules_are_open`, `C90_no_dangling`, `C90_last_module_wins`, `C90_dangling_refuted`, `C90_exception_refuted`, `C90_environment_first_refuted` [PluginProps2]. Note: module entry points are arbitrary functions on the registrar.
- **C91 Detailed listing of plugin_explorer** (proved; area Plug-in loading).  Theorems: `C91_detailed_listing`, `C91_colon_refuted` [PluginProps3].
- **C92 Which regular expressions compile** (proved; area Regular expressions).  Theorems: `C92_compile_total`, `C92_accepted_is_legal`, `C92_legal_is_accepted`, `C92_unambiguous`, `C92_nine_groups`, `C92_every_legal_accepted_refuted` [RegexProps]; `C92_small_is_accepted` [RegexSize].
- **C93 What a regular expression finds** (proved; area Regular expressions).  Theorems: `C93_answer`, `C93_leftmost_preferred`, `C93_groups`, `C93_group_reported`, `C93_longest_refuted` [RegexProps2]. Note: recursion depth (stack) not modelled.
- **C94 The patterns used by the configuration code mean what they look like** (proved; area Macro expansion).  Theorems: `C94_token_pattern`, `C94_finds_references`, `C94_word_pattern`, `C94_flag_pattern` [RegexProps3].
- **C95 What a glob pattern matches** (proved; area Globbing).  Theorems: `C95_meaning`, `C95_one_reading`, `C95_unreadable`, `C95_accepted`, `C95_plain`, `C95_literal`, `C95_backwards_refuted`, `C95_hidden_refuted` [GlobProps].
- **C96 Glob::FindFiles lists exactly the matching files** (proved; area Globbing).  Theorems: `C96_find_files`, `C96_well_defined` [GlobFindProps]; `C96_no_duplicates` [GlobFindProps2]. Note: Relative empty; GetRealPath succeeds; the path dir/name leads to entry name of dir.
- **C97 Recursive globbing terminates and reaches everything** (proved; area Globbing).  Theorems: `C97_terminates`, `C97_reaches_everything`, `C97_listed_is_there`, `C97_no_cycles`, `C97_once_refuted` [GlobFindProps2]. Note: exact set also given by C96_find_files through found_deep.
- **C98 What one log call writes, and when** (proved; area Logger).  Theorems: `C98_every_line`, `C98_lines_unique`, `C98_threshold`, `C98_monotone`, `C98_fraction_refuted`, `C98_none_silences_refuted` [LogProps]. Note: clock text arbitrary, stream never fails.
- **C99 Log messages of different threads do not mix** (proved; area Logger).  Theorems: `C99_messages_do_not_mix`, `C99_prefix`, `C99_order_and_no_loss`, `C99_no_deadlock` [LogProps]. Note: sequentially consistent interleavings.
- **C100 Loggers are identified by name** (proved; area Logger).  Theorems: `C100_same_name_same_logger`, `C100_level_is_own`, `C100_set_then_get`, `C100_name`, `C100_new_logger_is_open`, `C100_backend`, `C100_stale_factory_refuted`, `C100_null_plugin_refuted` [LogProps2]. Note: one thread; log4cxx back end not modelled.
- **C101 Locations shown in log messages** (proved; area Logger).  Theorems: `C101_member`, `C101_function`, `C101_file_name`, `C101_operator_refuted` [LogProps2].
- **C102 Python objects own their C++ objects** (proved; area Python interface).  Theorems: `C102_handles_valid`, `C102_released`, `C102_no_leak`, `C102_del_succeeds`, `C102_set_config_shared`, `C102_forgotten_parent_refuted` [PyProps]. Note: no reference cycles; fewer than 2^64 operations; one cache per class (C69 for the two caches of algorithms).
- **C103 Configuration blocks through the C and Python interfaces** (proved; area Python interface).  Theorems: `C103_defined`, `C103_set`, `C103_reads`, `C103_as_dict`, `C103_merge`, `C103_null`, `C103_get_description_none_refuted`, `C103_as_dict_of_view_refuted`, `C103_merge_silent_refuted` [PyConfProps]; `C103_read_only` [PyConfProps2]. Note: file reading and writing are C21-C26; the one byte overruns of C71 taken as harmless.
- **C104 PIL pictures through the Python image class** (proved; area Python interface).  Theorems: `C104_grey_round_trip`, `C104_colour_in`, `C104_interleaved_out`, `C104_negative_refuted`, `C104_colour_round_trip_refuted` [PyImageProps]. Note: PIL's tostring and raw decoder are library models.
- **C105 The token expander object** (proved; area Macro expansion).  Theorems: `C105_expander`, `C105_add_twice_refuted`, `C105_failed_lookup`, `C105_good_lookup`, `C105_return_code` [TokenProps]. Note: the pattern matcher is the one proved equal to the regular expression in C94.
- **C106 Splitting a command line into arguments** (proved; area Utilities).  Theorems: `C106_parse`, `C106_flags`, `C106_complete`, `C106_round_trip`, `C106_long_word_refuted` [CmdProps2].
- **C107 Interval timers** (proved; area Utilities).  Theorems: `C107_elapsed`, `C107_nonnegative`, `C107_scoped`, `C107_never_started_refuted`, `C107_clock_set_back_refuted` [UtilProps]. Note: in ticks; conversion to seconds not modelled.
- **C108 Paths of the program** (proved; area Utilities).  Theorems: `C108_executable`, `C108_history`, `C108_root_refuted`, `C108_module_refuted` [UtilProps]. Note: Linux branch; realpath and /proc/self/maps are given.
- **C109 Handles of the C interface** (proved; area C interface).  Theorems: `C109_safe`, `C109_lifetime`, `C109_open`, `C109_stable`, `C109_failure`, `C109_load`, `C109_convert`, `C109_track`, `C109_null_mask_refuted`, `C109_save_write`, `C109_image`, `C109_set`, `C109_silent_refuted` [ApiProps]. Note: fewer than 2^64 calls for C109_open; NULL images and file names excluded; a new object gets an address no live object has.
- **C110 The feature tracking tool** (proved; area Python interface).  Theorems: `C110_full_path`, `C110_full_twice`, `C110_config_round_trip`, `C110_trailing_space_refuted`, `C110_list` [PyToolProps]; `C110_full_which`, `C110_config_names`, `C110_defaults` [PyToolProps3]; `C110_run`, `C110_other_files`, `C110_different_lengths`, `C110_mask_options_refuted`, `C110_old_tracks_lost_refuted`, `C110_exit_code`, `C110_success_refuted` [PyToolProps2]. Note: algorithms are arbitrary oracles over the history of calls; os.path functions are library models.
- **C111 Finding the C library from Python** (proved; area Python interface).  Theorems: `C111_ends`, `C111_nearest`, `C111_unique`, `C111_find`, `C111_remembered`, `C111_every_directory_refuted`, `C111_unset_refuted`, `C111_current_directory_refuted` [PyPathProps]. Note: listdir may raise only in C111_ends; CDLL itself is not modelled.
- **C112 Feature descriptors and their memory** (proved; area Descriptors and sharing).  Theorems: `C112_sizes`, `C112_sizes_made`, `C112_write`, `C112_element`, `C112_others_keep`, `C112_assign_reads`, `C112_as_double` [DescProps]; `C112_safe`, `C112_program`, `C112_copy_refuted`, `C112_assign_leaks_refuted` [DescProps2]. Note: memory exhaustion and element types with constructors not modelled; static_cast to double is a parameter.
- **C113 What homographies with frames and the simple containers share** (proved; area Descriptors and sharing).  Theorems: `C113_made_unique`, `C113_unique_keeps`, `C113_accessor_shares`, `C113_assign_refuted`, `C113_null_refuted`, `C113_set`, `C113_map`, `C113_box_copy`, `C113_elements_shared` [ShareProps]; `C113_map_entries` [ShareProps2]. Note: contents, inverse and product of homographies are parameters.
- **C114 Fundamental matrices** (proved; area Geometry).  Theorems: `C114_closest`, `C114_projection`, `C114_idempotent`, `C114_zero_refuted` [FundProps]. Note: exact arithmetic; JacobiSVD is a parameter satisfying its specification.
- **C115 Command line options** (proved; area Command line options).  Theorems: `C115_line`, `C115_parse`, `C115_safe`, `C115_values`, `C115_strings`, `C115_spell` [ArgProps]; `C115_int`, `C115_explorer`, `C115_remaining_refuted`, `C115_null_refuted`, `C115_int_refuted`, `C115_spell_refuted`, `C115_cstring_refuted` [ArgProps2]. Note: callbacks do not use the parser or the variables; option names stay unchanged; strtod is a parameter; fewer than 2^63 arguments.
- **C116 Help text of command line options** (proved; area Command line options).  Theorems: `C116_strip`, `C116_lines` [ArgHelpProps]; `C116_groups`, `C116_line_length`, `C116_text`, `C116_get_help`, `C116_blank`, `C116_overflow_refuted`, `C116_chain_refuted`, `C116_self_refuted`, `C116_blank_refuted` [ArgHelpProps2]. Note: sizes below 2^32.
- **C117 Errors from C++ to the Python caller** (proved; area Python interface).  Theorems: `C117_history`, `C117_methods`, `C117_block`, `C117_python_first`, `C117_glibc`, `C117_reuse_refuted`, `C117_no_such_value_refuted`, `C117_null_refuted`, `C117_exact_refuted` [ErrProps]. Note: allocator with one spare byte per block (the code writes one byte too many).
- **C118 MD5 digests** (proved; area MD5 digests).  Theorems: `C118_table` [MD5Table]; `C118_digest`, `C118_one_digest`, `C118_pieces`, `C118_hex`, `C118_reuse`, `C118_continued`, `C118_finalize_twice_refuted` [MD5Props]. Note: reals for the table of sines (standard-library axioms); malloc does not fail.
- **C119 Removing a directory tree** (proved; area File trees).  Theorems: `C119_only_that_tree`, `C119_whole_tree`, `C119_remove_file`, `C119_link_refuted`, `C119_backslash_refuted`, `C119_through_itself_refuted` [TreeProps]. Note: one process; which calls are refused is any function of call and place; no hard links or mount points.
- **C120 Directory names kept as the user calls them** (proved; area File trees).  Theorems: `C120_same_place` [TransProps]; `C120_ends`, `C120_kept`, `C120_hang_refuted`, `C120_grows_refuted`, `C120_dots_refuted`, `C120_backslash_refuted`, `C120_tilde_refuted`, `C120_link_itself_refuted`, `C120_other_name_refuted` [TransProps2]. Note: file system of C119; realpath and getcwd are library models.
- **C121 Copies hold the bytes of their sources** (proved; area File trees).  Theorems: `C121_differ`, `C121_copy`, `C121_directory`, `C121_emptied_refuted`, `C121_emptied2_refuted`, `C121_cut_off_refuted`, `C121_empty_dir_refuted`, `C121_link_lost_refuted`, `C121_backslash_refuted`, `C121_dir_over_file_refuted` [CopyProps]; `C121_tree`, `C121_into_itself_refuted`, `C121_unlisted_refuted`, `C121_in_the_way_refuted` [CopyProps2]. Note: One process, no hard links, one device; modes only as refusals; directory copies for trees named by their places.
- **C122 Hash tables keep their elements** (proved; area Hash tables).  Theorems: `C122_call`, `C122_state`, `C122_size`, `C122_unique`, `C122_copy_equal`, `C122_room`, `C122_next_prime`, `C122_lost_refuted`, `C122_assign_refuted`, `C122_own_key_refuted`, `C122_equal_refuted` [HashProps]; `C122_prime_sizes` [HashPrimes]. Note: range insertion, printing and the const iterators are not modelled; node allocation and copying a value are one point of failure.
- **C123 Reading a file line by line** (proved; area Strings and lines).  Theorems: `C123_line`, `C123_last_line`, `C123_file`, `C123_any`, `C123_ends`, `C123_limit`, `C123_failed`, `C123_limit_refuted`, `C123_limit_zero_refuted`, `C123_cr_refuted`, `C123_nul_refuted` [LineProps]. Note: std::istream::getline is a library model; a stream buffer that throws is not modelled.
- **C124 Text helpers: case, blanks, cropping, escaping, identifiers, splitting** (proved; area Strings and lines).  Theorems: `C124_case`, `C124_words`, `C124_add_space`, `C124_crop`, `C124_escape`, `C124_escape_refuted`, `C124_identifier`, `C124_identifier_refuted`, `C124_output_path`, `C124_output_path_refuted`, `C124_split`, `C124_split_lines` [StrProps]. Note: C locale, <cctype> total on bytes.
- **C125 Helpers on char pointers stay within their arrays** (proved; area Strings and lines).  Theorems: `C125_append`, `C125_count`, `C125_remove`, `C125_replace`, `C125_starts_ends`, `C125_find_last`, `C125_null`, `C125_remove_null_refuted`, `C125_strucmp` [CStrProps]. Note: new does not fail; arrays do not overlap.
- **C126 Programs, libraries and files are looked for in a fixed order** (proved; area Searching).  Theorems: `C126_find_program`, `C126_found`, `C126_not_found`, `C126_c_string`, `C126_names`, `C126_no_names`, `C126_find_library`, `C126_user_paths_first_refuted`, `C126_working_directory_first_refuted`, `C126_result_exists_refuted`, `C126_split_program`, `C126_split_program_refuted` [SearchProps]; `C126_program_path`, `C126_program_path_null`, `C126_locate`, `C126_locate_dirs`, `C126_locate_refuted` [SearchProps2]; `C126_locate_ends`, `C126_locate_home_refuted` [SearchProps3]. Note: Linux branches; the file system does not change during a call; LocateFileInDir's list of places for absolute file names.
- **C127 A command line is split at the longest program it starts with** (proved; area Searching).  Theorems: `C127_whole`, `C127_longest`, `C127_nothing`, `C127_forever_refuted`, `C127_program_exists_refuted` [SearchProps3]. Note: FileExists and FindProgram are arbitrary functions.
- **C128 A URL is taken apart in one way** (proved; area URLs).  Theorems: `C128_url`, `C128_one_reading`, `C128_protocol`, `C128_round_trip`, `C128_at_in_path_refuted` [UrlProps]. Note: the regular expressions are compiled and run by the model of RegularExpression (C92, C93); texts without NUL.
- **C129 auto_ptr deletes each object once, when its owner goes** (proved; area auto_ptr).  Theorems: `C129_ownership`, `C129_no_leak`, `C129_self_assign`, `C129_two_owners_refuted`, `C129_dropped_ref_refuted` [OwnProps]. Note: types of the objects are left out; destructors do not throw or touch auto_ptrs.
- **C130 The texts of __DATE__ and __TIMESTAMP__ become the times they name** (proved; area Dates and formats).  Theorems: `C130_date`, `C130_timestamp`, `C130_refused`, `C130_date_macro`, `C130_timestamp_macro`, `C130_numbers`, `C130_no_date_refuted` [DateProps]. Note: mktime is an arbitrary function; atoi and strstr are library models.
- **C131 The estimate of a formatted text's length** (proved; area Dates and formats).  Theorems: `C131_value`, `C131_enough`, `C131_plain`, `C131_null`, `C131_never_under_refuted`, `C131_percent_at_end_refuted`, `C131_arguments_refuted` [FmtProps]. Note: va_arg of another type than the argument's is undefined; totals below 2^31.
- **C132 Paths for the command line** (proved; area Output paths).  Theorems: `C132_value`, `C132_one_word`, `C132_idempotent`, `C132_only_blanks_refuted`, `C132_backslash_refuted`, `C132_windows`, `C132_windows_idempotent`, `C132_quoted_refuted` [OutPathProps]. Note: the reading of the shell is a small specification of its own; paths without NUL for the Unix form.
- **C133 The signature and the type of a file** (proved; area File types).  Theorems: `C133_signature`, `C133_signature_else`, `C133_unknown`, `C133_share`, `C133_default`, `C133_documented_refuted` [FTypeProps]. Note: doubles are exact binary64; files of at most 2^53 bytes for the share; reads are not interrupted.
- **C134 Environment variables** (proved; area Environment).  Theorems: `C134_call`, `C134_history`, `C134_nameless`, `C134_nul_refuted` [EnvProps]. Note: the branch with setenv and unsetenv; setenv does not run out of memory.
- **C135 Times of files** (proved; area File times).  Theorems: `C135_compare`, `C135_order`, `C135_missing`, `C135_touch`, `C135_newest`, `C135_create`, `C135_unreadable`, `C135_touched_refuted` [TouchProps]. Note: the branch with utimensat and nanoseconds; no links; one program at a time.
- **C136 The settings of a process object** (proved; area Processes).  Theorems: `C136_settings`, `C136_determined`, `C136_other_ids`, `C136_null`, `C136_failed_set_keeps_refuted` [ProcProps]. Note: malloc and strdup do not fail; command lines parsed verbatim are shorter than 2^30 (C106).
- **C137 Running processes and signals** (proved; area Processes).  Theorems: `C137_table`, `C137_told`, `C137_actions`, `C137_actions_restored_refuted` [ProcTabProps]. Note: signals arrive between the functions or during the shift of a removal; SIGINT and SIGTERM themselves, which end the program, are not delivered.
- **C138 Times and timeouts of a process** (proved; area Processes).  Theorems: `C138_from_double`, `C138_arithmetic`, `C138_add_normal_refuted`, `C138_deadline`, `C138_left`, `C138_no_timeout`, `C138_length_normal_refuted` [ProcTimeProps]. Note: doubles are exact binary64; seconds do not overflow long in sums.
- **C139 The data and the exit of a running process** (proved; area Processes).  Theorems: `C139_data`, `C139_finished`, `C139_exit`, `C139_progress`, `C139_stolen_refuted`, `C139_kill_twice_refuted` [ProcRunProps]. Note: the kernel and the children are part of the model as sequences of moves; system calls are not interrupted; select, not polling; settings do not change while running.
- **C140 Starting a process** (proved; area Processes).  Theorems: `C140_execute`, `C140_children`, `C140_wiring`, `C140_lifetime`, `C140_fork_refuted`, `C140_leak_refuted` [ProcExecProps]. Note: not detached; the parent's side of fork only; calls are not interrupted; the two exceptions in the statement have witnesses.
- **C141 Coloured output and the width of the terminal** (proved; area Terminal).  Theorems: `C141_plain`, `C141_restored`, `C141_history`, `C141_width`, `C141_width_range` [TermProps]. Note: the terminal is a model of a VT100 (SGR sequences); systems where isatty works, no console window; strtol is library code.
- **C142 The memory of the machine** (proved; area Machine).  Theorems: `C142_memory`, `C142_missing`, `C142_old`, `C142_number`, `C142_release_refuted` [SysMemProps]. Note: Linux; the library functions fgets, sscanf and fscanf with %lu are part of the model; /proc/meminfo does not change while it is read.
- **C143 How many processors there are** (proved; area Machine).  Theorems: `C143_sockets`, `C143_logical`, `C143_one_socket_refuted` [SysCpuProps]. Note: Linux; numbers that do not fit into an int are not modelled.
- **C144 Which processor it is** (proved; area Machine).  Theorems: `C144_identity`, `C144_vendor`, `C144_pa_risc` [SysCpuIdProps]. Note: Linux; the processor name (RetrieveClassicalCPUIdentity) and the speed are not modelled.
- **C145 What the processor can do** (proved; area Machine).  Theorems: `C145_flags`, `C145_no_revision_refuted`, `C145_caches_refuted` [SysCpuFlagProps]. Note: Linux; one RunCPUCheck of a new SystemInformation.
- **C146 How much memory there is for a process** (proved; area Machine).  Theorems: `C146_host`, `C146_missing`, `C146_available`, `C146_used`, `C146_name_refuted` [SysLimProps]. Note: Linux; no read errors; atoll does not wrap.
- **C147 The description of the processor** (proved; area Machine).  Theorems: `C147_description`, `C147_no_model`, `C147_unique` [CpuDescProps]. Note: what the stream writes for the number of processors and the frequency is an input.

## The model, area by area

### Configuration blocks (C01, C02, C03, C04, C05, C06, C07, C08, C09, C10, C11, C12, C13, C14)

Model: `ConfigModel`. Code: vital/config/config_block.{h,cxx}

Specification and proof: ConfigSpec.v has one flat table per root block and a handle as a root plus a list of block names; ConfigProofs*.v prove by induction over histories of API calls that the heap of linked blocks behaves like it (simulation). merge and subblock by induction over key lists.

Simplified or left out: blocks are never freed (shared_ptr keeps parents alive); typed values are strings and an arbitrary cast function; exception texts are not modelled.

### Macro expansion (C15, C94, C105)

Model: `ExpandModel`, `TokenModel`. Code: vital/config/token_expander.cxx, token_type_*.cxx

Specification and proof: ExpandSpec.expands is the declarative single-pass substitution; strong induction on length. RegexProps3 proves that the modelled regular expression engine compiles the real pattern and finds what the hand-written matcher finds.

Simplified or left out: C15, C94: texts without NUL, token tables are arbitrary functions; C105: any text, histories with an invariant; the shared static regular expression object is used by one thread; get_value of the CONFIG type reduced to an optional text.

### Configuration files (C16, C17, C18, C19, C20, C59, C60, C61)

Model: `ParserModel`. Code: vital/config/config_parser.cxx

Specification and proof: ParserSpec.v is a declarative grammar with meaning (which texts are good and what they define); DocSpec.v has documents as trees with a printer. Equivalence of the parser with the grammar is proved in both directions; fuel monotonicity and termination in ParserProofs4.

Simplified or left out: logging, message texts, line numbers kept for messages; the file system is a function from paths to texts (world).

### Configuration I/O (C21, C22, C23, C24, C25, C26)

Model: `IoModel`, `TokenizeModel`, `Numbers`. Code: vital/config/config_block_io.cxx, vital/util/tokenize.h

Specification and proof: round trip = writer model composed with the parser model; merge by induction over the search path; TokenizeSpec.splits for tokenize.

Simplified or left out: Linux branches; logging; directory creation (see Directories).

### Images (C27, C28, C29, C30, C31, C58)

Model: `ImageModel`. Code: vital/types/image.h, image.cxx, vital/bindings/c/image.cxx

Specification and proof: memory is a list of blocks with checked accesses; loops proved against pixel functions (ImageSpec).

Simplified or left out: size_t modulo 2^64; ptrdiff_t products do not overflow; new never throws.

### Timestamps (C32, C33, C62, C66)

Model: `TimestampModel`, `Stream`. Code: vital/types/timestamp.h, timestamp.cxx, timestamp_config.h

Specification and proof: records over Z, case analysis; the stream operators through Stream.v.

Simplified or left out: pretty_print, conversions to seconds.

### Tracks (C34, C35, C36, C37, C38, C63, C64, C65)

Model: `TrackModel`. Code: vital/types/track.h, track.cxx, track_set.h, track_set.cxx

Specification and proof: histories of append/insert calls keep the ordered-history invariant; set functions against list specifications.

Simplified or left out: frame ids unbounded; the ratio is an exact rational.

### Track and landmark files (C48, C49, C50, C67)

Model: `TrackIoModel`, `PlyModel`. Code: vital/io/track_set_io.cxx, landmark_map_io.cxx, eigen_io.h, types/feature.cxx

Specification and proof: files are texts; writer composed with the stream reader model; the text of doubles is an arbitrary pair show/scan satisfying a stated law.

Simplified or left out: digits of doubles; path checks.

### Algorithms and registrar (C39, C40)

Model: `AlgoModel`. Code: vital/registrar.h, vital/algo/algorithm.{h,cxx,txx}

Specification and proof: the registry as the list of registrations made so far; virtual functions of algorithms are a vtable parameter.

Simplified or left out: logging; the static type of an algorithm_def is its name.

### Plug-in loading (C41, C89, C90, C91)

Model: `OnceModel`, `PluginModel`. Code: vital/algorithm_plugin_manager.cxx, CMake/templates/cxx/plugin_shell.cxx, vital/tools/plugin_explorer.cxx

Specification and proof: C41: small-step interleavings of any number of threads with an inductive invariant; the rest by induction over directories and modules.

Simplified or left out: sequential consistency (the data race is itself stated); module entry points are arbitrary functions on the registrar; dlopen is a parameter.

### C interface (C42, C57, C69, C70, C71, C109)

Model: `CacheModel`, `CStringModel`, `ApiModel`. Code: vital/bindings/c: helpers/c_utils.h, helpers/algorithm.h, camera_map.cxx, common.cxx, error_handle.cxx, image_container.cxx, track.cxx, track_set.cxx, algo_def/*.cxx

Specification and proof: handle cache as a function from addresses; allocated blocks as byte lists with overrun as an outcome.

Simplified or left out: fresh addresses for new objects; malloc succeeds; histories below 2^64 operations.

### Base64 (C43, C44, C68)

Model: `Base64Model`. Code: vital/kwiversys/Base64.c

Specification and proof: Base64Spec.v is RFC 4648 by bits; every buffer access is checked.

Simplified or left out: input and output buffers do not alias.

### Matrices (C45, C46, C47)

Model: `SparseModel`, `CovarModel`. Code: vital/util/enumerate_matrix.h, vital/types/covariance.h

Specification and proof: iterator state machine; index arithmetic modulo 2^32.

Simplified or left out: Eigen's arrays and InnerIterator are library models; element types abstract.

### Geometry (C51, C52, C72, C73, C75, C114)

Model: `GeomModel`, `FundModel`. Code: vital/types/rotation.*, similarity.*, homography*.cxx, essential_matrix.cxx, fundamental_matrix.cxx

Specification and proof: exact real arithmetic; specifications in terms of matrices and points.

Simplified or left out: no rounding, overflow or NaN; Eigen functions transcribed as library code; the SVD is a hypothesis.

### Cameras (C53, C54, C74)

Model: `CameraModel`. Code: vital/types/camera*.{h,cxx}

Specification and proof: as Geometry; derivatives with the standard library.

Simplified or left out: as Geometry; the LDLT solve is a parameter.

### Algorithm data handling (C55, C76, C77, C78)

Model: `AlgoDataModel`. Code: vital/algo/estimate_*.cxx, optimize_cameras.cxx, filter_features.cxx

Specification and proof: sorted merges and index maps against set-like specifications.

Simplified or left out: the estimators and optimizers themselves are pure virtual (parameters).

### Geographic coordinates (C56, C79)

Model: `GeoModel`. Code: vital/types/geo_lat_lon.cxx, vital/algo/geo_map.cxx

Specification and proof: IEEE binary64 through Flocq.

Simplified or left out: NaN payloads.

### Camera files and stream operators (C80, C81, C82)

Model: `CamIoModel`. Code: stream operators of camera, intrinsics, rotation, similarity, landmark; vital/io/camera_io.cxx, camera_map_io.cxx

Specification and proof: round trips as for track files; both evaluation orders of the unsequenced assignment of camera_map_io.

Simplified or left out: as Geometry and Track files.

### Paths and directories (C83, C84, C85, C86, C87, C88)

Model: `PathModel`, `MkdirModel`. Code: vital/kwiversys/SystemTools.cxx (UNIX branches), vital/algo/image_io.cxx

Specification and proof: PathSpec.v: lexical meaning of path names; a finite tree file system for directories.

Simplified or left out: no NUL in paths; no symbolic links and one process in MkdirModel.

### Regular expressions (C92, C93)

Model: `RegexModel`. Code: vital/kwiversys/RegularExpression.cxx

Specification and proof: RegexSpec.v: grammar, match relation and the ordered list of ways to match; the byte-code compiler is proved to compile exactly the grammar, the backtracking matcher to realise the first way.

Simplified or left out: recursion depth; NULL arguments; copy and assignment of the object.

### Globbing (C95, C96, C97)

Model: `GlobModel`. Code: vital/kwiversys/Glob.cxx

Specification and proof: GlobSpec.v: glob patterns; GlobFindSpec.v: what to list, over an arbitrary directory graph with links; termination by a measure on visited directories.

Simplified or left out: Relative empty; GetRealPath succeeds and identifies directories.

### Logger (C98, C99, C100, C101)

Model: `LogModel`. Code: vital/logger/default_logger.cxx, kwiver_logger.cxx, kwiver_logger_manager.cxx, location_info.cxx

Specification and proof: interleavings of any number of threads with an inductive invariant; histories of manager calls.

Simplified or left out: clock text arbitrary; streams never fail; log4cxx back end; C100 single threaded.

### Utilities (C106, C107, C108)

Model: `CmdModel`, `UtilModel`. Code: vital/kwiversys/System.c, vital/util/{timer.h,wall_timer.h.in,cpu_timer.h.in,get_paths.cxx,whereami.c}

Specification and proof: CmdSpec.v: grammar of command lines; the parser is proved to give the unique meaning, with a permutation invariant on allocated blocks for every malloc oracle. Timers and paths: histories.

Simplified or left out: double arithmetic of seconds; parsing of /proc/self/maps (its result is arbitrary).

### Command line options (C115, C116)

Model: `ArgModel`, `ArgHelpModel`. Code: vital/kwiversys/CommandLineArguments.cxx, vital/tools/plugin_explorer.cxx (option table)

Specification and proof: ArgSpec.v: grammar of command lines as an inductive relation, proved total and unambiguous; Parse refines obeying its statements; help text against grouping and word-wrap specifications.

Simplified or left out: callbacks that use the parser or registered variables; strtod; option text pointers changing afterwards.

### Descriptors and sharing (C112, C113)

Model: `DescModel`, `ShareModel`. Code: vital/types/{descriptor,feature_set,descriptor_set,match_set,landmark_map,camera_map}.h, homography_f2w.cxx, homography_f2f.cxx

Specification and proof: byte memory with indeterminate bytes and freed blocks; invariants over all programs; single ownership as a preserved predicate, and its complement as a preserved predicate for the copies.

Simplified or left out: memory exhaustion; reference counts (objects are never reclaimed while reachable).

### MD5 digests (C118)

Model: `MD5Model`. Code: vital/kwiversys/MD5.c

Specification and proof: RFC 1321 written down separately (MD5Spec: padding, closed forms for the steps, sines over R); invariant: counters, chaining value and buffer stand for the bytes appended so far; the constants by interval arithmetic with units of 2^-100 from the series of sin 1 and cos 1 and the addition theorems (MD5Table).

Simplified or left out: byte order of the machine (both ways of reading words give the same words), malloc failure.

### File trees (C119, C120, C121)

Model: `TreeModel`, `TransModel`, `CopyModel`. Code: vital/kwiversys/SystemTools.cxx (RemoveADirectory, RemoveFile, FileIsDirectory, FileIsSymlink, ClassInitialize, AddTranslationPath, AddKeepPath, FilesDiffer, SameFile, CopyFileAlways, CopyFileIfDifferent, CopyAFile, CopyADirectory, MakeDirectory), Directory.cxx (Load)

Specification and proof: path resolution with symbolic links (path_resolution(7)) over a tree of places; every step only removes places below the resolved directory (induction over the recursion), depth of the tree bounds the recursion; copies: a relation between the file system before and after (one place written, directories paved on the way), induction over the entries and the depth.

Simplified or left out: permission bits (any function says which calls are refused, so chmod is left out), hard links, mount points, other processes.

### Python interface (C102, C103, C104, C110, C111, C117)

Model: `PyModel`, `PyConfModel`, `PyImageModel`, `PyPathModel`, `PyToolModel`, `ErrModel`. Code: vital/bindings/python/vital/{util/VitalObject,config_block,image,bin/maptk_track_features}.py, find_vital_library.py.in, util/error_handle.py, vital/bindings/c/config_block.cxx, image.cxx, error_handle.cxx, helpers/c_utils.h

Specification and proof: object lifetimes: histories with an invariant tying Python owners to the reference counts of CacheModel; configuration blocks and images reuse ConfigModel and ImageModel with the border (NUL, caught exceptions, NULL handles) added.

Simplified or left out: CPython reference cycles and interpreter shutdown; PIL functions are library models; Python 2 as in the code.

### Hash tables (C122)

Model: `HashModel`. Code: vital/kwiversys/hashtable.hxx.in (behind hash_map.hxx.in, hash_set.hxx.in)

Specification and proof: nodes and pointers in a heap in which freed nodes stay visible; every call that can throw is a tick of a clock, and which ticks throw is arbitrary. An invariant (buckets are chains over distinct live nodes, each in its slot, equal keys adjacent) with a Hoare-style rule for each member function for return and throw, a frame lemma for the other tables of the heap, and induction over histories.

Simplified or left out: insertion of ranges (std::distance with three arguments), const iterators, allocator objects, max_bucket_count; sizes are unbounded naturals; the function objects are the same for all tables

### Strings and lines (C123, C124, C125)

Model: `LineModel`, `StrModel`, `CStrModel`. Code: vital/kwiversys/SystemTools.cxx (GetLineFromStream; the helpers on std::string and on char pointers)

Specification and proof: std::istream::getline as a library model with its state bits; induction over the pieces of a line. The helpers are transcribed with their index and pointer loops (arrays of bytes that may be uninitialised, out-of-range accesses are an outcome) and proved equal to maps, filters, prefixes and small relations (StrSpec, CStrSpec).

Simplified or left out: stream buffers that throw; locales; overlapping arrays.

### Searching (C126, C127)

Model: `SearchModel`. Code: vital/kwiversys/SystemTools.cxx (FindProgram, FindLibrary, SplitProgramPath, FindProgramPath, LocateFileInDir, SplitProgramFromArgs)

Specification and proof: The environment is arbitrary (PathModel); each search is proved to return the first acceptable element of an explicit list of candidates (first_of, tries in SearchSpec), loops by induction on the text left, endless loops by an invariant.

Simplified or left out: Windows and Apple branches; file systems that change during a call.

### URLs (C128)

Model: `UrlModel`, `(on`, `RegexModel)`. Code: vital/kwiversys/SystemTools.cxx (ParseURL, ParseURLProtocol and their regular expressions)

Specification and proof: the expressions are derived in the grammar of C92, the ordered list of ways to match them (RegexWays) is computed in closed form piece by piece and compared with the decomposition of the text in UrlSpec.

Simplified or left out: texts with NUL.

### auto_ptr (C129)

Model: `OwnModel`. Code: vital/kwiversys/auto_ptr.hxx.in

Specification and proof: a memory of objects, auto_ptr variables and auto_ptr_ref values in which deleting a dead object is undefined; a simulation between it and a table of owners (OwnSpec), one lemma for each primitive step, induction over histories.

Simplified or left out: types of the objects; destructors with side effects.

### Dates and formats (C130, C131)

Model: `DateModel`, `FmtModel`. Code: vital/kwiversys/SystemTools.cxx (ConvertDateMacroString, ConvertTimeStampMacroString, EstimateFormatLength)

Specification and proof: buffers with uninitialised bytes, C strings read up to their NUL; the format loop by induction over the pieces of a format (FmtSpec).

Simplified or left out: mktime; printf itself except for plain conversions.

### Output paths (C132)

Model: `OutPathModel`. Code: vital/kwiversys/SystemTools.cxx 2143-2223

Specification and proof: The erasing loop is characterised by induction on the rest of the text behind the search position (everything before it has no pair); the result is compared with one_each/guard of OutPathSpec.v and with a separate reading of shell words.

Simplified or left out: the Windows extended paths (_WIN32 only).

### File types (C133)

Model: `FTypeModel`. Code: vital/kwiversys/SystemTools.cxx 4263-4358 (FileHasSignature, DetectFileType)

Specification and proof: exact binary64 division of Flocq; the default threshold by monotonicity of rounding between 0.05 and its predecessor.

Simplified or left out: I/O errors in the middle of a read.

### Environment (C134)

Model: `EnvModel`. Code: vital/kwiversys/SystemTools.cxx 456-608 (GetEnv, PutEnv, UnPutEnv)

Specification and proof: environ as a list of texts; induction over histories of calls against a function from names to values (EnvSpec).

Simplified or left out: the branches without setenv/unsetenv; threads.

### File times (C135)

Model: `TouchModel`. Code: vital/kwiversys/SystemTools.cxx 1211-1232, 1317-1426 (Touch, FileTimeCompare)

Specification and proof: a file system as a function from names to entries; lexicographic order against nanoseconds.

Simplified or left out: links, other programs, the branches without utimensat.

### Machine (C142, C143, C144, C145, C146, C147)

Model: `SysMemModel`, `SysCpuModel`, `SysCpuIdModel`, `SysCpuFlagModel`, `SysLimModel`, `CpuDescModel`. Code: vital/kwiversys/SystemInformation.cxx (QueryLinuxMemory, ExtractValueFromCpuInfoFile, RetreiveInformationFromCpuInfoFile, FindManufacturer, GetVendorID, DoesCPUSupportFeature, LoadLines, NameValue, GetHostMemory*, GetProcMemory*, GetCPUDescription)

Specification and proof: the text cut into lines by fgets, the loop over the keys exchanged with the loop over the lines; numbers by an inductive grammar. The search for a key: text without the word is skipped up to the end of the line, so the search in the text is a search in the list of lines; flags: a word between blanks is found exactly if it is in the list. Limits: the minimum by one lemma per limit. Blanks: the loop keeps the text with runs collapsed.

Simplified or left out: CPUID, the processor name and speed, the operating system, the process, everything of other systems.

### Terminal (C141)

Model: `TermModel`. Code: vital/kwiversys/Terminal.c; GetTerminalWidth

Specification and proof: an interpreter of VT100 escape sequences as specification, run on everything a history of calls writes; the mask arithmetic by bits; numbers by an inductive grammar against strtol.

Simplified or left out: the Windows console; systems without isatty.

### Processes (C136, C137, C138, C139, C140)

Model: `ProcModel`, `(on`, `CmdModel,`, `GeoModel)`, `ProcTabModel`, `ProcTimeModel`, `ProcRunModel`, `ProcExecModel`. Code: vital/kwiversys/ProcessUNIX.c (settings; the table of processes and the SIGCHLD handler; times and timeouts; WaitForData, WaitForExit, Kill; Execute)

Specification and proof: histories of calls against an inductive specification that is proved deterministic; an invariant of table, array, pipes and signal actions over all events, with a lemma on the array during a removal; Flocq for the conversion of seconds; for a running process an invariant of pipes, children and counters with the data reported so far as ghost, over all moves of the children and all results of select; for Execute a balance of descriptors over all answers of the system.

Simplified or left out: the child after fork; detached processes; a getcwd that fails (Cleanup then changes to an uninitialised path); the texts of errors and exceptions; signals during Add; changes of the settings while a process runs (AddCommand then makes WaitForExit read past the exit codes).

## Trusted base

- Coq's kernel (8.16.1) and its standard library; Flocq (definitions and lemmas only) for GeoModel.v. No axiom, functor, module type, plugin or disabled check of our own. `vm_compute` is used only on small closed examples.
- The axioms listed below, all from the standard library: the classical real numbers (`ClassicalDedekindReals.sig_forall_dec`, `sig_not_dec`), functional extensionality, and excluded middle (`Classical_Prop.classic`) where derivatives or Flocq are used.
- The transcription of C++ into the model: by hand, checked by reading (each definition cites its lines). Not modelled at all: compilers' choices beyond the stated undefined-behaviour outcomes, memory exhaustion, stack depth, weak memory (threads are sequentially consistent), locale other than "C", Windows/Apple branches, CMake files, tests.
- Files of /repo without a model: the rest of ProcessUNIX.c, ProcessWin32.c, the rest of SystemInformation.cxx, the encoding, fstream and iostream wrappers of kwiversys, the reading of /proc/self/maps in whereami.c, the log4cxx back end, config_block_exception.cxx (texts), and the pure interface headers of vital/algo.

### What Print Assumptions lists

- `Closed under the global context` (no axioms): 631 theorems, all those not listed below.
- `ClassicalDedekindReals.sig_forall_dec`: `C51_f2f_compose`.
- `ClassicalDedekindReals.sig_forall_dec`, `FunctionalExtensionality.functional_extensionality_dep`: `C51_map`, `C51_compose`, `C51_compose_refuted`, `C51_inverse`, `C51_normalize`, `C51_f2f_laws`, `C52_apply`, `C52_compose`, `C52_group`, `C52_compose_nonunit_refuted`, `C52_matrix_action`, `C53_map`, `C53_unmap`, `C53_undistort`, `C53_unmap_error`, `C53_calibration_matrix`, `C53_unnormalised_matrix_refuted`, `C53_translation`, `C53_project`, `C53_default_intrinsics`, `C54_radial`, `C54_jacobian`, `C54_radial_only`, `C54_jacobian_refuted`, `C72_vec4_order_refuted`, `C81_intrinsics`, `C81_intrinsics_exact`, `C81_intrinsics_distortion_refuted`, `C82_write`, `C82_silent_write_refuted`.
- `ClassicalDedekindReals.sig_forall_dec`, `ClassicalDedekindReals.sig_not_dec`, `FunctionalExtensionality.functional_extensionality_dep`: `C72_matrix`, `C72_from_angle_axis`, `C72_from_rodrigues`, `C72_ypr_matrix`, `C74_look_at`, `C74_parallel_refuted`, `C75_matrix`, `C75_twisted`, `C75_from_matrix`, `C80_reader`, `C80_refused`, `C80_round_trip`, `C80_same_camera`, `C80_no_distortion`, `C80_distortion_refuted`, `C82_files`, `C82_one_file`, `C82_missing_directory`, `C82_write_read`, `C82_evaluation_order_refuted`, `C114_closest`, `C114_projection`, `C114_idempotent`, `C114_zero_refuted`, `C118_table`, `C118_digest`, `C118_one_digest`, `C118_pieces`, `C118_hex`, `C118_reuse`, `C118_continued`.
- `ClassicalDedekindReals.sig_forall_dec`, `ClassicalDedekindReals.sig_not_dec`, `Classical_Prop.classic`, `FunctionalExtensionality.functional_extensionality_dep`: `C52_from_matrix`, `C52_matrix_roundtrip`, `C52_rejected_matrix_refuted`, `C56_valid`, `C56_empty`, `C56_equality`, `C72_angle_axis`, `C72_angle_axis_readback`, `C72_ypr_readback`, `C72_ypr_rebuild`, `C72_gimbal_lock_refuted`, `C73_interpolate`, `C73_interpolated`, `C79_zone`, `C79_diverges`, `C79_undefined`, `C79_exact_strip_refuted`, `C133_unknown`, `C133_share`, `C133_default`, `C133_documented_refuted`, `C136_settings`, `C136_determined`, `C136_other_ids`, `C136_null`, `C136_failed_set_keeps_refuted`, `C138_from_double`, `C138_deadline`, `C138_left`, `C138_no_timeout`, `C138_length_normal_refuted`.
