{"id": "C01", "title": "Set/get coherence through every alias of a config block", "statement": "After a successful set_value(k,v) through any handle (a root block or a view of a view ... of a root), get_value<string> of the same absolute key through any handle of the same root returns v with leading/trailing white space removed, and every other key of every block keeps its value.", "quantifier": "all keys, values, descriptions, all heaps of blocks and arbitrarily nested views", "why_tests_cant": "Needs all view depths, all aliasings and all keys (including keys containing ':' or '_global').", "anchors": ["vital/config/config_block.cxx: set_value/i_set_value, i_get_value, has_value, subblock_view"]}
{"id": "C02", "title": "Any history of operations behaves like one flat map per root", "statement": "For every sequence of create/view/subblock/set/unset/merge/mark_read_only/query calls, results are those of a plain finite map per root block addressed by (root, prefix + key).", "quantifier": "all operation sequences", "why_tests_cant": "Unbounded histories over an unbounded heap of aliases.", "anchors": ["vital/config/config_block.cxx"]}
{"id": "C03", "title": "Read-only values are immutable for ever", "statement": "Once a root block has key k marked read-only, no later operation sequence (set, unset, merge, through the block or any view) changes what get_value/has_value/get_description return for k.", "quantifier": "all later histories", "why_tests_cant": "Universal over histories and aliases.", "anchors": ["vital/config/config_block.cxx: mark_read_only, i_set_value, unset_value, merge_config"]}
{"id": "C04", "title": "A rejected set/unset has no effect", "statement": "If set_value or unset_value throws (read-only key, or missing key for unset) then no value, description, location or read-only flag of any block changed.", "quantifier": "all states, keys, values", "why_tests_cant": "State equality for all states.", "anchors": ["vital/config/config_block.cxx: i_set_value, unset_value"]}
{"id": "C05", "title": "Value and description stores stay in step", "statement": "In every reachable state a description exists exactly for the keys that have a value, so unset_value never erases an end() iterator (undefined behaviour) and get_description of an existing key never throws.", "quantifier": "all histories", "why_tests_cant": "Invariant over all histories.", "anchors": ["vital/config/config_block.cxx: i_set_value, unset_value, get_description"]}
{"id": "C06", "title": "merge_config semantics", "statement": "A successful a.merge_config(b) leaves in a exactly the union of keys, b's value where b has one, b's description where it is non-empty (or a had none), a's otherwise; b and a's read-only flags and locations are unchanged.", "quantifier": "all pairs of blocks", "why_tests_cant": "All pairs of maps.", "anchors": ["vital/config/config_block.cxx: merge_config"]}
{"id": "C07", "title": "merge_config stopped by a read-only key is a prefix merge", "statement": "When merging hits a key read-only in the target it throws; the keys of the source that sort before that key have been merged, no other key changed.", "quantifier": "all pairs of blocks", "why_tests_cant": "The failure point ranges over all keys.", "anchors": ["vital/config/config_block.cxx: merge_config"]}
{"id": "C08", "title": "subblock is an independent snapshot", "statement": "subblock(n) on a root returns a new root containing exactly the keys 'n:'+k (as k) and '_global:'-keys (unstripped) with their values and descriptions, without read-only flags, and no later operation on either block is visible in the other.", "quantifier": "all blocks, names, later histories", "why_tests_cant": "Independence quantifies over later histories.", "anchors": ["vital/config/config_block.cxx: subblock, does_not_begin_with, strip_block_name"]}
{"id": "C09", "title": "available_values is complete, duplicate free and sorted", "statement": "For a root block, available_values lists exactly the keys for which has_value holds, once each, in byte-lexicographic order.", "quantifier": "all histories", "why_tests_cant": "All histories.", "anchors": ["vital/config/config_block.cxx: available_values"]}
{"id": "C10", "title": "What a view lists and what it can read", "statement": "available_values on a view lists exactly the keys below the view's context (with the context removed) plus every key starting with _global: of each enclosing block; has_value and get_value on the view succeed exactly for the former, so every listed key that is not a global key is readable; printing the view succeeds exactly when every listed key is readable and otherwise throws no_such_configuration_value for the first unreadable one. (That every listed key is readable, so that views can always be printed or merged, is recorded as refuted: global keys.)", "quantifier": "all configurations reachable through the API and all views of them", "why_tests_cant": "Depends on key names at every nesting level; '_global:' keys are the interesting case.", "anchors": ["vital/config/config_block.cxx: available_values, does_not_begin_with, has_value, print"]}
{"id": "C11", "title": "Stored values carry no leading or trailing white space", "statement": "In every reachable state every value of every block equals its own trim; get_value<string> therefore never returns outer white space.", "quantifier": "all histories", "why_tests_cant": "Invariant over histories.", "anchors": ["vital/config/config_block.cxx: trim, i_set_value"]}
{"id": "C12", "title": "Which read-only marks protect a value", "statement": "Setting or unsetting a key through any block or view is rejected exactly when the corresponding full key is marked on the underlying root block; a mark requested on the root protects the value through every view of it; mark_read_only on a view changes only what is_read_only answers on that same view object and protects nothing, neither through the view nor the parent. (That a mark requested through a view protects the value is recorded as refuted.)", "quantifier": "all configurations, views and keys", "why_tests_cant": "All views/keys.", "anchors": ["vital/config/config_block.cxx: mark_read_only, is_read_only, i_set_value, unset_value"]}
{"id": "C13", "title": "Boolean values are parsed and written consistently", "statement": "get_value<bool> yields true exactly for case variants of true/yes/1, false exactly for case variants of false/no/0, otherwise throws; a bool stored with set_value (with or without description) is read back unchanged.", "quantifier": "all byte strings", "why_tests_cant": "Infinite input domain.", "anchors": ["vital/config/config_block.cxx: config_block_get_value_cast<bool>", "vital/config/config_block.h: set_value<bool>"]}
{"id": "C14", "title": "get_value with default never throws and defaults only on error", "statement": "get_value<T>(k,d) equals get_value<T>(k) whenever that does not throw, and d otherwise.", "quantifier": "all blocks, keys, casts", "why_tests_cant": "All blocks and casts.", "anchors": ["vital/config/config_block.h: get_value"]}
{"id": "C15", "title": "Macro expansion is a single left-to-right pass", "statement": "expand_token replaces each leftmost non-overlapping $TYPE{name} with a known TYPE by its looked-up value (empty if unknown name), leaves everything else byte for byte, never rescans replacement text, and always terminates.", "quantifier": "all strings, all provider tables", "why_tests_cant": "Infinite string domain; termination.", "anchors": ["vital/config/token_expander.cxx: expand_token"]}
{"id": "C16", "title": "Config files denote their block structure", "statement": "Parsing the text of any well-formed nested document (entries, RO entries, local definitions, blocks) yields exactly the flattened assignments, with key prefixes given by the enclosing blocks, in order.", "quantifier": "all documents, any nesting depth and size", "why_tests_cant": "Recursive input structure.", "anchors": ["vital/config/config_parser.cxx: process_file, get_token"]}
{"id": "C17", "title": "Blank lines and comments never change the result", "statement": "Inserting or deleting blank lines, comment lines, trailing comments and outer white space leaves the produced key/value/read-only content unchanged.", "quantifier": "all files, all positions", "why_tests_cant": "All files.", "anchors": ["vital/config/config_parser.cxx: get_line"]}
{"id": "C18", "title": "Malformed input is never silently accepted", "statement": "If any error token, bad flag, unclosed block or unmatched endblock is met while parsing, parse_config throws; it returns normally only when no such error was met.", "quantifier": "all files", "why_tests_cant": "All byte strings.", "anchors": ["vital/config/config_parser.cxx: process_file, m_parse_error"]}
{"id": "C19", "title": "Parsing terminates", "statement": "Parsing a file without includes terminates for every content; with includes it terminates whenever the include relation reachable from the file is well founded; a self-including file never finishes.", "quantifier": "all file contents", "why_tests_cant": "Termination over infinite input domain.", "anchors": ["vital/config/config_parser.cxx: process_file"]}
{"id": "C20", "title": "Read-only entries of a config file are protected", "statement": "After a successful parse every key assigned with [RO] is read-only, was assigned exactly once after being marked, and a file that assigns it again makes the parse throw.", "quantifier": "all files", "why_tests_cant": "All files.", "anchors": ["vital/config/config_parser.cxx: process_file 385-435"]}
{"id": "C21", "title": "write_config / read_config_file round trip", "statement": "Reading back what write_config wrote for a block whose keys are legal words and whose values contain no '#', line break or macro reference gives a block with the same keys and values, whatever the descriptions are.", "quantifier": "all blocks, descriptions", "why_tests_cant": "All blocks/strings.", "anchors": ["vital/config/config_block_io.cxx: write_config, write_cb_comment", "vital/config/config_parser.cxx"]}
{"id": "C22", "title": "Descriptions are written as 80 column comments", "statement": "Every line write_cb_comment writes after the leading blank line starts with '#', has no trailing white space (when words are blank free), and is at most 80 characters unless it holds a single word that does not fit; all words appear in order.", "quantifier": "all descriptions", "why_tests_cant": "All strings.", "anchors": ["vital/config/config_block_io.cxx: write_cb_comment"]}
{"id": "C23", "title": "Configuration search order", "statement": "config_file_paths lists: KWIVER_CONFIG_PATH entries, then XDG_CONFIG_HOME, $HOME/.config, /etc/xdg, /etc (each app/version before app), then the data dirs' config, then the prefix dirs; install-prefix dirs appear only for a non standard prefix.", "quantifier": "all environments, names, versions, prefixes", "why_tests_cant": "All environments.", "anchors": ["vital/config/config_block_io.cxx: config_file_paths, application_paths"]}
{"id": "C24", "title": "Merging over the search path gives priority to earlier directories", "statement": "read_config_file with merge returns, for each key, the value from the first directory in search order whose file defines it; without merge it returns the first file found; it throws iff none is found.", "quantifier": "all search paths and file systems", "why_tests_cant": "All lists of files.", "anchors": ["vital/config/config_block_io.cxx: read_config_file"]}
{"id": "C25", "title": "Read-only flags after merging the search path files", "statement": "After a merging read_config_file a key is read-only exactly when the last (lowest priority) file found marks it [RO]; in particular an [RO] mark in a higher priority file does not survive as soon as another file is found.", "quantifier": "all file sets, search paths and keys", "why_tests_cant": "depends on the whole set of files found and their order", "anchors": ["vital/config/config_block_io.cxx:read_config_file", "vital/config/config_block.cxx:merge_config"]}
{"id": "C26", "title": "tokenize splits losslessly", "statement": "tokenize with one delimiter and no trimming yields 1+#delimiters tokens, none containing a delimiter, whose join with the delimiter is the input; with trimEmpty it yields exactly the non empty ones; existing container content is kept.", "quantifier": "all strings and delimiter sets", "why_tests_cant": "All strings.", "anchors": ["vital/util/tokenize.h: tokenize"]}
{"id": "C27", "title": "Image pixel addressing stays in bounds and is injective", "statement": "For every image made by the sizing constructor or set_size, every pixel (i,j,k) inside width x height x depth addresses a distinct byte inside the allocated memory; the checked accessor throws for every coordinate outside; an image made without a size has no pixels.", "quantifier": "all sizes", "why_tests_cant": "All sizes (needs no-overflow side condition).", "anchors": ["vital/types/image.cxx", "vital/types/image.h"]}
{"id": "C28", "title": "image::copy_from makes an equal deep copy", "statement": "After a.copy_from(b) with non overlapping storage, a has b's dimensions and equal_content(a,b) holds, for any stride layout of a and b; b is unchanged.", "quantifier": "all sizes, all stride layouts", "why_tests_cant": "All stride layouts.", "anchors": ["vital/types/image.cxx: copy_from, set_size"]}
{"id": "C29", "title": "equal_content is layout independent equality", "statement": "equal_content holds iff dimensions agree and every pixel value agrees; it is an equivalence relation and unaffected by strides.", "quantifier": "all images", "why_tests_cant": "All images.", "anchors": ["vital/types/image.cxx: equal_content"]}
{"id": "C30", "title": "transform_image applies the operation once to every pixel", "statement": "For an image whose pixels have distinct addresses, transform_image replaces each pixel p by f(p) exactly once and touches no other byte, whatever the strides.", "quantifier": "all sizes, all strides, all functions", "why_tests_cant": "All strides and functions.", "anchors": ["vital/types/image.h: transform_image"]}
{"id": "C31", "title": "image_memory assignment copies", "statement": "Copy construction and assignment (including self-assignment) of image_memory give equal size and bytes in storage independent of the source.", "quantifier": "all buffers", "why_tests_cant": "All buffers and aliasings.", "anchors": ["vital/types/image.cxx: image_memory"]}
{"id": "C32", "title": "Timestamp comparison laws", "statement": "For any two timestamps exactly one of <, ==, > holds if they are comparable (same domain and both have time, or both have frame), none of <,>,==,!= holds otherwise; a<b iff b>a; < is irreflexive and asymmetric.", "quantifier": "all pairs of timestamps", "why_tests_cant": "All pairs.", "anchors": ["vital/types/timestamp.cxx"]}
{"id": "C33", "title": "Timestamps are ordered within a time domain", "statement": "Within a set of timestamps of one domain that all have a time (or all lack it and have a frame) < is a strict weak order whose equivalence is ==, so that sorting and std::map keyed by timestamp work; mixing timestamps with and without time breaks transitivity.", "quantifier": "all triples of timestamps", "why_tests_cant": "ranges over all triples", "anchors": ["vital/types/timestamp.cxx:operator<"]}
{"id": "C34", "title": "Track history is strictly ordered by frame", "statement": "After any sequence of append operations the states of a track have strictly increasing frame ids; a rejected append leaves the track unchanged; first_frame/last_frame/all_frame_ids report the minimum, maximum and set of them.", "quantifier": "all operation sequences", "why_tests_cant": "All histories.", "anchors": ["vital/types/track.cxx: append"]}
{"id": "C35", "title": "Track find is exact", "statement": "find(f) returns the state with frame id f if and only if the track has one, otherwise end().", "quantifier": "all tracks and frames", "why_tests_cant": "All tracks (binary search correctness).", "anchors": ["vital/types/track.cxx: find"]}
{"id": "C36", "title": "Active and inactive tracks partition the set", "statement": "For each frame (negative offsets count from the end), active_tracks and inactive_tracks are disjoint, order preserving and together are all tracks; a track is active iff it has a state on the frame.", "quantifier": "all track sets and offsets", "why_tests_cant": "All sets and offsets.", "anchors": ["vital/types/track_set.cxx"]}
{"id": "C37", "title": "Track set frame extent", "statement": "last_frame is the largest frame of any track whenever some frame >= 0 is covered; all_frame_ids is the union of the tracks' frames; first_frame returns 0 for every set without negative frames (so it is not the smallest frame unless frame 0 is covered).", "quantifier": "all track sets", "why_tests_cant": "all sets of tracks", "anchors": ["vital/types/track_set.cxx:last_frame", "vital/types/track_set.cxx:first_frame", "vital/types/track_set.cxx:all_frame_ids"]}
{"id": "C38", "title": "Percentage tracked is a ratio", "statement": "percentage_tracked(a,b) is |common|/|union| of the tracks active on frames a and b, lies in [0,1], is symmetric and is 0 when there are none.", "quantifier": "all sets, frames", "why_tests_cant": "All sets.", "anchors": ["vital/types/track_set.cxx: percentage_tracked"]}
{"id": "C39", "title": "Registered algorithm lookup", "statement": "After any history of registrations (including null pointers), creations and changes, create(type, impl) and algorithm_def<T>::create(impl) return a fresh copy of the current state of the most recently registered instance, or a null pointer if there is none; registered_names lists exactly the registered names in increasing order. For algorithm::create the type names must not contain ':' (refuted otherwise).", "quantifier": "all histories of registration, creation and change; all names", "why_tests_cant": "Any history.", "anchors": ["vital/registrar.h", "vital/algo/algorithm.cxx: create, registered_names, has_type_name, has_impl_name", "vital/algo/algorithm.txx"]}
{"id": "C40", "title": "Nested algorithm configuration", "statement": "set_nested_algo_configuration(type, name, cfg) creates a fresh copy of the implementation selected by cfg[name:type] and configures it from cfg's block name:impl; it leaves everything alone if the selection is absent or not registered; check_nested_algo_configuration asks that implementation about the same block and says no otherwise; get_nested_algo_configuration followed by set_nested_algo_configuration selects the same implementation, configured from a block with the object's configuration (for trimmed names; refuted for names with outer blanks). The typed version keeps the caller's pointer when an exception is thrown. An empty type name leads to a null pointer dereference.", "quantifier": "all registry histories, configurations, names and implementations", "why_tests_cant": "Any history of registrations and configuration contents.", "anchors": ["vital/algo/algorithm.cxx: get/set/check_nested_algo_configuration", "vital/algo/algorithm.txx: set_nested_algo_configuration"]}
{"id": "C41", "title": "Plug-ins are loaded exactly once, whatever the schedule", "statement": "For any number of threads calling algorithm_plugin_manager::instance() and load_plugins_once(), any number of times, under any sequentially consistent interleaving and with exceptions thrown by the constructor or during registration: every load_plugins_once that returns (true or false) returns only after every module has been registered by exactly one completed registration; at most one call returns true; an exception leaves the flag unset so a later call retries; instance() always returns the one same object; and no reachable state with a caller inside is deadlocked. In the C++11 memory model both functions contain a data race (the outer reads take no lock), so the guarantee does not carry to weaker machines.", "quantifier": "all numbers of threads, calls, modules, all interleavings and all points at which an exception is thrown", "why_tests_cant": "the schedules are unbounded and the racy ones cannot be forced by a test", "anchors": ["vital/algorithm_plugin_manager.cxx: instance, load_plugins_once, register_plugins"]}
{"id": "C42", "title": "C handles live exactly as long as their outstanding stores", "statement": "After any history of stores and erases (fewer than 2^64) on a C-binding handle cache, a non-NULL handle is retrievable exactly when it has outstanding stores (an erase of an absent handle counts for nothing), and the object retrieved is the one whose store brought the handle in and has been outstanding ever since; when no prefix erases more than it stores, that means stores exceed erases. NULL handles are rejected and change nothing.", "quantifier": "all histories, all handles", "why_tests_cant": "all histories", "anchors": ["vital/bindings/c/helpers/c_utils.h: SharedPointerCache"]}
{"id": "C43", "title": "Base64 encoding is RFC 4648 and round trips", "statement": "For every byte sequence of n bytes, Base64_Encode writes exactly the RFC 4648 base64 text (4*ceil(n/3) characters, only alphabet letters and '=') at the start of the output buffer, returns that length and changes no other byte, iff the buffer has that many bytes; decoding the text gives back the n bytes, both with the length known (needs n bytes of room, changes no others) and with only the text length known (needs 3*ceil(n/3)). The documented estimate of length*1.5 output bytes is too small for some inputs.", "quantifier": "all byte sequences, all following bytes, all output buffers", "why_tests_cant": "all byte sequences and buffer sizes", "anchors": ["vital/kwiversys/Base64.c: kwsysBase64_Encode, kwsysBase64_Decode, kwsysBase64_Decode3"]}
{"id": "C44", "title": "Base64 end mark", "statement": "With mark_end, '====' follows the text exactly when n is a multiple of 3. Whatever bytes follow the marked stream, decoding it without knowing the length stops at the mark and yields the n bytes if n is not a multiple of 3, but the n bytes plus one spurious zero byte if it is ('=' is not an invalid character for the decoder, contrary to the comment).", "quantifier": "all byte sequences, all trailing bytes", "why_tests_cant": "all byte sequences", "anchors": ["vital/kwiversys/Base64.c: kwsysBase64_Encode, kwsysBase64_Decode, kwsysBase64_Decode3"]}
{"id": "C45", "title": "Sparse matrix enumeration visits every stored element once", "statement": "For every well formed sparse matrix (compressed or not) with at least one row/column vector, iterating enumerate(m) ends and visits every stored element exactly once, in storage order, including when leading, inner or trailing vectors are empty; two iterators over the matrix compare equal exactly when they are at the same element or both at the end. (For a matrix with no vectors at all, begin() reads out of bounds: recorded as refuted.)", "quantifier": "all well formed sparse matrices, all numbers of increments", "why_tests_cant": "All fill patterns.", "anchors": ["vital/util/enumerate_matrix.h"]}
{"id": "C46", "title": "Covariance symmetric storage", "statement": "For every N with N(N+1) < 2^32: covariance(i,j) and (j,i) denote the same element, distinct unordered pairs denote distinct elements, all accesses are in bounds and cover the storage; building from a matrix averages (i,j) and (j,i); building from a scalar gives the scaled identity; the extracted matrix equals operator(); assignment through operator() changes only that element; symmetric matrix -> covariance -> matrix is the identity. (Beyond that N the 32-bit index arithmetic wraps and an access is out of bounds: recorded as refuted.)", "quantifier": "all N, i, j, all matrices and element types", "why_tests_cant": "All N.", "anchors": ["vital/types/covariance.h"]}
{"id": "C47", "title": "Covariance conversion between element types: what is carried over", "statement": "Constructing covariance_<N,T> from covariance_<N,U> converts exactly the elements at storage positions below N and leaves the others uninitialised; it is complete for N = 1 and loses the last variance for every N >= 2 (so feature_f::covar() and landmark_f::covar() are not the stored covariance).", "quantifier": "all N >= 1, all source covariances, all element types", "why_tests_cant": "All N.", "anchors": ["vital/types/covariance.h: converting constructor 66-75", "vital/types/feature.h: covar", "vital/types/landmark.h: covar"]}
{"id": "C48", "title": "Landmark PLY round trip", "statement": "Reading the file that write_ply_file writes for a non-empty landmark map gives the same ids with the same locations, normals, colours and observation counts, up to the precision of the text of a double. An empty map is refused.", "quantifier": "all non-empty landmark maps and all text formats of doubles for which >> inverts <<", "why_tests_cant": "All maps, ids and values.", "anchors": ["vital/io/landmark_map_io.cxx: write_ply_file", "vital/io/landmark_map_io.cxx: read_ply_file"]}
{"id": "C49", "title": "Which lines of a PLY file become landmarks", "statement": "After a header that declares n vertices and a list of properties, read_ply_file turns the first n+1 non-blank lines into landmarks (not n: a face line that follows the vertices becomes one more landmark), column j giving the j-th declared property; without a line that is exactly end_header (for instance with CRLF line ends) it silently gives no landmark.", "quantifier": "all files, all n < 2^32 - 1", "why_tests_cant": "All n and all contents of the file.", "anchors": ["vital/io/landmark_map_io.cxx: read_ply_file 194-318"]}
{"id": "C50", "title": "Track file round trip", "statement": "read_track_file(write_track_file(s)) gives tracks with the same ids and (frame, x, y) states, for sets with distinct ids and non empty tracks.", "quantifier": "all track sets", "why_tests_cant": "All sets.", "anchors": ["vital/io/track_set_io.cxx"]}
{"id": "C51", "title": "Homography mapping, composition, inversion and normalisation", "statement": "map(H,p) is the perspective division of H*(p,1) and throws exactly when the third coordinate is within 1e-12 of zero; map(H1*H2,p) = map(H1,map(H2,p)) whenever all three are defined, and the composition is refused exactly when the product of the two weights is within 1e-12 of zero (so two successful steps can compose to a refusal: recorded as refuted); inverse() is defined iff |det| > 1e-12, is the two sided inverse and maps every image back when the weight is below 1e12; normalize() yields a last entry 1 and the same map; frame to frame composition is defined iff the frames chain, is associative, yields the outer frames, with identity and inverse.", "quantifier": "all matrices, points, frame ids", "why_tests_cant": "Real-valued algebra with thresholds.", "anchors": ["vital/types/homography.cxx", "vital/types/homography_f2f.cxx"]}
{"id": "C52", "title": "Similarity transforms form a group acting on points", "statement": "For unit rotations and non zero scale, similarity composition, inverse, identity and application satisfy the group action laws, and application is p -> s R p + t with R orthogonal of determinant 1; the 4x4 matrix acts the same way; converting to a matrix and back gives the same scale, translation and rotation up to quaternion sign for positive scale. (Non-unit quaternions break composition, and matrices that are rejected leave members uninitialised without an error: recorded as refuted.)", "quantifier": "all similarities, points, matrices", "why_tests_cant": "Real-valued algebra.", "anchors": ["vital/types/similarity.cxx", "vital/types/similarity.h", "vital/types/rotation.cxx"]}
{"id": "C53", "title": "Camera projection consistency", "statement": "Mapping with camera intrinsics is the calibration (focal length, skew, aspect, principal point) applied to the rational Brown-Conrady distortion of the normalised point; unmap inverts map for non zero focal length and aspect ratio exactly when there is no distortion, and with distortion its error is bounded by the residual of the Newton iteration whenever one of the first five iterates is accepted; intrinsics and calibration matrix determine each other (matrices with last entry 1; others are not normalised: recorded as refuted); translation and centre determine each other; project(p) is the perspective division of the 3x4 camera matrix times [p;1] for distortion-free cameras, and depth is its third coordinate.", "quantifier": "all intrinsics, cameras, points", "why_tests_cant": "Real-valued algebra.", "anchors": ["vital/types/camera.cxx", "vital/types/camera_intrinsics.cxx"]}
{"id": "C54", "title": "Distortion Jacobian used by undistort", "statement": "Wherever the distortion is differentiable, the off-diagonal entries of the Jacobian used by undistort are the partial derivatives of the distortion map, and the diagonal ones are off by one and the same amount 6*p1*y + 2*p2*x in opposite directions (the tangential term of the second diagonal entry is added to the first); so the matrix is the derivative exactly without tangential distortion there. (That it is always the derivative is recorded as refuted.)", "quantifier": "all coefficient lists, points", "why_tests_cant": "Real analysis.", "anchors": ["vital/types/camera_intrinsics.cxx: distortion_jacobian, radial_distortion_deriv"]}
{"id": "C55", "title": "Correspondences of keyed maps are exactly the shared keys", "statement": "estimate_transform on two camera or landmark maps estimates from the points of exactly the keys present in both maps, in increasing key order, and on two vectors from all points in order; a null entry under a shared key is undefined behaviour and null entries under unshared keys are harmless.", "quantifier": "all pairs of maps and vectors", "why_tests_cant": "All pairs.", "anchors": ["vital/algo/estimate_similarity_transform.cxx"]}
{"id": "C56", "title": "Geographic coordinates: validity, emptiness, equality", "statement": "Over IEEE doubles: is_valid holds exactly for finite latitude in [-90,90] and finite longitude in [-180,360]; a default constructed coordinate is empty, is_empty holds exactly when both values are 444, and an empty coordinate is invalid; == is symmetric and transitive, reflexive exactly for coordinates without NaN, is equality of the numbers for finite ones, and equal coordinates agree on validity and emptiness; != is its negation.", "quantifier": "all pairs of doubles including NaN, infinities and signed zeros", "why_tests_cant": "All values.", "anchors": ["vital/types/geo_lat_lon.cxx"]}
{"id": "C57", "title": "Strings handed to C callers are inside their allocations", "statement": "vital_string_new, for any length and any source at least that long or NUL terminated, reads and writes only inside its buffers and yields a NUL-terminated copy. POPULATE_EH (and its copies in config_block.cxx) and make_string_list, on the contrary, write exactly one byte past their allocation for every message and every non-empty list of names.", "quantifier": "all lengths, messages and lists", "why_tests_cant": "memory safety over all lengths", "anchors": ["vital/bindings/c/common.cxx: vital_string_new", "vital/bindings/c/helpers/c_utils.h: POPULATE_EH", "vital/bindings/c/helpers/c_utils.cxx: make_string_list", "vital/bindings/c/config_block.cxx: read_config_file_helper"]}
{"id": "C58", "title": "Image data handed through the C interface keeps its pixels", "statement": "vital_image_new_from_data yields an image whose pixel (i,j,k) is the source byte at first_pixel+i*w_step+j*h_step+k*d_step (mirrored channel order for negative d_step as documented).", "quantifier": "all sizes and strides", "why_tests_cant": "All strides.", "anchors": ["vital/bindings/c/types/image.cxx: vital_image_new_from_data"]}
{"id": "C59", "title": "What a config_parser object does when it is reused", "statement": "A parser that has only parsed files successfully (or been given missing files) accepts exactly the files that are well formed on top of what it already holds, and adds exactly what they define; once a file has ended with an unclosed block or other latched error every later parse of an existing file throws; once an exception was thrown inside a file the parser never reports an end-of-file error again; it never returns to the first state. (That a parser can be reused after any failure is recorded as refuted: a later malformed file is accepted.)", "quantifier": "all worlds, files, histories of parses", "why_tests_cant": "Depends on the state left by arbitrary earlier failures.", "anchors": ["vital/config/config_parser.cxx: process_file, parse_config"]}
{"id": "C60", "title": "Directives are recognised by text", "statement": "A statement is an include/block/endblock/relativepath directive exactly when the text of its first token is that name, whatever the kind of token: the lines 'block', '= block' and ':= block' have the same effect in every parser state. (That directives are only recognised as words is recorded as refuted.)", "quantifier": "all files, parser states", "why_tests_cant": "All token sequences.", "anchors": ["vital/config/config_parser.cxx: process_file 232-355"]}
{"id": "C61", "title": "Include lookup order", "statement": "A full path is used as is; a relative include name resolves to the first of $CMAKE_FILE_PATH/$PATH entries, then search path entries, that holds a regular file of that name when all earlier ones hold nothing.", "quantifier": "all file systems, environments, search paths", "why_tests_cant": "All directory layouts.", "anchors": ["vital/config/config_parser.cxx: resolve_file_name 636-674", "vital/kwiversys/SystemTools.cxx: FindName, FindFile"]}
{"id": "C62", "title": "Timestamp setters and invalidation", "statement": "After any history of setter calls a timestamp's time/frame are those last set and are valid exactly if set since construction or the last set_invalid; is_valid holds iff both are valid.", "quantifier": "all histories of timestamp setter calls", "why_tests_cant": "every interleaving of setters must be covered", "anchors": ["vital/types/timestamp.h:timestamp", "vital/types/timestamp.cxx"]}
{"id": "C63", "title": "New and terminated tracks", "statement": "new_tracks(f) (terminated_tracks(f)) are the tracks whose first (last) state is on frame f, in order, and new tracks are active.", "quantifier": "all track sets and offsets", "why_tests_cant": "any set and offset", "anchors": ["vital/types/track_set.cxx:new_tracks", "vital/types/track_set.cxx:terminated_tracks"]}
{"id": "C64", "title": "Features and descriptors of a frame", "statement": "frame_features(f)/frame_descriptors(f) are those of the states on frame f, one per active track, in track order; last_frame_features are those of the last frame, and never read outside a history.", "quantifier": "all track sets and offsets", "why_tests_cant": "any set, including ones with empty tracks", "anchors": ["vital/types/track_set.cxx:frame_features", "vital/types/track_set.cxx:last_frame_features"]}
{"id": "C65", "title": "Track lookup by id", "statement": "get_track(id) returns the first track with that id, or null exactly if no track has it; all_track_ids is the set of ids present.", "quantifier": "all track sets and ids", "why_tests_cant": "any set", "anchors": ["vital/types/track_set.cxx:get_track", "vital/types/track_set.cxx:all_track_ids"]}
{"id": "C66", "title": "Timestamp in a configuration", "statement": "A timestamp stored in a configuration is read back with the same time and frame; (validity and domain are not stored: what is read is always valid and in domain 0); text with fewer than two numbers makes the reader use uninitialised values.", "quantifier": "all timestamps, all value texts", "why_tests_cant": "all int64 times and frames", "anchors": ["vital/types/timestamp_config.h"]}
{"id": "C67", "title": "Reading any track file", "statement": "Whatever the text of the file, read_track_file either throws invalid_data or gives tracks with pairwise distinct ids, at least one state each, and strictly increasing frames.", "quantifier": "all texts", "why_tests_cant": "All files.", "anchors": ["vital/io/track_set_io.cxx: read_track_file", "vital/types/feature.cxx: operator>>"]}
{"id": "C68", "title": "Base64 decoder stays inside its buffers on any input", "statement": "On arbitrary bytes (valid base64 or not), decoding 4k input bytes into 3k output bytes, or ceil(len/3)*4 input bytes into len output bytes, never reads or writes outside the buffers and returns at most 3k (len) bytes; it stops at the first group containing a character outside the alphabet, keeping what was decoded before. max_input_length is not a bound on what is read if it is not a multiple of 4.", "quantifier": "all inputs, all buffer sizes", "why_tests_cant": "memory safety over all inputs", "anchors": ["vital/kwiversys/Base64.c: kwsysBase64_Encode, kwsysBase64_Decode, kwsysBase64_Decode3"]}
{"id": "C69", "title": "General and typed algorithm handles agree", "statement": "In every history of create/clone/destroy/set_type_config calls on any number of algorithm types (new objects at unused addresses, destroy called for the handle's own type), the general algorithm cache and the typed caches hold the same handles: each live handle belongs to exactly one type and both give the same object; destroy removes it everywhere and touches no other; set_type_config releases the old handle and gives out a valid new one. Destroying through another type's function is not detected and leaves the caches disagreeing; a configuration that yields no algorithm leaves the caller's pointer stale.", "quantifier": "all histories over all types", "why_tests_cant": "all histories", "anchors": ["vital/bindings/c/helpers/algorithm.h: DEFINE_COMMON_ALGO_API"]}
{"id": "C70", "title": "Camera maps through the C interface", "statement": "vital_camera_map_new succeeds iff every camera handle is live, and maps each frame to the camera of the last pair naming it, in frame order; get_map returns each camera once in that order with its frame number modulo 2^32 and adds one reference per handle returned, so frames of 2^32 and above are altered and may collide.", "quantifier": "all arrays, all cache histories", "why_tests_cant": "all arrays", "anchors": ["vital/bindings/c/camera_map.cxx: vital_camera_map_new, vital_camera_map_get_map"]}
{"id": "C71", "title": "Configuration checks through the C interface report the algorithm's verdict", "statement": "check_type_config returns the type's verdict for a live configuration handle and false otherwise; check_impl_configuration, however, answers false for every algorithm and configuration, including accepted ones.", "quantifier": "all algorithms, configurations and handles", "why_tests_cant": "quantifies over all plug-in verdicts", "anchors": ["vital/bindings/c/algorithm.cxx: vital_algorithm_check_impl_configuration", "vital/bindings/c/helpers/algorithm.h: check_type_config"]}
{"id": "C72", "title": "Rotation representations denote the same rotation", "statement": "Quaternion, matrix, angle/axis, Rodrigues vector and yaw/pitch/roll forms of a rotation convert into each other without changing the rotation: matrix<->quaternion for every rotation matrix; rotation(angle, axis) and rotation(rodrigues) act by Rodrigues' formula; angle() is in (-pi, pi] and angle()/axis()/rodrigues() rebuild the rotation; yaw/pitch/roll are read back for |pitch| < pi/2 and rebuild every rotation outside gimbal lock. (At pitch = +-pi/2 yaw and roll are lost; the 4-vector constructor reads (x,y,z,w) although documented (w,i,j,k): recorded as refuted.)", "quantifier": "all unit quaternions, rotation matrices, angles, axes", "why_tests_cant": "Real-valued trigonometry.", "anchors": ["vital/types/rotation.cxx", "vital/types/rotation.h"]}
{"id": "C73", "title": "Interpolated rotations divide the way evenly", "statement": "interpolate_rotation(A,B,0) = A, (A,B,1) = B up to quaternion sign, and interpolated_rotations(A,B,n) appends exactly n rotations obtained by applying one and the same rotation, of angle at most pi/(n+1), i times to A; n+1 applications give B.", "quantifier": "all unit rotations A, B, all n, all fractions", "why_tests_cant": "All n and all rotations.", "anchors": ["vital/types/rotation.cxx: interpolate_rotation, interpolated_rotations"]}
{"id": "C74", "title": "Looking at a point", "statement": "clone_look_at(stare, up) keeps centre and intrinsics and turns the camera so that the point is straight ahead at its distance and projects to the principal point whatever the distortion, with the up direction vertical in the image and pointing up; this is defined exactly when up and the viewing direction are not parallel (parallel directions, e.g. straight down with the default up, only log a warning and give a NaN rotation: recorded as refuted).", "quantifier": "all cameras, target points, up directions", "why_tests_cant": "Real-valued geometry.", "anchors": ["vital/types/camera.cxx: look_at, clone_look_at"]}
{"id": "C75", "title": "Essential matrix structure", "statement": "An essential matrix built from R and t is [t/|t|]x R: singular with E E^T = I - t t^T; the twisted rotation and the negated translation both give -E; twisting twice is the original rotation; built from a matrix with singular values (s,s,0) its matrix is plus or minus the given one divided by s, with a unit rotation and a unit translation.", "quantifier": "all rotations, non zero translations, all singular value decompositions", "why_tests_cant": "Real-valued algebra.", "anchors": ["vital/types/essential_matrix.cxx"]}
{"id": "C76", "title": "Points estimated from a match set are the matched features", "statement": "estimate_homography, estimate_fundamental_matrix and estimate_essential_matrix, given two feature sets and a match set, run the estimator on exactly the pairs of feature locations named by the matches, in match order, first set and second set never swapped; an index out of range or a null feature is undefined behaviour.", "quantifier": "all feature vectors and match lists", "why_tests_cant": "All inputs.", "anchors": ["vital/algo/estimate_homography.cxx", "vital/algo/estimate_fundamental_matrix.cxx", "vital/algo/estimate_essential_matrix.cxx"]}
{"id": "C77", "title": "Filtering features keeps descriptors aligned", "statement": "filter_features with descriptors returns the filtered features and, in order, the descriptors at the indices reported by the feature filter; so if the filter reports for each kept feature where it came from, the n-th returned descriptor belongs to the n-th returned feature; a reported index beyond the descriptors is undefined behaviour.", "quantifier": "all features, descriptors and filters", "why_tests_cant": "All inputs, all filter implementations.", "anchors": ["vital/algo/filter_features.cxx"]}
{"id": "C78", "title": "Camera optimisation uses exactly each camera's observations", "statement": "optimize_cameras replaces every camera of the map, under its frame, by the optimisation of that camera from exactly the (feature, landmark) pairs of its frame: one for every landmark whose track has a feature on the frame, in increasing track id, paired with the landmark of that id; null arguments are rejected with an exception.", "quantifier": "all camera maps, track sets, landmark maps, optimizers", "why_tests_cant": "All inputs, all optimizers.", "anchors": ["vital/algo/optimize_cameras.cxx"]}
{"id": "C79", "title": "Standard zone of a longitude", "statement": "Over IEEE doubles, latlon_zone terminates for every longitude from -2^55 to 2^33-180 and returns a zone z in 1..60 such that, modulo 360 degrees, lon < -180+6z and lon >= -180+6(z-1) up to the rounding of lon+180 (2^-45 degrees for longitudes below 332; no error when the longitude is a multiple of 2^-44); it never terminates below -2^62 and for -infinity, and is undefined for NaN, +infinity and from 6*2^31-180 on. (The exact strip is recorded as refuted: -2^-60 is put in zone 31, the last double before 180 in zone 1.)", "quantifier": "all doubles", "why_tests_cant": "Every double; non-termination.", "anchors": ["vital/algo/geo_map.cxx: latlon_zone"]}
{"id": "C80", "title": "Camera (KRTD) text", "statement": "Reading a camera consumes exactly 21 numbers (3x3 calibration, 3x3 rotation, translation) and throws invalid_data exactly if one of them can not be read, in particular for every shorter or garbled text; writing a camera and reading it back gives the camera of the rounded numbers without lens distortion; if no digits are lost, center and intrinsics are the same, the rotation is the same up to the sign of the quaternion, and for a distortion-free camera every point projects alike. (That the distortion coefficients written to the file are read back is recorded as refuted: they never are.)", "quantifier": "all cameras whose numbers print readably, all texts", "why_tests_cant": "Any text, any camera.", "anchors": ["vital/types/camera.cxx: operator<<, operator>>", "vital/io/eigen_io.h: operator>>"]}
{"id": "C81", "title": "Stream operators of rotation, similarity, intrinsics and landmark", "statement": "Writing one of these values and reading it back, whatever white space is in front and whatever follows after white space, gives the value with rounded numbers and consumes exactly its text; a similarity is refused exactly if its eight numbers can not be read; intrinsics come back without distortion, landmarks without covariance. (That intrinsics keep their distortion, and that the observation count of a landmark is always assigned, are recorded as refuted.)", "quantifier": "all values whose numbers print readably, all surrounding texts", "why_tests_cant": "All values and texts.", "anchors": ["vital/types/rotation.cxx: operator<<, operator>>", "vital/types/similarity.cxx: operator<<, operator>>", "vital/types/camera_intrinsics.cxx: operator<<, operator>>", "vital/types/landmark.cxx: operator<<, operator>>"]}
{"id": "C82", "title": "Directories of camera files", "statement": "read_krtd_files looks for each image's camera at dir/name-without-last-extension.krtd (two images share a file exactly if those names agree); the first file that exists but can not be read or parsed ends it with that file's exception; otherwise the map holds the camera of every frame whose file exists, and for the other frames either nothing or a null camera, depending only on the evaluation order of 'cameras[fid] = read_krtd_file(...)'; a missing directory is path_not_exists; write_krtd_file refuses a directory, reports a parent that can not be made, and otherwise changes only the given path, from which the camera is then read back. (That frames without file are always absent, and that a failed write is always reported, are recorded as refuted.)", "quantifier": "all file systems, image lists, cameras; both evaluation orders", "why_tests_cant": "All file systems and both evaluation orders.", "anchors": ["vital/io/camera_map_io.cxx: read_krtd_files", "vital/io/camera_io.cxx: read_krtd_file, write_krtd_file"]}
{"id": "C83", "title": "Parts of a file name", "statement": "For every path: the file name is the text after the last slash; the extension starts at its first dot and the last extension at its last dot, name without (last) extension followed by the (last) extension is the name, and a name without dot has an empty extension; for a canonical full path the containing directory is the text of the parent location and the name its last component (the parent '/:' is given as '/:/').", "quantifier": "all strings; all canonical full paths", "why_tests_cant": "All strings, any number of dots and slashes.", "anchors": ["vital/kwiversys/SystemTools.cxx: GetFilenameName, GetFilenameExtension, GetFilenameLastExtension, GetFilenameWithoutExtension, GetFilenameWithoutLastExtension, GetFilenamePath"]}
{"id": "C84", "title": "Slash conversion of paths", "statement": "ConvertToUnixSlashes always ends; it turns exactly the backslashes not followed by a blank into slashes, halves pairs of slashes from the left if the original has a double slash anywhere but at the very start, expands a leading ~ ($HOME) or ~user (that user's home directory; both stay if there is none), and drops one trailing slash; a path without backslash, double slash and leading tilde only loses a trailing slash; if no run of three slashes existed the replaced text has no double slash; ReplaceString replaces every leftmost non-overlapping occurrence. (That the result never has double slashes and that the conversion is idempotent are recorded as refuted.)", "quantifier": "all paths and environments", "why_tests_cant": "All strings.", "anchors": ["vital/kwiversys/SystemTools.cxx: ConvertToUnixSlashes, ReplaceString"]}
{"id": "C85", "title": "Collapsing a path", "statement": "CollapseFullPath gives the text of the location the path leads to, starting from the root or from base / the working directory for relative paths, skipping empty and '.' names and going up at '..' (staying at the root); the text is then renamed by each entry of the translation table in key order, a directory and everything below it, never a name that only starts alike; different locations have different texts before that; collapsing twice changes nothing; from a full base every result is a full path of proper names; it ends for all paths if no home directory itself starts with a tilde. (That it always ends is recorded as refuted: HOME='~'.)", "quantifier": "all paths, bases, environments", "why_tests_cant": "All strings and environments.", "anchors": ["vital/kwiversys/SystemTools.cxx: CollapseFullPath, SplitPath, SplitPathRootComponent, SystemToolsAppendComponents, JoinPath"]}
{"id": "C86", "title": "Relative paths and subdirectories", "statement": "For two full paths under the same root, collapsing RelativePath(local, remote) from local gives the same location as remote, unless remote lies below local and its first name below looks like a drive or home directory; a path that is not full gives an empty relative path; for canonical paths IsSubDirectory holds exactly for the proper descendants of a directory other than the root. (That the relative path always leads back, and that everything is below the root, are recorded as refuted.)", "quantifier": "all full paths, environments", "why_tests_cant": "All strings.", "anchors": ["vital/kwiversys/SystemTools.cxx: RelativePath, IsSubDirectory"]}
{"id": "C87", "title": "Searching for files", "statement": "GetPath gives the elements of the variable in order; FindName gives the first existing candidate over CMAKE_FILE_PATH, then PATH, then the caller's directories; FindFile/FindDirectory give the collapsed path of that candidate exactly if it is not / is a directory and otherwise an empty string; Split gives lines that put together again are the text. (That the caller's directories come first, that an existing file is found although a directory of that name comes earlier, and that an empty PATH element is the working directory are recorded as refuted.)", "quantifier": "all names, search paths, environments and file systems", "why_tests_cant": "All environments and file systems.", "anchors": ["vital/kwiversys/SystemTools.cxx: GetPath, FindName, FindFile, FindDirectory, Split", "vital/config/config_parser.cxx: resolve_file_name"]}
{"id": "C88", "title": "Creating directories and the path checks of image_io", "statement": "MakeDirectory on a canonical full path returns true exactly if the path is a directory afterwards, which is the case exactly if it was one or it and every missing directory above could be made and no file is in the way; it adds only directories on the way and touches no file; when creation is allowed everywhere, failure means a file is in the way and leaves the file system unchanged. image_io::load reaches the implementation exactly for an existing path that is no directory, image_io::save exactly if the location holding the target is a directory. (That true means the path as written now exists is recorded as refuted: leading tilde.)", "quantifier": "all file systems, permissions, paths", "why_tests_cant": "All file systems and paths.", "anchors": ["vital/kwiversys/SystemTools.cxx: MakeDirectory", "vital/algo/image_io.cxx: load, save"]}
{"id": "C89", "title": "Which plug-in modules are loaded", "statement": "register_plugins(name) tries exactly the files of the existing, non-empty-named directories of the search path that end with the platform suffix, are not directories and (if a name is given) whose text up to the first dot is that name, directory after directory in the order of the path and of the listing; the search path is the directories of KWIVER_PLUGIN_PATH, then the compiled ones, then those added, and loading never changes it; a name containing a dot loads nothing (although registered_module_names can list such names).", "quantifier": "all environments, file systems, names and call histories", "why_tests_cant": "Any file system and search path.", "anchors": ["vital/algorithm_plugin_manager.cxx: algorithm_plugin_manager, load_from_search_paths, load_modules_in_directory, add_search_path, get_search_path"]}
{"id": "C90", "title": "What loading modules leaves behind", "statement": "Each tried module runs its entry point on the registrar left by the one before; its library stays open, and its name maps to its path, exactly if the entry point did not return a positive number; later modules of the same name replace earlier ones; after any calls every listed module is a registered file of that name whose library is open, and every open library is of a listed name. If failing modules add nothing to the registrar, everything in the registrar belongs to an open library. The last module providing an implementation wins, so the compiled directories override KWIVER_PLUGIN_PATH. (Refuted and recorded: that nothing in the registrar belongs to a closed library, that a module whose registration throws is not listed, that KWIVER_PLUGIN_PATH takes precedence.)", "quantifier": "all modules, entry points, file systems and call histories", "why_tests_cant": "Any history of loads and any module behaviour.", "anchors": ["vital/algorithm_plugin_manager.cxx: register_from_module, registered_module_names", "CMake/templates/cxx/plugin_shell.cxx: private_register_algo_impls"]}
{"id": "C91", "title": "Detailed listing of plugin_explorer", "statement": "When no definition or implementation name contains ':', plugin_explorer --detail shows each registered implementation exactly once, in order, each from a fresh copy of the instance registered last, and changes no registered instance. (With ':' in an implementation name it dereferences a null pointer; recorded as refuted.)", "quantifier": "all registration histories", "why_tests_cant": "Any registration history.", "anchors": ["vital/tools/plugin_explorer.cxx: detailed_algo"]}
{"id": "C92", "title": "Which regular expressions compile", "statement": "kwsys RegularExpression::compile always returns, without reading or writing outside its buffers; what it accepts is exactly denoted by one expression of the documented grammar (alternatives, *, +, ? on an atom that, for * and +, cannot match nothing, groups numbered by opening parenthesis, at most nine of them, classes, escapes); every expression of the grammar of at most 125 characters is accepted. (A longer legal expression is refused when its program needs 32767 bytes; recorded as refuted.)", "quantifier": "all pattern texts", "why_tests_cant": "Any pattern text, of any length and nesting.", "anchors": ["vital/kwiversys/RegularExpression.cxx: compile, reg, regbranch, regpiece, regatom, regnode, regc, reginsert, regtail, regoptail"]}
{"id": "C93", "title": "What a regular expression finds", "statement": "For every accepted pattern and every text, kwsys RegularExpression::find ends without reading outside the program or the text and answers true exactly when some stretch of the text (up to its first NUL) matches; the match reported is the leftmost one and, at that place, the preferred one (earliest alternative, longest repetition first); each group reported lies inside the match and its text matches the group's own expression; a group that takes part in every match is reported. (It is not the longest match: 'a|ab' on 'ab' gives 'a'; recorded as refuted.)", "quantifier": "all accepted patterns and all texts", "why_tests_cant": "Any pattern against any text: the required-literal, start-character and anchor shortcuts must never lose a match.", "anchors": ["vital/kwiversys/RegularExpression.cxx: find, regtry, regmatch, regrepeat, regnext", "vital/kwiversys/RegularExpression.hxx.in: match, start, end"]}
{"id": "C94", "title": "The patterns used by the configuration code mean what they look like", "statement": "The macro pattern of token_expander and the word and flag patterns of the configuration file parser are accepted by RegularExpression, and on every NUL-free text find answers true exactly at the leftmost $T{n} reference (match(1) the type, match(2) the possibly empty name), and, for words, the longest prefix made of a letter and at least two name characters not ending in ':', and for flags a bracketed non-empty list of letters and commas.", "quantifier": "all NUL-free texts", "why_tests_cant": "Greedy repetition with back-off and optional groups over arbitrary text.", "anchors": ["vital/config/token_expander.cxx: expand_token", "vital/config/config_parser.cxx: get_token", "vital/kwiversys/RegularExpression.cxx"]}
{"id": "C95", "title": "What a glob pattern matches", "statement": "For every NUL-free pattern the Glob class accepts, a name is selected exactly if the whole name matches: '*' any text without '/', '?' one character other than '/', a closed bracket expression one character of (or, after '!' or '^', not of) its set, an unclosed '[' and every other character itself, backslash included; a pattern has one reading; a pattern whose bracket ranges run backwards silently matches nothing; every readable pattern below the size limit of the regular expression compiler is accepted, and a pattern without wildcards selects just its own text. (Unlike a shell, '*' also matches names that begin with a dot; recorded as refuted.)", "quantifier": "all NUL-free patterns and names", "why_tests_cant": "Arbitrary patterns are translated to regular expressions and run through a backtracking matcher.", "anchors": ["vital/kwiversys/Glob.cxx: PatternToRegex, AddExpression", "vital/kwiversys/RegularExpression.cxx"]}
{"id": "C96", "title": "Glob::FindFiles lists exactly the matching files", "statement": "For every file system and absolute (or made absolute) pattern, FindFiles starts at the last slash before the first wildcard, and lists exactly the paths start/n1/.../nk whose i-th name is an entry other than '.' and '..' selected by the i-th component, all but the last being directories (or links to directories), the last one a directory only if directories are wanted; no path is listed twice.", "quantifier": "all file systems, settings and patterns within the regular expression size limit", "why_tests_cant": "Any directory tree and any pattern.", "anchors": ["vital/kwiversys/Glob.cxx: FindFiles, ProcessDirectory, RecurseDirectory, AddFile"]}
{"id": "C97", "title": "Recursive globbing terminates and reaches everything", "statement": "With Recurse on, FindFiles ends for every finite file system, however its symbolic links are laid; every matching file in every directory that can be reached (through links only if RecurseThroughSymlinks is on) is listed under some path, everything listed is such a file (or, with RecurseListDirs, a directory), and no listed path takes links at the same directory twice. (A directory may still be searched more than once under different paths; recorded as refuted.)", "quantifier": "all finite file systems, cyclic links included", "why_tests_cant": "Arbitrary link cycles.", "anchors": ["vital/kwiversys/Glob.cxx: RecurseDirectory"]}
{"id": "C98", "title": "What one log call writes, and when", "statement": "For every message, level and location, the default logger writes one line per line of the message (a final newline adds no empty line), each carrying the time, the level's name and the location; a message is written exactly if its level is the logger's level or more severe. (The milliseconds are not padded, and LEVEL_NONE lets everything through instead of silencing; recorded as refuted.)", "quantifier": "all messages, levels and locations", "why_tests_cant": "Arbitrary message texts, including embedded newlines.", "anchors": ["vital/logger/default_logger.cxx: log_message_i, is_*_enabled", "vital/logger/kwiver_logger.cxx: get_level_string"]}
{"id": "C99", "title": "Log messages of different threads do not mix", "statement": "For any number of threads logging through any default loggers in any interleaving, the stream holds whole messages one after the other whenever no thread is writing (and a prefix of that otherwise); the messages of each thread come out in the order it sent them, none lost or doubled, and no deadlock is possible.", "quantifier": "all interleavings of any number of threads and messages", "why_tests_cant": "Schedules of unboundedly many threads.", "anchors": ["vital/logger/default_logger.cxx: log_message_i (the static lock)"]}
{"id": "C100", "title": "Loggers are identified by name", "statement": "As long as the factory is not replaced, asking for a logger by name gives the same logger exactly for the same name (up to the first NUL); a logger keeps its name; a level set on one logger shows in it and in no other; a logger asked for the first time lets everything through; the back end is the plug-in named by the environment, else the default plug-in, else the built-in logger with one note. (A logger kept across set_logger_factory keeps a pointer to a factory that may be gone, and a plug-in returning NULL leaves no back end; recorded as refuted.)", "quantifier": "all histories of get_logger, set_level and set_logger_factory calls", "why_tests_cant": "Arbitrary histories.", "anchors": ["vital/logger/default_logger.cxx: logger_factory_default", "vital/logger/kwiver_logger_manager.cxx", "vital/logger/kwiver_logger.cxx"]}
{"id": "C101", "title": "Locations shown in log messages", "statement": "For every compiler-written signature 'ret scope::name(params...' without parentheses before the parameter list and without blanks in scope and name, the method name is the name and the class name the scope; a function outside any class has an empty class name; the file name shown has no directory. (Not so for operator() and anonymous namespaces; recorded as refuted.)", "quantifier": "all signatures of that form", "why_tests_cant": "Arbitrary signatures.", "anchors": ["vital/logger/location_info.cxx"]}
{"id": "C102", "title": "Python objects own their C++ objects", "statement": "In every history of Python calls in which shallow copies name their parent, each existing Python object's handle is the one the C side knows for its C++ object; every object that is not a shallow copy holds exactly one count on the C side, so a C++ object is released exactly when the last owning Python object is collected, nothing leaks and no erase fails. (An object made from another's pointer without naming the parent leads to a stale handle; recorded as refuted.)", "quantifier": "all histories of object creation, shallow copies, set_config and collection", "why_tests_cant": "Arbitrary lifetimes and orders of collection.", "anchors": ["vital/bindings/python/vital/util/VitalObject.py", "vital/bindings/python/vital/types/*.py", "vital/bindings/python/vital/algo/algorithm.py", "vital/bindings/c/helpers/c_utils.h"]}
{"id": "C103", "title": "Configuration blocks through the C and Python interfaces", "statement": "In every history of Python calls, no call has undefined behaviour; set_value on a key that is read-only in the root changes nothing, and otherwise every object that sees the entry reads the given text cut at NUL and trimmed while all other entries keep value and description; get_value gives the value if has_value and the default otherwise; get_value_bool raises exactly if the value is missing (without default) or not a boolean word (without default); as_dict of a root object has exactly the contents; merge_config copies every entry when none is read-only in the target; a failed object (NULL handle) ignores all calls. (get_description of a missing key raises ValueError instead of returning None, as_dict of a view may map keys to None, and merge_config stops silently at a read-only key; recorded as refuted.) is_read_only is true exactly if mark_read_only was called for the same block and key before.", "quantifier": "all histories of ConfigBlock calls, all texts", "why_tests_cant": "Arbitrary histories and texts.", "anchors": ["vital/bindings/python/vital/config_block.py", "vital/bindings/c/config_block.cxx", "vital/bindings/c/helpers/c_utils.h: STANDARD_CATCH"]}
{"id": "C104", "title": "PIL pictures through the Python image class", "statement": "For every grey picture, from_pil followed by get_pil_image gives the same picture; for every RGB picture, from_pil gives an image with the three channels in the opposite order; get_pil_image of every interleaved three channel image gives the picture with the channels in the opposite order. (An image made by from_pil from an RGB picture of more than one pixel cannot be converted back; recorded as refuted.)", "quantifier": "all pictures of less than 2^31 bytes", "why_tests_cant": "Arbitrary sizes and contents.", "anchors": ["vital/bindings/python/vital/image.py: from_pil, get_pil_image", "vital/bindings/c/image.cxx"]}
{"id": "C105", "title": "The token expander object", "statement": "For every history in which token type objects are made, each is added at most once, and symbol tables are changed only while no other type has taken their place: nothing undefined happens, and expanding any text gives the single left to right pass over the part before its first NUL, in which each reference $T{n} to a type that was added is replaced by what the object most recently added under that name answers now (nothing if it has no such entry), references to other types are kept, and so is what follows the NUL. A failed lookup is reported by the return code; it clears the result for symbol tables and the environment and leaves it for the others. (Adding an object twice leaves a deleted object registered; recorded as refuted.)", "quantifier": "all histories of add_token_type / add_entry / remove_entry, all texts, all environments", "why_tests_cant": "Arbitrary histories and texts.", "anchors": ["vital/config/token_expander.cxx: add_token_type, expand_token", "vital/config/token_type_symtab.cxx", "vital/config/token_type_env.cxx", "vital/config/token_type_sysenv.cxx", "vital/config/token_type_config.cxx"]}
{"id": "C106", "title": "Splitting a command line into arguments", "statement": "For every command line of less than 2^30-2 characters and every pattern of malloc failures, kwsysSystem_Parse_CommandForUnix has defined behaviour; it returns NULL exactly if flags are not zero or some malloc failed, and then has freed everything; otherwise it returns the array of the arguments the text means (quotes, backslashes and spaces as documented; a missing closing quote is supplied, a backslash at the very end dropped), each NUL-terminated, and these blocks and the array are all that is allocated. Every list of arguments can be written as a command line that parses back. (A word of 2^30 characters or more overflows an int; recorded as refuted.)", "quantifier": "all command lines, all patterns of allocation failure", "why_tests_cant": "Arbitrary texts and failures.", "anchors": ["vital/kwiversys/System.c", "vital/kwiversys/System.h.in"]}
{"id": "C107", "title": "Interval timers", "statement": "After every history of start and stop calls, elapsed() is the time since the last start if the last call was start, and the time between the last start and the last stop otherwise (0 if neither was called); with a clock that does not go back it is never negative and does not shrink; a scoped timer prints the time between its making and its end. (A timer stopped but never started reports the clock reading; with the system clock set back the wall timer goes negative; recorded as refuted.)", "quantifier": "all histories of calls, all clock readings", "why_tests_cant": "Arbitrary histories and clocks.", "anchors": ["vital/util/timer.h", "vital/util/wall_timer.h.in", "vital/util/cpu_timer.h.in", "vital/util/no-cpu_timer.h.in"]}
{"id": "C108", "title": "Paths of the program", "statement": "For every real path of the executable, get_executable_path returns its directory, and the first non-empty result is returned by all later calls; if the path cannot be found the result is empty. (For a program in the root directory the result is empty; get_module_path has undefined behaviour on every call, since it terminates the wrong buffer; both recorded as refuted.)", "quantifier": "all real paths below PATH_MAX, all histories of calls", "why_tests_cant": "Arbitrary paths.", "anchors": ["vital/util/get_paths.cxx", "vital/util/whereami.c"]}
{"id": "C109", "title": "Handles of the C interface", "statement": "For every history of calls of the C functions for image containers, tracks, track sets and the image_io, convert_image and track_features interfaces, mixed with C++ code making and dropping objects: no call touches a deleted object; an object exists exactly as long as somebody holds it (C++ code, an open handle, or a track set that is itself held); a handle is usable exactly as long as it was handed out more often than given back, and until then stands for the same unchanged object; a failed call returns NULL and changes nothing, a successful one a handle of the right class with no error reported; each algorithm call reaches the right C++ object once with the objects its handles stand for (the frame number modulo 2^32), or, with any bad handle, is not made and the error handle is set; an image container gives back its image; a track set keeps its tracks, in order, whatever happens to their handles. (A NULL mask is an error rather than 'no mask'; image_container_width and its siblings cannot report an error; both recorded as refuted.)", "quantifier": "all histories of calls, all addresses, all results of the C++ algorithms", "why_tests_cant": "Arbitrary interleavings of calls and lifetimes.", "anchors": ["vital/bindings/c/image_container.cxx", "vital/bindings/c/track.cxx", "vital/bindings/c/track_set.cxx", "vital/bindings/c/algo_def/image_io.cxx", "vital/bindings/c/algo_def/convert_image.cxx", "vital/bindings/c/algo_def/track_features.cxx", "vital/bindings/c/helpers/c_utils.h"]}
{"id": "C110", "title": "The feature tracking tool", "statement": "For every configuration, file system and behaviour of the algorithms, a run of TrackFeaturesTool.track_images ends in exactly one of these ways: lists of different lengths: False, nothing touched or asked; all frames done in order, each image (and its mask) loaded, converted and tracked with the tracks of the frame before, and exactly the final tracks written to the output file; or an exception, either before anything but the output directory was touched, or at the first algorithm call that raised, with the output file left empty. Every line of a list is an entry. No other file changes. The settings are absolute normalised paths and survive writing and reading the configuration. cli_main returns 0 exactly if a configuration was to be written and was. (A successful run returns 2, 'Tracking failed'; invert_masks and expect_multichannel_masks have no effect; the old output is lost even if no frame is done; a path ending in a space changes in the round trip; all recorded as refuted.) A relative name is taken from the working directory, an absolute one from the root, ~user from that home directory, with . and .. walked; the settings are kept under their five documented names.", "quantifier": "all configurations, file systems, list files, algorithm behaviours", "why_tests_cant": "Arbitrary lists, failures and histories.", "anchors": ["vital/bindings/python/vital/bin/maptk_track_features.py"]}
{"id": "C111", "title": "Finding the C library from Python", "statement": "For every directory structure, the upward search ends and finds the first library, lib64 before lib, in the nearest directory (from the start upwards) having a lib64 or lib directory, and nothing if that one has none; the whole search tries the build directory, the module's directory and the entries of LD_LIBRARY_PATH in that order; what was found first is the answer of every later call. (It does not look above a lib directory without the library; without LD_LIBRARY_PATH set it raises KeyError although the build directory has the library; an empty or relative entry has the library taken from below the current directory; all recorded as refuted.)", "quantifier": "all directory trees and listing orders, all environments, all histories of calls", "why_tests_cant": "Arbitrary trees and environments.", "anchors": ["vital/bindings/python/vital/util/find_vital_library.py.in"]}
{"id": "C112", "title": "Feature descriptors and their memory", "statement": "For every program over descriptor objects: size() is the number asked for, num_bytes() is size()*sizeof(T), as_bytes() has num_bytes() bytes and as_double() size() numbers; writing element i is defined exactly for i < size(), puts the element's bytes at i*sizeof(T) and changes no other element and no other descriptor (except those sharing its array); as_double() is the elements converted one by one and is defined exactly if all of them have been written. A program that keeps to live objects and does not copy or assign a descriptor_dynamic has no undefined behaviour, and all memory is gone with its last object. (The copy constructor and assignment the compiler generates for descriptor_dynamic share the array: after one, no program can destroy all its descriptors without undefined behaviour, and assignment leaks; recorded as refuted.)", "quantifier": "all element sizes, lengths and contents, all sequences of operations", "why_tests_cant": "Every history of construction, copies, writes and destruction.", "anchors": ["vital/types/descriptor.h"]}
{"id": "C113", "title": "What homographies with frames and the simple containers share", "statement": "Every way of making an f2w_homography or f2f_homography, copying included, gives it a homography of its own, which no later operation changes except through the pointer its homography() hands out or by assignment. A simple feature, descriptor, match set, landmark or camera map always has the size and the pointers, in order, it was made from, whatever is done to the vector it was made from or to those it gave out; the objects pointed to are shared, so that a write to one shows in every container having it and nowhere else. (Assignment of f2w/f2f homographies shares the homography, against 'so we retain a unique copy'; a null pointer given to the constructor is followed; recorded as refuted.)", "quantifier": "all programs over pointers, vectors, maps, homographies and containers", "why_tests_cant": "Aliasing through arbitrary histories.", "anchors": ["vital/types/homography_f2w.cxx", "vital/types/homography_f2f.cxx", "vital/types/feature_set.h", "vital/types/descriptor_set.h", "vital/types/match_set.h", "vital/types/landmark_map.h", "vital/types/camera_map.h"]}
{"id": "C114", "title": "Fundamental matrices", "statement": "For every nonzero 3x3 matrix and every singular value decomposition of it, the fundamental_matrix made from it is singular, has unit Frobenius norm, and no singular matrix of unit norm is closer to the matrix given; its rescaling by the norm of the kept singular values is at the distance of the smallest singular value, and no singular matrix is closer. A singular matrix is only scaled, and a matrix that is already singular of unit norm is left as it is. (The zero matrix gives NaN entries: refuted.)", "quantifier": "all real 3x3 matrices and all their singular value decompositions", "why_tests_cant": "An optimality statement over all matrices.", "anchors": ["vital/types/fundamental_matrix.cxx", "vital/types/fundamental_matrix.h"]}
{"id": "C115", "title": "Command line options", "statement": "For every table of options and every argument list, the list is in exactly one way a sequence of statements (each word means the longest registered option it can mean; the value comes from the same word, the next word, after '=', or all following words that no option fits) and Parse() does exactly what they say, in order, until one is refused: its return value, callback calls, variables, unused and remaining arguments are determined by them, with no undefined behaviour or abort as long as char* variables are null or own their text, and the argument arrays handed out are inside their allocation. A variable ends with exactly the texts of its options, converted; if no option name is a prefix of another, any list of settings can be written down and is read back whatever its values. For plugin_explorer: the directories, plug-in name and flags are exactly those asked for. (Refuted: the value of a last space-separated option remains in GetRemainingArguments; a NO_ARGUMENT callback is given a null pointer, not \"1\"; an int variable silently takes any text; a char* variable not from new[] is deleted.)", "quantifier": "all option tables, callbacks, argument lists and initial variables", "why_tests_cant": "Every table and command line; tests try a few.", "anchors": ["vital/kwiversys/CommandLineArguments.cxx", "vital/kwiversys/CommandLineArguments.hxx.in", "vital/tools/plugin_explorer.cxx"]}
{"id": "C116", "title": "Help text of command line options", "statement": "The help text of a command line parser shows every registered option exactly once, in groups: an option together with those whose help text is its name, one line each, the names with their value marks padded to the same width; then the help text, in lines broken at blanks that are not longer than the room beside the options and hold exactly the words of the text. This holds if no option is an alias of an alias, names with value marks have at most 75 characters, help texts have single blanks only between words, and the line length differs from the width of the options. GetHelp for one option gives the text at the end of the chain of aliases, if and only if it ends. It does not hold that: longer names are shown (they overflow the buffers); a chained alias is listed once (depends on alphabetical order); an option whose help text is its own name is listed (and GetHelp does not return for it); a help text with leading, trailing or double blanks, or any text with the line length equal to the column of the options, is safe (it may be read out of bounds).", "quantifier": "every table of options, help texts and line length", "why_tests_cant": "Tests print one table of options; the layout must hold for every one, and the failures need particular names and lengths.", "anchors": ["vital/kwiversys/CommandLineArguments.cxx: GenerateHelp, GetHelp, SetLineLength", "vital/kwiversys/CommandLineArguments.hxx.in"]}
{"id": "C117", "title": "Errors from C++ to the Python caller", "statement": "For every Python program that uses error handles in with-blocks, try statements and direct calls, the outcome is what the history of calls with each handle says: at the end of a with-block without a Python exception, the exception raised (if any) is that of the last call with this handle that failed since it was made, with its message and the class last registered for its code (VitalBaseException if none); every C++ exception of any kind is reported with its text and never passes the border; a method with its own handle raises exactly if the C++ code threw, and otherwise returns its value. A Python exception inside the block wins over the C error. A failed call does not stop the block. Allocated messages that no handle holds are exactly one per failed call with a handle that already held an error. It does not hold that: a handle can be used for a second block after an error (the old error is raised again); NoSuchValue means that there is no such value; the handle may be NULL for functions that read or write files; reporting an error is safe with an allocator that gives exactly the bytes asked for (glibc: unsafe exactly for texts of 24, 40, 56, ... characters).", "quantifier": "every program of Python statements, C function, thrown object and allocator with one spare byte", "why_tests_cant": "Tests raise one error in one block; the rule is about every order of calls, blocks, handles and exceptions, and the overrun depends on the length of the message.", "anchors": ["vital/bindings/c/helpers/c_utils.h: POPULATE_EH, STANDARD_CATCH", "vital/bindings/c/config_block.cxx: read_config_file_helper, vital_config_block_file_write", "vital/bindings/c/error_handle.cxx", "vital/bindings/python/vital/util/error_handle.py", "vital/bindings/python/vital/config_block.py"]}
{"id": "C118", "title": "MD5 digests", "statement": "After Initialize, any number of calls of Append (each with a byte count, or with a negative one and a C string) and Finalize, the 16 bytes are the digest that RFC 1321 defines for all appended bytes in order, including the table of 64 constants floor(2^32 |sin i|) and for texts of 2^61 bytes and more (length modulo 2^64 bits). How the bytes were cut into calls, and what the memory of the new object held, makes no difference. The object can be used for any number of such digests. FinalizeHex gives 32 lower-case hexadecimal digits that spell the 16 bytes, high half first. It does not hold that Finalize can be called twice: without Initialize the bytes that follow are taken as following the padded text.", "quantifier": "every sequence of Append calls with every division of every byte sequence, and every number of uses of one object", "why_tests_cant": "Known digests are tests of single texts; buffering errors show only for certain offsets and sizes, the carry only for texts over 512 MB, and no test compares the constants with sines.", "anchors": ["vital/kwiversys/MD5.c: md5_init, md5_append, md5_process, md5_finish, kwsysMD5_Append, kwsysMD5_FinalizeHex, kwsysMD5_DigestToHex"]}
{"id": "C119", "title": "Removing a directory tree", "statement": "RemoveADirectory ends on every file system, with any symbolic links in the tree and with any calls refused by the system. Nothing outside the directory that its argument leads to is touched (links inside the tree are removed, never followed), nothing inside is changed otherwise than by being removed, and true means that all of it is gone. An ordinary tree - nothing refused, no name in it ending in a backslash, the argument naming the directory itself by a proper last name - is removed completely with true. RemoveFile answers true only if the name leads to nothing afterwards, never removes a directory, and of a link removes only the link; for an existing name it answers true exactly if this is no directory and the system does not refuse. It does not hold that the tree is removed when the argument is itself a link (the directory it leads to is emptied, and the answer is false), when a name in the tree ends in a backslash, or when the argument leads through the directory itself.", "quantifier": "every file system tree, every path, every set of symbolic links (loops included), every set of refused calls, every working directory", "why_tests_cant": "A test removes one tree; whether a link can lead the removal out of the tree, or the recursion into a loop, depends on all possible arrangements of links.", "anchors": ["vital/kwiversys/SystemTools.cxx: RemoveADirectory, RemoveFile, FileIsDirectory, FileIsSymlink", "vital/kwiversys/Directory.cxx: Load"]}
{"id": "C120", "title": "Directory names kept as the user calls them", "statement": "At program start SystemTools builds a table from real directory names to the names used in $PWD and for /tmp. For every file system, environment and working directory, a path collapsed with that table names the same thing as without it, unless the kept name has more links than the system follows. If $PWD calls the working directory by another name, the name is kept as far up as it works, and every collapsed path into that directory is given under it. The start-up ends. ($PWD must start with a slash and have no backslash and, for the end, no colon: without that the start-up may loop for ever, or paths lead to other files, both recorded as refuted; also refuted: that collapsing twice changes nothing, that results have no '.', that a directory never becomes a link, that the working directory gets exactly the name in $PWD.)", "quantifier": "all file systems with links, environments, working directories, paths", "why_tests_cant": "All file systems and paths.", "anchors": ["vital/kwiversys/SystemTools.cxx: ClassInitialize, AddTranslationPath, AddKeepPath, CheckTranslationPath, CollapseFullPath"]}
{"id": "C121", "title": "Copies hold the bytes of their sources", "statement": "FilesDiffer returns false exactly for two names of files that hold the same bytes (when both can be read, and directories do not have size 0). When CopyFileAlways, CopyFileIfDifferent or CopyAFile reports success for a source that is a file, then afterwards the destination's name (or, if the destination leads to a directory, the source's last name in that directory) leads to a file with exactly the source's bytes, the source still holds them, and nothing else in the file system has changed apart from new directories - whatever links are on the way and whatever the system refuses. One exception, stated in the theorem: the copy goes to the source itself under a name that cannot be removed; then the source is emptied and success reported. Given a directory as source they make directories only, and report success only if the destination's name then leads somewhere. CopyADirectory from A to B (apart from each other, no links in A, no file where a directory is to be or the reverse, everything readable) ends; leaves everything outside B, and everything in B without a counterpart in A, as it was; if it reports success every file and directory of A is at the same place below B; and it reports success unless the system refuses something or the disk is full. Shown false: read errors are noticed; a directory copied deep into itself ends; a directory that cannot be listed is noticed; destinations with backslashes; links to directories that cannot be read survive.", "quantifier": "all file systems (any places, links, bytes), paths, working directories, refusals of each system call at each place, positions of read and write errors, sizes of files (any number of 4096-byte blocks)", "why_tests_cant": "the property ranges over all trees, links, sizes and failures of system calls; tests copy a few files on one disk where nothing fails", "anchors": ["vital/kwiversys/SystemTools.cxx: SystemTools::FilesDiffer", "vital/kwiversys/SystemTools.cxx: SystemTools::SameFile", "vital/kwiversys/SystemTools.cxx: SystemTools::CopyFileAlways", "vital/kwiversys/SystemTools.cxx: SystemTools::CopyFileIfDifferent", "vital/kwiversys/SystemTools.cxx: SystemTools::CopyAFile", "vital/kwiversys/SystemTools.cxx: SystemTools::CopyADirectory", "vital/kwiversys/SystemTools.cxx: SystemTools::MakeDirectory"]}
{"id": "C122", "title": "Hash tables keep their elements", "statement": "For a hash_map, hash_set, hash_multimap or hash_multiset whose key comparison is an equivalence and whose hash agrees with it: after any history of construction, copying, assignment, swap, destruction, insertion, erasure, resizing, clearing and lookup on any number of tables, with exceptions thrown at any calls of the hash function, of the comparison, of a value's copy constructor or of the allocator, no allowed call reads or frees a node that is not there. begin() and ++ run through each element once; find, count, equal_range, elems_in_bucket and ++ report what is in the table; insertion adds exactly the new element (or, for unique keys, returns the equal one) and keeps every other element where it is in memory; erase removes exactly the elements meant; elements with equal keys stay together; unique containers never hold two equal keys; other tables never change. Every node that is alive is in exactly one table, so nothing leaks. A copy has the same values in new nodes, the same size and bucket count and compares equal. size() is the number of elements as long as no insertion or resize has thrown; up to 4294967291 elements there are at least as many buckets as elements after an insertion. A call that throws changes nothing, except: a resize (also one by insert) whose hash function throws loses elements while size() keeps its value; a failed operator= leaves the table empty, maybe without any bucket, after which a lookup divides by zero; erase of a key stops half-way. Also shown: erase with a reference to the key of an element of the table reads freed memory; operator== depends on the order of insertion.", "quantifier": "all value and key types, hash functions and comparisons that are lawful, histories of calls on any number of tables, points where something throws, sizes of tables", "why_tests_cant": "the property ranges over all histories and all points where an exception may be thrown; tests use a few elements and no exceptions", "anchors": ["vital/kwiversys/hashtable.hxx.in: hashtable::insert_unique, insert_equal, find_or_insert, insert_unique_noresize, insert_equal_noresize", "vital/kwiversys/hashtable.hxx.in: hashtable::resize", "vital/kwiversys/hashtable.hxx.in: hashtable::erase, _M_erase_bucket, clear", "vital/kwiversys/hashtable.hxx.in: hashtable::find, count, equal_range, elems_in_bucket, operator==", "vital/kwiversys/hashtable.hxx.in: hashtable::_M_copy_from, operator=, swap", "vital/kwiversys/hashtable.hxx.in: _Hashtable_iterator::operator++", "vital/kwiversys/hashtable.hxx.in: _stl_next_prime", "vital/kwiversys/hash_map.hxx.in: hash_map::operator[]"]}
{"id": "C123", "title": "Reading a file line by line", "statement": "GetLineFromStream called in a loop on any file without NUL bytes, with lines of any length and no limit, delivers exactly the file's lines in order, each without its newline and without a carriage return before it, says true for 'had a newline' for all but an unfinished last line, and then returns false; nothing is skipped or read twice. A carriage return that is not at the end of its line is kept, unless it is the last byte of one of the 1023-byte pieces the line is read in. For every stream, content and limit the call returns, moves the stream forward by what it consumed (at least one byte exactly if it returns true), gives an empty line and a false flag if it returns false, never writes outside its buffer, and a line is never longer than a limit that is not negative. A line not longer than the limit is delivered whole; of a longer one all whole pieces of 1023 bytes within the limit and then one byte less than the limit allows. Not so: with a limit up to 1023, a line of 1024 bytes or more leaves the stream failed, so that the loop ends in the middle of the file; a limit of 0 looks like the end of the file; a NUL byte ends the line, is reported as a newline, and what follows it up to the newline is lost.", "quantifier": "all files, line lengths, line ends, limits and states of the stream", "why_tests_cant": "lengths around multiples of the buffer size, limits and stray CR or NUL bytes combine in unboundedly many ways; no test covers the function at all", "anchors": ["vital/kwiversys/SystemTools.cxx: SystemTools::GetLineFromStream"]}
{"id": "C124", "title": "Text helpers: case, blanks, cropping, escaping, identifiers, splitting", "statement": "For every string: LowerCase, UpperCase and Capitalized change the case of each letter as they say; CapitalizedWords and UnCapitalizedWords change exactly the letters that start a word; AddSpaceBetweenCapitalizedWords puts a blank exactly between a character that is neither a space nor an upper case letter and an upper case letter, and doing it again changes nothing; CropString gives exactly the wanted length, from 5 on the beginning, three dots and the end of the string, and leaves a string that fits (or any, for length 0) alone; EscapeChars puts the escape character before each of the given characters and nowhere else, which can be undone if it is one of them (and not in general otherwise); MakeCidentifier gives a C identifier for every string that is not empty, changes nothing in an identifier, and replaces exactly the characters that cannot be in one; ConvertToUnixOutputPath leaves no two slashes together after the first character and no blank without a backslash before it, is idempotent, and makes a path without backslashes one word of the shell (a blank after an escaped backslash stays a word break); Split at a character and Split into lines give the pieces in order, without the separators (LF or CR LF for lines), after what the vector already held, and tell whether the text ended with a separator.", "quantifier": "all strings, separators, escape characters, lengths", "why_tests_cant": "statements over all strings, including idempotence and inverses; tests use a handful of literals", "anchors": ["vital/kwiversys/SystemTools.cxx: SystemTools::Capitalized, CapitalizedWords, UnCapitalizedWords, AddSpaceBetweenCapitalizedWords", "vital/kwiversys/SystemTools.cxx: SystemTools::LowerCase, UpperCase", "vital/kwiversys/SystemTools.cxx: SystemTools::CropString", "vital/kwiversys/SystemTools.cxx: SystemTools::EscapeChars", "vital/kwiversys/SystemTools.cxx: SystemTools::ConvertToUnixOutputPath, ConvertToOutputPath", "vital/kwiversys/SystemTools.cxx: SystemTools::Split", "vital/kwiversys/SystemTools.cxx: SystemTools::MakeCidentifier"]}
{"id": "C125", "title": "Helpers on char pointers stay within their arrays", "statement": "For all C strings in arrays of any size, DuplicateString, AppendStrings, RemoveChars, RemoveCharsButUpperHex, ReplaceChars, CountChar, StringStartsWith, StringEndsWith, FindLastString and Strucmp never read or write outside an array nor read a byte that was never written. Copies and concatenations are fresh arrays of exactly the needed size holding the concatenation of the arguments that are not NULL, or NULL if all are; RemoveChars and RemoveCharsButUpperHex give exactly the wanted characters in their order; ReplaceChars changes exactly the listed characters in place and nothing behind the string (a NUL replacement cuts the string at the first); StartsWith and EndsWith are prefix and suffix, also for a std::string containing NUL bytes; FindLastString gives the last occurrence or NULL exactly if there is none; Strucmp is 0 exactly for strings equal up to case and otherwise has the sign of the first difference in lower case. With NULL strings the answers are NULL, 0 or false; only RemoveChars with a NULL list dereferences it.", "quantifier": "all strings, array sizes and contents, combinations of NULL arguments", "why_tests_cant": "absence of out-of-bounds accesses for all inputs cannot be tested; the functions have no tests", "anchors": ["vital/kwiversys/SystemTools.cxx: SystemTools::DuplicateString, AppendStrings", "vital/kwiversys/SystemTools.cxx: SystemTools::CountChar, RemoveChars, RemoveCharsButUpperHex, ReplaceChars", "vital/kwiversys/SystemTools.cxx: SystemTools::StringStartsWith, StringEndsWith, FindLastString", "vital/kwiversys/SystemTools.cxx: SystemTools::Strucmp"]}
{"id": "C126", "title": "Programs, libraries and files are looked for in a fixed order", "statement": "FindProgram returns the collapsed path of the first candidate that exists and is not a directory, among the name as given, then the name in each directory of PATH, then in each of the caller's directories (not the caller's first, as the comment says), and the empty string if there is none; with several names the first name found anywhere wins. FindLibrary does the same with lib<name> and the endings .so, .a, .sl, .dylib, .dll in each directory. The path returned need not name an existing file, since it is collapsed lexically. SplitProgramPath gives a directory with an empty file, or an existing (or empty) directory and the name after the last slash, or fails and gives back the whole input; a file in the root and a bare name give the same answer. FindProgramPath gives the first that exists of what FindProgram finds for argv[0], the program below the build directory and the program below the installation prefix, or a message that lists argv[0] and the paths tried; with a NULL program name it appends a NULL pointer exactly if argv[0] is not found and a directory is given. LocateFileInDir looks for the base name in the directory, and if asked to also below it in the last one, two, ... directories of the file name, in this order; where such a directory does not exist its parent is searched instead, so a file elsewhere can be found. It always ends if no home directory starts with a tilde, and need not otherwise.", "quantifier": "all names, environments (existing files, directories, PATH, home directories), caller's directories and combinations of NULL arguments", "why_tests_cant": "the order of search and termination must hold for every file system and every PATH; no test covers these functions", "anchors": ["vital/kwiversys/SystemTools.cxx: SystemTools::FindProgram, FindLibrary", "vital/kwiversys/SystemTools.cxx: SystemTools::SplitProgramPath, GetProgramPath", "vital/kwiversys/SystemTools.cxx: SystemTools::FindProgramPath", "vital/kwiversys/SystemTools.cxx: SystemTools::LocateFileInDir"]}
{"id": "C127", "title": "A command line is split at the longest program it starts with", "statement": "SplitProgramFromArgs returns the whole text as program without arguments if it is an existing file or a program that can be found. Otherwise the program is the longest text before a blank that is an existing file (itself) or can be found (the path found), without its trailing blanks, and the arguments are the rest from that blank on. If there is none, both are empty when the text does not start with a blank; when it does, the call never returns. A program that consists of blanks only leads to an access outside the string, and a file whose name ends with a blank yields a program that does not exist.", "quantifier": "all texts, all sets of existing files and of programs that can be found", "why_tests_cant": "the claim quantifies over all command lines and file systems and includes termination", "anchors": ["vital/kwiversys/SystemTools.cxx: SystemTools::SplitProgramFromArgs"]}
{"id": "C128", "title": "A URL is taken apart in one way", "statement": "For a text without NUL, ParseURL succeeds exactly if the text ends with protocol://[user[:password]@]host[:port]/database, where protocol and user are letters and digits, the user name, password, host and port are not empty, the password has no ':' or '@', the host no ':', '@' or '/', the port is digits. Any text may stand before it. Of all places where such a URL begins the first is taken, and there the reading with a user if there is one; the reading is unique, and the caller gets its parts, absent ones empty; a failed call changes no argument. So the parts of a URL are got back from its text if it names a user or its database has no '@'; otherwise host, port and path can be taken for user, password and host (http://host:80/a@b/c). ParseURLProtocol succeeds exactly if the text contains \"://\"; the protocol is all the letters and digits before the first one, the rest all that follows it.", "quantifier": "all texts", "why_tests_cant": "the reading must be right for every text, and there are infinitely many ways to place the separators; no test covers these functions", "anchors": ["vital/kwiversys/SystemTools.cxx: SystemTools::ParseURL", "vital/kwiversys/SystemTools.cxx: SystemTools::ParseURLProtocol", "vital/kwiversys/SystemTools.cxx: VTK_URL_REGEX, VTK_URL_PROTOCOL_REGEX"]}
{"id": "C129", "title": "auto_ptr deletes each object once, when its owner goes", "statement": "For every history in which the program passes to constructors, reset and delete only pointers it owns (or reset the pointer the auto_ptr already holds), uses only auto_ptrs that exist and each auto_ptr_ref once: nothing undefined happens; copy construction, conversion, assignment, release, reset and auto_ptr_ref move ownership as documented (the source is left empty, the object previously held by the target is deleted, self-assignment and reset to the held pointer change nothing); get and operator* give the object owned, which is alive; each object is deleted at most once, exactly when its owner is destroyed, reassigned or reset; when all auto_ptrs are destroyed and all auto_ptr_refs used, every object is deleted or owned by the program. A pointer given to two auto_ptrs is deleted twice, and an auto_ptr_ref that is dropped leaks its object.", "quantifier": "all histories of construction, copying, assignment, release, reset, conversion and destruction over any number of objects and auto_ptrs", "why_tests_cant": "absence of double deletion and leaks quantifies over all histories; testAutoPtr.cxx runs a fixed sequence", "anchors": ["vital/kwiversys/auto_ptr.hxx.in: class auto_ptr", "vital/kwiversys/auto_ptr.hxx.in: struct auto_ptr_ref"]}
{"id": "C130", "title": "The texts of __DATE__ and __TIMESTAMP__ become the times they name", "statement": "For every text of the form \"Mmm dd yyyy\" (day with a leading blank or zero) ConvertDateMacroString calls mktime with that year, month and day and time 0:00:00, and for \"Ddd Mmm dd hh:mm:ss yyyy\" ConvertTimeStampMacroString with that date and time; both store what mktime returns (also -1) and return true. NULL arguments and longer texts are refused. A text is refused exactly if its three month letters do not occur in JanFeb...Dec, at any place, so \"anF 99 zz\" is accepted as a day of January; a text of fewer than 7 (20) characters that is not refused makes the function read bytes that were not initialised, as does any time stamp of fewer than 4 characters.", "quantifier": "all texts without NUL and every mktime", "why_tests_cant": "the claim is about all dates and all malformed texts, including reads of uninitialised memory that a test cannot observe", "anchors": ["vital/kwiversys/SystemTools.cxx: SystemTools::ConvertDateMacroString", "vital/kwiversys/SystemTools.cxx: SystemTools::ConvertTimeStampMacroString"]}
{"id": "C131", "title": "The estimate of a formatted text's length", "statement": "EstimateFormatLength returns, for formats made of text, %% and conversions whose arguments have the type the letter asks for (char* for s, double for e, f, g, int for the rest), the length of the format plus 64 for each conversion, or the length of the string for %s (0 for a NULL string), and 0 for a NULL format. So it is at least the length of what is written if no number takes more than 64 characters more than its conversion and no string is padded; in particular for plain text, %%, %s, %c, %d and %i. \"Should never under-estimate\" is false: widths are not looked at (%100d, %9s). A '%' that no letter follows makes it read past the end of the format, modifiers such as %ld make it fetch an int for another type, and the argument of a '*' is taken for the number.", "quantifier": "all formats and argument lists", "why_tests_cant": "an upper bound has to hold for all formats and arguments; reads past the end of the format need not show in a test", "anchors": ["vital/kwiversys/SystemTools.cxx: SystemTools::EstimateFormatLength"]}
{"id": "C132", "title": "Paths for the command line", "statement": "ConvertToOutputPath (on Unix) returns the path with every run of slashes behind the first character made one and a backslash before every blank that has none: for every path of ordinary characters and blanks a shell reads the result as one word, the path itself but for repeated slashes. Converting twice is converting once. Nothing but blanks is escaped (the code's comment says parentheses too), and a backslash that is part of the path is taken for an escape already there, so the shell is given another name. ConvertToWindowsOutputPath turns slashes into backslashes, makes runs of them one except a pair at the start (or behind an opening quote), and puts a path of two or more characters that contains a blank and does not start with a quote between quotes; its result has no slash and is not changed by a second conversion. A single blank is not quoted, and an opening quote is not closed.", "quantifier": "all paths", "why_tests_cant": "a command line is built from any path a user has; the claims about shells and idempotence are about all strings", "anchors": ["vital/kwiversys/SystemTools.cxx: SystemTools::ConvertToUnixOutputPath", "vital/kwiversys/SystemTools.cxx: SystemTools::ConvertToOutputPath", "vital/kwiversys/SystemTools.cxx: SystemTools::ConvertToWindowsOutputPath"]}
{"id": "C133", "title": "The signature and the type of a file", "statement": "FileHasSignature is true exactly if the file can be opened and the bytes of the signature are in it at the offset; a negative offset is taken for 0, the empty signature is found in everything that can be opened at any offset, and NULL arguments and directories give false. DetectFileType is unknown exactly for NULL, a negative percentage, a length of 0, directories, names that cannot be opened and empty files; else it is binary if the share of the first length bytes that are not 32..127, tab, line feed or return is at least percent_bin, and text if the share is smaller by more than the rounding of one division. With the default arguments it is binary exactly if at least one in twenty of the first 256 bytes is no text, for all files. Documented differently: exactly 5 % is already binary (\"more than\"), DEL counts as text, and with a percentage of 0 every file is binary.", "quantifier": "all files, signatures, offsets, lengths and percentages (all doubles)", "why_tests_cant": "the boundary of a rounded floating point quotient and the claims about all byte sequences are beyond test cases", "anchors": ["vital/kwiversys/SystemTools.cxx: SystemTools::FileHasSignature", "vital/kwiversys/SystemTools.cxx: SystemTools::DetectFileType"]}
{"id": "C134", "title": "Environment variables", "statement": "After any sequence of PutEnv(\"n=v\"), PutEnv(\"n\"), UnPutEnv(\"n\") and UnPutEnv(\"n=v\") GetEnv of any name gives the value the last call about this name set (also the empty text), nothing if that call removed it, and the value from before the sequence if there was no such call; all of them return true. PutEnv(\"=v\") returns false and changes nothing, UnPutEnv without a name returns true and changes nothing; GetEnv with a result leaves the result alone when there is no variable. A NUL byte in the argument hides the rest of the name, so PutEnv sets another variable.", "quantifier": "all environments, all histories of calls, all names and values", "why_tests_cant": "histories of calls on any environment, with duplicate or malformed entries", "anchors": ["vital/kwiversys/SystemTools.cxx: SystemTools::PutEnv", "vital/kwiversys/SystemTools.cxx: SystemTools::UnPutEnv", "vital/kwiversys/SystemTools.cxx: SystemTools::GetEnv"]}
{"id": "C135", "title": "Times of files", "statement": "FileTimeCompare stores -1, 0 or 1 as the first file is older than, as old as, or newer than the second, to the nanosecond; exchanging the files changes the sign, and the order is transitive; if a file is missing it returns false and stores 0. Touch of a readable file the caller owns returns true, sets its time to now and changes nothing else, after which the file is not older than any file whose time is not in the future; for another's file it returns false and changes nothing. With create a missing file is made, empty, or the result is false. Without create, true does not mean a time was set: a missing file and one the caller may not read give true and nothing is changed.", "quantifier": "all file systems and times", "why_tests_cant": "an order must be transitive for all triples; effects on all other files cannot be enumerated", "anchors": ["vital/kwiversys/SystemTools.cxx: SystemTools::FileTimeCompare", "vital/kwiversys/SystemTools.cxx: SystemTools::Touch", "vital/kwiversys/SystemTools.cxx: SystemTools::FileExists"]}
{"id": "C136", "title": "The settings of a process object", "statement": "After any sequence of calls on a new process object, every setting is what the calls say: a pipe is connected to the target of the last call that chose one for it (a file, the parent's descriptor, the caller's pipe, or the object itself), a call that turns a kind of target off counts only while that kind is in use, calls about one pipe leave the others alone, standard input starts as the parent's and the outputs as the object's; options, timeout (negative becomes 0) and working directory are the last values given; the commands are those added since the last SetCommand, each with exactly the strings of its array, or, with the verbatim option on, the words its first string means as a command line, the other strings being ignored. Adding returns 1 exactly if there was something to add; numbers that are no pipe or option change nothing; null objects are left alone and report 0. A SetCommand that fails has already removed the commands set before.", "quantifier": "all sequences of calls of SetCommand, AddCommand, SetTimeout, SetWorkingDirectory, SetPipeFile, SetPipeShared, SetPipeNative and SetOption, with all arguments", "why_tests_cant": "the setters of a pipe undo one another, so the result depends on the whole history", "anchors": ["vital/kwiversys/ProcessUNIX.c: kwsysProcess_New", "vital/kwiversys/ProcessUNIX.c: kwsysProcess_SetCommand", "vital/kwiversys/ProcessUNIX.c: kwsysProcess_AddCommand", "vital/kwiversys/ProcessUNIX.c: kwsysProcess_SetTimeout", "vital/kwiversys/ProcessUNIX.c: kwsysProcess_SetWorkingDirectory", "vital/kwiversys/ProcessUNIX.c: kwsysProcess_SetPipeFile", "vital/kwiversys/ProcessUNIX.c: kwsysProcess_SetPipeShared", "vital/kwiversys/ProcessUNIX.c: kwsysProcess_SetPipeNative", "vital/kwiversys/ProcessUNIX.c: kwsysProcess_GetOption", "vital/kwiversys/ProcessUNIX.c: kwsysProcess_SetOption", "vital/kwiversys/ProcessUNIX.c: kwsysProcess_Execute"]}
{"id": "C137", "title": "Running processes and signals", "statement": "However many processes are started and ended in whatever order, and whenever memory or pipes are refused, the SIGCHLD handler visits exactly the processes registered, in bounds. Each of them has at most one byte in its signal pipe however many children end, and has one if a child ended while it was registered and it has not read the pipe since -- even if the signal arrives while another process is being taken out of the table. While a process is registered the three signals are the library's; when none is left SIGCHLD has its former action again. SIGINT and SIGTERM have not: after the first time SIGINT has the former action of SIGTERM, later the default one, and SIGTERM always the default one.", "quantifier": "all sequences of starting and ending processes, failures, signals (also between two writes of a removal) and reads, all former signal actions", "why_tests_cant": "signals arrive at any point; the schedules and histories cannot be enumerated", "anchors": ["vital/kwiversys/ProcessUNIX.c: kwsysProcessesAdd", "vital/kwiversys/ProcessUNIX.c: kwsysProcessesRemove", "vital/kwiversys/ProcessUNIX.c: kwsysProcessesSignalHandler", "vital/kwiversys/ProcessUNIX.c: kwsysProcessesUpdate"]}
{"id": "C138", "title": "Times and timeouts of a process", "statement": "A timeout of any number of seconds from 0 to below 2^63 becomes whole seconds and fewer than 1000000 microseconds, within a microsecond and rounding of it. Adding and subtracting times is exact; differences are proper times again and comparison is that of the numbers. A process with a positive timeout has one deadline, start plus timeout, the same however often it is asked for; a wait ends at the earlier of it and the caller's own and says whose it was. What is left is exact to the microsecond, has expired once the deadline has passed, and is 0 rather than expired for a caller that asked not to wait, unless zero counts as expired. A sum can have 1000000 microseconds (the test is for more than that); then what is given to select may be no proper timeval, and a wait for a deadline exactly now counts as expired.", "quantifier": "all doubles, all times, all sequences of waits of one execution", "why_tests_cant": "claims over all doubles and their rounding, and over all clock readings", "anchors": ["vital/kwiversys/ProcessUNIX.c: kwsysProcessGetTimeoutTime", "vital/kwiversys/ProcessUNIX.c: kwsysProcessGetTimeoutLeft", "vital/kwiversys/ProcessUNIX.c: kwsysProcessTimeFromDouble", "vital/kwiversys/ProcessUNIX.c: kwsysProcessTimeLess", "vital/kwiversys/ProcessUNIX.c: kwsysProcessTimeAdd", "vital/kwiversys/ProcessUNIX.c: kwsysProcessTimeSubtract"]}
{"id": "C139", "title": "The data and the exit of a running process", "statement": "For a running process, whatever its children write and whenever they end, and however the caller waits: the data WaitForData returns for an output is, put together, the beginning of what the children wrote to it, in order, nothing twice; until the pipe is closed the rest is what is still unread. When WaitForData says there is no pipe and the process was not killed, did not expire and had no error, everything ever written to the object's pipes has been returned, nothing more can be written, and all children have been waited for. If the children have ended and the writing ends are closed, calling WaitForData again and again gets there, each call returning within three turns of select. When WaitForExit returns 1 the outcome is that of the last command (its exit value, or the exception for a signal) -- after all children were waited for, and neither killed nor expired -- or Killed only if the caller called Kill, Expired only if a call let the process's own timeout pass (the caller's own timeout never kills), or Error if select failed or some child was waited for by someone else; after that every call returns at once and changes nothing. Two limits: a child that someone else has waited for makes the calls wait for ever, even when all writing ends are closed; and Kill called twice before WaitForExit sends its second signals to process ids that are free for others.", "quantifier": "all numbers of commands, all schedules of writes, closes, ends and select results, all sequences of WaitForData, WaitForExit and Kill", "why_tests_cant": "the children run concurrently with the calls; only the histories of all of them together decide whether data or an exit is lost", "anchors": ["vital/kwiversys/ProcessUNIX.c: kwsysProcess_WaitForData", "vital/kwiversys/ProcessUNIX.c: kwsysProcessWaitForPipe", "vital/kwiversys/ProcessUNIX.c: kwsysProcess_WaitForExit", "vital/kwiversys/ProcessUNIX.c: kwsysProcess_Kill", "vital/kwiversys/ProcessUNIX.c: kwsysProcessDestroy", "vital/kwiversys/ProcessUNIX.c: kwsysProcessClosePipes", "vital/kwiversys/ProcessUNIX.c: kwsysProcessCleanup"]}
{"id": "C140", "title": "Starting a process", "statement": "Whatever system call fails while Execute starts a (not detached) process, no descriptor is closed twice and none that belongs to someone else is closed. If Execute ends in Error, the descriptors open afterwards are those open before without the caller's native pipe ends that were already taken over -- one more is left open only if setting the close-on-exec flag of an output file fails -- and every child that was started has been signalled and waited for; but if fork itself fails, its -1 is used as a process id and everybody the caller may signal is killed. If it ends in Executing, every command has a child, the children are wired as a pipeline (the first reads the configured input, each next reads a pipe written by the one before, the last writes the configured output, all errors go to one place), exactly four descriptors have been added -- the read ends of the two outputs and the two ends of the pipe of the signal handler -- and the native ends are closed in the caller; what the end of the process closes afterwards is exactly those four.", "quantifier": "all configurations (files, shared, native, object pipes; merged output; working directory; any number of commands) and all sequences of answers of the system to pipe, open, fcntl, fork, read and the other calls", "why_tests_cant": "an error at each of the dozens of system calls leads to a different cleanup; tests cannot make them fail one by one, nor for every number of commands", "anchors": ["vital/kwiversys/ProcessUNIX.c: kwsysProcess_Execute", "vital/kwiversys/ProcessUNIX.c: kwsysProcessCreate", "vital/kwiversys/ProcessUNIX.c: kwsysProcessSetupOutputPipeFile", "vital/kwiversys/ProcessUNIX.c: kwsysProcessSetupOutputPipeNative", "vital/kwiversys/ProcessUNIX.c: kwsysProcessesAdd", "vital/kwiversys/ProcessUNIX.c: kwsysProcessCleanup", "vital/kwiversys/ProcessUNIX.c: kwsysProcessCleanupDescriptor"]}
{"id": "C141", "title": "Coloured output and the width of the terminal", "statement": "Where colours are not used -- the stream is no terminal, EMACS begins with t, or TERM is not in the list of known terminals and AssumeVT100 is not given -- the bytes that cfprintf writes are exactly the text. Where they are used, a VT100 terminal shows each text without escape characters with the foreground, background and boldness its own call asks for (a background bold is ignored, an unknown colour is none), shows nothing else, and is in its normal state after each call, so that no call changes the look of another, for all mixtures of coloured and plain calls. Even if the text contains escape sequences, complete or not, and whatever was on the terminal before, the terminal is in its normal state after a coloured call. The width of the terminal is the number in COLUMNS if that is a C number (decimal, octal or hexadecimal, blanks and a plus before it allowed, nothing after it) from 1 to 999, otherwise the columns of the terminal at standard output; below 9 it is -1, and it never exceeds 65535.", "quantifier": "all texts, all colour specifications, all environments, all sequences of calls, all states of the terminal; all values of COLUMNS", "why_tests_cant": "what a terminal shows depends on everything written before; tests see bytes of single calls", "anchors": ["vital/kwiversys/Terminal.c: kwsysTerminal_cfprintf", "vital/kwiversys/Terminal.c: kwsysTerminalStreamIsVT100", "vital/kwiversys/Terminal.c: kwsysTerminalSetVT100Color", "vital/kwiversys/SystemTools.cxx: GetTerminalWidth"]}
{"id": "C142", "title": "The memory of the machine", "statement": "On a Linux kernel with a one-digit major version from 3, for every /proc/meminfo made of lines up to 1000 characters in which each of MemTotal, MemFree, Buffers, Cached, SwapTotal and SwapFree has a line with a number, QueryMemory stores in MiB, rounded down: the total memory, the sum of free, buffer and cache memory, the total and the free swap space -- taken from the first line for each, wherever the lines stand and whatever other lines there are; if a line is missing it fails and changes nothing. On kernels 2.1 to 2.5 the same holds for the old format. A kernel whose major version has two digits (10 to 29) is taken for an old one, and its memory is not found (recorded as refuted).", "quantifier": "all texts of /proc/meminfo made of such lines, in any order, all numbers below 2^64, all releases", "why_tests_cant": "the text comes from the kernel of the machine the program runs on; a test sees one kernel and one machine", "anchors": ["vital/kwiversys/SystemInformation.cxx: QueryLinuxMemory", "vital/kwiversys/SystemInformation.cxx: GetTotalPhysicalMemory", "vital/kwiversys/SystemInformation.cxx: GetAvailablePhysicalMemory", "vital/kwiversys/SystemInformation.cxx: GetTotalVirtualMemory", "vital/kwiversys/SystemInformation.cxx: GetAvailableVirtualMemory"]}
{"id": "C143", "title": "How many processors there are", "statement": "On Linux, for every well-formed /proc/cpuinfo in which the searched keys occur only at the beginning of keys: the number of logical processors is the number of lines of the key \"processor\"; if the highest \"physical id\" is T, at least 1, the number of physical processors is the first \"cpu cores\" times T + 1, in whatever order the ids come and whatever other keys begin alike; the logical processors per physical one are the quotient, and the divisor is never 0. On a machine with one socket (all physical ids 0) the number of physical processors is 1 however many cores it has (recorded as refuted).", "quantifier": "all texts of /proc/cpuinfo made of such lines, all numbers of processors, ids and cores", "why_tests_cant": "the text comes from the kernel; a test sees the processors of one machine", "anchors": ["vital/kwiversys/SystemInformation.cxx: RetreiveInformationFromCpuInfoFile", "vital/kwiversys/SystemInformation.cxx: ExtractValueFromCpuInfoFile", "vital/kwiversys/SystemInformation.cxx: GetNumberOfLogicalCPU", "vital/kwiversys/SystemInformation.cxx: GetNumberOfPhysicalCPU"]}
{"id": "C144", "title": "Which processor it is", "statement": "On Linux, for every well-formed /proc/cpuinfo in which the searched keys occur only at the beginning of keys: family, model and stepping are the numbers of the first \"cpu family\" (or else \"CPU architecture\"), \"model\" and \"stepping\" (or else \"CPU revision\"), also when \"model name\" comes before \"model\"; the model name and the vendor string are the first values of their keys, unchanged; the vendor ID is the company of the vendor string in a table of 15, \"Hewlett-Packard\" for a family that begins with PA-RISC, and \"Unknown Manufacturer\" otherwise; the cache size is the number before \" KB\", and the sum of the instruction and data caches on PA-RISC.", "quantifier": "all texts of /proc/cpuinfo made of such lines, all values", "why_tests_cant": "the text comes from the kernel; a test sees one processor", "anchors": ["vital/kwiversys/SystemInformation.cxx: RetreiveInformationFromCpuInfoFile", "vital/kwiversys/SystemInformation.cxx: FindManufacturer", "vital/kwiversys/SystemInformation.cxx: GetVendorID", "vital/kwiversys/SystemInformation.cxx: GetVendorString", "vital/kwiversys/SystemInformation.cxx: GetModelName", "vital/kwiversys/SystemInformation.cxx: GetProcessorCacheSize"]}
{"id": "C145", "title": "What the processor can do", "statement": "On Linux, after RunCPUCheck, for every well-formed /proc/cpuinfo with a stepping or revision: a request to DoesCPUSupportFeature that asks for no cache is answered with yes exactly if one of the flags it asks for (mmx, sse, sse2, 3dnow, apic, cmov, mtrr, acpi) is a word of the flags line -- sse4_2 is not sse. If there is neither a stepping nor a revision, no flag is seen, whatever the line lists; and second and third level caches are reported for every machine (both recorded as refuted).", "quantifier": "all texts of /proc/cpuinfo made of such lines, all lists of flags, all request masks", "why_tests_cant": "the text comes from the kernel; a test sees the flags of one processor", "anchors": ["vital/kwiversys/SystemInformation.cxx: RetreiveInformationFromCpuInfoFile", "vital/kwiversys/SystemInformation.cxx: DoesCPUSupportFeature"]}
{"id": "C146", "title": "How much memory there is for a process", "statement": "On Linux, for every /proc/meminfo of lines up to 1000 characters whose first line with MemTotal: says so (and MemFree:): GetHostMemoryTotal is that number, GetHostMemoryUsed the difference; without the file or the line they are -1, -1 / -2 / -3. GetHostMemoryAvailable and GetProcMemoryAvailable are exactly the least of the total, the limits in the given environment variables (negative, 0, empty or unset: no limit) and the finite data and address space limits of the process, in KiB. GetProcMemoryUsed is the number of the first line with VmRSS: in /proc/self/status -- wherever in the line it stands, so a program whose name is VmRSS:<n> is said to use n KiB (recorded as refuted).", "quantifier": "all contents of the files, all numbers, all combinations of limits", "why_tests_cant": "the files come from the kernel, and the limits from the administrator; a test sees one combination", "anchors": ["vital/kwiversys/SystemInformation.cxx: GetHostMemoryTotal", "vital/kwiversys/SystemInformation.cxx: GetHostMemoryUsed", "vital/kwiversys/SystemInformation.cxx: GetHostMemoryAvailable", "vital/kwiversys/SystemInformation.cxx: GetProcMemoryAvailable", "vital/kwiversys/SystemInformation.cxx: GetProcMemoryUsed", "vital/kwiversys/SystemInformation.cxx: LoadLines", "vital/kwiversys/SystemInformation.cxx: NameValue", "vital/kwiversys/SystemInformation.cxx: GetFieldsFromFile"]}
{"id": "C147", "title": "The description of the processor", "statement": "GetCPUDescription always ends, and its text is \"<number of physical processors> core <model name>\" -- or, without a model name, the frequency, \"MHz\", the vendor and the name of the processor -- with every run of blanks written as one blank; no two blanks stand next to each other, nothing else is changed, and only one text is like that.", "quantifier": "all model names, vendors and names, with blanks anywhere and in any number", "why_tests_cant": "the loop replaces the first two blanks until there are none; that it ends and forgets nothing must hold for every name", "anchors": ["vital/kwiversys/SystemInformation.cxx: GetCPUDescription"]}
