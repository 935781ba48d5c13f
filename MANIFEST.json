{
 "claims": [
  {
   "property": "C01",
   "status": "proved",
   "theorems": [
    "C01_bytes_delivered"
   ],
   "note": "All streams, chunk schedules, contents of the uninitialised array and interleavings of get with single ungets; array bounds and assertions included."
  },
  {
   "property": "C02",
   "status": "partial",
   "theorems": [
    "C02_columns",
    "C02_positions_partial",
    "C02_crlf_at_wrap_refuted",
    "C02_lf_at_wrap_refuted"
   ],
   "note": "Columns always right. Lines right unless a LF right after a wrap of the 256 byte array (bytes 254, 509, ...) has a CR in exactly one of the two bytes before it; refuted there for every chunk schedule."
  },
  {
   "property": "C03",
   "status": "partial",
   "theorems": [
    "C03_token_partial",
    "C03_ends_partial",
    "C03_never_loops",
    "C03_overflow_refuted",
    "C03_truncated_string_refuted",
    "C03_long_array_refuted"
   ],
   "note": "Proved for every tokeniser state and every byte string without a decimal number above INT_MAX; such numbers overflow a signed int (refuted), a string or array cut short by the end of file is padded with bytes not in the file (refuted). Token contents are the subject of C04 and C05."
  },
  {
   "property": "C04",
   "status": "proved",
   "theorems": [
    "C04_binary_roundtrip",
    "C04_any_names",
    "C03_never_loops"
   ],
   "note": "All calls of the interface, with asserts on or off, reading is unique. C04_any_names: any at most 256 names without asserts, 255 with asserts compiled in (the assert fires one early)."
  },
  {
   "property": "C05",
   "status": "partial",
   "theorems": [
    "C05_ascii_roundtrip_partial",
    "C05_ascii_escapes",
    "C05_survives_iff_plain",
    "C05_backslash_refuted",
    "C05_int_min_refuted",
    "C05_comment_refuted"
   ],
   "note": "Missing because false: strings with characters the writer escapes (backslash sequences are not undone for some characters), INT_MIN, comments with newlines. C05_survives_iff_plain characterises exactly the strings that survive."
  },
  {
   "property": "C06",
   "status": "partial",
   "theorems": [
    "C06_request_codes_partial",
    "C06_names_257_refuted",
    "C06_names_256_refuted"
   ],
   "note": "Holds for every sequence of requests of the interface (108 names), of any length. False for the formatter with 257 names (a code is reused) and, with asserts, 256 names."
  },
  {
   "property": "C07",
   "status": "proved",
   "theorems": [
    "C07_no_request_lost",
    "C07_parser_ends",
    "C07_recovery"
   ],
   "note": "Every token list, every handler (a strategy of reads depending on earlier results). Request names are seen as C strings, i.e. up to the first zero byte."
  },
  {
   "property": "C08",
   "status": "partial",
   "theorems": [
    "C08_typed_read_partial",
    "C08_zero_byte_refuted"
   ],
   "note": "Every lexer state and every kind of read. Strings containing zero bytes are refuted: the caller sees a C string."
  },
  {
   "property": "C09",
   "status": "partial",
   "theorems": [
    "C09_accepted_nested_partial",
    "C09_nested_accepted",
    "C09_steps_scoped",
    "C09_stray_archive_end_refuted",
    "C09_archive_contents_refuted",
    "C09_failing_end_refuted",
    "C09_primitive_outside_world_refuted",
    "C09_clipping_plane_refuted"
   ],
   "note": "Accepted calls are nested and nested calls are accepted, for every call sequence in strict and relaxed mode. Refuted: stray ArchiveEnd, archive contents, an End for which the next filter throws, primitives outside a world in a transform or motion block, ClippingPlane inside a world."
  },
  {
   "property": "C10",
   "status": "partial",
   "theorems": [
    "C10_first_true_clause_partial",
    "C10_nested_conditional_refuted",
    "C10_unmatched_else_refuted"
   ],
   "note": "Refuted: one flag for the true clause is shared by all nesting levels, so a false conditional nested in a taken clause makes later clauses run as well. Proved for streams of any depth with no conditional in a clause followed by another one."
  },
  {
   "property": "C11",
   "status": "partial",
   "theorems": [
    "C11_replay_is_inlining_partial",
    "C11_only_inlining_partial",
    "C11_meaning_is_unique",
    "C11_comments_lost_refuted",
    "C11_self_redefinition_refuted",
    "C11_self_read_refuted",
    "C11_nested_object_refuted"
   ],
   "note": "Refuted for comments, archives redefining or reading themselves, and nested objects. Proved in both directions for all other streams, conditionals restricted as in C10."
  },
  {
   "property": "C12",
   "status": "partial",
   "theorems": [
    "C12_frames_kept_partial",
    "C12_blocks_removed",
    "C12_large_number_refuted",
    "C12_int_max_refuted",
    "C12_three_numbers_refuted"
   ],
   "note": "Proved for every frame list in the documented form whose numbers are ints below INT_MAX, and every request sequence. Refuted: larger numbers wrap, a range up to INT_MAX overflows, 6-9-12 is accepted."
  },
  {
   "property": "C13",
   "status": "partial",
   "theorems": [
    "C13_round_trip_partial",
    "C13_unprintable_types_refuted",
    "C13_words_unique",
    "C13_grammar_accepted_partial",
    "C13_only_grammar_accepted_partial",
    "C13_last_declaration_partial",
    "C13_never_declared",
    "C13_histories_covered",
    "C13_inline_wins_partial",
    "C13_keyword_name_refuted",
    "C13_large_size_refuted",
    "C13_bracket_name_refuted"
   ],
   "note": "Round trip of printed tokens for the nine types with a keyword; exact grammar of declarations in both directions; last declaration wins, inline declaration overrides. Refuted: types bool, void, triple, sixteentuple do not round trip, names that are keywords cannot be looked up, large array sizes wrap, '[' accepted as a name."
  },
  {
   "property": "C14",
   "status": "proved",
   "theorems": [
    "C14_bitvectors_are_sets",
    "C14_intersect_different_sizes_refuted",
    "C14_union_different_sizes_refuted",
    "C14_count_after_shrink_refuted"
   ],
   "note": "Refinement of CqBitVector to lists of booleans for all operation sequences on equal lengths; the refuted theorems show what happens outside the property (different lengths, shrinking)."
  },
  {
   "property": "C15",
   "status": "proved",
   "theorems": [
    "C15_simd_equals_per_point",
    "C15_operand_order_refuted",
    "C15_uniform_in_varying_conditional_refuted"
   ],
   "note": "Compiler and VM simulation for every program, point count and value domain; the refuted theorems show that each language rule in the hypothesis is needed."
  },
  {
   "property": "C16",
   "status": "partial",
   "theorems": [
    "C16_stacks_balanced_partial",
    "C16_loop_increment_refuted"
   ],
   "note": "Static stack heights are an invariant of every execution, for bodies whose expression statements are assignments or dropped calls. Missing: for-loop increments that are not assignments, where the claim is refuted (a value is left on the stack each round)."
  },
  {
   "property": "C17",
   "status": "partial",
   "theorems": [
    "C17_csg_is_boundary_partial",
    "C17_eye_inside_refuted"
   ],
   "note": "Exact characterisation of the surviving hits for all trees, forests and hit lists when the ray starts outside every primitive. With the eye inside a primitive the claim is refuted."
  },
  {
   "property": "C18",
   "status": "proved",
   "theorems": [
    "C18_csg_terminates"
   ],
   "note": "Bound: one round per tree."
  },
  {
   "property": "C19",
   "status": "proved",
   "theorems": [
    "C19_culled",
    "C19_total",
    "C19_leaves",
    "C19_lowered",
    "C19_kept"
   ],
   "note": "Whole occlusion tree and the occlusion part of StoreSample, any history, stale trees, midpoint filter, hits inherited from neighbours. Positions and depths are integers in a small enough unit, so rounding of node corners is not modelled; lceil(log2(n)) is any number of subdivisions covering n; bounds with a nearest depth beyond FLT_MAX are excluded."
  },
  {
   "property": "C20",
   "status": "proved",
   "theorems": [
    "C20_samples_stratified"
   ],
   "note": "All sample counts, cached patterns, requests and outcomes of the random generator; positions in exact rational arithmetic (float rounding of the positions not modelled)."
  },
  {
   "property": "C21",
   "status": "proved",
   "theorems": [
    "C21_keyframes"
   ],
   "note": "All operation histories, element types, concatenation and interpolation functions; times are finite floats; the fraction is exact."
  },
  {
   "property": "C22",
   "status": "partial",
   "theorems": [
    "C22_sharing_is_invisible",
    "C22_blocks_restore_partial",
    "C22_trim_curves_refuted",
    "C22_unaccepted_block_refuted"
   ],
   "note": "Full refinement of pointers/reference counts/copy-on-write to value save/restore; restore theorem for blocks accepted where they are opened. Refuted: trim curves are dropped by every copy, so not inherited; a block its surroundings do not accept is ignored and its end closes the outer one."
  },
  {
   "property": "C23",
   "status": "proved",
   "theorems": [
    "C23_tiles",
    "C23_texel",
    "C23_buffer"
   ],
   "note": "Model TexModel.v: CqTileArray with its tile cache, readTile with truncated edge tiles, both iterators. For every file of tiles, every region and every history of uses of the array. Numbers are unbounded integers; a texel is one value of any type. Reading the file cannot fail in the model; the cache is used by one thread."
  },
  {
   "property": "C24",
   "status": "partial",
   "theorems": [
    "C24_tiles_partial",
    "C24_buffer_partial",
    "C24_mixed_partial",
    "C24_mixed_refuted",
    "C24_far_refuted",
    "C24_trunc"
   ],
   "note": "Proved for black, periodic and clamp in both directions, in any combination except clamp with periodic, for regions that start within 2^24 texels of the texture, in flat and tiled textures. Refuted for clamp with periodic (filtertexture.h:180-208): texels outside in both directions are given no sample; C24_mixed_partial proves that exactly those are missing. Refuted farther away: the division of the first column by the width is made in floats."
  },
  {
   "property": "C25",
   "status": "partial",
   "theorems": [
    "C25_compiler_partial",
    "C25_machine_partial",
    "C25_machine_const_partial",
    "C25_operand_partial",
    "C25_params_partial",
    "C25_present",
    "C25_tables",
    "C25_refuted",
    "C25_length_refuted"
   ],
   "note": "Proved for names of at most 12 characters within 31 consecutive codes (for instance small letters); refuted otherwise: Os is taken for a parameter PT, and 13 letter names clash. Options are looked up in the same way (C49); attributes use a map by name and are not concerned."
  },
  {
   "property": "C26",
   "status": "partial",
   "theorems": [
    "C26_partial",
    "C26_within_partial",
    "C26_expanded_within",
    "C26_within_refuted",
    "C26_pieces",
    "C26_refuted",
    "C26_expands",
    "C26_numbers"
   ],
   "note": "Exactly the strings of ASCII characters without quotes, backslashes and controls without a letter come back; a trailing backslash makes translation read outside the string, any other string is translated within it."
  },
  {
   "property": "C27",
   "status": "partial",
   "theorems": [
    "C27_partial",
    "C27_assign_partial",
    "C27_same",
    "C27_ends",
    "C27_accepts_partial",
    "C27_overload_partial",
    "C27_assign_refuted",
    "C27_logical_refuted",
    "C27_variadic_refuted",
    "C27_parameterless_refuted",
    "C27_choose_refuted",
    "C27_scaled_refuted",
    "C27_order_refuted"
   ],
   "note": "Proved for every expression tree, overload set and list of requested types: an accepted expression, with the inserted casts, is well typed with one of the requested types and every cast is a conversion of the language; only casts are added; the checker ends; well typed trees without calls are accepted; an exactly matching function wins. Partial: the statement is false of nested assignments whose value is the direct result of a call, of logical operators requested as something else than a number, of arguments beyond the parameters of a variadic function (never looked at), and calls of functions without parameters read parameters that do not exist. Calls of unknown functions, statements and the uniform/varying check of assignments (a flag) are not modelled."
  },
  {
   "property": "C28",
   "status": "partial",
   "theorems": [
    "C28_composite_partial",
    "C28_matte_opacity_refuted",
    "C28_mattealpha_order_refuted",
    "C28_average_refuted",
    "C28_average_nan_refuted",
    "C28_midpoint_refuted",
    "C28_equal_depth_refuted"
   ],
   "note": "For hits with opacity in [0,1], no MatteAlpha, distinct depths: colour always; opacity without matte objects; min, max and (when micropolygon opacity agrees with hit opacity) midpoint depth. Each excluded case is refuted, including the average filter. Exact rationals, no CSG, no output variables."
  },
  {
   "property": "C29",
   "status": "partial",
   "theorems": [
    "C29_pool_is_invisible_partial",
    "C29_references_are_exact",
    "C29_missing_output_variable_refuted"
   ],
   "note": "Recycling is invisible when stores into the occluding storage write every value; otherwise refuted (a stale value is read). Reference exactness is proved without that condition."
  },
  {
   "property": "C30",
   "status": "partial",
   "theorems": [
    "C30_mesh_counts_partial",
    "C30_mesh_counts_exist_partial",
    "C30_curves_counts_partial",
    "C30_pieces_unique",
    "C30_renderer_mesh_counts_partial",
    "C30_renderer_curves_counts_partial",
    "C30_few_vertices_refuted",
    "C30_large_mesh_refuted"
   ],
   "note": "Holds for meshes and curves with enough vertices for a piece and counts within int. Refuted: a cubic mesh with fewer than four vertices across gets a patch or asks for values of patches there are not; counts beyond int are undefined."
  },
  {
   "property": "C31",
   "status": "partial",
   "theorems": [
    "C31_missing_partial",
    "C31_unparsed_partial",
    "C31_unknown_partial",
    "C31_integer_partial",
    "C31_float_partial",
    "C31_triple_partial",
    "C31_operation_partial",
    "C31_float_operation_partial",
    "C31_text",
    "C31_other",
    "C31_defined_partial",
    "C31_right_refuted",
    "C31_relation_refuted",
    "C31_long_refuted",
    "C31_name_refuted",
    "C31_fraction_refuted",
    "C31_unequal_refuted"
   ],
   "note": "Left sides that cannot be parsed and unknown parameters count as true and comparisons have their meaning; refuted where the relation or right side cannot be parsed (false), an integer is compared with a fraction, or names are too long or missing (undefined)."
  },
  {
   "property": "C32",
   "status": "partial",
   "theorems": [
    "C32_position_restored",
    "C32_continues_partial",
    "C32_plain_outer_partial",
    "C32_read_to_end",
    "C32_inner_alone",
    "C32_inner_codes_leak_refuted",
    "C32_within_array_refuted"
   ],
   "note": "Position and stocked token always restored. Token-for-token continuation holds if the inner stream has no definitions/encoded arrays or the outer one uses no codes; refuted otherwise, since the code tables and array counter are not saved."
  },
  {
   "property": "C33",
   "status": "partial",
   "theorems": [
    "C33_random_in_range_partial",
    "C33_reseed_gives_mt19937",
    "C33_constructor_seed_refuted",
    "C33_tiny_range_refuted"
   ],
   "note": "All histories of constructions, reseeds and draws; single/double rounding modelled with Flocq. Ranges restricted by op_ok: for a subnormal range the bound itself can be returned (refuted). Also refuted: a constructor's seed has an effect."
  },
  {
   "property": "C34",
   "status": "partial",
   "theorems": [
    "C34_literal_partial",
    "C34_fixed_point"
   ],
   "note": "Exact rational arithmetic instead of floats; whole part and exponent fit in an int (C03_overflow_refuted otherwise)."
  },
  {
   "property": "C35",
   "status": "proved",
   "theorems": [
    "C35_codes"
   ],
   "note": "Every sequence of definitions (name spelt as a short encoded string) and uses."
  },
  {
   "property": "C36",
   "status": "proved",
   "theorems": [
    "C36_values_stay",
    "C36_name_stays"
   ],
   "note": "Reused buffer pools of the lexer."
  },
  {
   "property": "C37",
   "status": "proved",
   "theorems": [
    "C37_written_requests_read"
   ],
   "note": "Writer (binary), tokeniser and lexer composed."
  },
  {
   "property": "C38",
   "status": "partial",
   "theorems": [
    "C38_text_tokens_partial"
   ],
   "note": "Missing: numbers whose whole part or exponent exceeds an int (undefined behaviour in the code), and rounding of floats."
  },
  {
   "property": "C39",
   "status": "partial",
   "theorems": [
    "C39_reads_partial",
    "C39_asks_no_more_partial",
    "C39_reads_all_partial",
    "C39_positions_partial",
    "C39_negative_count_refuted",
    "C39_negative_vertex_refuted",
    "C39_position_type_refuted",
    "C39_face_varying_refuted",
    "C39_high_order_refuted",
    "C39_crease_refuted",
    "C39_corner_refuted",
    "C39_empty_polygon_refuted",
    "C39_general_polygon_refuted",
    "C39_unknown_basis_refuted",
    "C39_refused_refuted",
    "C39_overflow_refuted"
   ],
   "note": "Proved for proper calls (no negative counts or vertex numbers, no empty loops, positions as wide as their name promises, orders no larger than the control point counts, general polygons without uniform or face varying variables unless they are one triangle, tags with their floats and at vertices of faces) when the basis is known and the call is not inside an archive. Every restriction is shown necessary by a refutation."
  },
  {
   "property": "C40",
   "status": "partial",
   "theorems": [
    "C40_mesh_partial",
    "C40_mesh_values_exist",
    "C40_mesh_corners_used",
    "C40_cubic_curves_partial",
    "C40_linear_curves_partial",
    "C40_uniform_rows_refuted",
    "C40_uniform_rows_bilinear_refuted",
    "C40_empty_curve_refuted",
    "C40_short_curve_refuted"
   ],
   "note": "Corners, ends and vertices are right for all meshes and curves with enough vertices. Refuted: patches beyond the first row take the uniform values of the first row; an empty linear curve shifts the vertices of later curves."
  },
  {
   "property": "C41",
   "status": "partial",
   "theorems": [
    "C41_own_partial",
    "C41_before_partial",
    "C41_refuted"
   ],
   "note": "Holds when all vertex numbers are numbers of vertices; a wrong number in one polygon makes all later polygons disappear (refuted)."
  },
  {
   "property": "C42",
   "status": "proved",
   "theorems": [
    "C42_edges",
    "C42_area",
    "C42_winding",
    "C42_convex",
    "C42_once",
    "C42_corners",
    "C42_pieces",
    "C42_linear",
    "C42_four"
   ],
   "note": "Coordinates are integers in a plane. Positions, varying, face varying and uniform values are taken from the right places. How the phantom half of a triangular piece is kept from view when the piece is diced is not modelled."
  },
  {
   "property": "C43",
   "status": "partial",
   "theorems": [
    "C43_edges_partial",
    "C43_area_partial",
    "C43_direction_partial",
    "C43_cover_partial",
    "C43_vertices_partial",
    "C43_convex_partial",
    "C43_clear_partial",
    "C43_stuck_partial",
    "C43_loops_partial",
    "C43_extent_partial",
    "C43_plane_partial",
    "C43_values_partial",
    "C43_orientation_partial",
    "C43_wall_refuted",
    "C43_points_wall_refuted",
    "C43_bridge_refuted",
    "C43_orientation_refuted",
    "C43_values_refuted",
    "C43_empty_refuted"
   ],
   "note": "Covering, area and direction are proved for divisions that reach the last triangle, which is proved for convex loops; a division that stops earlier leaves vertices none of which can be cut off (stuck), but that a loop that does not cut itself always reaches the end is missing. Refuted: walls at 45 degrees vanish, holes are joined across the outside, GeneralPolygon turns the orientation attribute, a vertex used twice shifts face varying values, empty loops are undefined."
  },
  {
   "property": "C44",
   "status": "partial",
   "theorems": [
    "C44_tiles_partial",
    "C44_buffer_partial",
    "C44_nowrap",
    "C44_between"
   ],
   "note": "Exact arithmetic instead of floats; the wrap modes and far regions that C24 does not cover are missing."
  },
  {
   "property": "C45",
   "status": "partial",
   "theorems": [
    "C45_read_tiled",
    "C45_refused",
    "C45_tiled_partial",
    "C45_scanlines",
    "C45_bands_refuted",
    "C45_read_within",
    "C45_written_from"
   ],
   "note": "Proved for scanlines with any number of calls and for tiles with one call; a tiled file written with several calls loses its later rows of tiles (C45_bands_refuted)."
  },
  {
   "property": "C46",
   "status": "partial",
   "theorems": [
    "C46_levels_partial",
    "C46_read_back",
    "C46_checked",
    "C46_one_colour_partial",
    "C46_loss",
    "C46_lookup",
    "C46_blur",
    "C46_lookup_colour",
    "C46_bytes",
    "C46_small_weights_refuted",
    "C46_wide_refuted",
    "C46_signed_refuted",
    "C46_integers_refuted",
    "C46_large_refuted"
   ],
   "note": "Proved for float and byte textures whose filter weights are all kept; refuted: weights below 1e-5 are dropped after normalisation, signed values become 0, 16 bit values lose one per level and 32 bit values are undefined, and widths above 2^24 are refused when read. Numbers of the filter are rationals."
  },
  {
   "property": "C47",
   "status": "partial",
   "theorems": [
    "C47_partial",
    "C47_kept",
    "C47_refuted"
   ],
   "note": "Proved while samples times texels stay below 2^24; refuted beyond: rounding can leave a sample after the last tile, then the program divides by zero."
  },
  {
   "property": "C48",
   "status": "partial",
   "theorems": [
    "C48_shadow_partial",
    "C48_random_partial",
    "C48_shade",
    "C48_range",
    "C48_view"
   ],
   "note": "Exact arithmetic for depths and weights; random sampling limited as in C47; transformation of points into the map is not modelled."
  },
  {
   "property": "C49",
   "status": "partial",
   "theorems": [
    "C49_partial",
    "C49_request_partial",
    "C49_kept_partial",
    "C49_frame_partial",
    "C49_imager_refuted",
    "C49_size_refuted",
    "C49_hang_refuted"
   ],
   "note": "Refuted: an imager set outside and again inside a frame is deleted while in use; values of another number or type; unclosed %. Names whose hashes agree are excluded (C25). Nested blocks inside ResourceBegin and the options outside any block are not modelled."
  },
  {
   "property": "C50",
   "status": "partial",
   "theorems": [
    "C50_expand_partial",
    "C50_pieces",
    "C50_expand_refuted",
    "C50_directories",
    "C50_listed",
    "C50_find_partial",
    "C50_direct_partial",
    "C50_empty",
    "C50_resource_partial",
    "C50_unreadable_refuted"
   ],
   "note": "Refuted: an odd number of % never ends; a directory that cannot be read ends the search with an exception. Windows paths and names beginning with two slashes are not modelled."
  },
  {
   "property": "C51",
   "status": "partial",
   "theorems": [
    "C51_picture_partial",
    "C51_size_partial",
    "C51_waiting_partial",
    "C51_small_buckets_refuted",
    "C51_empty_crop_refuted",
    "C51_outside_crop_refuted"
   ],
   "note": "Proved for all options whose buckets are at least as large as the part two buckets share, and for the pixels of the crop window. Refuted for smaller buckets (rendering stops with an exception), for empty crop windows (a bucket outside of the grid) and for the pixels of the outermost buckets outside of the crop window. Occlusion, level of detail, motion and depth of field are not part of this model."
  },
  {
   "property": "C52",
   "status": "proved",
   "theorems": [
    "C52_buckets",
    "C52_positions",
    "C52_picture",
    "C52_dishonest_refuted"
   ],
   "note": "C52_buckets is the statement for every bucket size; C52_positions says the same for each sampled position, C52_picture composes it with C51; both need buckets as large as what two buckets share, since rendering stops otherwise (C51). C52_dishonest_refuted shows what happens outside of the quantifier, to a part that reaches the plane of the eye of a surface that does not."
  },
  {
   "property": "C53",
   "status": "partial",
   "theorems": [
    "C53_value_partial",
    "C53_flat_partial",
    "C53_between_partial",
    "C53_wide_refuted",
    "C53_alpha_refuted",
    "C53_coverage_refuted",
    "C53_cancel_refuted"
   ],
   "note": "Proved for filters whose width rounded up is at most twice the whole half width plus one (all whole widths), samples strictly inside their pixels and weights that do not cancel. Refuted: a width of 1.5 reaches samples that are not looked at; alpha of a half covered pixel is a quarter (coverage counted twice) and its depth lies in front of everything; coverage counts the hits of the whole filter; weights that cancel divide by zero."
  },
  {
   "property": "C54",
   "status": "partial",
   "theorems": [
    "C54_bucket_partial",
    "C54_scanline_partial",
    "C54_zfile_partial",
    "C54_scanline_left_refuted",
    "C54_scanline_right_refuted",
    "C54_wide_refuted",
    "C54_signed_refuted",
    "C54_empty_refuted",
    "C54_zfile_refuted",
    "C54_name_refuted",
    "C54_name_alpha_refuted"
   ],
   "note": "Proved for every non-empty window, bucket size, picture and random numbers: bucket order with modes rgb, rgba, rgbaz and variables of 1 to 4 values, quantized to 8 or 16 bits without a sign or to floats; line order if the window begins at the left border, ends at the right one or at the end of a bucket and is as high as a bucket or as the picture; depth files as floats. Refuted: line order with other windows (memory beyond the lines, or pixels in the wrong place), 32-bit integers (marked as floats), numbers with a sign (undefined conversion), empty windows (writes to an empty block), quantized depth files (read beyond the end), variables whose name begins like a mode. Not covered: variables of more than four values (only four are shown), shadow maps, other drivers."
  },
  {
   "property": "C55",
   "status": "partial",
   "theorems": [
    "C55_stored_partial",
    "C55_plain",
    "C55_order",
    "C55_limits_refuted",
    "C55_huge_refuted"
   ],
   "note": "Proved for all integer limits in order that fit into 32 bits and all values that are not larger than 2^62 after scaling; refuted for limits in the wrong order and for huge values such as the depth of the background (undefined conversion). Floats are exact rationals."
  },
  {
   "property": "C56",
   "status": "partial",
   "theorems": [
    "C56_split_partial",
    "C56_dice",
    "C56_st_partial",
    "C56_grids_partial",
    "C56_default_uv",
    "C56_grid_uv_partial",
    "C56_basis_partial",
    "C56_basis_grids_partial",
    "C56_bound_partial",
    "C56_integer_refuted",
    "C56_matrix_refuted",
    "C56_cubic_matrix_refuted",
    "C56_string_refuted",
    "C56_vertex_array_refuted",
    "C56_vertex_st_refuted",
    "C56_facevertex_refuted"
   ],
   "note": "Proved for all numbers (floats, points, colours) that are not arrays over the control points of a bicubic patch. Refuted for integers, strings, matrices, such arrays, face vertex variables in other bases than Bezier, and st of class vertex. Exact arithmetic; motion and weights are not modelled."
  },
  {
   "property": "C57",
   "status": "partial",
   "theorems": [
    "C57_memory",
    "C57_inside_partial",
    "C57_overlap_partial",
    "C57_once_partial",
    "C57_safe",
    "C57_stored_partial",
    "C57_samples_partial",
    "C57_depth_partial",
    "C57_culled_partial",
    "C57_triangle_partial",
    "C57_triangle_stored_partial",
    "C57_diagonal_partial",
    "C57_degenerate_refuted",
    "C57_triangles_refuted",
    "C57_pixel_border_refuted",
    "C57_depth_refuted"
   ],
   "note": "Holds for grids of convex micropolygons that face the same way, have no side below 1/10000 and are not triangular, for samples strictly inside of their cells; depths for micropolygons with parallel sides. Refuted: micropolygons with a side of no length lose points of the opposite side, triangular grids lose their common longest side, samples exactly on a pixel border may be lost, depths of other quadrilaterals are approximations. Exact arithmetic."
  },
  {
   "property": "C58",
   "status": "partial",
   "theorems": [
    "C58_stored_partial",
    "C58_seen_partial",
    "C58_once_partial",
    "C58_samples_partial",
    "C58_early_end_refuted",
    "C58_no_jitter_refuted",
    "C58_twice_refuted",
    "C58_frozen_refuted",
    "C58_turning_refuted"
   ],
   "note": "Proved for grids whose key times enclose the shutter time, whose micropolygons stay convex and face the same way, and samples that share the time of the pixel in order. Refuted for motion that ends before the shutter closes, samples that all have the time of opening, times at which two slices meet, a shutter that closes as it opens, and micropolygons that turn. Depth of field and trim curves are not modelled."
  },
  {
   "property": "C59",
   "status": "partial",
   "theorems": [
    "C59_depth_partial",
    "C59_square_partial",
    "C59_high_refuted",
    "C59_channels_refuted"
   ],
   "note": "Proved for one channel if no more rows than columns of tiles are needed, so for all pictures not higher than wide. Refuted for higher pictures (rows of tiles are counted from the width, the lower part is missing) and for several channels (memory overrun)."
  },
  {
   "property": "C60",
   "status": "partial",
   "theorems": [
    "C60_expressions_partial",
    "C60_defined_partial",
    "C60_points_partial",
    "C60_projected_partial",
    "C60_projected_product_partial",
    "C60_determinant",
    "C60_determinant_product_partial",
    "C60_rotation",
    "C60_skew",
    "C60_normals_partial",
    "C60_added_partial",
    "C60_normalise_partial",
    "C60_equal",
    "C60_close_partial",
    "C60_number_on_left_partial",
    "C60_number_on_left_refuted",
    "C60_close_refuted"
   ],
   "note": "Exact rationals. All expressions without a number multiplied on the left have the elements meant, act on points as meant and are defined unless a singular matrix is inverted. C60_number_on_left_partial: a number times an unmarked matrix multiplies each element. Refuted: a number times the identity keeps the identity mark and moves nothing; isClose ignores the tolerance if one matrix is marked as the identity. Sines, cosines and unit vectors are arguments with their defining equations."
  },
  {
   "property": "C61",
   "status": "partial",
   "theorems": [
    "C61_still",
    "C61_still_handedness_partial",
    "C61_moving_partial",
    "C61_moving_handedness_partial",
    "C61_replace_partial",
    "C61_moving_camera_refuted",
    "C61_replace_refuted",
    "C61_new_key_refuted",
    "C61_space_handedness_refuted"
   ],
   "note": "Proved in full for scenes without motion blocks (matrices) and without CoordSysTransform (handedness); with motion blocks if nothing replaces a moving transformation, the camera does not move, and a second motion block uses the same times. C61_replace_partial says what replacing a moving transformation does. Refuted otherwise: keys of a moving camera stay in the world, Identity and Transform keep the motion, a new key starts from the first key, CoordSysTransform keeps the old handedness. Between keys the code takes the earlier one; nothing is claimed there. Exact rationals."
  },
  {
   "property": "C62",
   "status": "partial",
   "theorems": [
    "C62_answers_partial",
    "C62_chain_partial",
    "C62_itself_partial",
    "C62_new_renderer_refuted",
    "C62_hash_refuted",
    "C62_singular_refuted"
   ],
   "note": "Proved for programs with one renderer, names with different hashes and invertible matrices; chain and itself also need invertible view matrices. Refuted: the place of the last search outlives the renderer, so the first question to a second renderer can read behind its list; names with equal hashes are one space; a singular matrix is a division by zero. Exact rationals."
  },
  {
   "property": "C63",
   "status": "partial",
   "theorems": [
    "C63_pictures_partial",
    "C63_filled_partial",
    "C63_depth_partial",
    "C63_crop_tiles_partial",
    "C63_frames_refuted",
    "C63_aspect_refuted"
   ],
   "note": "Proved if no world sees a projection of an ended frame and an asked ratio goes with the shape of the picture. Refuted otherwise: the transformation before a Projection request in a frame stays after the frame, and with FrameAspectRatio 1 the frame of a 640x480 picture is 640 pixels high. Exact rationals; the tangent is a parameter; transformations stand still; settings are not changed between WorldBegin and WorldEnd; depth of field is not modelled."
  },
  {
   "property": "C64",
   "status": "partial",
   "theorems": [
    "C64_points",
    "C64_decided",
    "C64_lines",
    "C64_crossings",
    "C64_parameters",
    "C64_shown_partial",
    "C64_inner_loop_refuted",
    "C64_notch_refuted",
    "C64_outside_refuted",
    "C64_no_curves_refuted",
    "C64_moving_refuted"
   ],
   "note": "Points are decided by the odd-even rule for every set of loops and every way of looking; lines that are not reported never separate points; still micropolygons with sense inside show what is left unless a loop lies within one or enters it without cutting a corner. Refuted: loops inside a micropolygon, notches between corners, sense outside, sense outside without curves, moving surfaces. The points of a loop are given; how they are computed from the curves is C65."
  },
  {
   "property": "C65",
   "status": "partial",
   "theorems": [
    "C65_request",
    "C65_point",
    "C65_hull",
    "C65_ends",
    "C65_clamp",
    "C65_loop",
    "C65_range_refuted",
    "C65_empty_span_refuted",
    "C65_end_refuted"
   ],
   "note": "Proved for every order: the arrays of the request are read as the loops given; evaluation is the Cox-de Boor curve, within the box of the points, and clamped curves begin and end at their first and last points; clamping a curve whose knots are not clamped keeps the curve; loops get the points of their curves. Refuted: the range min/max of the request is not looked at; more equal knots at an end than the order give 0/0 (curves with an empty first or last span are outside C65_point, C65_clamp and C65_loop); the end of a curve that does not meet the next is lost."
  },
  {
   "property": "C66",
   "status": "partial",
   "theorems": [
    "C66_copy",
    "C66_exact",
    "C66_refused",
    "C66_named",
    "C66_over",
    "C66_opaque",
    "C66_fill",
    "C66_chequer",
    "C66_size",
    "C66_zoom",
    "C66_refused_unchanged_refuted",
    "C66_zoom_height_refuted"
   ],
   "note": "Proved for all sizes, places and channels over exact rationals. Missing: floating point rounding of the conversion; a picture copied into itself. Refuted: a copy with names that is refused because a name is missing has already written the channels named before; a zoomed source is read beyond its last row if the height is not a multiple of the factor (C66_zoom asks for a multiple)."
  },
  {
   "property": "C67",
   "status": "partial",
   "theorems": [
    "C67_from_hsv",
    "C67_from_hsl",
    "C67_to_hsv",
    "C67_to_hsl_partial",
    "C67_hsv",
    "C67_hsl_partial",
    "C67_hsv_numbers",
    "C67_hsl_numbers_partial",
    "C67_yiq",
    "C67_between",
    "C67_unknown",
    "C67_hsl_refuted",
    "C67_yiq_refuted",
    "C67_xyz_refuted"
   ],
   "note": "Proved over exact rationals: hsv in both directions, hsl for colours whose components differ by more than 1e-7, YIQ and back. Refuted: greys become black in hsl; the YIQ matrix is applied transposed, so white has Y = 1.107 (the way back undoes it); XYZ and xyY are not implemented. Missing: rounding of floats."
  }
 ]
}