{
 "claims": [
  {
   "property": "C01",
   "status": "proved",
   "theorems": [
    "C01_parse_accepts_exactly_the_grammar"
   ],
   "note": "Grammar written as a decomposition in UriSpec.v; proved for every byte string."
  },
  {
   "property": "C02",
   "status": "proved",
   "theorems": [
    "C02_normalized_round_trip",
    "C02_equal_iff_same_normalized",
    "C02_normalized_is_shortest"
   ],
   "note": "Round trip, equality, and minimal length of the normalised string."
  },
  {
   "property": "C03",
   "status": "proved",
   "theorems": [
    "C03_duration_nan_exactly",
    "C03_determinate_computation_not_nan",
    "C03_documented_table",
    "C03_signs_and_finite_cases",
    "C03_never_nan_refuted"
   ],
   "note": "Exact NaN conditions per operator, and for computations of any size; header claim refuted."
  },
  {
   "property": "C04",
   "status": "proved",
   "theorems": [
    "C04_copy_on_write_is_private",
    "C04_is_shared_exact"
   ],
   "note": "For every value type, number of handles and history; IsShared exact; no leak."
  },
  {
   "property": "C05",
   "status": "proved",
   "theorems": [
    "C05_batch_always_valid",
    "C05_inner_erase_refuted",
    "C05_orientation_full_turn_accepted"
   ],
   "note": "All histories without Transform and with Erase at the ends; inner Erase refuted by a concrete history."
  },
  {
   "property": "C06",
   "status": "proved",
   "theorems": [
    "C06_batch_is_a_list",
    "C06_list_semantics_deterministic",
    "C06_error_changes_nothing",
    "C06_call_succeeds_iff_result_valid"
   ],
   "note": "Refinement of the packed float storage to lists; self-append is undefined behaviour and excluded from success."
  },
  {
   "property": "C07",
   "status": "proved",
   "theorems": [
    "C07_copies_are_isolated",
    "C07_moved_from_size_is_stale"
   ],
   "note": "Frame theorem over any history; moved-from batches keep a stale size."
  },
  {
   "property": "C08",
   "status": "proved",
   "theorems": [
    "C08_transform_moves_positions_only"
   ],
   "note": "For an arbitrary point map, hence for AffineTransform::Apply."
  },
  {
   "property": "C09",
   "status": "proved",
   "theorems": [
    "C09_inputs_reported",
    "C09_inputs_valid"
   ],
   "note": "Every history of calls with valid batches, any shape builder; batches at list level (C06)."
  },
  {
   "property": "C10",
   "status": "proved",
   "theorems": [
    "C10_all_or_nothing",
    "C10_time_advances",
    "C10_nan_time_goes_back_refuted"
   ],
   "note": "Success characterised exactly; refuted for NaN times: time may go back after UpdateShape(NaN)."
  },
  {
   "property": "C11",
   "status": "proved",
   "theorems": [
    "C11_dry_keeps_inputs_iff",
    "C11_settled_after_one_update",
    "C11_dry_stroke_changes_refuted"
   ],
   "note": "Exact characterisation of when a dry stroke keeps its inputs, and a refutation of the documented claim."
  },
  {
   "property": "C12",
   "status": "proved",
   "theorems": [
    "C12_builders_follow_calls",
    "C12_geometry_agrees_iff",
    "C12_prediction_without_geometry_refuted"
   ],
   "note": "Exact characterisation; builders are arbitrary machines fed by the calls."
  },
  {
   "property": "C13",
   "status": "proved",
   "theorems": [
    "C13_shape_follows_setters",
    "C13_one_group_per_coat",
    "C13_one_group_per_coat_from_shape",
    "C13_failed_setter_changes_nothing",
    "C13_setters_succeed_iff_legal",
    "C13_color_keeps_shape",
    "C13_set_own_inputs_empties",
    "C13_stale_shape_refuted"
   ],
   "note": "Tips, geometry generation and mesh conversion are arbitrary parameters; stale-shape cases refuted by an instance."
  },
  {
   "property": "C14",
   "status": "proved",
   "theorems": [
    "C14_brush_invariant",
    "C14_create_exact",
    "C14_setters_exact"
   ],
   "note": "Binary32, any history of setters."
  },
  {
   "property": "C15",
   "status": "proved",
   "theorems": [
    "C15_create_iff",
    "C15_create_keeps",
    "C15_create_string_iff",
    "C15_create_tip",
    "C15_at_least_one_coat_refuted",
    "C15_offset_range_refuted"
   ],
   "note": "validation of tips, paints, coats and the URI is exactly the documented one; the header's [0,1] range for texture offsets and 'one or more coats' are refuted"
  },
  {
   "property": "C16",
   "status": "proved",
   "theorems": [
    "C16_valid_iff_listing",
    "C16_flattening_valid",
    "C16_listing_unique",
    "C16_post_order_only_refuted",
    "C16_valid_iff_listing_exact"
   ],
   "note": "32-bit floats, any elementary functions; C16 and C17 also in exact arithmetic; what deviates from the documentation is proved as _refuted"
  },
  {
   "property": "C17",
   "status": "proved",
   "theorems": [
    "C17_starts",
    "C17_execution",
    "C17_value_unique",
    "C17_starts_exact",
    "C17_execution_exact"
   ],
   "note": "32-bit floats, any elementary functions; C16 and C17 also in exact arithmetic; what deviates from the documentation is proved as _refuted"
  },
  {
   "property": "C18",
   "status": "proved",
   "theorems": [
    "C18_range",
    "C18_nonfinite",
    "C18_inside",
    "C18_half_open_refuted"
   ],
   "note": "32-bit floats, any elementary functions; C16 and C17 also in exact arithmetic; what deviates from the documentation is proved as _refuted"
  },
  {
   "property": "C19",
   "status": "proved",
   "theorems": [
    "C19_offsets_in_range",
    "C19_multipliers_in_range",
    "C19_no_nan",
    "C19_overflow_refuted"
   ],
   "note": "32-bit floats, any elementary functions; C16 and C17 also in exact arithmetic; what deviates from the documentation is proved as _refuted"
  },
  {
   "property": "C20",
   "status": "proved",
   "theorems": [
    "C20_floats_refuted",
    "C20_order_of_modifiers",
    "C20_order_of_behaviors"
   ],
   "note": "exact arithmetic, one tip state and whole strokes; fails with floats (refuted)"
  },
  {
   "property": "C21",
   "status": "proved",
   "theorems": [
    "C21_points_on_curve",
    "C21_redundant_points",
    "C21_huge_points_refuted",
    "C21_exact_curve"
   ],
   "note": "Floats: points on the curve (bounded y; refuted without bound) and redundant points; exact arithmetic: full characterisation of the curve."
  },
  {
   "property": "C22",
   "status": "proved",
   "theorems": [
    "C22_steps_range",
    "C22_steps_monotone",
    "C22_steps_ends",
    "C22_jump_start_refuted",
    "C22_steps_exact"
   ],
   "note": "Floats: range, monotonicity, ends for every count and float; jump-at-start overshoot refuted for 7 steps; exact staircase."
  },
  {
   "property": "C23",
   "status": "proved",
   "theorems": [
    "C23_easing_total",
    "C23_bezier_setup_bounded",
    "C23_bezier_starts_at_0",
    "C23_bezier_exact"
   ],
   "note": "Floats: termination within 78 evaluations for all valid control points and total evaluation; exact: grid values on chords of the true curve."
  },
  {
   "property": "C24",
   "status": "proved",
   "theorems": [
    "C24_fixed_is_final",
    "C24_updates_succeed",
    "C24_fixed_is_final_exact",
    "C24_forward_offset_refuted"
   ],
   "note": "Tips with a forward/lateral position offset and no direction source are refuted; float version excludes sources that look ahead (distance remaining, time since input), exact version includes them; with particles the tip may not use time (exact) or prediction (float) sources of the state."
  },
  {
   "property": "C25",
   "status": "proved",
   "theorems": [
    "C25_finished_stays",
    "C25_unfinished_iff",
    "C25_predicted_refuted"
   ],
   "note": "Exact arithmetic; inputs not later than the last real input. With later (predicted) inputs refuted."
  },
  {
   "property": "C26",
   "status": "proved",
   "theorems": [
    "C26_particles",
    "C26_terminates",
    "C26_count",
    "C26_floats_endless_refuted"
   ],
   "note": "Exact arithmetic for spacing, termination and count; with floats endless emission is proved for a gap of 1/2 at distance 2^24."
  },
  {
   "property": "C27",
   "status": "proved",
   "theorems": [
    "C27_stable_never_changes",
    "C27_spacing",
    "C27_traveled_distance_grows",
    "C27_complete_time",
    "C27_real_count_grows_refuted",
    "C27_distance_of_empty_stroke_refuted"
   ],
   "note": "Any backend, hypot and epsilon; real count and empty-stroke distance facts are refuted separately."
  },
  {
   "property": "C28",
   "status": "proved",
   "theorems": [
    "C28_create",
    "C28_layout",
    "C28_tiles",
    "C28_widths",
    "C28_without",
    "C28_equal",
    "C28_custom_id_refuted",
    "C28_default"
   ],
   "note": "Every MeshFormat that Create accepts, WithoutAttributes and the three comparison functions, with layouts, strides and identifiers; custom ids 128 and above are refused though the header allows them (refuted)."
  },
  {
   "property": "C29",
   "status": "proved",
   "theorems": [
    "C29_roundtrip",
    "C29_decode",
    "C29_sizes"
   ],
   "note": "Every packed attribute type: documented bit layout, round trip of every in-range tuple, and decoding of every well-formed packed value."
  },
  {
   "property": "C30",
   "status": "proved",
   "theorems": [
    "C30_packed_in_range",
    "C30_extremes",
    "C30_error",
    "C30_monotone",
    "C30_custom_between",
    "C30_constant",
    "C30_tiny_range_refuted",
    "C30_huge_range_refuted",
    "C30_attribute",
    "C30_unpacked_exact"
   ],
   "note": "All floats, bit widths 1 to 20: range, extremes, monotonicity, error bound, custom parameters and whole attributes, for steps of at least 2^-125 and bounds up to 2^126; refuted for tiny and for the largest ranges."
  },
  {
   "property": "C31",
   "status": "proved",
   "theorems": [
    "C31_keeps_triangles",
    "C31_good_partitions",
    "C31_one_partition",
    "C31_small_limit_refuted",
    "C31_repeated_corner_refuted"
   ],
   "note": "For every list of triangles with distinct corners and every limit at least 3, PartitionTriangles is modelled as the loop in the code and proved to keep every triangle in order, to give valid local indices and to respect the limit; limits below 3 and repeated corners are refuted separately."
  },
  {
   "property": "C32",
   "status": "proved",
   "theorems": [
    "C32_reads",
    "C32_raw",
    "C32_reset",
    "C32_attribute_beyond_4GiB_refuted"
   ],
   "note": "MutableMesh modelled down to the bytes of its arrays; every allowed history of calls reads back as the list operations (attribute reads while the attribute lies below 4 GiB; beyond that C32_attribute_beyond_4GiB_refuted shows the 32-bit offset wraps). NaN payloads not modelled."
  },
  {
   "property": "C33",
   "status": "proved",
   "theorems": [
    "C33_validate"
   ],
   "note": "ValidateTriangles returns OK exactly when all triangles have three distinct existing vertices, otherwise names the first bad one; after every allowed history."
  },
  {
   "property": "C34",
   "status": "proved",
   "theorems": [
    "C34_ends",
    "C34_exact",
    "C34_float"
   ],
   "note": "Termination for any arithmetic; soundness in exact arithmetic for every coding, and in floats (down to the values read back) for scales not too small for the offset."
  },
  {
   "property": "C35",
   "status": "proved",
   "theorems": [
    "C35_refused_iff",
    "C35_made",
    "C35_bounds",
    "C35_unpacked_range_refuted",
    "C35_packed_bounds_refuted"
   ],
   "note": "Creation succeeds exactly under the documented conditions on lengths, indices, finite values, ranges of packed attributes and given parameters; then counts, triangles and unpacked attributes read back exactly, packed ones within the rounding of their coding; bounds are the least and greatest given values. Refuted as documented: unpacked attributes are not range checked; a packed position can read back outside the bounds."
  },
  {
   "property": "C36",
   "status": "proved",
   "theorems": [
    "C36_created_iff",
    "C36_reads_as_given",
    "C36_limit_refuted",
    "C36_empty_groups"
   ],
   "note": "Creation succeeds exactly under the documented conditions (C36_created_iff) and every render group reads back its meshes, format and outlines (C36_reads_as_given); at most 65535 meshes in all rather than the documented 65536 (C36_limit_refuted); empty groups are as documented (C36_empty_groups)."
  },
  {
   "property": "C37",
   "status": "proved",
   "theorems": [
    "C37_every_triangle_once",
    "C37_visits_what_meets",
    "C37_visits_turned",
    "C37_identity",
    "C37_float",
    "C37_many_triangles_refuted",
    "C37_empty_groups_refuted"
   ],
   "note": "Exact arithmetic: a query of any kind visits exactly the triangles that meet its image, each once (C37_visits_what_meets, C37_identity, C37_every_triangle_once); rects and quads need an invertible transform that does not turn them to a negative angle, because the float constant for a full turn is not exact. Floats: exactly the triangles whose box and intersection test, as computed, agree (C37_float). A mesh with 65536 or more triangles hides all later meshes (C37_many_triangles_refuted), and groups without meshes fail a check although documented as a no-op (C37_empty_groups_refuted)."
  },
  {
   "property": "C38",
   "status": "proved",
   "theorems": [
    "C38_query_exact",
    "C38_collect",
    "C38_any",
    "C38_empty_refuted",
    "C38_max_size_refuted",
    "C38_double_ceilings"
   ],
   "note": "One tree answers every query: the visitor is called on exactly the elements whose box meets the query (a permutation with multiplicity), until it returns false. Any branching factor from 2, any sort that permutes, boxes without NaN (infinities allowed). Double ceilings proved exact. Refuted: empty tree, exactly 2^32 elements."
  },
  {
   "property": "C39",
   "status": "proved",
   "theorems": [
    "C39_exact",
    "C39_exact_mesh",
    "C39_early_exit",
    "C39_agree",
    "C39_rounding_refuted",
    "C39_more_than_all_refuted",
    "C39_no_area_refuted"
   ],
   "note": "Early exit has no effect on the answer (floats, all meshes without NaN positions); exact arithmetic: equivalent to Coverage > threshold and the right areas; floats: equivalent outside a relative distance of 2^-23. Refuted as documented: rounding makes them disagree in both directions, coverage can exceed 1, zero-area meshes give NaN."
  },
  {
   "property": "C40",
   "status": "proved",
   "theorems": [
    "C40_smallest",
    "C40_grows",
    "C40_order"
   ],
   "note": "In floats, all objects finite (quads through their computed corners)."
  },
  {
   "property": "C41",
   "status": "proved",
   "theorems": [
    "C41_normalized",
    "C41_about_zero",
    "C41_idempotent"
   ],
   "note": "In floats, for any exact fmod (which IEEE 754 and C require; a computed one is given and proved exact). A turn is 2*kPi rounded to float, as in the code."
  },
  {
   "property": "C42",
   "status": "proved",
   "theorems": [
    "C42_apply",
    "C42_compose",
    "C42_inverse",
    "C42_identity",
    "C42_translate",
    "C42_scale",
    "C42_rotate",
    "C42_shear",
    "C42_about",
    "C42_apply_segment",
    "C42_apply_triangle",
    "C42_apply_quad",
    "C42_full_turn",
    "C42_apply_rect",
    "C42_apply_quad_singular_refuted",
    "C42_find_triangle",
    "C42_find_rect",
    "C42_find_quad",
    "C42_find_segment",
    "C42_unit_vec_refuted"
   ],
   "note": "Exact arithmetic for apply, composition, inverse, named transforms, images of segments, triangles, quads and rects, and Find; Apply(Quad) is wrong for singular transforms (refuted) and AsUnitVec ends the process on the shortest float vector (refuted)."
  },
  {
   "property": "C43",
   "status": "proved",
   "theorems": [
    "C43_contains",
    "C43_contains_rect",
    "C43_join",
    "C43_join_point",
    "C43_from_two",
    "C43_resize",
    "C43_semi_finite",
    "C43_offset",
    "C43_scale",
    "C43_scale_negative",
    "C43_translate",
    "C43_translate_setting",
    "C43_set_center",
    "C43_set_size",
    "C43_from_center",
    "C43_center_inside",
    "C43_containing_ratio",
    "C43_interior_ratio"
   ],
   "note": "Comparisons, joins and resizes in floats; offset, scale, translate and aspect ratio in exact arithmetic."
  },
  {
   "property": "C44",
   "status": "proved",
   "theorems": [
    "C44_contains"
   ],
   "note": "Exact arithmetic."
  },
  {
   "property": "C45",
   "status": "proved",
   "theorems": [
    "C45_intersects",
    "C45_symmetric"
   ],
   "note": "Exact arithmetic; points, segments, triangles, rects, quads in every combination."
  },
  {
   "property": "C46",
   "status": "proved",
   "theorems": [
    "C46_hull",
    "C46_large_refuted",
    "C46_vertical_refuted",
    "C46_large_float_refuted",
    "C46_order_refuted"
   ],
   "note": "Exact arithmetic, for any sort that keeps std::sort's promise: C46_hull. Documented behaviour fails when points lie straight above the lowest point (C46_vertical_refuted), for every list of more than 500 points with a single rightmost point that is not the lowest (C46_large_refuted, C46_large_float_refuted), and floats can violate the precondition of std::sort (C46_order_refuted)."
  },
  {
   "property": "C47",
   "status": "proved",
   "theorems": [
    "C47_contains",
    "C47_corners",
    "C47_from_rect",
    "C47_width",
    "C47_join"
   ],
   "note": "Exact arithmetic."
  },
  {
   "property": "C48",
   "status": "proved",
   "theorems": [
    "C48_invariant",
    "C48_as_float",
    "C48_as_uint8",
    "C48_refused",
    "C48_clamped",
    "C48_scaled",
    "C48_gamut_kept",
    "C48_scaled_refuted",
    "C48_scaled_made_refuted"
   ],
   "note": "For every chain of factory calls and conversions, in floats and doubles, for every pow that gives no NaN for a base that is not negative; ScaledToGamut with +inf refuted."
  },
  {
   "property": "C49",
   "status": "proved",
   "theorems": [
    "C49_refused",
    "C49_bytes",
    "C49_packed",
    "C49_all",
    "C49_argb"
   ],
   "note": "All 2^32 colors and three formats in float and double arithmetic; the gamma curve for every pow within 2^-40 relative error (shown to exist)."
  },
  {
   "property": "C50",
   "status": "proved",
   "theorems": [
    "C50_lerp_finite",
    "C50_lerp_ends",
    "C50_lerp",
    "C50_project",
    "C50_inverse",
    "C50_lerp_inverse"
   ],
   "note": "End points and no overflow in floats; projection in exact arithmetic."
  },
  {
   "property": "C51",
   "status": "proved",
   "theorems": [
    "C51_chunking_does_not_matter",
    "C51_event_stream",
    "C51_idle_call",
    "C51_idle_call_forgets_hidden_prediction_refuted"
   ],
   "note": "Refuted in one case: an empty call after a prediction that left no visible inputs."
  },
  {
   "property": "C52",
   "status": "proved",
   "theorems": [
    "C52_named_curves_monotone",
    "C52_named_curves_in_unit",
    "C52_named_curve_end_refuted"
   ],
   "note": "Floats, every x; the documented end value 1 is refuted for three of the four curves."
  },
  {
   "property": "C53",
   "status": "proved",
   "theorems": [
    "C53_sources",
    "C53_source_position",
    "C53_out_of_range",
    "C53_binary",
    "C53_interpolation",
    "C53_damping",
    "C53_damping_between",
    "C53_damping_sampling",
    "C53_direction"
   ],
   "note": "exact arithmetic over the real numbers"
  },
  {
   "property": "C54",
   "status": "proved",
   "theorems": [
    "C54_tip_state"
   ],
   "note": "exact arithmetic over the real numbers"
  },
  {
   "property": "C55",
   "status": "proved",
   "theorems": [
    "C55_visits_what_meets",
    "C55_collapsed",
    "C55_diagonal_refuted",
    "C55_gap_refuted"
   ],
   "note": "Exact arithmetic. Invertible transforms that do not turn the x-axis to a negative angle: C55_visits_what_meets. Other transforms: C55_collapsed. Two documented behaviours fail: a transform that collapses the diagonal of the bounds but not the query loses the query (C55_diagonal_refuted), and gaps between parts of a collapsed query are filled (C55_gap_refuted)."
  },
  {
   "property": "C56",
   "status": "proved",
   "theorems": [
    "C56_refused_iff",
    "C56_made",
    "C56_params_index_refuted",
    "C56_range_refuted"
   ],
   "note": "All formats, histories of calls, omitted attributes and parameters. C56_made is for packed positions whose scale is not too small for the offset (calm) and default ranges not so small that single steps vanish (spread). Documented behaviours that fail: packing parameters are indexed by the format without the omitted attributes (C56_params_index_refuted); unpacked attributes and unused vertices are not range checked (C56_range_refuted)."
  },
  {
   "property": "C57",
   "status": "proved",
   "theorems": [
    "C57_from_mesh",
    "C57_created",
    "C57_frozen"
   ],
   "note": "The result equals the mesh made by some allowed history of edits whose lists are what is read from the given mesh (C57_from_mesh); holds for every mesh of Create and AsMeshes (C57_created, C57_frozen), under the conditions of C35_made and C56_made."
  },
  {
   "property": "C58",
   "status": "proved",
   "theorems": [
    "C58_refused_iff",
    "C58_made",
    "C58_lost_outline_refuted",
    "C58_dropped_refuted"
   ],
   "note": "coding parameters within the conditions of C56 (spread, calm); outline vertices in no triangle are dropped and an outline with only such vertices is an undocumented error"
  },
  {
   "property": "C59",
   "status": "proved",
   "theorems": [
    "C59_object",
    "C59_object_collapsed",
    "C59_meshes",
    "C59_symmetric",
    "C59_first_collapsed",
    "C59_both_collapsed",
    "C59_empty",
    "C59_diagonal_refuted",
    "C59_gap_refuted"
   ],
   "note": "Exact arithmetic. Point, segment, triangle: exact for every invertible transform; rect and quad: exact up to a turn of less than 4e-7 about the centre, and exact when the inverse does not turn the first axis to a negative angle. Two meshes: exact under the same condition on the relative transform, symmetric. Non-invertible transforms: the mesh is replaced by the segment that is the convex hull of its image, if the diagonal of the bounds is not collapsed. C59_diagonal_refuted and C59_gap_refuted show where the collapsed case answers wrongly."
  },
  {
   "property": "C60",
   "status": "proved",
   "theorems": [
    "C60_distance",
    "C60_symmetric",
    "C60_zero",
    "C60_never_negative",
    "C60_float",
    "C60_kinds",
    "C60_symmetric_refuted"
   ],
   "note": "Smallest distance over both point sets, zero iff intersecting, symmetric: exact arithmetic, all pairs of kinds. Never negative and exchange of different kinds: any arithmetic. Symmetry for one kind in floats is refuted."
  },
  {
   "property": "C61",
   "status": "proved",
   "theorems": [
    "C61_format",
    "C61_reads",
    "C61_kept"
   ],
   "note": "whole call histories, every equivalent format"
  },
  {
   "property": "C62",
   "status": "proved",
   "theorems": [
    "C62_encode",
    "C62_monotone",
    "C62_decode",
    "C62_margin",
    "C62_stable",
    "C62_last",
    "C62_exterior",
    "C62_category",
    "C62_lerp_label",
    "C62_barycentric_label",
    "C62_lerp_keeps_label_refuted",
    "C62_lerp",
    "C62_barycentric"
   ],
   "note": "float arithmetic as in the code; the documented label of Lerp is refuted in its margin"
  },
  {
   "property": "C63",
   "status": "proved",
   "theorems": [
    "C63_attribute",
    "C63_exact",
    "C63_array",
    "C63_accepted"
   ],
   "note": "parameters, bytes and acceptance"
  },
  {
   "property": "C64",
   "status": "proved",
   "theorems": [
    "C64_ratio_none",
    "C64_ratio_first",
    "C64_ratio_test",
    "C64_ratio_cross",
    "C64_ratio_degenerate",
    "C64_intersection",
    "C64_line_none",
    "C64_line_only",
    "C64_barycentric_none",
    "C64_barycentric",
    "C64_barycentric_inside",
    "C64_projection_none",
    "C64_projection",
    "C64_spiral",
    "C64_spiral_total",
    "C64_spiral_straight",
    "C64_angle_lerp"
   ],
   "note": "exact arithmetic"
  },
  {
   "property": "C65",
   "status": "proved",
   "theorems": [
    "C65_inverse_range",
    "C65_inverse_ends",
    "C65_inverse_order",
    "C65_inverse_same",
    "C65_inverse_overflow_refuted",
    "C65_lerp_same",
    "C65_lerp_start",
    "C65_lerp_error",
    "C65_lerp_order",
    "C65_lerp_end_refuted",
    "C65_lerp_overshoot_refuted",
    "C65_point_ends",
    "C65_channel_ends",
    "C65_angle_ends",
    "C65_point_same_refuted",
    "C65_point_same_far_refuted",
    "C65_map_first",
    "C65_map_second",
    "C65_map_second_refuted",
    "C65_angle_range"
   ],
   "note": "32-bit floats"
  },
  {
   "property": "C66",
   "status": "proved",
   "theorems": [
    "C66_indices",
    "C66_capacity",
    "C66_growths"
   ],
   "note": "Bounds-checked memory refined to two lists for every sequence of requests; counts are natural numbers."
  },
  {
   "property": "C67",
   "status": "proved",
   "theorems": [
    "C67_refresh",
    "C67_appended"
   ],
   "note": "Byte level, on the MutableMesh model; the view over legacy vectors and the updated region are not modelled here."
  },
  {
   "property": "C68",
   "status": "proved",
   "theorems": [
    "C68_revert",
    "C68_revert_always",
    "C68_clear",
    "C68_clear_refuted",
    "C68_shade_refuted"
   ],
   "note": "The claim as stated (derivatives excluded). C68_shade_refuted: derivatives of old vertices are not restored. C68_clear_refuted: the one failing case of clearing is reachable at the level of Geometry's functions; whether the extruder ever adds such a break is not modelled. What the triangulation decides is an arbitrary sequence of changes."
  },
  {
   "property": "C69",
   "status": "proved",
   "theorems": [
    "C69_outlines",
    "C69_vertices",
    "C69_checks",
    "C69_restore",
    "C69_no_trace"
   ],
   "note": "The claim as stated. Which extrusion a tip state leads to and what the triangulation then does are arbitrary lists of events and geometry operations; \"the same fixed events\" is a hypothesis at that level. A run in which a CHECK of Geometry fails (C68_clear_refuted) is outside: both runs fail there or neither does."
  },
  {
   "property": "C70",
   "status": "proved",
   "theorems": [
    "C70_points",
    "C70_attributes",
    "C70_attribute",
    "C70_edges",
    "C70_margins",
    "C70_half_bytes",
    "C70_half_refuted"
   ],
   "note": "The claim as stated, for shader arithmetic that is IEEE single precision (what SkSL calls float / highp), without fused or reordered operations; half4 inputs are modelled both as 32-bit values (as most drivers and Skia's CPU backend load them) and as 16-bit ones. For 16-bit loads the point claim is refuted (C70_half_refuted) and the misread bytes are listed (C70_half_bytes)."
  },
  {
   "property": "C71",
   "status": "proved",
   "theorems": [
    "C71_finished",
    "C71_coding_refuted",
    "C71_accepts",
    "C71_layout",
    "C71_reads",
    "C71_in_progress",
    "C71_copied"
   ],
   "note": "The claim as stated. C71_reads is for any mesh whose bytes come from packing and whose parameters are the stroke ones; C71_finished discharges both for every mesh of a successful AsMeshes (under C56's hypotheses: values not so close together that steps vanish, positions not too fine for their offset). Shader arithmetic is IEEE single precision as in C70. Without the stroke packing parameters the claim is refuted (C71_coding_refuted)."
  },
  {
   "property": "C72",
   "status": "proved",
   "theorems": [
    "C72_exact",
    "C72_unchanged",
    "C72_ratio_no_effect",
    "C72_on_path",
    "C72_last_crossing",
    "C72_last_crossing_refuted",
    "C72_shape",
    "C72_memory",
    "C72_total",
    "C72_too_few_refuted",
    "C72_repeated_refuted",
    "C72_unbounded_refuted",
    "C72_index_refuted",
    "C72_bounds_refuted",
    "C72_additional_point_refuted",
    "C72_loop_refuted"
   ],
   "note": "C72_exact: without rounding the result is the one of PolylineSpec. C72_shape, C72_memory, C72_total hold for floats with an arbitrary std::hypot. Where the exact claim fails with floats, and where the header's text does not hold, there are _refuted theorems."
  },
  {
   "property": "C73",
   "status": "proved",
   "theorems": [
    "C73_kept",
    "C73_peucker",
    "C73_same",
    "C73_negative",
    "C73_nan",
    "C73_buffered",
    "C73_near",
    "C73_before",
    "C73_order_refuted",
    "C73_before_refuted"
   ],
   "note": "SimplifyPolyline in full for any vertex type with a position; of SimplifyBufferedVertices the choice of vertices (850-888), not what is then done with the mesh. C73_order_refuted: nearness holds for sets of points, not in the order along the outline. C73_before_refuted: the check against earlier removals uses the segment to the next vertex even when that one is removed too, so an earlier position can end up farther than the tolerance (but within twice it, C73_before)."
  },
  {
   "property": "C74",
   "status": "proved",
   "theorems": [
    "C74_found",
    "C74_place",
    "C74_answers",
    "C74_error",
    "C74_valid",
    "C74_tried",
    "C74_ratio",
    "C74_start",
    "C74_finds",
    "C74_error_refuted",
    "C74_start_refuted",
    "C74_pinch_refuted",
    "C74_same",
    "C74_tolerance"
   ],
   "note": "How joins between unequal tips are judged (EvaluateTangentQualityInternal) is a parameter: the theorems hold for every judgement. C74_error needs monotone joins, as the documentation silently assumes (C74_error_refuted for a judgement that is not). C74_start_refuted: for a last tip with rotation -1 the tip at ratio 0 has another rotation (2 pi - 1) and does not count as the same shape. fmod is exact (fmod_exact) for C74_start and C74_finds."
  },
  {
   "property": "C75",
   "status": "proved",
   "theorems": [
    "C75_step",
    "C75_stroke",
    "C75_linked",
    "C75_order",
    "C75_place",
    "C75_settled",
    "C75_last",
    "C75_covered",
    "C75_batching_refuted"
   ],
   "note": "The list of extrusions only; the geometry made from it is the subject of C67 to C69. How shapes are judged (EvaluateTangentQualityInternal, BrushTipShape::Contains) is a parameter; the search for a replacement tip is C74. C75_batching_refuted: the permanent tips depend on how the fixed states are split into batches, since the last state of a batch without volatile states is accepted at ratios below 0.1."
  },
  {
   "property": "C76",
   "status": "proved",
   "theorems": [
    "C76_contains",
    "C76_none",
    "C76_tangents",
    "C76_point",
    "C76_chord",
    "C76_full_refuted",
    "C76_arc",
    "C76_arc_point",
    "C76_count",
    "C76_undefined_refuted"
   ],
   "note": "Geometry in exact arithmetic; number and ends of the points for floats too. Reported angles are exact up to a whole turn, taken as the float nearest to it. C76_full_refuted: the arc angle can be a full turn, the documentation says less than that. C76_undefined_refuted: with an empty arc and a chord height below 2^-25 of the radius the number of steps is 0/0 and its conversion to an integer is undefined."
  },
  {
   "property": "C77",
   "status": "proved",
   "theorems": [
    "C77_shape",
    "C77_exact",
    "C77_check",
    "C77_distinct",
    "C77_separation",
    "C77_bounds",
    "C77_distinct_refuted",
    "C77_round",
    "C77_total",
    "C77_twins_refuted"
   ],
   "note": "Geometry in exact arithmetic, absence of failures for floats. C77_distinct_refuted, C77_twins_refuted: at a slant of a quarter turn, which a valid brush can have, circles of one shape can coincide, also for floats; no tangent exists between them, though GetTangentCircleIndices fails a CHECK then."
  },
  {
   "property": "C78",
   "status": "proved",
   "theorems": [
    "C78_split",
    "C78_sides",
    "C78_endcap",
    "C78_convex",
    "C78_walk",
    "C78_whole",
    "C78_rear",
    "C78_endcap_refuted"
   ],
   "note": "The points themselves (AppendLeftCircularTurnPoints) are arbitrary. C78_endcap_refuted: an end cap whose outline begins on the right keeps that point on the left, unlike a start cap; whether outlines begin so is not modelled."
  },
  {
   "property": "C79",
   "status": "proved",
   "theorems": [
    "C79_make",
    "C79_arcs",
    "C79_contains",
    "C79_half_refuted"
   ],
   "note": "Containment in exact arithmetic. C79_half_refuted: an arc of half a turn is taken to be no arc, so that the polygon of two circles of the same size contains circles far away. Arrangements that are not convex are not covered."
  },
  {
   "property": "C80",
   "status": "proved",
   "theorems": [
    "C80_indices",
    "C80_quality",
    "C80_turning",
    "C80_total",
    "C80_hull",
    "C80_tangent",
    "C80_enlargement",
    "C80_cover_refuted"
   ],
   "note": "C80_cover_refuted: a circle and, straight ahead, a pill lying in the same direction: the far end is left out, the polygon skips its half circles (C79), and the tangents are good although no point of that end is covered. The shortcut for tips with equal properties that are apart is part of C74."
  },
  {
   "property": "C81",
   "status": "proved",
   "theorems": [
    "C81_fails",
    "C81_turn",
    "C81_row",
    "C81_startcap",
    "C81_endcap",
    "C81_whole",
    "C81_tip_fails",
    "C81_tip",
    "C81_loop_refuted",
    "C81_round"
   ],
   "note": "C81_loop_refuted: around the middle of a straight row of equal circles the left side of a cap is a full loop, for snapping the angles together makes the arc minus a full turn; the right side is a single point. Sides are modelled one at a time."
  },
  {
   "property": "C82",
   "status": "proved",
   "theorems": [
    "C82_outline",
    "C82_construct",
    "C82_find",
    "C82_unique",
    "C82_fan",
    "C82_multi",
    "C82_coincident",
    "C82_exterior",
    "C82_legacy",
    "C82_position_refuted",
    "C82_triangle_refuted"
   ],
   "note": "For any intersection of segments that finds the first common point; C82_legacy: that of C83 is one. C82_position_refuted: where all vertices are at one position the position of the result is the origin, not the vertex. C82_triangle_refuted: neither the first vertex nor the intersection need be within the triangle. An outline whose sides do not reach the start of the partition (its last offset below the first) is outside of the claim: uint32_t wraps around."
  },
  {
   "property": "C83",
   "status": "proved",
   "theorems": [
    "C83_intersection",
    "C83_common",
    "C83_single",
    "C83_point_refuted"
   ],
   "note": "In exact arithmetic there are no neighbouring numbers: the adjustment by one float in PositionRelativeToLine leaves a point where it is. The choice of the exponent is a parameter. C83_point_refuted: for two segments that are the same point the intervals are [0, 1]."
  },
  {
   "property": "C84",
   "status": "proved",
   "theorems": [
    "C84_corner",
    "C84_contains",
    "C84_flat",
    "C84_order",
    "C84_equivalent_refuted"
   ],
   "note": "In exact arithmetic there are no neighbouring numbers to adjust by, as in C83. C84_equivalent_refuted: for corners on a line it is not equivalent to Triangle::Contains, which contains the segment between them."
  },
  {
   "property": "C85",
   "status": "proved",
   "theorems": [
    "C85_handed",
    "C85_none_missed",
    "C85_tracked",
    "C85_groups",
    "C85_bound",
    "C85_gate",
    "C85_triangle",
    "C85_flat",
    "C85_written",
    "C85_sums",
    "C85_merge",
    "C85_any_order",
    "C85_value",
    "C85_each"
   ],
   "note": "The margin is what is passed to WithMargin; that a label keeps it rounded down is the label claim's. Which triangles contribute which derivatives (AddDerivativesForTriangle) is not modelled. That the triangle keeps its orientation when all three corners move is not claimed, by the code or here."
  }
 ]
}