{
"C01": {
"status": "proved",
"note": "Grammar written as a decomposition in UriSpec.v; proved for every byte string."
},
"C02": {
"status": "proved",
"note": "Round trip, equality, and minimal length of the normalised string."
},
"C03": {
"status": "proved",
"note": "Exact NaN conditions per operator, and for computations of any size; header claim refuted."
},
"C04": {
"status": "proved",
"note": "For every value type, number of handles and history; IsShared exact; no leak."
},
"C05": {
"status": "proved",
"note": "All histories without Transform and with Erase at the ends; inner Erase refuted by a concrete history."
},
"C06": {
"status": "proved",
"note": "Refinement of the packed float storage to lists; self-append is undefined behaviour and excluded from success."
},
"C07": {
"status": "proved",
"note": "Frame theorem over any history; moved-from batches keep a stale size."
},
"C08": {
"status": "proved",
"note": "For an arbitrary point map, hence for AffineTransform::Apply."
},
"C09": {
"status": "proved",
"note": "Every history of calls with valid batches, any shape builder; batches at list level (C06)."
},
"C10": {
"status": "proved",
"note": "Success characterised exactly; refuted for NaN times: time may go back after UpdateShape(NaN)."
},
"C11": {
"status": "proved",
"note": "Exact characterisation of when a dry stroke keeps its inputs, and a refutation of the documented claim."
},
"C12": {
"status": "proved",
"note": "Exact characterisation; builders are arbitrary machines fed by the calls."
},
"C13": {
"status": "proved",
"note": "Tips, geometry generation and mesh conversion are arbitrary parameters; stale-shape cases refuted by an instance."
},
"C14": {
"status": "proved",
"note": "Binary32, any history of setters."
},
"C15": {
"status": "proved",
"note": "validation of tips, paints, coats and the URI is exactly the documented one; the header's [0,1] range for texture offsets and 'one or more coats' are refuted"
},
"C16": {
"status": "proved",
"note": "32-bit floats, any elementary functions; C16 and C17 also in exact arithmetic; what deviates from the documentation is proved as _refuted"
},
"C17": {
"status": "proved",
"note": "32-bit floats, any elementary functions; C16 and C17 also in exact arithmetic; what deviates from the documentation is proved as _refuted"
},
"C18": {
"status": "proved",
"note": "32-bit floats, any elementary functions; C16 and C17 also in exact arithmetic; what deviates from the documentation is proved as _refuted"
},
"C19": {
"status": "proved",
"note": "32-bit floats, any elementary functions; C16 and C17 also in exact arithmetic; what deviates from the documentation is proved as _refuted"
},
"C20": {
"status": "proved",
"note": "exact arithmetic, one tip state and whole strokes; fails with floats (refuted)"
},
"C21": {
"status": "proved",
"note": "Floats: points on the curve (bounded y; refuted without bound) and redundant points; exact arithmetic: full characterisation of the curve."
},
"C22": {
"status": "proved",
"note": "Floats: range, monotonicity, ends for every count and float; jump-at-start overshoot refuted for 7 steps; exact staircase."
},
"C23": {
"status": "proved",
"note": "Floats: termination within 78 evaluations for all valid control points and total evaluation; exact: grid values on chords of the true curve."
},
"C24": {
"status": "proved",
"note": "Tips with a forward/lateral position offset and no direction source are refuted; float version excludes sources that look ahead (distance remaining, time since input), exact version includes them; with particles the tip may not use time (exact) or prediction (float) sources of the state."
},
"C25": {
"status": "proved",
"note": "Exact arithmetic; inputs not later than the last real input. With later (predicted) inputs refuted."
},
"C26": {
"status": "proved",
"note": "Exact arithmetic for spacing, termination and count; with floats endless emission is proved for a gap of 1/2 at distance 2^24."
},
"C27": {
"status": "proved",
"note": "Any backend, hypot and epsilon; real count and empty-stroke distance facts are refuted separately."
},
"C28": {
"status": "proved",
"note": "Every MeshFormat that Create accepts, WithoutAttributes and the three comparison functions, with layouts, strides and identifiers; custom ids 128 and above are refused though the header allows them (refuted)."
},
"C29": {
"status": "proved",
"note": "Every packed attribute type: documented bit layout, round trip of every in-range tuple, and decoding of every well-formed packed value."
},
"C30": {
"status": "proved",
"note": "All floats, bit widths 1 to 20: range, extremes, monotonicity, error bound, custom parameters and whole attributes, for steps of at least 2^-125 and bounds up to 2^126; refuted for tiny and for the largest ranges."
},
"C31": {
"status": "proved",
"note": "For every list of triangles with distinct corners and every limit at least 3, PartitionTriangles is modelled as the loop in the code and proved to keep every triangle in order, to give valid local indices and to respect the limit; limits below 3 and repeated corners are refuted separately."
},
"C32": {
"status": "proved",
"note": "MutableMesh modelled down to the bytes of its arrays; every allowed history of calls reads back as the list operations (attribute reads while the attribute lies below 4 GiB; beyond that C32_attribute_beyond_4GiB_refuted shows the 32-bit offset wraps). NaN payloads not modelled."
},
"C33": {
"status": "proved",
"note": "ValidateTriangles returns OK exactly when all triangles have three distinct existing vertices, otherwise names the first bad one; after every allowed history."
},
"C34": {
"status": "proved",
"note": "Termination for any arithmetic; soundness in exact arithmetic for every coding, and in floats (down to the values read back) for scales not too small for the offset."
},
"C35": {
"status": "proved",
"note": "Creation succeeds exactly under the documented conditions on lengths, indices, finite values, ranges of packed attributes and given parameters; then counts, triangles and unpacked attributes read back exactly, packed ones within the rounding of their coding; bounds are the least and greatest given values. Refuted as documented: unpacked attributes are not range checked; a packed position can read back outside the bounds."
},
"C36": {
"status": "proved",
"note": "Creation succeeds exactly under the documented conditions (C36_created_iff) and every render group reads back its meshes, format and outlines (C36_reads_as_given); at most 65535 meshes in all rather than the documented 65536 (C36_limit_refuted); empty groups are as documented (C36_empty_groups)."
},
"C37": {
"status": "proved",
"note": "Exact arithmetic: a query of any kind visits exactly the triangles that meet its image, each once (C37_visits_what_meets, C37_identity, C37_every_triangle_once); rects and quads need an invertible transform that does not turn them to a negative angle, because the float constant for a full turn is not exact. Floats: exactly the triangles whose box and intersection test, as computed, agree (C37_float). A mesh with 65536 or more triangles hides all later meshes (C37_many_triangles_refuted), and groups without meshes fail a check although documented as a no-op (C37_empty_groups_refuted)."
},
"C38": {
"status": "proved",
"note": "One tree answers every query: the visitor is called on exactly the elements whose box meets the query (a permutation with multiplicity), until it returns false. Any branching factor from 2, any sort that permutes, boxes without NaN (infinities allowed). Double ceilings proved exact. Refuted: empty tree, exactly 2^32 elements."
},
"C39": {
"status": "proved",
"note": "Early exit has no effect on the answer (floats, all meshes without NaN positions); exact arithmetic: equivalent to Coverage > threshold and the right areas; floats: equivalent outside a relative distance of 2^-23. Refuted as documented: rounding makes them disagree in both directions, coverage can exceed 1, zero-area meshes give NaN."
},
"C40": {
"status": "proved",
"note": "In floats, all objects finite (quads through their computed corners)."
},
"C41": {
"status": "proved",
"note": "In floats, for any exact fmod (which IEEE 754 and C require; a computed one is given and proved exact). A turn is 2*kPi rounded to float, as in the code."
},
"C42": {
"status": "proved",
"note": "Exact arithmetic for apply, composition, inverse, named transforms, images of segments, triangles, quads and rects, and Find; Apply(Quad) is wrong for singular transforms (refuted) and AsUnitVec ends the process on the shortest float vector (refuted)."
},
"C43": {
"status": "proved",
"note": "Comparisons, joins and resizes in floats; offset, scale, translate and aspect ratio in exact arithmetic."
},
"C44": {
"status": "proved",
"note": "Exact arithmetic."
},
"C45": {
"status": "proved",
"note": "Exact arithmetic; points, segments, triangles, rects, quads in every combination."
},
"C46": {
"status": "proved",
"note": "Exact arithmetic, for any sort that keeps std::sort's promise: C46_hull. Documented behaviour fails when points lie straight above the lowest point (C46_vertical_refuted), for every list of more than 500 points with a single rightmost point that is not the lowest (C46_large_refuted, C46_large_float_refuted), and floats can violate the precondition of std::sort (C46_order_refuted)."
},
"C47": {
"status": "proved",
"note": "Exact arithmetic."
},
"C48": {
"status": "proved",
"note": "For every chain of factory calls and conversions, in floats and doubles, for every pow that gives no NaN for a base that is not negative; ScaledToGamut with +inf refuted."
},
"C49": {
"status": "proved",
"note": "All 2^32 colors and three formats in float and double arithmetic; the gamma curve for every pow within 2^-40 relative error (shown to exist)."
},
"C50": {
"status": "proved",
"note": "End points and no overflow in floats; projection in exact arithmetic."
},
"C51": {
"status": "proved",
"note": "Refuted in one case: an empty call after a prediction that left no visible inputs."
},
"C52": {
"status": "proved",
"note": "Floats, every x; the documented end value 1 is refuted for three of the four curves."
},
"C53": {
"status": "proved",
"note": "exact arithmetic over the real numbers"
},
"C54": {
"status": "proved",
"note": "exact arithmetic over the real numbers"
},
"C55": {
"status": "proved",
"note": "Exact arithmetic. Invertible transforms that do not turn the x-axis to a negative angle: C55_visits_what_meets. Other transforms: C55_collapsed. Two documented behaviours fail: a transform that collapses the diagonal of the bounds but not the query loses the query (C55_diagonal_refuted), and gaps between parts of a collapsed query are filled (C55_gap_refuted)."
},
"C56": {
"status": "proved",
"note": "All formats, histories of calls, omitted attributes and parameters. C56_made is for packed positions whose scale is not too small for the offset (calm) and default ranges not so small that single steps vanish (spread). Documented behaviours that fail: packing parameters are indexed by the format without the omitted attributes (C56_params_index_refuted); unpacked attributes and unused vertices are not range checked (C56_range_refuted)."
},
"C57": {
"status": "proved",
"note": "The result equals the mesh made by some allowed history of edits whose lists are what is read from the given mesh (C57_from_mesh); holds for every mesh of Create and AsMeshes (C57_created, C57_frozen), under the conditions of C35_made and C56_made."
},
"C58": {
"status": "proved",
"note": "coding parameters within the conditions of C56 (spread, calm); outline vertices in no triangle are dropped and an outline with only such vertices is an undocumented error"
},
"C59": {
"status": "proved",
"note": "Exact arithmetic. Point, segment, triangle: exact for every invertible transform; rect and quad: exact up to a turn of less than 4e-7 about the centre, and exact when the inverse does not turn the first axis to a negative angle. Two meshes: exact under the same condition on the relative transform, symmetric. Non-invertible transforms: the mesh is replaced by the segment that is the convex hull of its image, if the diagonal of the bounds is not collapsed. C59_diagonal_refuted and C59_gap_refuted show where the collapsed case answers wrongly."
},
"C60": {
"status": "proved",
"note": "Smallest distance over both point sets, zero iff intersecting, symmetric: exact arithmetic, all pairs of kinds. Never negative and exchange of different kinds: any arithmetic. Symmetry for one kind in floats is refuted."
},
"C61": {
"status": "proved",
"note": "whole call histories, every equivalent format"
},
"C62": {
"status": "proved",
"note": "float arithmetic as in the code; the documented label of Lerp is refuted in its margin"
},
"C63": {
"status": "proved",
"note": "parameters, bytes and acceptance"
},
"C64": {
"status": "proved",
"note": "exact arithmetic"
},
"C65": {
"status": "proved",
"note": "32-bit floats"
},
"C66": {
"status": "proved",
"note": "Bounds-checked memory refined to two lists for every sequence of requests; counts are natural numbers."
},
"C67": {
"status": "proved",
"note": "Byte level, on the MutableMesh model; the view over legacy vectors and the updated region are not modelled here."
},
"C68": {
"status": "proved",
"note": "The claim as stated (derivatives excluded). C68_shade_refuted: derivatives of old vertices are not restored. C68_clear_refuted: the one failing case of clearing is reachable at the level of Geometry's functions; whether the extruder ever adds such a break is not modelled. What the triangulation decides is an arbitrary sequence of changes."
},
"C69": {
"status": "proved",
"note": "The claim as stated. Which extrusion a tip state leads to and what the triangulation then does are arbitrary lists of events and geometry operations; \"the same fixed events\" is a hypothesis at that level. A run in which a CHECK of Geometry fails (C68_clear_refuted) is outside: both runs fail there or neither does."
},
"C70": {
"status": "proved",
"note": "The claim as stated, for shader arithmetic that is IEEE single precision (what SkSL calls float / highp), without fused or reordered operations; half4 inputs are modelled both as 32-bit values (as most drivers and Skia's CPU backend load them) and as 16-bit ones. For 16-bit loads the point claim is refuted (C70_half_refuted) and the misread bytes are listed (C70_half_bytes)."
},
"C71": {
"status": "proved",
"note": "The claim as stated. C71_reads is for any mesh whose bytes come from packing and whose parameters are the stroke ones; C71_finished discharges both for every mesh of a successful AsMeshes (under C56's hypotheses: values not so close together that steps vanish, positions not too fine for their offset). Shader arithmetic is IEEE single precision as in C70. Without the stroke packing parameters the claim is refuted (C71_coding_refuted)."
},
"C72": {
"status": "proved",
"note": "C72_exact: without rounding the result is the one of PolylineSpec. C72_shape, C72_memory, C72_total hold for floats with an arbitrary std::hypot. Where the exact claim fails with floats, and where the header's text does not hold, there are _refuted theorems."
},
"C73": {
"status": "proved",
"note": "SimplifyPolyline in full for any vertex type with a position; of SimplifyBufferedVertices the choice of vertices (850-888), not what is then done with the mesh. C73_order_refuted: nearness holds for sets of points, not in the order along the outline. C73_before_refuted: the check against earlier removals uses the segment to the next vertex even when that one is removed too, so an earlier position can end up farther than the tolerance (but within twice it, C73_before)."
},
"C74": {
"status": "proved",
"note": "How joins between unequal tips are judged (EvaluateTangentQualityInternal) is a parameter: the theorems hold for every judgement. C74_error needs monotone joins, as the documentation silently assumes (C74_error_refuted for a judgement that is not). C74_start_refuted: for a last tip with rotation -1 the tip at ratio 0 has another rotation (2 pi - 1) and does not count as the same shape. fmod is exact (fmod_exact) for C74_start and C74_finds."
},
"C75": {
"status": "proved",
"note": "The list of extrusions only; the geometry made from it is the subject of C67 to C69. How shapes are judged (EvaluateTangentQualityInternal, BrushTipShape::Contains) is a parameter; the search for a replacement tip is C74. C75_batching_refuted: the permanent tips depend on how the fixed states are split into batches, since the last state of a batch without volatile states is accepted at ratios below 0.1."
},
"C76": {
"status": "proved",
"note": "Geometry in exact arithmetic; number and ends of the points for floats too. Reported angles are exact up to a whole turn, taken as the float nearest to it. C76_full_refuted: the arc angle can be a full turn, the documentation says less than that. C76_undefined_refuted: with an empty arc and a chord height below 2^-25 of the radius the number of steps is 0/0 and its conversion to an integer is undefined."
},
"C77": {
"status": "proved",
"note": "Geometry in exact arithmetic, absence of failures for floats. C77_distinct_refuted, C77_twins_refuted: at a slant of a quarter turn, which a valid brush can have, circles of one shape can coincide, also for floats; no tangent exists between them, though GetTangentCircleIndices fails a CHECK then."
},
"C78": {
"status": "proved",
"note": "The points themselves (AppendLeftCircularTurnPoints) are arbitrary. C78_endcap_refuted: an end cap whose outline begins on the right keeps that point on the left, unlike a start cap; whether outlines begin so is not modelled."
},
"C79": {
"status": "proved",
"note": "Containment in exact arithmetic. C79_half_refuted: an arc of half a turn is taken to be no arc, so that the polygon of two circles of the same size contains circles far away. Arrangements that are not convex are not covered."
},
"C80": {
"status": "proved",
"note": "C80_cover_refuted: a circle and, straight ahead, a pill lying in the same direction: the far end is left out, the polygon skips its half circles (C79), and the tangents are good although no point of that end is covered. The shortcut for tips with equal properties that are apart is part of C74."
},
"C81": {
"status": "proved",
"note": "C81_loop_refuted: around the middle of a straight row of equal circles the left side of a cap is a full loop, for snapping the angles together makes the arc minus a full turn; the right side is a single point. Sides are modelled one at a time."
},
"C82": {
"status": "proved",
"note": "For any intersection of segments that finds the first common point; C82_legacy: that of C83 is one. C82_position_refuted: where all vertices are at one position the position of the result is the origin, not the vertex. C82_triangle_refuted: neither the first vertex nor the intersection need be within the triangle. An outline whose sides do not reach the start of the partition (its last offset below the first) is outside of the claim: uint32_t wraps around."
},
"C83": {
"status": "proved",
"note": "In exact arithmetic there are no neighbouring numbers: the adjustment by one float in PositionRelativeToLine leaves a point where it is. The choice of the exponent is a parameter. C83_point_refuted: for two segments that are the same point the intervals are [0, 1]."
},
"C84": {
"status": "proved",
"note": "In exact arithmetic there are no neighbouring numbers to adjust by, as in C83. C84_equivalent_refuted: for corners on a line it is not equivalent to Triangle::Contains, which contains the segment between them."
},
"C85": {
"status": "proved",
"note": "The margin is what is passed to WithMargin; that a label keeps it rounded down is the label claim's. Which triangles contribute which derivatives (AddDerivativesForTriangle) is not modelled. That the triangle keeps its orientation when all three corners move is not claimed, by the code or here."
}
}
