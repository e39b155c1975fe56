# Formal model of google/ink in Rocq (Coq 8.16.1)

This file describes what is modelled, how each property of `properties.jsonl`
is stated and proved, and what the results rest on.

## 1. Layout

All Coq sources are in `rocq/theories` (logical prefix `Verif`).  For every area:

* `<Area>Model.v`  – the model: total, computable Gallina definitions, one per C++
  function, each with a comment citing the file and lines in /repo.
* `<Area>Spec.v`   – where useful, the independent specification (grammar,
  point-set meaning, list semantics, ...), written without the model's helpers.
* `<Area>Proofs.v` – lemmas.
* `<Area>Props.v`  – only the property theorems, each closed by `exact`, followed by
  `Print Assumptions`, and `Example`s that show the hypotheses are met by a
  concrete non-trivial case.

`MANIFEST.json` maps property ids to theorem names.  `seeded/LOG.jsonl` records
mutation experiments (wrong programs which must break a theorem).

## 2. Trusted base

* Coq's kernel (and coqchk).  No plugin, no native code.
* Axioms: none of our own.  Theorems over the real numbers or over Flocq's floats
  depend on the standard library's axioms for the classical reals
  (`ClassicalDedekindReals.sig_forall_dec`, `ClassicalDedekindReals.sig_not_dec`,
  `FunctionalExtensionality.functional_extensionality_dep`, and where Flocq needs
  it `Classical_Prop.classic`).  Section 7 lists what `Print Assumptions` reports
  per theorem.
* The reading of the C++ code: the model is written by hand from the source at
  the pinned commit; nothing is extracted or compiled.
* The platform: IEEE-754 binary32/binary64 with round-to-nearest-even, no
  contraction of a*b+c into fused operations, no excess precision, little-endian
  memory, 64-bit size_t, no allocation failure, single thread.
* The compiler's standard library where it is called: std::sort, std::stable_sort,
  std::nth_element are any function with the documented promise; absl containers
  and Spans are lists; absl::Status carries only ok/error.

## 3. Conventions

* 32-bit `float` is Flocq's `BinarySingleNaN.binary_float 24 128`
  (round-to-nearest-even, signed zeros, infinities, a single NaN).  NaN payloads
  are not modelled: nothing in the modelled code observes them.
  `std::fmod`, `floor`, `ceil`, `round`, `nextafter` etc. are specified through
  their exact real meaning, as IEEE-754 requires.  Transcendental functions are
  never evaluated: they are universally quantified parameters, or the property is
  stated over R.
* "In exact arithmetic" in a property means that the model of that function uses
  Coq's reals `R` in place of `float`.  This is a disclosed simplification.
* `absl::Status` results are modelled as `option`/`result` values; error messages
  are not modelled, but error/ok is.
* CHECK failure and undefined behaviour are separate outcomes of the model
  where they are reachable.
* Mutable objects are modelled by state-passing functions; shared pointers by an
  explicit heap with reference counts where aliasing matters.

## 4. Plan per property

| id | model | proof |
|----|-------|-------|
| C01, C02 | `Uri::Parse` and `ToNormalizedString` on byte strings | grammar as an inductive/decomposition predicate; equivalence by case analysis on delimiter scanning |
| C03 | Duration32 operators over binary32 | Flocq case analysis of every operator |
| C04, C07 | heap of reference-counted cells with handles; every COW operation | forward simulation to private values, induction over histories |
| C05, C06, C08 | StrokeInputBatch with packed float vector, stride, appended/erased/written in place | representation function to a list of inputs; induction over histories |
| C09–C12 | InProgressStroke state machine with queued/processed batches, and the log of what is given to the shape builder | invariant + refinement to an abstract history |
| C13 | Stroke setters; shape generation an arbitrary function of brush and inputs | invariant over histories, exact list of stale cases, counterexample |
| C14 | Brush::Create and setters over binary32 | invariant |
| C15 | the validators | boolean/Prop reflection against a separately written condition |
| C16, C17 | node list validation and the stack machine | forest flattening, induction (compiler correctness) |
| C18, C19, C22 | float functions | Flocq: rounding monotonicity |
| C20 | target accumulation | permutation induction over R; float counterexample by computation |
| C21 | table construction and lookup | induction on the point list |
| C23 | table loop in binary32 | monotonicity of rounded operations in x1,x2 reduces to finitely many computed bounds |
| C24 | tip modeler loop with abstract node semantics depending on declared inputs | simulation between incremental and from-scratch runs; counterexample |
| C25, C26 | time sources, particle loop | reals; loop variant |
| C27 | StrokeInputModeler with arbitrary backend | invariant |
| C28 | MeshFormat::Create, offsets, WithoutAttributes | list induction |
| C29 | bit packing | arithmetic on Z |
| C30 | coding parameters in binary32 / R | rounding error analysis |
| C31 | PartitionTriangles loop | loop invariant |
| C32, C33 | MutableMesh over a byte vector | representation function, disjointness of offsets |
| C34 | flip-correction work list with abstract geometry oracle | termination measure, invariant |
| C35 | Mesh::Create | reflection |
| C36, C37 | PartitionedMesh tables and generator | prefix sums |
| C38 | static R-tree build and visit | structural induction on levels |
| C39 | early exit loop in binary32 | rounded sum of non-negative numbers is monotone |
| C40, C43, C44, C45, C46, C47, C50 | geometry | real algebra (nra/field), explicit witnesses |
| C41 | angle normalisation | Flocq |
| C42 | affine maps | field |
| C48, C49 | color | Flocq case analysis, finite sweep of 256 values by computation |
| C51 | StrokeInputModeler/InProgressStroke prediction handling | invariant, exact exception |
| C52 | easing curve end points in binary32 | monotonicity of rounding, computed bounds |
| C53, C54 | damping and noise nodes | real analysis (exponential, induction over inputs) |
| C55 | PartitionedMesh queried with a PartitionedMesh | reduction to C37, CalculateCollapsedSegment |
| C56 | MutableMesh::AsMeshes | composition of C31, C32, C30, C34, C35 |
| C57 | MutableMesh::FromMesh | the bytes copied represent the values and triangles read from the mesh |
| C58 | PartitionedMesh::FromMutableMesh(Groups) | C56 and C36, invariant of the vertex map |
| C59 | Intersects with PartitionedMesh arguments | reduction to C37, C45 and C55 through the inverse transform |
| C60 | Distance | the shape's point set, that a shortest line to a convex set that misses the other ends on an edge, case by case over the degenerate forms |
| C61 | StrokeVertex in MutableMesh | the byte arrays as lists of vertices (C32), one attribute write at a time; induction over the calls |
| C62 | Label::WithMargin, DecodeMargin, Lerp | the float expression as a monotone real function with a bound on its rounding error; case analysis on the sides |
| C63 | GetCustomPackingParams, MakeCustomPackingArray | the constant parameters equal those that C30 computes from bounds; C29 and C30 for the bytes and the error |
| C64 | geometry/internal/algorithms (barycentric, projection vector, intersection ratios, SpiralLerp, NormalizedAngleLerp), Vec::AsUnitVec, SignedAngleBetween | in exact arithmetic; spec: smallest ratio of a point set along a segment; cases parallel / collinear / zero-length / crossing, all from two lemmas on lines |
| C65 | Lerp (all overloads), InverseLerp, LinearMap | 32-bit floats: monotone rounding, no-underflow of differences (Flocq round_plus_neq_0), absolute rounding error |
| C66 | StrokeOutline | an array of possibly uninitialised cells with bounds-checked reads and writes; refinement to a pair of lists, by induction over the calls |
| C67 | MutableMeshView, ConstructUpdate, StrokeShapeUpdate::Add | the byte-level mesh of C32/C61 with the two tracked minima; invariant: below the minimum both lists agree; induction over calls and over updates |
| C68 | Geometry: save point, revert, clear, breaks and all places that change the mesh or the sides | every change is an operation; invariant relating the present geometry, the one saved and the save point, with a count below which nothing was cleared; lists with saved parts and hash maps as association lists |
| C69 | BrushTipExtruder: events, save, restore, outlines and bounds counts on top of the geometry of C68 and the outline buffer of C66 | invariant: completed pieces, open tails and one outline per piece; the geometry invariant of C68 carries over to extrusions and outlines; a simulation between two extruders that differ in shading only |
| C70 | the unpacking functions of the SkSL helper text as functions on binary32 and binary16 floats | exactness lemmas for small dyadic numbers (value and sign, so results are equal bit for bit), one table per shader constant over the 256 bytes, error analysis for the divisions; C29 and C63 for the CPU side |
| C71 | MeshSpecificationData as lists of typed, offset attributes, the uniform initialisation, and the part of the SkSL main that reads the vertex; the byte offsets of C28's layout | case analysis of the validated formats (an iff), offsets of neighbouring attributes, C70 for the unpacking, C56 strengthened to say what the bytes of the made meshes are |
| C72 | polyline_processing.{h,cc} on top of the models of segments, distances and the R-tree; uninitialized members are an arbitrary function | The R-tree theorem (C38) turns each visit into a fold over the sides whose box meets the query; a fold that keeps the best is shown to find a best one; walk distances are path lengths; specification in terms of path lengths, nearest places and first meeting places |
| C73 | simplify.cc, and which vertices geometry.cc gives to it, over floats and exact numbers | Farthest-vertex scan characterised as the first maximum for any strict order; induction over the recursion; exact: convexity of the distance to a segment and an intermediate-value walk along the dropped run. |
| C74 | constrain_brush_tip_extrusion.cc, LerpShapeAttributes and EvaluateTangentQuality in binary32 | Invariant of the bisection with exact dyadic bounds; interpolation stays between its ends by monotone rounding, exact subtraction for small differences and a relative bound for large ones. |
| C75 | Extrude, TryAppendNonBreakPointState, ExtendStroke, Save, Restore, ClearSinceLastExtrusionBreak, on the list of extrusions | A case-by-case step relation as specification; simulation of each call; invariant relating the saved and deleted tips to the list, showing that Restore brings back exactly what was saved. |
| C76 | The whole class Circle | Cauchy-Schwarz for discs and support lines; a unit vector is determined by its inner and cross products with the line of centers; monotonicity of the cosine for chords; ceiling of the quotient is the least number of steps. |
| C77 | Construction, bounds and round containment of BrushTipShape | circles in closed form per case of the thresholds; support functions of hulls are maxima over the discs and move by at most the distance the centers move; the slant matrix has determinant cos slant. |
| C78 | Splitting as list operations | the loops in closed form as a rotation cut by the count; four points in convex position can not alternate between the sides of a line, by the identity of the four triangle areas. |
| C79 | Arcs, segments and signed distances | of all ends of arcs take the one in whose direction the disc sticks out most; the disc is seen there by the segment, unless an arc sees it. |
| C80 | The choice of circles, the walk around both tips and the test of what is left out | ranges by induction over the loops; the walk is the counter-clockwise interval and what is left out its complement; with C79 containment is that in the hull. |
| C81 | A turn around a circle, rows of circles and the three ways to choose them | angles brought into one turn with the exact reading of C76; the row by induction over the circles; the walk is the interval of C80, the division that of C78. |
| C82 | The outline as a list, the searches as walks along it | induction along the outline; the result is one of five cases, which exclude each other (C82_unique); fans by induction from the end, joined at the discontinuities. |
| C83 | The helper case by case | parameters along a line; parallel segments reduced to intervals of one line, the others to the only solution of two equations. |
| C84 | The position relative to a line is the sign of a determinant; the three determinants add up to the area | cases on signs. |
| C85 | Distance from a line is linear along the move; the bound is its zero | cases on the sign of the zero; induction over the saved bounds and over the runs; sums for averages. |

## 5. Findings (places where the code and its documentation disagree)

Each of these is a theorem with an explicit witness unless it says "by reading".

| area | finding | theorem |
|------|---------|---------|
| Duration32 | 0*inf and 0/0 give NaN although the header says a duration is never NaN | C03_never_nan_refuted |
| StrokeInputBatch | erasing inner inputs can leave two equal neighbours, which the batch otherwise refuses | C05_inner_erase_refuted |
| StrokeInputBatch | an orientation of exactly 2 pi is accepted although the range is half open | C05_orientation_full_turn_accepted |
| StrokeInputBatch | a moved-from batch keeps its old Size(); appending a batch to itself is undefined; Transform can turn a valid batch invalid | C06_*, C07_*, C08_* |
| InProgressStroke | UpdateShape(NaN) is accepted and time can go back afterwards; a dry stroke can still change; GetInputs keeps predictions that the geometry has dropped | C10_*, C11_*, C12_* |
| Stroke | SetBrush keeps a stale shape when only the input model or winding paint changes; SetInputs(GetInputs()) empties the stroke | C13_* |
| brush validation | texture offsets outside [0,1] and families with no coats are accepted | C15_* |
| behaviors | interleaved targets are accepted; kRepeat gives exactly 1 for tiny negative values; inf*0 gives NaN width; target order matters in floats | C16_*-C20_* |
| easing | Linear easing overflows to NaN; jump-at-start Steps exceeds 1; kEase, kEaseOut, kEaseInOut give 0.99999994 at 1 | C21_*, C22_*, C52_* |
| tip modeler | with a forward or lateral offset and no direction source, states that were said to be fixed change; HasUnfinishedTimeBehaviors ignores predicted inputs; a particle gap that is absorbed by rounding loops forever | C24_*, C25_*, C26_* |
| input modeler | an empty call after a hidden prediction keeps it; the real count decreases; stale complete distance | C27_*, C51_* |
| MeshFormat | custom attribute ids 128 and above are refused | C28_custom_id_refuted |
| packing | tiny ranges and the largest range are coded wrongly | C30_* |
| PartitionTriangles | limits below 3 are not respected; repeated corners split early | C31_small_limit_refuted, C31_repeated_corner_refuted |
| MutableMesh | 32-bit byte offsets wrap beyond 4 GiB | C32_attribute_beyond_4GiB_refuted |
| Mesh | ranges of unpacked attributes are not checked; a packed position reads back outside Bounds() | C35_*_refuted |
| AsMeshes | packing parameters are indexed by the format without the omitted attributes, not by Format(); the range check skips unpacked attributes and unused vertices | C56_params_index_refuted, C56_range_refuted |
| FromMutableMesh | outline vertices in no triangle are left out without notice; an outline with only such vertices makes the call fail though no such error is documented | C58_dropped_refuted, C58_lost_outline_refuted |
| PartitionedMesh | at most 65535 meshes instead of the documented 65536; groups without meshes end the process in the spatial index and Coverage | C36_limit_refuted, C37_empty_groups_refuted |
| PartitionedMesh | Coverage and CoverageIsGreaterThan disagree by rounding, Coverage can exceed 1, zero-area meshes give NaN | C39_* |
| Distance, Intersects | documented to be symmetric; with floats the order matters for nearly touching collinear segments | C60_symmetric_refuted |
| Lerp, InverseLerp, LinearMap | for points, colors and angles equal ends do not give that value back for any t (for 2^30 the result is 0 instead of 1); InverseLerp of a value between the ends can be NaN; LinearMap does not send the second end to the second end; Lerp with t = 1 can lie beyond the end | C65_point_same_refuted, C65_point_same_far_refuted, C65_inverse_overflow_refuted, C65_map_second_refuted, C65_lerp_end_refuted, C65_lerp_overshoot_refuted |
| Lerp of stroke attributes | documented to return the label of `a` when t <= 0; the margin of the label is set to the greatest one | C62_lerp_keeps_label_refuted |
| PartitionedMesh | a singular transform that collapses the diagonal of the bounds loses the query; gaps are filled | C55_diagonal_refuted, C55_gap_refuted, C59_diagonal_refuted, C59_gap_refuted |
| R-tree | an empty tree reads outside its nodes; exactly 2^32 elements | C38_* |
| AffineTransform, Vec | Apply(Quad) is wrong for singular transforms; AsUnitVec ends the process on {2^-149, 0} | C42_* |
| ConvexHull | points straight above the lowest point, more than 500 points, and the float comparator | C46_vertical_refuted, C46_large_refuted, C46_order_refuted |
| Color | ScaledToGamut of an infinite component gives NaN | C48_* |
| ClearSinceLastExtrusionBreak decides by triangle counts whether to capture, but the capture checks vertex and index counts | a break added after the save point at more vertices and no more triangles makes the next clear fail a CHECK | C68_clear_refuted |
| RevertToSavePoint restores vertices saved by SetVertex only; derivatives recomputed by UpdateMeshDerivatives are written past it | the derivative attributes of old vertices keep the values computed with predicted geometry until they are recomputed | C68_shade_refuted |
| unpacking positions from half4 vertex attributes | If the driver loads kUByte4_unorm into half4 as true 16-bit floats, floor(15.9375 * y) is one too small for eleven middle bytes: a vertex at (1, 0) in packing steps is drawn at (0, 4095.9), at the other end of the mesh. The comment above these functions says that the values are loaded "as four 16-bit floats"; the functions are right only if they are not. | C70_half_refuted |
| mesh_specification_data.h, CreateForStroke | The documentation says that every attribute except the HSL shift is required; the surface UV is optional too. | C71_accepts |
| meshes coded with other parameters | CreateForStroke accepts any mesh of a supported format, but the shader has the coding of opacity, HSL, labels and UV built in: a mesh packed with default parameters is accepted and drawn with opacity shift -1 where it reports 0. | C71_coding_refuted |
| With no points the reservation of size_t(-1) elements throws; with one point an empty vector is read | ProcessPolylineForMeshCreation | C72_too_few_refuted |
| A point given twice in a row near an end fails a check | FindBestEndpointConnections | C72_repeated_refuted |
| With an infinite max_connection_distance and nothing to join to, an uninitialized index is used | FindBestEndpointConnections | C72_unbounded_refuted |
| EndpointIsConnectable takes the index as a float: from 2^24 sides on it is another side, or none | EndpointIsConnectable | C72_index_refuted |
| The header says maximum distance (it is exclusive) and ratios that must be exceeded (they are inclusive) | polyline_processing.h 93-103 | C72_bounds_refuted |
| No point is added for a connection if the end is already there | polyline_processing.h 3.3 | C72_additional_point_refuted |
| Where two sides overlap, the last intersection is where they start to | FindFirstAndLastIntersections | C72_last_crossing_refuted |
| With rounding the ends of a trimmed loop need not coincide | ProcessPolylineForMeshCreation | C72_loop_refuted |
| simplify.h: vertices are omitted that `don't change the position of any point in the polyline by more than epsilon` | true of the sets of points; a polyline that goes back and forth is not followed | C73_order_refuted |
| geometry.cc 863: the last vertex is kept if its removal `would make a previous simplification invalid` | checked only against the segment to the next vertex, which may be removed in the same step | C73_before_refuted |
| constrain_brush_tip_extrusion.cc: at t = 0 `it's the same shape, just offset` | not if the rotation of the last tip is not normalized: then the shapes compare unequal (the branch with TODO b/323763534) | C74_start_refuted |
| constrain_brush_tip_extrusion.h: the maximum error is 0.5^max_iterations | only if joins that are good at a ratio are good at all smaller ones | C74_error_refuted |
| brush_tip_state.h: LerpShapeAttributes copies all fields but width, height, percent_radius, rotation, slant from b | pinch is interpolated too | C74_pinch_refuted |
| brush_tip_extruder.cc 318: the last state in the batch is not rejected, `to prevent the stroke from lagging behind the input` | so the finished stroke depends on the batches in which its inputs came | C75_batching_refuted |
| circle.h 96: the arc angle is always in the range [0, 2 pi) | it is 2 pi for a chord height of at least twice the radius | C76_full_refuted |
| circle.h 66-71: at least two points even when the arc angle is zero | the number of steps is NaN if the largest step is zero too, and converting it to int32_t is undefined behavior | C76_undefined_refuted |
| brush_tip_shape.cc 371, 405: circles in the same BrushTipShape should never contain one another, so we should always be able to find tangents (CHECK) | two circles coincide for a fully pinched, unrounded tip twice as wide as high slanted by a quarter turn | C77_twins_refuted |
| brush_tip_shape.h 50: the minimum is the smallest distance between centers | slanting can bring centers together after the test | C77_distinct_refuted |
| brush_tip_shape.cc 737: the points of an end cap are split according to the travel direction | only those after the last left point are moved to the right | C78_endcap_refuted |
| rounded_polygon.cc 83-87: vectors with a determinant close to 0 are said to be close to each other | they may be opposite: half circles are skipped, and circles behind them are reported as contained | C79_half_refuted |
| brush_tip_extrusion.h 59-61: kGoodTangents means that 'the joined shape covers `first` and `second`' | not if the tangents lead to the near end of a tip lying in the direction of travel: its far end is not covered | C80_cover_refuted |
| circular_extrusion_helpers.cc 77-79: nearly-collinear angles are snapped together 'to prevent adding an unnecessary loop' | without intersections a loop is what snapping adds on the left: the arc between equal angles is minus a full turn | C81_loop_refuted |
| directed_partial_outline.h 105-107: the result for coincident vertices is 'the last vertex to lie on segment' | its position field is left at (0, 0) | C82_position_refuted |
| directed_partial_outline.h 113-115: with a containing triangle 'all outline positions from the start to the intersection must be contained' | the first vertex and the intersection are not tested | C82_triangle_refuted |
| legacy_segment_intersection.h 34-35: 'if the segments intersect at a single point, the first and second element of each interval will be equal' | for two equal points the intervals are [0, 1] | C83_point_refuted |
| legacy_triangle_contains.h 22-24: to be replaced by 'the equivalent algorithm in ../geometry/triangle.h' | for three corners on a line that one contains the points between them and this one does not | C84_equivalent_refuted |

By reading, without a theorem: modeler reset uses the unit length of the real inputs even when only
predicted ones exist; the real input count may equal the stable count although the comment says greater;
tilt-x/y are null at exactly kQuarterTurn although the header gives a closed range; static_rtree.h compares
tile_idx with the total number of tiles (harmless because absl::Span::subspan clamps); quad.cc Join uses the
unqualified `abs`; the comment on the nudge bit mask contradicts its constants (harmless); IndexFormat values outside
the enumeration end the process in Create; when the packing scale is close to the ulp of the offset,
quantisation is not idempotent (excluded in C34_float and C56_made by `moderate`/`calm`).

## 6. What is modelled

Modelled function by function (Coq file: C++ files):

* UriModel: types/uri. DurationModel: types/duration. CowModel: types/internal/copy_on_write.
* BatchModel: strokes/input/stroke_input, stroke_input_batch, internal/stroke_input_validation_helpers (messages left out).
* IpsModel: strokes/in_progress_stroke without CopyToStroke; the shape builders are arbitrary machines.
* ModelerModel: strokes/internal/stroke_input_modeler; the ink_stroke_modeler library is an arbitrary machine.
* StrokeModel: strokes/stroke; shape generation is an arbitrary function of brush and inputs.
* BrushModel, FamilyModel: brush/brush, brush_family, brush_coat, brush_paint, brush_tip (validation; ToString and matchers left out).
* BehaviorModel: brush/brush_behavior, brush_tip, strokes/internal/brush_tip_modeler_helpers, brush_tip_state.
* EasingModel: brush/easing_function, strokes/internal/easing_implementation.
* TipModel: strokes/internal/brush_tip_modeler.
* NumModel: the number operations, once over binary32 (`fnum E`, for any library of elementary functions E) and once over R (`rnum`), so that one definition of each function is used for both.
* GeomModel: vec, point, segment, triangle, rect, quad, envelope, internal/intersects_internal, intersects (basic objects). AffineModel: affine_transform. AngleModel: angle.
* ConvexHullModel: convex_hull, internal/convex_hull_helper (float to double conversion is exact and left out).
* ColorModel: color, color_space, color_helpers.
* MeshFormatModel: mesh_format. BytesModel, PackModel: internal/mesh_packing, mesh_packing_types. PartitionModel: PartitionTriangles.
* MutableMeshModel, MeshModel, FlipModel, AsMeshesModel: mutable_mesh, mesh.
* DistanceModel: geometry/distance.h, geometry/distance.cc.
* StrokeVertexModel: strokes/internal/stroke_vertex.h, stroke_vertex.cc; LinearMap in geometry/internal/algorithms.cc.
* AlgorithmsModel: geometry/internal/algorithms.cc 40-233 (std::acos is a parameter; copysign of zero is written 0), Vec::AsUnitVec and SignedAngleBetween in vec.cc.
* StrokeOutlineModel: strokes/internal/stroke_outline.h, stroke_outline.cc (GrowIndexStorage, AppendNewIndices, TruncateIndices, GetIndices); sizes are natural numbers (no 32-bit overflow of the counts), moving and copying the object is not modelled.
* IntersectsModel: geometry/intersects.cc (the mesh overloads; the other overloads are in GeomModel).
* PartitionedMeshModel: partitioned_mesh (shared pointers are values; the lazily built index is a value), parts of internal/algorithms. RTreeModel: internal/static_rtree, types/small_array (bound only).
* MeshViewModel: strokes/internal/brush_tip_extruder/mutable_mesh_view.{h,cc} for a MutableMesh (not for the legacy vectors), ConstructUpdate in brush_tip_extruder.cc, stroke_shape_update.cc (offsets, not the region).
* ExtruderGeometryModel: strokes/internal/brush_tip_extruder/geometry.{h,cc}: SetSavePoint 82-130, RevertToSavePoint 191-265, ResetMutationTracking 277-286, SetExtrusionBreakPartitionOnSide 365-380, AddExtrusionBreak 388-433, capture and ClearSinceLastExtrusionBreak 448-561, Reset 696-709, AppendVertexToMesh 818-832, insertion of triangles 1242-1286, SetVertex, SetTriangleIndices, UpdateOppositeSideOffset 2956-2999; every other change is one of these. Not: how the triangulation chooses them, first_mutated_left_index_, first_mutated_right_index_, envelope_of_removed_geometry_.
* TipExtruderModel: strokes/internal/brush_tip_extruder.{h,cc}: StartStroke 57-74, ExtendStroke 101-133, bounds 145-214, Save, TruncateOutlines, Restore, ClearSinceLastExtrusionBreak 216-290, the search for the last break 340-358, Extrude 446-495 as events, ExtrudeBreakPoint 497-557; stroke_shape_builder.cc 107-112. TryAppendNonBreakPointState and ConstrainBrushTipExtrusion are in ChainModel and ConstrainModel. Not: ExtrusionPoints; the returned update (see MeshViewModel).
* ShaderUnpackModel: rendering/skia/common_internal/sksl_vertex_shader_helper_functions.h: decodeMargins 104-107, the edge flags of calculateAntialiasingAndPositionOutset 217-220, all unpack functions 241-348, over binary32 with binary16 loads and labels beside. Not: GPU-specific precision (mediump, fused multiply-add), the rest of the helper text.
* DrawSpecModel: rendering/skia/common_internal/mesh_specification_data.cc: CreateForInProgressStroke 82-90 and its attribute list, the type tables 199-262, the validation 264-410, CreateForStroke 414-540; rendering/skia/native/internal/mesh_uniform_data.cc: Copy2DUnpackingParams 103-111, InitializeAttributeUnpackingTransforms 129-147; brush/brush_coat.cc: GetRequiredAttributeIds 33-105; strokes/in_progress_stroke.cc: the omitted attributes in CopyToStroke 234-291. The main functions of the SkSL text only as far as what they read. Not: varyings, fragment shaders, Skia's own validation.
* PolylineModel: geometry/internal/polyline_processing.{h,cc}
* SimplifyModel: simplify.cc 28-83; geometry.cc 850-888
* ConstrainModel: constrain_brush_tip_extrusion.cc 33-131, brush_tip_state.cc 21-41, brush_tip_extrusion.cc 138-159. Not: EvaluateTangentQualityInternal (a parameter)
* ChainModel: brush_tip_extruder.cc 57-74, 101-131, 208-212, 237-380, 450-458, 491-520, the list extrusions_ only
* CircleModel: geometry/internal/circle.h 31-153, circle.cc 31-84
* TipShapeModel: strokes/internal/brush_tip_shape.cc 53-152, 434-447, 802-909 (construction, Bounds, Contains)
* TipCapModel: strokes/internal/brush_tip_shape.cc 163-199, 616-683, the loops and splits of 686-751 and 753-794; the points appended are in TurnModel
* RoundedModel: strokes/internal/rounded_polygon.h 48-111, rounded_polygon.cc 33-148
* JoinedModel: strokes/internal/brush_tip_shape.cc 201-432, brush_tip_extrusion.cc 25-137
* TurnModel: strokes/internal/circular_extrusion_helpers.cc 41-203, brush_tip_shape.cc 453-612, 687-796
* OutlineSearchModel: strokes/internal/brush_tip_extruder/directed_partial_outline.cc 39-154, find_clockwise_winding_segment.cc 31-108, derivative_calculator_helpers.cc 28-81
* LegacyModel: geometry/internal/legacy_segment_intersection.cc 123-290, legacy_vector_utils.cc 38-101
* LegacyTriangleModel: geometry/internal/legacy_triangle_contains.cc 24-35, legacy_vector_utils.h 24-28
* MarginModel: strokes/internal/brush_tip_extruder/derivative_calculator.cc 41-60, 99-104, 132-151, 342-577

Not modelled: in strokes/internal/brush_tip_extruder the decisions of the triangulation (geometry.cc outside the
lines listed above) and which triangles contribute which derivatives in derivative_calculator.cc (AddDerivativesForTriangle
and the writing of derivatives, 153-339); the exponent chosen in legacy_segment_intersection.cc 42-121;
generic_tessellator, tessellator, the other legacy_* files; of rendering everything but the lines
listed above; all JNI bindings; type matchers, ToString, AbslStringify and error messages; hashing; benchmarks.

Property statements say where exact arithmetic (`rnum`) is used in place of floats; MANIFEST.json notes repeat it.

## 7. What Print Assumptions lists

All axioms come from the standard library (Coq.Reals, Coq.Logic): `ClassicalDedekindReals.sig_forall_dec`,
`ClassicalDedekindReals.sig_not_dec`, `FunctionalExtensionality.functional_extensionality_dep`, `Classical_Prop.classic`.
Regenerate with `tools/assumptions.py --design` after a build.

<!-- assumptions begin -->

**Closed under the global context (no axioms)**

* C01: `C01_parse_accepts_exactly_the_grammar`
* C02: `C02_normalized_round_trip`, `C02_equal_iff_same_normalized`, `C02_normalized_is_shortest`
* C04: `C04_copy_on_write_is_private`, `C04_is_shared_exact`
* C13: `C13_one_group_per_coat`, `C13_one_group_per_coat_from_shape`, `C13_color_keeps_shape`, `C13_set_own_inputs_empties`
* C28: `C28_create`, `C28_layout`, `C28_tiles`, `C28_widths`, `C28_without`, `C28_equal`, `C28_custom_id_refuted`, `C28_default`
* C29: `C29_sizes`
* C31: `C31_keeps_triangles`, `C31_good_partitions`, `C31_one_partition`, `C31_small_limit_refuted`, `C31_repeated_corner_refuted`
* C32: `C32_raw`, `C32_reset`
* C33: `C33_validate`
* C34: `C34_ends`
* C36: `C36_created_iff`, `C36_reads_as_given`, `C36_limit_refuted`, `C36_empty_groups`
* C37: `C37_every_triangle_once`, `C37_empty_groups_refuted`
* C49: `C49_argb`
* C59: `C59_empty`
* C60: `C60_never_negative`, `C60_kinds`
* C61: `C61_format`
* C66: `C66_indices`, `C66_capacity`, `C66_growths`
* C68: `C68_revert`, `C68_revert_always`, `C68_clear`, `C68_clear_refuted`, `C68_shade_refuted`
* C69: `C69_outlines`, `C69_vertices`, `C69_checks`, `C69_restore`, `C69_no_trace`
* C71: `C71_accepts`, `C71_layout`, `C71_copied`
* C78: `C78_split`, `C78_sides`, `C78_endcap`, `C78_walk`, `C78_whole`
* C79: `C79_make`
* C80: `C80_indices`, `C80_quality`
* C82: `C82_outline`, `C82_construct`, `C82_coincident`, `C82_exterior`
* C84: `C84_corner`
* C85: `C85_handed`, `C85_none_missed`, `C85_tracked`, `C85_groups`, `C85_each`

**`functional_extensionality_dep`, `sig_forall_dec`**

* C06: `C06_list_semantics_deterministic`
* C29: `C29_decode`
* C72: `C72_last_crossing`, `C72_last_crossing_refuted`
* C74: `C74_ratio`
* C83: `C83_common`

**`functional_extensionality_dep`, `sig_forall_dec`, `sig_not_dec`**

* C53: `C53_damping_sampling`
* C72: `C72_unchanged`, `C72_ratio_no_effect`, `C72_on_path`
* C82: `C82_unique`

**`classic`, `functional_extensionality_dep`, `sig_forall_dec`, `sig_not_dec`**

* C03: `C03_duration_nan_exactly`, `C03_determinate_computation_not_nan`, `C03_documented_table`, `C03_signs_and_finite_cases`, `C03_never_nan_refuted`
* C05: `C05_batch_always_valid`, `C05_inner_erase_refuted`, `C05_orientation_full_turn_accepted`
* C06: `C06_batch_is_a_list`, `C06_error_changes_nothing`, `C06_call_succeeds_iff_result_valid`
* C07: `C07_copies_are_isolated`, `C07_moved_from_size_is_stale`
* C08: `C08_transform_moves_positions_only`
* C09: `C09_inputs_reported`, `C09_inputs_valid`
* C10: `C10_all_or_nothing`, `C10_time_advances`, `C10_nan_time_goes_back_refuted`
* C11: `C11_dry_keeps_inputs_iff`, `C11_settled_after_one_update`, `C11_dry_stroke_changes_refuted`
* C12: `C12_builders_follow_calls`, `C12_geometry_agrees_iff`, `C12_prediction_without_geometry_refuted`
* C13: `C13_shape_follows_setters`, `C13_failed_setter_changes_nothing`, `C13_setters_succeed_iff_legal`, `C13_stale_shape_refuted`
* C14: `C14_brush_invariant`, `C14_create_exact`, `C14_setters_exact`
* C15: `C15_create_iff`, `C15_create_keeps`, `C15_create_string_iff`, `C15_create_tip`, `C15_at_least_one_coat_refuted`, `C15_offset_range_refuted`
* C16: `C16_valid_iff_listing`, `C16_flattening_valid`, `C16_listing_unique`, `C16_post_order_only_refuted`, `C16_valid_iff_listing_exact`
* C17: `C17_starts`, `C17_execution`, `C17_value_unique`, `C17_starts_exact`, `C17_execution_exact`
* C18: `C18_range`, `C18_nonfinite`, `C18_inside`, `C18_half_open_refuted`
* C19: `C19_offsets_in_range`, `C19_multipliers_in_range`, `C19_no_nan`, `C19_overflow_refuted`
* C20: `C20_floats_refuted`, `C20_order_of_modifiers`, `C20_order_of_behaviors`
* C21: `C21_points_on_curve`, `C21_redundant_points`, `C21_huge_points_refuted`, `C21_exact_curve`
* C22: `C22_steps_range`, `C22_steps_monotone`, `C22_steps_ends`, `C22_jump_start_refuted`, `C22_steps_exact`
* C23: `C23_easing_total`, `C23_bezier_setup_bounded`, `C23_bezier_starts_at_0`, `C23_bezier_exact`
* C24: `C24_fixed_is_final`, `C24_updates_succeed`, `C24_fixed_is_final_exact`, `C24_forward_offset_refuted`
* C25: `C25_finished_stays`, `C25_unfinished_iff`, `C25_predicted_refuted`
* C26: `C26_particles`, `C26_terminates`, `C26_count`, `C26_floats_endless_refuted`
* C27: `C27_stable_never_changes`, `C27_spacing`, `C27_traveled_distance_grows`, `C27_complete_time`, `C27_real_count_grows_refuted`, `C27_distance_of_empty_stroke_refuted`
* C29: `C29_roundtrip`
* C30: `C30_packed_in_range`, `C30_extremes`, `C30_error`, `C30_monotone`, `C30_custom_between`, `C30_constant`, `C30_tiny_range_refuted`, `C30_huge_range_refuted`, `C30_attribute`, `C30_unpacked_exact`
* C32: `C32_reads`, `C32_attribute_beyond_4GiB_refuted`
* C34: `C34_exact`, `C34_float`
* C35: `C35_refused_iff`, `C35_made`, `C35_bounds`, `C35_unpacked_range_refuted`, `C35_packed_bounds_refuted`
* C37: `C37_visits_what_meets`, `C37_visits_turned`, `C37_identity`, `C37_float`, `C37_many_triangles_refuted`
* C38: `C38_query_exact`, `C38_collect`, `C38_any`, `C38_empty_refuted`, `C38_max_size_refuted`, `C38_double_ceilings`
* C39: `C39_exact`, `C39_exact_mesh`, `C39_early_exit`, `C39_agree`, `C39_rounding_refuted`, `C39_more_than_all_refuted`, `C39_no_area_refuted`
* C40: `C40_smallest`, `C40_grows`, `C40_order`
* C41: `C41_normalized`, `C41_about_zero`, `C41_idempotent`
* C42: `C42_apply`, `C42_compose`, `C42_inverse`, `C42_identity`, `C42_translate`, `C42_scale`, `C42_rotate`, `C42_shear`, `C42_about`, `C42_apply_segment`, `C42_apply_triangle`, `C42_apply_quad`, `C42_full_turn`, `C42_apply_rect`, `C42_apply_quad_singular_refuted`, `C42_find_triangle`, `C42_find_rect`, `C42_find_quad`, `C42_find_segment`, `C42_unit_vec_refuted`
* C43: `C43_contains`, `C43_contains_rect`, `C43_join`, `C43_join_point`, `C43_from_two`, `C43_resize`, `C43_semi_finite`, `C43_offset`, `C43_scale`, `C43_scale_negative`, `C43_translate`, `C43_translate_setting`, `C43_set_center`, `C43_set_size`, `C43_from_center`, `C43_center_inside`, `C43_containing_ratio`, `C43_interior_ratio`
* C44: `C44_contains`
* C45: `C45_intersects`, `C45_symmetric`
* C46: `C46_hull`, `C46_large_refuted`, `C46_vertical_refuted`, `C46_large_float_refuted`, `C46_order_refuted`
* C47: `C47_contains`, `C47_corners`, `C47_from_rect`, `C47_width`, `C47_join`
* C48: `C48_invariant`, `C48_as_float`, `C48_as_uint8`, `C48_refused`, `C48_clamped`, `C48_scaled`, `C48_gamut_kept`, `C48_scaled_refuted`, `C48_scaled_made_refuted`
* C49: `C49_refused`, `C49_bytes`, `C49_packed`, `C49_all`
* C50: `C50_lerp_finite`, `C50_lerp_ends`, `C50_lerp`, `C50_project`, `C50_inverse`, `C50_lerp_inverse`
* C51: `C51_chunking_does_not_matter`, `C51_event_stream`, `C51_idle_call`, `C51_idle_call_forgets_hidden_prediction_refuted`
* C52: `C52_named_curves_monotone`, `C52_named_curves_in_unit`, `C52_named_curve_end_refuted`
* C53: `C53_sources`, `C53_source_position`, `C53_out_of_range`, `C53_binary`, `C53_interpolation`, `C53_damping`, `C53_damping_between`, `C53_direction`
* C54: `C54_tip_state`
* C55: `C55_visits_what_meets`, `C55_collapsed`, `C55_diagonal_refuted`, `C55_gap_refuted`
* C56: `C56_refused_iff`, `C56_made`, `C56_params_index_refuted`, `C56_range_refuted`
* C57: `C57_from_mesh`, `C57_created`, `C57_frozen`
* C58: `C58_refused_iff`, `C58_made`, `C58_lost_outline_refuted`, `C58_dropped_refuted`
* C59: `C59_object`, `C59_object_collapsed`, `C59_meshes`, `C59_symmetric`, `C59_first_collapsed`, `C59_both_collapsed`, `C59_diagonal_refuted`, `C59_gap_refuted`
* C60: `C60_distance`, `C60_symmetric`, `C60_zero`, `C60_float`, `C60_symmetric_refuted`
* C61: `C61_reads`, `C61_kept`
* C62: `C62_encode`, `C62_monotone`, `C62_decode`, `C62_margin`, `C62_stable`, `C62_last`, `C62_exterior`, `C62_category`, `C62_lerp_label`, `C62_barycentric_label`, `C62_lerp_keeps_label_refuted`, `C62_lerp`, `C62_barycentric`
* C63: `C63_attribute`, `C63_exact`, `C63_array`, `C63_accepted`
* C64: `C64_ratio_none`, `C64_ratio_first`, `C64_ratio_test`, `C64_ratio_cross`, `C64_ratio_degenerate`, `C64_intersection`, `C64_line_none`, `C64_line_only`, `C64_barycentric_none`, `C64_barycentric`, `C64_barycentric_inside`, `C64_projection_none`, `C64_projection`, `C64_spiral`, `C64_spiral_total`, `C64_spiral_straight`, `C64_angle_lerp`
* C65: `C65_inverse_range`, `C65_inverse_ends`, `C65_inverse_order`, `C65_inverse_same`, `C65_inverse_overflow_refuted`, `C65_lerp_same`, `C65_lerp_start`, `C65_lerp_error`, `C65_lerp_order`, `C65_lerp_end_refuted`, `C65_lerp_overshoot_refuted`, `C65_point_ends`, `C65_channel_ends`, `C65_angle_ends`, `C65_point_same_refuted`, `C65_point_same_far_refuted`, `C65_map_first`, `C65_map_second`, `C65_map_second_refuted`, `C65_angle_range`
* C67: `C67_refresh`, `C67_appended`
* C70: `C70_points`, `C70_attributes`, `C70_attribute`, `C70_edges`, `C70_margins`, `C70_half_bytes`, `C70_half_refuted`
* C71: `C71_finished`, `C71_coding_refuted`, `C71_reads`, `C71_in_progress`
* C72: `C72_exact`, `C72_shape`, `C72_memory`, `C72_total`, `C72_too_few_refuted`, `C72_repeated_refuted`, `C72_unbounded_refuted`, `C72_index_refuted`, `C72_bounds_refuted`, `C72_additional_point_refuted`, `C72_loop_refuted`
* C73: `C73_kept`, `C73_peucker`, `C73_same`, `C73_negative`, `C73_nan`, `C73_buffered`, `C73_near`, `C73_before`, `C73_order_refuted`, `C73_before_refuted`
* C74: `C74_found`, `C74_place`, `C74_answers`, `C74_error`, `C74_valid`, `C74_tried`, `C74_start`, `C74_finds`, `C74_error_refuted`, `C74_start_refuted`, `C74_pinch_refuted`, `C74_same`, `C74_tolerance`
* C75: `C75_step`, `C75_stroke`, `C75_linked`, `C75_order`, `C75_place`, `C75_settled`, `C75_last`, `C75_covered`, `C75_batching_refuted`
* C76: `C76_contains`, `C76_none`, `C76_tangents`, `C76_point`, `C76_chord`, `C76_full_refuted`, `C76_arc`, `C76_arc_point`, `C76_count`, `C76_undefined_refuted`
* C77: `C77_shape`, `C77_exact`, `C77_check`, `C77_distinct`, `C77_separation`, `C77_bounds`, `C77_distinct_refuted`, `C77_round`, `C77_total`, `C77_twins_refuted`
* C78: `C78_convex`, `C78_rear`, `C78_endcap_refuted`
* C79: `C79_arcs`, `C79_contains`, `C79_half_refuted`
* C80: `C80_turning`, `C80_total`, `C80_hull`, `C80_tangent`, `C80_enlargement`, `C80_cover_refuted`
* C81: `C81_fails`, `C81_turn`, `C81_row`, `C81_startcap`, `C81_endcap`, `C81_whole`, `C81_tip_fails`, `C81_tip`, `C81_loop_refuted`, `C81_round`
* C82: `C82_find`, `C82_fan`, `C82_multi`, `C82_legacy`, `C82_position_refuted`, `C82_triangle_refuted`
* C83: `C83_intersection`, `C83_single`, `C83_point_refuted`
* C84: `C84_contains`, `C84_flat`, `C84_order`, `C84_equivalent_refuted`
* C85: `C85_bound`, `C85_gate`, `C85_triangle`, `C85_flat`, `C85_written`, `C85_sums`, `C85_merge`, `C85_any_order`, `C85_value`

<!-- assumptions end -->
