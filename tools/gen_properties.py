import json
P=[]
def p(id,title,statement,quantifier,why,anchors):
    P.append(dict(id=id,title=title,statement=statement,quantifier=quantifier,why_tests_cant=why,anchors=anchors))
p("C01","Uri::Parse accepts exactly the documented grammar",
 "Uri::Parse(s) succeeds if and only if s is empty or has the form [ink:][//<authority>]/<asset-type>:<asset-name>[:<revision>] with the documented character classes, where the asset type is one of the known ones and the revision is a positive decimal number without leading zeros that fits the limit; the parsed Uri exposes exactly those components.",
 "every byte string","The set of strings is infinite; tests sample a few dozen accepted and rejected strings.",
 ["ink/types/uri.h:Uri","ink/types/uri.cc:Uri::Parse"])
p("C02","Uri normalisation round trip",
 "For every Uri obtained from Parse, parsing its normalised string gives back an equal Uri, normalisation is idempotent, and two Uris compare equal exactly when their normalised strings are the same.",
 "every Uri that Parse can return","Ranges over all authorities, names and revisions.",
 ["ink/types/uri.cc:Uri::ToNormalizedString","ink/types/uri.h:operator=="])
p("C03","Duration32 arithmetic: exactly when NaN appears",
 "Starting from non-NaN durations, Duration32 addition, subtraction, scaling and division give NaN only for the classical indeterminate forms (inf-inf, 0*inf, 0/0, inf/inf); the header's claim that a Duration32 is never NaN therefore fails for exactly these operand pairs.",
 "every pair of 32-bit float operands including infinities and signed zeros","2^64 operand pairs.",
 ["ink/types/duration.h:Duration32"])
p("C04","Copy-on-write values are independent",
 "Whatever sequence of copying, moving, assigning, mutating and resetting is applied to any number of CopyOnWrite handles, each handle observes exactly the value a deep-copied private value would have; a write through one handle is never visible through another.",
 "every finite history of operations over any number of handles","Aliasing bugs show only for particular interleavings of copies and writes; the histories are unbounded.",
 ["ink/types/internal/copy_on_write.h:CopyOnWrite"])
p("C05","A StrokeInputBatch always holds a valid input sequence",
 "After any history of Create, Append, Set, Clear, copies, moves and Erase of a prefix or suffix starting from empty batches, every stored input has finite position, non-negative finite time, a valid or absent pressure, tilt and orientation and stroke unit length; all inputs share tool type, unit length and the set of reported optional properties; times never decrease and no two consecutive inputs agree in both position and time. (Erasing from the middle can break the last clause.)",
 "every history of API calls with every argument","Histories and float arguments are unbounded.",
 ["ink/strokes/input/stroke_input_batch.cc","ink/strokes/input/internal/stroke_input_validation_helpers.cc"])
p("C06","A StrokeInputBatch behaves as a list of inputs",
 "Size, Get, First, Last, iteration and GetDuration read back exactly the list obtained by applying Append (single, span or batch), Set, Erase and Clear to a plain list of StrokeInput; a call that returns an error leaves the batch unchanged, and on a valid batch a call succeeds exactly when the resulting list is valid in the sense of C05. (The stored unit length is that of the first input, numerically equal to the others.)",
 "every history of API calls","The storage is a packed float array whose stride depends on which optional properties are present; off-by-one errors need all strides and positions.",
 ["ink/strokes/input/stroke_input_batch.h","ink/strokes/input/stroke_input_batch.cc"])
p("C07","StrokeInputBatch copies are isolated",
 "Mutating a batch (Append, Set, Erase, Clear, Transform) never changes what any other batch copied from or to it reports.",
 "every history of API calls over any number of batches","Aliasing depends on use counts along unbounded histories.",
 ["ink/strokes/input/stroke_input_batch.h","ink/types/internal/copy_on_write.h"])
p("C08","StrokeInputBatch::Transform preserves size, times and optional properties",
 "Transform changes only positions, stroke count and every other property are untouched; the batch stays a valid sequence exactly when the transformed positions are finite and no two consecutive transformed inputs coincide in position and time.",
 "every batch and every affine transform","All float matrices and all sequences.",
 ["ink/strokes/input/stroke_input_batch.cc:StrokeInputBatch::Transform"])
p("C09","InProgressStroke reports all real inputs followed by the last processed prediction",
 "After any history of Start, EnqueueInputs, UpdateShape, FinishInputs and Clear, GetInputs() is the concatenation of every real input whose enqueue succeeded and was processed since the last Start, followed by the most recently processed prediction; RealInputCount and PredictedInputCount are the lengths of these parts.",
 "every history of calls with every batch","Unbounded schedules of enqueue/update/finish calls.",
 ["ink/strokes/in_progress_stroke.cc"])
p("C10","InProgressStroke calls are all-or-nothing",
 "EnqueueInputs and UpdateShape either return an error and leave every observable unchanged, or succeed; once EnqueueInputs has accepted inputs the following UpdateShape with a non-decreasing time never fails, i.e. the internal Append calls cannot fail.",
 "every history of calls","A failure in the middle of UpdateShape would need an unlucky combination of queued real and predicted batches.",
 ["ink/strokes/in_progress_stroke.cc:EnqueueInputs","ink/strokes/in_progress_stroke.cc:UpdateShape"])
p("C11","When an InProgressStroke is dry",
 "NeedsUpdate() is documented to return true whenever UpdateShape() would have an effect. It does so except in one situation, which is characterised exactly: inputs were finished while the last update had processed a prediction; then a dry stroke still changes on the next UpdateShape. In every other reachable state, a finished stroke that needs no update keeps its inputs under further updates.",
 "every reachable InProgressStroke state","The failing state needs a particular order of three calls.",
 ["ink/strokes/in_progress_stroke.h:NeedsUpdate","ink/strokes/in_progress_stroke.cc:FinishInputs"])
p("C12","Geometry and GetInputs agree on predictions",
 "After UpdateShape the inputs handed to the shape builder since Start are the inputs reported by GetInputs, except when UpdateShape is called with nothing queued on an unfinished stroke that shows a prediction; in that case the prediction stays in GetInputs while its geometry is dropped.",
 "every history of calls","Needs a history of at least three calls in the right order.",
 ["ink/strokes/in_progress_stroke.cc:UpdateShape","ink/strokes/internal/stroke_input_modeler.cc:ExtendStroke"])
p("C13","Stroke setters: shape is regenerated when documented, failed setters change nothing",
 "For any history of Stroke setters the shape equals the one generated from the current brush and inputs, provided no SetBrush/SetBrushFamily changed only the input model or paint; failed SetBrushSize/SetBrushEpsilon leave brush, inputs and shape unchanged; the shape has exactly one render group per brush coat. SetInputs(GetInputs()) on the same stroke empties it.",
 "every history of setter calls","Unbounded histories; the stale-shape cases need particular pairs of brushes.",
 ["ink/strokes/stroke.cc","ink/strokes/stroke.h"])
p("C14","Brush size and epsilon invariant",
 "Every Brush reachable through Create, SetSize, SetEpsilon, SetFamily and SetColor has finite size and epsilon with 0 < epsilon <= size; Create and the setters succeed exactly when this would hold, and otherwise change nothing.",
 "every float argument and every history","All floats including NaN, infinities and subnormals.",
 ["ink/brush/brush.cc"])
p("C15","BrushFamily::Create accepts exactly the documented families",
 "BrushFamily::Create succeeds if and only if all documented conditions on coats, tips, behaviors, paints and the URI hold; the one place where the implementation is weaker than the header (texture layer offsets are only required to be finite) is characterised.",
 "every list of coats","Dozens of numeric and enum conditions combined.",
 ["ink/brush/brush_family.cc","ink/brush/brush_tip.cc","ink/brush/brush_paint.cc","ink/brush/brush_coat.cc"])
p("C16","A behavior is valid exactly when it is a flattened forest of behavior trees",
 "Validation accepts a list of nodes if and only if every node satisfies its documented conditions and the list lists a graph of targets, each fed by one expression tree, operands before operators. The graph is determined by the list. Every post-order flattening of such trees is accepted; beyond that (and beyond the documentation) so are lists in which complete targets stand between the operands of another one.",
 "every list of nodes","Infinitely many lists of arbitrary length.",
 ["ink/brush/brush_behavior.cc:ValidateBrushBehavior"])
p("C17","Executing a valid behavior computes the tree semantics and never underflows",
 "For every valid behavior, executing its nodes in order on the value stack never pops an empty stack, ends with the stack it started with, and gives every target node exactly the value obtained by evaluating its expression tree (with null propagation), for every input and every previous damping state.",
 "every valid behavior, every modeled input and state","Arbitrary nesting depth.",
 ["ink/strokes/internal/brush_tip_modeler_helpers.cc:ProcessBehaviorNode","ink/strokes/internal/brush_tip_modeler.cc:AddNewTipState"])
p("C18","Out-of-range handling always lands in [0,1]",
 "For every finite 32-bit float x the clamp, repeat and mirror modes return a value in [0,1]; mirror and clamp return x unchanged on [0,1], repeat on [0,1); repeat can return exactly 1 for tiny negative x, as if the range were closed. Infinities and NaN give NaN or a value in [0,1].",
 "every finite float","2^32 values and rounding at every binade.",
 ["ink/strokes/internal/brush_tip_modeler_helpers.cc:ApplyOutOfRangeBehavior"])
p("C19","Modified tip states stay in their documented ranges",
 "For every valid brush tip and all finite modifier values, the resulting tip has slant in [-pi/2,pi/2], pinch and corner rounding in [0,1], opacity and saturation multipliers in [0,2], luminosity in [-1,1] and width/height at most twice the base size; multiplied properties can be NaN only if a product overflows and is then multiplied by zero, which is excluded when no multiplier is zero or none exceeds 1 (and otherwise does happen).",
 "every tip, every list of targets and finite modifiers","All float values and arbitrarily many targets.",
 ["ink/strokes/internal/brush_tip_modeler_helpers.cc:CreateTipState"])
p("C20","Order of behaviors does not matter (in exact arithmetic)",
 "In exact arithmetic, permuting the behaviors of a tip leaves the tip state unchanged, as documented; with 32-bit floats it can change, even from 0 to NaN.",
 "every list of (target, modifier) pairs and every permutation","Unboundedly many permutations.",
 ["ink/strokes/internal/brush_tip_modeler_helpers.cc:ApplyModifierToTarget","ink/brush/brush_behavior.h"])
p("C21","Linear easing: the compacted table gives the documented piecewise linear curve",
 "For every valid Linear easing function, removing points made redundant by neighbours at the same x-position changes the value nowhere; the curve takes the last value given at each x-position, and 1 at x=1 (provided given y differences do not overflow; otherwise NaN is possible); in exact arithmetic it is the piecewise linear curve through (0,0), the points and (1,1), extended on both sides.",
 "every valid point list and every x","Arbitrary lists with arbitrarily many repeated positions.",
 ["ink/strokes/internal/easing_implementation.cc:SetUpImplementationType(Linear)","ink/strokes/internal/easing_implementation.cc:Linear::GetY"])
p("C22","Steps easing stays in [0,1] and is monotone",
 "For every valid step count and step position, the step function evaluated in 32-bit floats is within [0,1] for every x, is non-decreasing in x, and is 0 below 0 and 1 from 1 on; only with the jump at the start can values exceed 1, by at most 2^-23 (so x just below 1 may give more than x=1). In exact arithmetic it is the documented staircase.",
 "every step count and every float x","Rounding of step_count*x just below 1 must never reach step_count; all floats and all counts.",
 ["ink/strokes/internal/easing_implementation.cc:Steps::GetY"])
p("C23","Building a cubic Bezier easing table terminates",
 "For every validated cubic Bezier easing function setting it up terminates in float arithmetic after at most 78 evaluations of the curve, evaluating it anywhere succeeds, and it is 0 for x<=0. In exact arithmetic its 14 grid values lie on chords of the true curve between parameters at most 1/78 apart, from (0,0) to (1,1), joined by straight lines.",
 "every x1, x2 in [0,1] and every y","A hang needs one unlucky pair of floats out of 2^60.",
 ["ink/strokes/internal/easing_implementation.cc:SetUpImplementationType(CubicBezier)"])
p("C24","Fixed brush tip states are final",
 "Tip states reported as fixed are never contradicted later: for every extension of the stroke, re-modelling the whole stroke from scratch yields the same tip states in the same positions. With floats for tips whose sources do not look ahead to the end of the stroke, and without rounding for all sources; provided the tip has no target that depends on the travel direction unless a source does too. With such a target the guarantee fails.",
 "every brush tip, every sequence of modeler updates","Unbounded sequences of updates; the failing case needs a particular target and an unstable next input.",
 ["ink/strokes/internal/brush_tip_modeler.cc:UpdateStroke"])
p("C25","Finished time behaviors stay finished",
 "When HasUnfinishedTimeBehaviors() is false, letting more time pass without new inputs changes no tip state, now or later in the stroke (without rounding, when no modeled input is later than the last real one); and it is false exactly when every source measuring the time since an input is past its range. With predicted inputs later than the last real one the tip can still change.",
 "every tip and every state","All floats and node lists.",
 ["ink/strokes/internal/brush_tip_modeler.cc:HasUnfinishedTimeBehaviors"])
p("C26","Particle spacing and termination",
 "In exact arithmetic consecutive particles are at least the configured gap apart in distance and time are as early as that allows, carry a tip state each followed by a break, and the emission loop terminates with at most (distance/gap) particles; with floats a positive gap that is absorbed by rounding makes it loop forever.",
 "every pair of inputs and every gap","Unbounded loop; real-valued parameters.",
 ["ink/strokes/internal/brush_tip_modeler.cc:ProcessSingleInput"])
p("C27","Stable modeled inputs are never changed",
 "For any smoothing backend and any sequence of ExtendStroke calls, modeled inputs counted as stable are never modified or removed later, the stable count never decreases and never exceeds the real count, and traveled distance never decreases along the stroke.",
 "every sequence of ExtendStroke calls, every backend","Unbounded sequences.",
 ["ink/strokes/internal/stroke_input_modeler.cc"])
p("C28","MeshFormat::Create accepts exactly the documented formats, and offsets tile the vertex",
 "MeshFormat::Create succeeds iff the documented conditions hold; attributes then occupy consecutive disjoint byte ranges that exactly fill the packed and unpacked vertex strides; WithoutAttributes keeps the others in order.",
 "every list of attributes","Lists of arbitrary length and content.",
 ["ink/geometry/mesh_format.cc"])
p("C29","Packed attribute integers round trip",
 "For every packed attribute type, packing integers that fit the per-component bit widths into floats and reading them back gives the same integers, and every packed float is an integer in [0, 2^24).",
 "every packed type and every tuple of in-range integers","Up to 2^48 tuples per type.",
 ["ink/geometry/internal/mesh_packing.cc:PackAttribute","ink/geometry/internal/mesh_packing.cc:UnpackIntegersFromPackedAttribute"])
p("C30","Quantisation error bound",
 "Packing a value inside the attribute bounds and unpacking it again changes it by at most half a quantisation step (plus float rounding), maps the bounds to the extreme integers, is monotone, and never exceeds the bit width; for tiny non-zero ranges the computed scale underflows, and at the largest float range the value read back is infinite, so there these guarantees fail.",
 "every bounds and every value between them","All float triples.",
 ["ink/geometry/internal/mesh_packing.cc:ComputeCodingParams","ink/geometry/internal/mesh_packing.cc:PackSingleFloat"])
p("C31","Partitioning keeps every triangle",
 "Splitting a mesh into partitions keeps every triangle exactly once and in order, with the same vertices in the same corner order; each partition uses at most the allowed number of distinct vertices and each of its vertices is used by one of its triangles.",
 "every index list and every limit of at least 3","Arbitrarily many triangles and adversarial index orders.",
 ["ink/geometry/internal/mesh_packing.cc:PartitionTriangles"])
p("C32","MutableMesh is a list of vertices and a list of triangles",
 "Any history of AppendVertex, SetVertexPosition, SetFloatVertexAttribute, AppendTriangleIndices, InsertTriangleIndices, SetTriangleIndices, TruncateVertices/Triangles (Resize), Clear, and Clone reads back as the same operations on two plain lists: writing one attribute or triangle never disturbs another.",
 "every history and every format","The storage is a byte array with computed offsets.",
 ["ink/geometry/mutable_mesh.h","ink/geometry/mutable_mesh.cc"])
p("C33","ValidateTriangles is exact",
 "ValidateTriangles succeeds iff every triangle refers to three distinct existing vertices.",
 "every mesh","Any number of triangles.",
 ["ink/geometry/mutable_mesh.cc:ValidateTriangles"])
p("C34","Quantisation flip correction is sound and terminates",
 "The flip-correction search always terminates and either gives up (no overrides) or returns position overrides, at most one for each vertex, such that every vertex can be packed, to integers at most one away from those of its original position (the same if it has no override), and no triangle read back is turned over. In floats this holds when the packing step is not too small for the offset (5*(largest integer+2)*scale + 2*|offset| <= 8000000*scale).",
 "every mesh whose triangles have three different corners and whose positions the coding can represent; every coding (floats: with the condition on the scale)","Work-list algorithm over arbitrary meshes.",
 ["ink/geometry/mutable_mesh.cc:GetCorrectedPackedVertexPositions"])
p("C35","Mesh::Create validates and preserves",
 "Mesh::Create succeeds iff the documented conditions hold, and then vertex count, triangle count, triangle indices and (for unpacked attributes) attribute values read back exactly, and Bounds is the smallest rectangle containing all positions.",
 "every attribute table and index list","Unbounded sizes.",
 ["ink/geometry/mesh.cc:Mesh::Create"])
p("C36","PartitionedMesh render groups are kept apart",
 "For every list of mesh groups with outlines, RenderGroupMeshes/Outline accessors return for every group exactly the meshes and outlines given for that group, in order; groups may be empty; creation succeeds iff the documented conditions hold.",
 "every list of groups","Prefix-sum indexing over arbitrary group shapes, including empty groups.",
 ["ink/geometry/partitioned_mesh.cc"])
p("C37","The spatial index covers every triangle",
 "The generator that feeds the spatial index enumerates every triangle of every mesh exactly once if every mesh has fewer than 65536 triangles; a mesh with at least 65536 triangles makes it skip triangles.",
 "every list of meshes","Needs meshes with more than 65535 triangles.",
 ["ink/geometry/partitioned_mesh.cc:InitializeSpatialIndex"])
p("C38","R-tree queries are exact",
 "For every set of elements with bounding boxes and every branching factor of at least 2, visiting a query region calls the visitor exactly once for each element whose bounds intersect the region; stopping early yields a prefix of the full visit.",
 "every element list, query and branching factor","Tree shapes depend on sizes; unbounded.",
 ["ink/geometry/internal/static_rtree.h"])
p("C39","CoverageIsGreaterThan agrees with Coverage",
 "The early-exit comparison used by CoverageIsGreaterThan gives the same answer as summing all areas first and comparing at the end, because rounded partial sums of absolute areas never decrease; both functions divide or compare the same two sums, so in exact arithmetic CoverageIsGreaterThan(q, t) is Coverage(q) > t, the covered area being that of the triangles that meet the query, and in floats the two agree when the threshold is not within rounding distance of the coverage.",
 "every sequence of triangle areas and every threshold","Unbounded sums and rounding.",
 ["ink/geometry/partitioned_mesh.cc:CoverageIsGreaterThan"])
p("C40","Envelope is the smallest bounding rectangle",
 "Adding points, segments, triangles, rects, quads or other envelopes to an Envelope in any order yields the smallest axis-aligned rectangle containing all of them; empty objects change nothing; the result does not depend on the order.",
 "every list of finite objects","All float inputs and orders.",
 ["ink/geometry/envelope.cc"])
p("C41","Angle normalisation ranges",
 "For every finite angle, in float arithmetic, Normalized() lies in [0,2pi) and is the angle plus a whole number of turns up to half a float step, exactly for angles that are not negative; NormalizedAboutZero() lies in (-pi,pi] (pi rounded to float) and is exactly the angle plus a whole number of turns. Both are idempotent.",
 "every finite float","The correction step after fmod can round up to a full turn for tiny negative values.",
 ["ink/geometry/angle.cc"])
p("C42","AffineTransform is a faithful representation of affine maps",
 "Compose(a,b).Apply(p) = a.Apply(b.Apply(p)); Inverse exists iff the determinant is non-zero and then undoes Apply; the named constructors perform the documented map; Find recovers the transform that maps three points to three points whenever they are not collinear.",
 "every transform and every point (exact arithmetic)","Continuum of matrices.",
 ["ink/geometry/affine_transform.cc"])
p("C43","Rect operations are set operations",
 "Rect's Contains, Join, FromTwoPoints and the one-sided resizes are the documented point-set operations in floats; Center, SemiWidth and SemiHeight never overflow. In exact arithmetic Offset, Scale, Translate, the setters and the aspect-ratio rects do what is documented; the containing rect of a given ratio is the smallest, the interior one the largest.",
 "every finite rect, degenerate ones included, and every argument","Continuum.",
 ["ink/geometry/rect.cc"])
p("C44","Triangle::Contains is exact",
 "In exact arithmetic Triangle::Contains(p) holds iff p is a convex combination of the corners, for both orientations and for degenerate triangles.",
 "every triangle and point","Continuum; degenerate configurations have measure zero so random tests never hit them.",
 ["ink/geometry/triangle.cc:Triangle::Contains"])
p("C45","Intersects is exact and symmetric",
 "In exact arithmetic, the static intersection predicates for points, segments, triangles, rects and quads return true iff the two closed point sets share a point; they are symmetric.",
 "every pair of objects","Continuum and degenerate configurations.",
 ["ink/geometry/intersects.cc","ink/geometry/internal/intersects_internal.cc"])
p("C46","Convex hull contains its input",
 "ConvexHull returns points of its input, without repetition, that go counterclockwise around a convex polygon with no three of them on a line, and every input point lies in that polygon, for up to 500 points of which no two different ones lie straight above the lowest point. With two such points, or with more than 500 points, extreme points can be lost; in floats the sort can be handed a comparison that is not an ordering.",
 "every finite point list (exact arithmetic)","Adversarial collinear inputs.",
 ["ink/geometry/internal/convex_hull_helper.h"])
p("C47","Quad corners, edges and containment",
 "A Quad built from an axis-aligned rect has the rect's corners, its corners and containment follow from center, dimensions, rotation and shear in exact arithmetic, and Contains holds iff the point is a bounded combination of the two semi-axes. Join yields the smallest quad of the same rotation and shear that contains the quad and the point; the stored width is never negative.",
 "every quad and point","Continuum.",
 ["ink/geometry/quad.cc"])
p("C48","Color invariant and gamut operations",
 "No sequence of Color factory calls and conversions yields a NaN channel or an alpha outside [0,1], except ScaledToGamut on a color with a +infinity channel, which gives NaN there; reading a color in any format gives numbers, reading it as bytes never fails; ClampedToGamut and (with that exception) ScaledToGamut yield an in-gamut color and leave an in-gamut color as it was; FromFloat crashes exactly for a premultiplied color that is fully transparent and not black.",
 "every float channel value","All float quadruples.",
 ["ink/color/color.cc"])
p("C49","8-bit color round trip",
 "FromUint8/FromPackedUint32RGBA followed by AsUint8/AsPackedUint32RGBA in the same format (linear, gamma-encoded or premultiplied) returns the same value for every 32-bit color that is accepted, given a pow with relative error below 2^-40; a color is refused exactly when it is premultiplied, fully transparent and not black; the packed forms place the channels in the documented bytes.",
 "all 2^32 colors, all three formats, every pow function of that accuracy","2^32 colors, and floating-point division and rounding in between.",
 ["ink/color/color.cc:FromUint8","ink/color/color.cc:AsUint8"])
p("C50","Segment interpolation and projection",
 "Lerp(0) and Lerp(1) are the end points, Lerp and Project are inverse on the segment's line in exact arithmetic, and the projection minimises the distance; in floats Lerp is exact at both ends and never overflows for a ratio in [0,1].",
 "every segment, point and ratio","Continuum.",
 ["ink/geometry/segment.cc","ink/geometry/segment.h"])
p("C51","How inputs are split over calls does not matter to the modeled stroke",
 "For any smoothing backend, after any sequence of ExtendStroke calls ending in one with inputs, the modeled stroke equals the one a new modeler makes from all real inputs in one call with the latest prediction: earlier predictions and call boundaries leave no trace. A call without inputs removes the visible prediction and otherwise changes nothing.",
 "every sequence of ExtendStroke calls, every backend, whatever an earlier stroke left behind","Unbounded call sequences, arbitrary backend.",
 ["ink/strokes/internal/stroke_input_modeler.cc:ExtendStroke","ink/strokes/internal/stroke_input_modeler.cc:ModelInput"])
p("C52","Named easing curves rise from 0 to 1",
 "The predefined curves kEase, kEaseIn, kEaseOut and kEaseInOut, evaluated in 32-bit floats, are non-decreasing over all floats, stay within [0,1], are 0 for x<=0 and at least 1-2^-24 for x>=1; kEase, kEaseOut and kEaseInOut never reach 1.",
 "every non-NaN float x, pairs of them for monotonicity","2^32 floats, pairs of floats across table cells and rounding in each.",
 ["ink/strokes/internal/easing_implementation.cc:SetUpImplementationType(CubicBezier)","ink/strokes/internal/easing_implementation.cc:CubicBezierApproximation::GetY"])
p("C53","Every behavior node computes the documented quantity",
 "In exact arithmetic every source reports the documented quantity of the input in the documented unit and is null exactly in the documented cases; out-of-range handling clamps, repeats or mirrors; products, sums, interpolation and inverse interpolation are the arithmetic ones; damping approaches its input exponentially in the chosen progress measure without overshooting, and for a constant input independently of how often it is sampled; the travel direction is the direction from the previous to the next input.",
 "every input, state, source, node parameter","Real-valued inputs; forty sources with their own units and null cases; damping is a limit over arbitrarily fine sampling.",
 ["ink/strokes/internal/brush_tip_modeler_helpers.cc:GetSourceValue","ink/strokes/internal/brush_tip_modeler_helpers.cc:ProcessBehaviorNode","ink/strokes/internal/brush_tip_modeler.cc:GetTravelDirection","ink/brush/brush_behavior.h"])
p("C54","A tip state is the documented function of tip, size and modifiers",
 "In exact arithmetic, for every valid tip and any list of modifiers: the position is the input position moved by the sum of the offsets (along the axes, along and across the travel direction) times the brush size; width and height are base size times the product of their multipliers limited to [0,2]; slant, pinch, rounding, luminosity, saturation and opacity are the sums or products limited to their ranges; rotation and hue are sums modulo a full turn.",
 "every valid tip, brush size, direction and list of modifiers","Arbitrarily many modifiers with real values.",
 ["ink/strokes/internal/brush_tip_modeler_helpers.cc:CreateTipState","ink/brush/brush_behavior.h"])
p("C55","Querying one PartitionedMesh with another",
  "VisitIntersectedTriangles with a PartitionedMesh as the query visits exactly the triangles that meet the image of some triangle of the query under the given transform; when the transform is not invertible, exactly the triangles that meet the collapsed query.",
  "all pairs of partitioned meshes, all affine transforms, all visitors",
  "the candidates are pairs of triangles found through two spatial indexes and an inverse transform; tests try a few shapes, and the collapsed case depends on how the transform's kernel lies relative to the bounding box",
  ["ink/geometry/partitioned_mesh.cc:PartitionedMesh::VisitIntersectedTriangles","ink/geometry/internal/algorithms.cc:CalculateCollapsedSegment"])
p("C56","Freezing a mutable mesh",
  "MutableMesh::AsMeshes reports an error exactly when a triangle is invalid, an omitted attribute is the position or missing, a kept attribute value is not finite, or the packing parameters are unusable; otherwise every triangle of the mutable mesh appears exactly once, in order, over the returned meshes, every kept attribute of every vertex reads back as given (unpacked) or as the value nearest in its packed coding, vertices in no triangle are dropped, and packed positions are at most one step from the nearest one, other than the nearest only where that leaves no triangle turned over.",
  "all formats, all sequences of edits that build the mesh, all sets of omitted attributes, all packing parameters",
  "the result goes through partitioning, bounds, packing and position correction; tests use meshes far below the 65536-vertex limit and look at single values",
  ["ink/geometry/mutable_mesh.cc:MutableMesh::AsMeshes","ink/geometry/internal/mesh_packing.cc:PartitionTriangles"])
p("C57","Reopening a mesh for editing",
  "MutableMesh::FromMesh gives a mutable mesh with the same vertex and triangle counts, in which every attribute of every vertex and every triangle reads exactly as in the mesh, and which from then on behaves like one built by edits; for every mesh made by Mesh::Create or by AsMeshes.",
  "all formats, all meshes made by Mesh::Create or MutableMesh::AsMeshes",
  "the copy goes through packed and unpacked byte layouts and a raw memory copy of indices whose width depends on the format; tests compare a few small meshes",
  ["ink/geometry/mutable_mesh.cc:MutableMesh::FromMesh"])
p("C58","Shapes made from mutable meshes keep their outlines",
  "PartitionedMesh::FromMutableMesh and FromMutableMeshGroups report an error exactly when an outline has an index that is not that of a vertex, AsMeshes fails, there are too many meshes, or (undocumented) an outline has no vertex in a triangle; otherwise the meshes of every group are those of AsMeshes and every outline that is not empty is read back, in order, as its vertices that are in some triangle, each from the first mesh that has it.",
  "all lists of groups, all meshes built by edits, all outlines and packing arguments",
  "the outline goes through a map built from a second run of the partitioning; vertices shared between partitions occur only beyond 65536 vertices",
  ["ink/geometry/partitioned_mesh.cc:PartitionedMesh::FromMutableMesh","ink/geometry/partitioned_mesh.cc:PartitionedMesh::FromMutableMeshGroups"])
p("C59","Intersects between a PartitionedMesh and anything else","Intersects(mesh, transform, b) for a Point, Segment, Triangle, Rect or Quad b is true exactly when the transform sends some point of one of the mesh's triangles into b; Intersects(a, ta, b, tb) for two meshes is true exactly when ta and tb send some point of a triangle of a and some point of a triangle of b to the same place, and it does not depend on the order of the arguments; when a transform is not invertible, that mesh is replaced by a segment that joins the images of two of its vertices and contains the image of the whole mesh; a mesh without triangles intersects nothing.","all meshes with at least one triangle (within the size limits of the spatial index), all objects, all transforms; exact arithmetic; rects and quads up to the excess of kFullTurn over 2 pi","Correctness ranges over all positions, shapes and transforms, and over every traversal of the spatial index; tests try a few placements.",["ink/geometry/intersects.cc:IntersectsPartitionedMesh","ink/geometry/intersects.cc:TryOneWayPartitionedMeshToPartitionedMeshIntersects","ink/geometry/intersects.cc:Intersects","ink/geometry/intersects.h"])
p("C60","Distance between geometric objects","Distance(a, b) is the smallest distance of a point of a (edges and interior) from a point of b: some pair of points is that far apart and no pair is closer; it is zero exactly when Intersects(a, b), and Distance(b, a) is the same; the result is never below zero in float arithmetic either.","all pairs of Points, Segments, Triangles, Rects and Quads, degenerate ones included, in exact arithmetic; all float values for the sign and for exchanging objects of different kinds","A minimum over two continuous sets for every pair of shapes; tests compare a few hand-picked placements.",["ink/geometry/distance.h:Distance","ink/geometry/distance.cc:Distance"])
p("C61","Stroke vertices in a mesh","A mesh whose format is equivalent to FullMeshFormat() reads as a list of stroke vertices: after any sequence of AppendToMesh, SetInMesh, single-attribute setters, triangle calls and Resize, GetFromMesh and every single getter return exactly what was last put at that index, with opacity and colour shifts limited to [-1, 1] (nothing else altered), and no call disturbs any other vertex or triangle.","every equivalent mesh format, every sequence of calls within the documented preconditions, any number of vertices, all float values including infinities and NaN","The vertex is copied as raw bytes over a layout computed elsewhere; tests write and read a handful of vertices in one format.",["ink/strokes/internal/stroke_vertex.h:StrokeVertex","ink/strokes/internal/stroke_vertex.cc:GetFromMesh, AppendToMesh, SetInMesh, FullMeshFormat, FindAttributeIndices"])
p("C62","Labels of stroke vertices and interpolation","WithMargin keeps the side of a label, cuts the margin to [0, 4] and stores it in 126 steps, so that DecodeMargin is at most one step below what was asked and never above; interior labels do not change; the stored margin is monotone, and writing back the margin that was read changes nothing. Lerp and BarycentricLerp keep shifts within [-1, 1] and texture coordinates within [0, 1], give the interpolated values up to rounding, zero derivatives, and labels on the documented side.","all labels that are numbers, all margins including infinities, all interpolation parameters (in [0, 1] for the bounds)","The encoding works by float arithmetic and floor, where a rounding error of one ulp moves a value by a whole step; tests check a few values.",["ink/strokes/internal/stroke_vertex.cc:WithMargin, DecodeMargin, Lerp, BarycentricLerp","ink/strokes/internal/stroke_vertex.h:Label"])
p("C63","Packing of stroke attributes","With the custom packing parameters that a stroke uses, every attribute within its limits (shifts in [-1, 1], labels -127 to 127, texture coordinates in [0, 1]) can be packed and is read back exactly for labels and within half a step otherwise, with -1, 0 and 1 exact; MakeCustomPackingArray has one entry per attribute that is not skipped and is never refused for such a mesh.","every attribute of every mesh format with at most eight attributes, every list of skipped attributes, all values and bounds within the limits","Whether all values of a range survive depends on the rounding of a quotient; tests sample single values.",["ink/strokes/internal/stroke_vertex.cc:GetCustomPackingParams, MakeCustomPackingArray","ink/geometry/internal/mesh_packing.cc:ComputeCodingParamsArray"])
p("C64","Barycentric coordinates, projections and intersection ratios","In exact arithmetic: SegmentIntersectionRatio gives ratios exactly when the segments share a point (and so agrees with Intersects), each ratio is the smallest one in [0, 1] at which that segment is in the other, a zero-length segment gets 0, and crossing segments get ratios of one common point; SegmentIntersection is the first point of the first segment that is in the second. UniqueLineIntersectionRatio is empty exactly for parallel or zero-length segments and otherwise the only pair of ratios at which the lines agree. GetBarycentricCoordinates is empty exactly for collinear corners and otherwise gives the only weights of sum 1 that reproduce the point, none negative exactly for points of the triangle. VectorFromPointToSegmentProjection is empty exactly for zero-length segments, otherwise orthogonal, ends on the line, is the shortest such vector and equals Lerp(Project(p)) - p. SpiralLerp changes length linearly and direction at constant rate through the smaller angle. NormalizedAngleLerp goes the shorter way and is reported in [0, 2 pi).","all points, segments, triangles, vectors, angles and ratios","a continuum of configurations with degenerate and collinear special cases",["ink/geometry/internal/algorithms.cc","ink/geometry/vec.cc:Vec::SignedAngleBetween"])
p("C65","Interpolation of floats","InverseLerp of a value between the ends (in either order) is a number in [0, 1], exactly 0 and 1 at the ends, non-decreasing in the value, and 0 for equal ends whatever the value, as long as the width of the interval does not overflow; Lerp gives the first end exactly at 0, is monotone in the ratio, returns the common value of equal ends for every ratio and is within 3 * 2^(e-24) of the exact value when the ends are at most 2^e; the overloads for points, colors and angles are exact at both ends; LinearMap sends the first end to the first end exactly and the second up to that error.","all floats in the stated ranges","2^32 values per argument and three roundings",["ink/geometry/internal/algorithms.cc:Lerp","ink/geometry/internal/algorithms.cc:InverseLerp","ink/geometry/internal/algorithms.cc:LinearMap"])
p("C66","Stroke outline indices","A stroke outline buffer built by any sequence of appends (to the left side, the right side or both) and truncations never reads or writes outside its storage, and always hands out the right indices from last to first followed by the left indices from first to last, with both counts right; its storage is less than four times the longest side so far, and is reallocated at most 1 + log2 of that length times","every element type, every sequence of AppendIndices-style additions and truncations, any number of indices","tests try a few appends; the index arithmetic (writing backwards from the middle of a shared array that grows by powers of two) has to hold for every interleaving of additions and truncations",["ink/strokes/internal/stroke_outline.h: StrokeOutline","ink/strokes/internal/stroke_outline.cc: GrowIndexStorage, AppendNewIndices, TruncateIndices, GetIndices"])
p("C67","Incremental mesh updates","After any sequence of changes to a stroke's mesh between two updates, a renderer that keeps the vertex and index bytes below the reported first vertex and first index offsets and copies the rest from the mesh holds exactly the bytes of the current mesh, nothing reported meaning nothing changed; this also holds when several updates are added up and used once; and when changes only append, the reported offsets are exactly the old counts","every mesh with a stroke format, every history before the update, every sequence of mesh changes (append, overwrite, single attributes, insert or replace triangles, shrink or grow) and every number of accumulated updates","tests check a handful of mutations; that the tracked minimum is right for shrink-then-regrow, insertions in the middle and accumulated updates has to hold for every interleaving, down to the raw bytes",["ink/strokes/internal/brush_tip_extruder/mutable_mesh_view.cc: MutableMeshView", "ink/strokes/internal/brush_tip_extruder.cc: ConstructUpdate, ExtendStroke", "ink/strokes/internal/stroke_shape_update.cc: StrokeShapeUpdate::Add"])
p("C68","Reverting predicted stroke geometry","Reverting a stroke's geometry to its save point always succeeds and undoes everything done since the save point was set: vertex data other than derivatives, triangles, the bookkeeping per vertex, both sides and the last extrusion break are exactly those at the save point, even if vertices from before the save point were changed, triangles were inserted among the old ones, or the geometry was cleared back to the last extrusion break; and clearing fails only in one stated case","every geometry reachable by any sequence of geometry changes, save points and reverts, every sequence of changes after the save point, and every order in which the saved hash maps are walked","tests revert after a few scripted changes; lossless undo has to hold for every interleaving of edits, breaks, clears and inserted triangles, because the geometry written for predicted input is undone this way on every frame",["ink/strokes/internal/brush_tip_extruder/geometry.cc: Geometry::SetSavePoint, RevertToSavePoint, ClearSinceLastExtrusionBreak, AddExtrusionBreak, SetVertex, SetTriangleIndices, UpdateOppositeSideOffset", "ink/strokes/internal/brush_tip_extruder/geometry.h: GeometrySavePointState, GeometryLastExtrusionBreakMetadata"])
p("C69","Predicted input leaves no trace in a stroke's geometry","Two strokes that were given the same real input and any different predicted input along the way are, once extended alike, the same: same vertices (derivatives excluded), triangles, sides, tip extrusions and outlines. After every extension the outlines are the two sides of the stroke cut into consecutive non-empty pieces, one per break, and every vertex of the mesh is in exactly one outline, once. No check of the extruder fails and no span is taken out of range","every sequence of extensions with any fixed and volatile tip extrusions, break-points and clears, whatever geometry changes they lead to, and every order in which saved hash maps are walked","tests compare a few scripted strokes; the undo of predicted geometry, extrusions, outlines and counts has to agree for every interleaving of breaks, clears and extensions, and a stale outline index would only show up as a wrong hit test much later",["ink/strokes/internal/brush_tip_extruder.cc: BrushTipExtruder::StartStroke, ExtendStroke, Save, Restore, TruncateOutlines, ClearSinceLastExtrusionBreak, ExtrudeBreakPoint, UpdateCachedPartialBounds, UpdateCurrentBounds", "ink/strokes/internal/stroke_shape_builder.cc: StrokeShapeBuilder::ExtendStroke"])
p("C70","The vertex shader reads the vertices that the mesh reports","With 32-bit attribute loads the vertex shader unpacks a packed position or derivative to bit-for-bit the point that Mesh::VertexPosition / FloatVertexAttribute reports, labels to bit-for-bit the same label, and opacity shift, HSL shift and surface UV to within 2^-20 of what the mesh reports; so a value given to a stroke vertex reaches the shader within its packing loss plus 2^-20. The edges that a label marks are the same however the label is loaded (32-bit, 16-bit, or half-float arithmetic), and the margin in a label is read the same up to 2^-20. With 16-bit loads points are not read back: exactly eleven of the 256 middle bytes are misread","every packed value of every supported attribute type (all 2^24 points, all HSL and UV words, all bytes), every coding transform of points, every attribute value inside its documented limits, every whole label of at most 127","the shader is text compiled by a GPU driver and no test here runs it; its unpacking by floor and fract of fl(b/255) is right or wrong depending on the rounding of each of 2^24 inputs",["ink/rendering/skia/common_internal/sksl_vertex_shader_helper_functions.h: unpackFloat2PackedIntoFloat, unpackFloat2PackedIntoUByte3, unpackPositionAndOpacityShift, unpackDerivativeAndLabel, unpackHSLColorShift, unpackSurfaceUv, decodeMargins, calculateAntialiasingAndPositionOutset", "ink/strokes/internal/stroke_vertex.cc: StrokeVertex::GetCustomPackingParams", "ink/geometry/internal/mesh_packing.cc: UnpackSingleFloat"])
p("C71","A finished stroke is drawn from what its meshes report","A mesh specification for finished strokes can be made exactly for the formats that contain position followed by opacity shift, side derivative followed by side label and forward derivative followed by forward label in one of the two supported types each, and HSL shift and surface UV, if present, in a supported type. The specification's attributes cover exactly the bytes of the mesh attributes they stand for, inside the stride. For every mesh that MutableMesh::AsMeshes makes from stroke vertices with the stroke packing parameters, the unpacking uniforms can be set, and for every vertex the shader's main function sees bit for bit the position, derivatives and labels that the mesh reports, and opacity, HSL shift and texture coordinates to 2^-20, or no HSL shift / texture coordinates when the mesh has none. An in-progress specification is made exactly for the full stroke vertex format, and its shader sees exactly the fields of each vertex. When a stroke is copied out, the attributes kept are always drawable; HSL shifts and texture coordinates are kept exactly when everything is, or when some tip shifts colours, respectively some texture uses winding coordinates","every mesh format that can be created, every mesh, history of edits and set of omitted attributes, every vertex, every brush coat (any tips, behaviors and texture layers)","whether a shader reads the right bytes depends on formats, offsets, uniforms and a shader text together; a golden-image test covers a handful of formats and brushes on one GPU",["ink/rendering/skia/common_internal/mesh_specification_data.cc: MeshSpecificationData::CreateForStroke, CreateForInProgressStroke", "ink/rendering/skia/native/internal/mesh_uniform_data.cc: MeshUniformData::InitializeAttributeUnpackingTransforms", "ink/brush/brush_coat.cc: GetRequiredAttributeIds", "ink/strokes/in_progress_stroke.cc: InProgressStroke::CopyToStroke", "ink/geometry/mutable_mesh.cc: MutableMesh::AsMeshes"])
p("C72","A hand-drawn polyline is closed and trimmed as described","ProcessPolylineForMeshCreation returns the polyline as given if it neither crosses itself nor has an end that can be joined. Otherwise each end that can be joined to the polyline is extended to the nearest place it can be joined to, and each other end is cut off at the first or last crossing (or at the place the other end is joined to, if that is further out). An end can be joined to a side that is not next to it if the nearest place of that side is nearer than the maximum, far enough along the polyline, and both ratios are reached. Every point of the result is on the polyline and no two neighbors are alike. A connection ratio of at most 1 has no effect. With floats, the result is always the given points or a run of them with at most one more point at each end, does not depend on uninitialized memory, and exists for 2 to 2^24 finite points without coinciding neighbors.","all polylines (any number of points), all parameters, all orders in which the spatial index may visit sides, all contents of uninitialized memory","The result depends on all pairs of sides, on the order in which a spatial index visits them and on variables that are not initialized; tests try a few hand-made polylines.",["ink/geometry/internal/polyline_processing.cc: ProcessPolylineForMeshCreation, FindFirstAndLastIntersections, FindBestEndpointConnections, EndpointIsConnectable, WalkDistance, CreateNewPolylineFromPolylineData", "ink/geometry/internal/polyline_processing.h"])
p("C73","Simplifying an outline leaves out only what is close to the rest","Simplifying the vertices of an outline adds to the output a selection of them: the first and the last are always kept, the rest stay in order and unchanged, fewer than three are copied, and a vertex is only left out if it is not farther than the tolerance from the segment between the kept vertices around it. The kept ones are those of the recursive farthest-vertex rule; a second pass changes nothing; a negative tolerance keeps everything. In exact arithmetic no point of the outline is farther than the tolerance from the result, nor the other way round. When a new extrusion is added, the last vertex of the one before is kept if removing it would leave a gap longer than the travel limit or invalidate an earlier removal.","all lists of vertices of any length, with any positions (including NaN and infinities), all tolerances, limits and outputs so far, all previously removed positions; every C library hypot for the float statements","The result depends on a recursion over the whole list with ties and rounding; tests try a few shapes and never the bound on every point of the outline.",["ink/strokes/internal/brush_tip_extruder/simplify.cc: SimplifyPolyline, SimplifyPolylineInterior", "ink/strokes/internal/brush_tip_extruder/simplify.h: SimplifyPolyline", "ink/strokes/internal/brush_tip_extruder/geometry.cc: Geometry::SimplifyBufferedVertices"])
p("C74","A tip that cannot be joined to the last one is replaced by the nearest one that can, up to the documented error","When the proposed brush tip cannot be joined well to the last one, the tip used instead is at the proposed place with the proposed colors, its shape is the interpolation at a ratio j/2^n below 1, it is joined well to the last tip, and at the next ratio up the join is not good; so if good joins get no better with the ratio, no usable ratio is more than 2^-n above. The other answers are given exactly when the proposed tip is joined well, contains or is contained in the last one, has hardly moved, or the tip at ratio 0 is not joined well. Every tip tried is a valid one: sizes stay nonnegative and rounding and pinch in [0, 1]. When the tip has moved, and the rotation of the last tip is in [0, full turn), something is always found.","all pairs of tips, all epsilon values, any number of iterations up to 24 (20 for validity; the extruder uses 7), all C libraries, every way of judging joins","The search runs on rounded ratios and rounded shapes; a test sees a few pairs of tips and cannot see that no tried shape trips a CHECK.",["ink/strokes/internal/constrain_brush_tip_extrusion.cc: ConstrainBrushTipExtrusion", "ink/strokes/internal/brush_tip_state.cc: LerpShapeAttributes", "ink/strokes/internal/brush_tip_extrusion.cc: EvaluateTangentQuality"])
p("C75","Consecutive tips of a stroke are always joined well, and volatile tips leave no trace","Whatever tip states a stroke is extended with, in any batches, fixed and volatile: every two tips extruded one after the other without a break between them are joined well; no break comes first or follows another break; each tip was made for one of the given states, at its place and with its colors, in the order given; the permanent tips are those the fixed states give on their own, even if volatile tips had swallowed some of them; nothing before the last break is ever removed; what is removed is covered by the tip that replaces it; and the last state of a batch is left out only if its tip is inside the one before it or no tip can be found for it.","all sequences of batches of fixed and volatile tip states of any length, all epsilon values, all C libraries, every judgement of joins and containment","The list of tips is edited by appending, erasing back to a break, and saving and restoring across calls; tests check single cases of each.",["ink/strokes/internal/brush_tip_extruder.cc: BrushTipExtruder::TryAppendNonBreakPointState, Extrude, ExtrudeBreakPoint, ExtendStroke, Save, Restore, ClearSinceLastExtrusionBreak"])
p("C76","Circles: containment, common tangents and approximation of arcs","One circle is reported to contain another exactly when the disc of the other is part of its disc; tangents are reported exactly when neither contains the other, and then they are the two lines that touch both circles and have both on the same side, the right one to the right of the way from the first center to the second; the angle for a chord height is that of the arc of that height; an arc is appended as the fewest equal steps whose chord heights stay within the limit, at most 32767 steps, all points on the circle, from the start to the end of the arc; for floats of any kind, from 2 to 32768 points are appended, the first and last being those of the ends.","all circles, all angles, all chord heights, both exact reals and, for the number of points, all floats","That there are no other tangents, that no smaller number of steps would do and that containment is that of infinitely many points can not be settled on examples.",["ink/geometry/internal/circle.h: Circle::Contains, Circle::GetPoint, Circle::GuaranteedRightTangentAngle", "ink/geometry/internal/circle.cc: Circle::GetTangentAngles, Circle::AppendArcToPolyline, Circle::GetArcAngleForChordHeight"])
p("C77","The shape of a brush tip is the one its state describes","For every state with non-negative size and with rounding and pinch in [0, 1], the shape is one to four circles of one radius, which is zero or at least the minimum; in every direction the shape reaches as far as the hull of the discs described by size, rounding, pinch, slant and rotation, give or take three times the minimum, and the circles are exactly those if none of the lengths is below the minimum; other states fail the check; the bounds are the smallest box with all discs; no circle contains another unless the tip is slanted by a quarter turn; the centers of a tip that is not slanted are at least the minimum apart; a round shape contains another exactly if all discs of the other are in its disc; for floats, no finite state in the documented ranges makes construction or bounds fail.","all tip states, all minimum separations, all directions; for the absence of failures all finite floats and all libraries of elementary functions","The error is bounded over a seven-dimensional continuum of states and all directions, with thresholds between them.",["ink/strokes/internal/brush_tip_shape.cc: BrushTipShape::BrushTipShape, MakeShapeControlCircles, CalculateCircleRadius, BrushTipShape::Bounds, BrushTipShape::Contains", "ink/strokes/internal/brush_tip_shape.h: BrushTipShape"])
p("C78","The outline of a cap is split into left and right without losing or misplacing a point","When the points of a start cap or of a whole tip are sorted into left and right, nothing that was there before changes, no point is lost or made, and the left points followed by the right ones backwards are the same closed outline, perhaps begun elsewhere; every point is on its side exactly if the points of each side follow one another, which is so for every convex clockwise outline and every direction and center; an end cap is cut where its last point that is not on the right is; the circles a cap goes around are visited clockwise one by one, none twice, and the loop ends; a whole outline turns around every circle once; the rearmost circles are the farthest back and of those the leftmost and the rightmost.","all lists of points of any length, all directions and centers, in either arithmetic; convexity and rearmost circles in exact arithmetic; all shapes and pairs of circles","The outline can have any number of points and be cut anywhere; that convexity is enough is a statement about all polygons.",["ink/strokes/internal/brush_tip_shape.cc: MoveNewRightPointsOutOfLeft, IsRightPoint, GetRearIndices, BrushTipShape::AppendStartcapExtrusionPoints, BrushTipShape::AppendEndcapExtrusionPoints, BrushTipShape::AppendWholeShapeExtrusionPoints"])
p("C79","A rounded polygon reports a circle as contained exactly if it is within the hull of its corners","Making a rounded polygon fails exactly if there are fewer than two circles or one of two neighbours (the last and the first included) contains the other; otherwise every circle has an arc that ends in the direction of the right tangent to the next circle, where the next arc starts. For circles that in turn reach farthest in every direction, every arc ends where the next circle starts to reach farther, exactly or turned by less than 2e-7; if exactly, and if no arc is within 5e-6 of an empty arc or of half a turn, a circle is reported as contained if and only if its disc is within the convex hull of the discs, touching allowed.","construction: all lists of circles of any length, in either arithmetic; containment: all convex arrangements of any number of circles and all circles, in exact arithmetic","The statement is about all arrangements, all circles and all directions; a test checks a few of each.",["ink/strokes/internal/rounded_polygon.h: RoundedPolygon, RoundedPolygon::GetSegment", "ink/strokes/internal/rounded_polygon.cc: RoundedPolygon::RoundedPolygon, SignedDistanceToArc, SignedDistanceToSegment, RoundedPolygon::ContainsCircle"])
p("C80","Tangents between two tips are reported as good exactly if the joined outline covers both tips","The circles chosen for the left and right tangents are circles of their tips, and they are found for all tips whose neighbouring circles are not within each other. On either side, the circle turned to is the one turned to farthest without turning backwards, the nearest and then the first of those, provided it is turned to at least as far as required. The joined outline is made of the circles of the first tip counter-clockwise from the left to the right tangent and those of the second from the right to the left, enlarged. The quality is 'contains' if a tip reports to contain the other, and otherwise good if and only if every circle left out of the outline is reported to be within its polygon, which the two shortcuts do not change. For outlines that are convex and without nearly empty or nearly half arcs, it is good if and only if every disc of both tips is within the hull of the outline, and bad if and only if some disc is not.","indices, outline and quality: all tips with any number of circles, in either arithmetic; choice of circles and cover: all tips in exact arithmetic","The statement is about all pairs of tips with any number of circles; a test checks a few pairs.",["ink/strokes/internal/brush_tip_shape.cc: CalculateTangentProperties, GetLeftmostTurningIndex, GetRightmostTurningIndex, BrushTipShape::GetTangentCircleIndices", "ink/strokes/internal/brush_tip_extrusion.cc: ConstructJoinedShape, EvaluateTangentQualityInternal", "ink/strokes/internal/brush_tip_extrusion.h: BrushTipExtrusion::TangentQuality"])
p("C81","Turns and caps outline the tips along the tangents","A turn around a circle between two others fails its check if and only if one of two neighbours is within the other. Otherwise each side is an arc of the circle or the point where its two tangents meet or, if they do not, their ends, from the angle of the incoming tangent (or the outgoing, if nearly the same) to that of the outgoing; which it is depends on the order of the four angles and, if that leaves it open, on the angle of the turn. Arcs are clockwise on the left and counter-clockwise on the right. Around a tip, the outline follows the circles between the two tangents one turn after the other, clockwise on the left and counter-clockwise on the right, or takes the corner between its two tangents where these are on the wrong side. A start or end cap, and the outline of a whole tip, follows the circles of the tip clockwise with arcs only, and its points are divided between left and right without losing or adding one. A whole round tip is two arcs that leave out a chord of the maximum height, at most half the circle, at the rear.","all circles and tips with any number of circles, in exact arithmetic with the code's float constants; all maximum chord heights above 0; any points appended before","The statement is about all circles, angles and tips; a test checks the points of a few.",["ink/strokes/internal/circular_extrusion_helpers.cc: AppendCircularTurnExtrusionPoints", "ink/strokes/internal/brush_tip_shape.cc: BrushTipShape::AppendTurnExtrusionPoints, AppendStartcapExtrusionPoints, AppendEndcapExtrusionPoints, AppendWholeShapeExtrusionPoints"])
p("C82","Searches along the outline find the first or last match","The outline of a stroke in progress goes from the end of one side, or from where its retriangulation started, back to the start of the partition and, if it connects the sides, from there to the end of the other. Searching it for a segment finds the first part with an extent that meets the segment, at the earliest point, provided that the outline before that part is shorter than the search budget and, if a triangle is given, all vertices after the first up to that part are within it; what remains of the budget is what the way along the outline up to the intersection leaves, at least 0. If all vertices are at one position it is the last that is found. The search for a clockwise triangle of a fan returns the last part of the side that makes one, also across discontinuities, whose inner vertices do not take part. The start of a run of coincident vertices is the earliest vertex from which on all are at the position of the given one with no boundary between partitions. For each side the first exterior vertex from a given triangle on is found.","all outlines, sides, meshes, segments, triangles, budgets and discontinuities in order; geometry in exact arithmetic, runs and exterior vertices for floats too","The statement is about all outlines and positions; a test tries a few.",["ink/strokes/internal/brush_tip_extruder/directed_partial_outline.cc: DirectedPartialOutline, LastOutlineIndexOffset, ConstructPartialOutline, FindOutlineIntersection", "ink/strokes/internal/brush_tip_extruder/find_clockwise_winding_segment.cc: FindLastClockwiseWindingTriangleFanSegment, FindLastClockwiseWindingMultiTriangleFanSegment", "ink/strokes/internal/brush_tip_extruder/derivative_calculator_helpers.cc: FindFirstExteriorVertices, StartingOffsetForCoincidentConnectedVertices"])
p("C83","The intersection of segments in tessellation is their common part","Intersecting two segments yields nothing if they have no point in common. Otherwise it yields the part of the first segment that they have in common: the two intervals say where it begins and ends along each segment, between 0 and 1 and ordered along the first, both name the same points, and every common point lies between. It makes no difference by what power of two the coordinates are scaled beforehand, nor whether segments are parallel, opposite, degenerate or touch at an end.","all pairs of segments with finite coordinates, degenerate ones included, in exact arithmetic; all scaling exponents","The statement is about all pairs of segments; a test tries a few.",["ink/geometry/internal/legacy_segment_intersection.cc: LegacyIntersection, SegmentIntersectionHelper", "ink/geometry/internal/legacy_vector_utils.cc: PositionRelativeToLine"])
p("C84","A triangle in tessellation contains exactly its points","The containment test that tessellation uses says that a point is in a triangle whose corners are not on a line exactly if it is inside, on a side or a corner, whichever way round the corners are given and with whichever of them first. A triangle whose corners are on a line contains only its corners. For floats too, a point equal to a corner is contained.","all triangles, degenerate ones included, and all points with finite coordinates, in exact arithmetic; corners for floats too","The statement is about all triangles and points; a test tries a few.",["ink/geometry/internal/legacy_triangle_contains.cc: LegacyTriangleContains", "ink/geometry/internal/legacy_vector_utils.h: ReverseRelativePosition", "ink/geometry/internal/legacy_vector_utils.cc: PositionRelativeToLine"])
p("C85","Margins keep vertices from crossing the lines of their triangles; derivatives average lengths and directions","The margin given to a vertex of a stroke mesh is at least 0 and at most 4. Moving the vertex outwards along its side derivative by any part of that margin does not cross, in any triangle it is a corner of, the line from either other corner through the gate in the opposite side, that is through the point of the middle part of that side nearest to the corner. These lines separate the vertex from the third corner. The bound set by a triangle is the largest such one below 4: the vertex then reaches one of the lines. Corners that are apart but on a line get the margin 0; triangles with two corners in the same place set no bound. Triangles are taken from the last up to the first that has no corner to update, so none with such a corner is missed if those are all at the end. Each vertex asked for is given a margin once, in order, and connected vertices in the same place get the least of theirs. The average of derivatives has the mean length of those that have one, so it is zero only if all are, and the direction of the sum of their directions; merging averages and changing the order make no difference.","all meshes, triangles, positions, derivatives, outset signs and index lists within the mesh; geometry and averages in exact arithmetic, the bookkeeping for floats too","The statement is about all meshes and moves; a test tries a few.",["ink/strokes/internal/brush_tip_extruder/derivative_calculator.cc: ForEachTriangleWithTrackedIndices, MakeOutsetSegment, MakeBoundingSegment, MarginUpperBound, AddMarginUpperBoundsForTriangle, SaveSideMarginUpperBound, AccumulateMargins, StartingCoincidentConnectedCount, CalculateSideMargin, UpdateMeshMargins, AverageDerivative"])
with open('properties.jsonl','w') as fo:
    for q in P: fo.write(json.dumps(q)+'\n')
print(len(P))
