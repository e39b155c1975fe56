(** How a mesh is handed to the GPU: MeshSpecificationData (/repo/ink/rendering/skia/common_internal/mesh_specification_data.{h,cc}),
    the unpacking uniforms of MeshUniformData (/repo/ink/rendering/skia/native/internal/mesh_uniform_data.cc 73-160),
    GetRequiredAttributeIds (/repo/ink/brush/brush_coat.cc 33-105) and the omitted attributes of InProgressStroke::CopyToStroke
    (/repo/ink/strokes/in_progress_stroke.cc 234-291).
    The SkSL main function is modelled as far as the values it takes from the vertex buffer and the unpacking uniforms; what it does with
    them (anti-aliasing, colour, texture coordinates) is not.  The types and sizes that Skia gives to an attribute (kFloat2 is two
    little-endian floats, kUByte4_unorm is four bytes) are taken from its documentation.  Strings, status messages, varyings and the
    fragment shader are not modelled. *)
From Coq Require Import ZArith Bool Arith List.
From Verif Require Import F32 BytesModel NumModel MeshFormatModel PackModel MutableMeshModel MeshModel StrokeVertexModel ShaderUnpackModel BehaviorModel.
Import ListNotations.
Local Open Scope Z_scope.

(** MeshSpecificationData::AttributeType: mesh_specification_data.h, those in use; sizes as in Skia *)
Inductive stype := SFloat2 | SFloat3 | SUByte4.
Definition stype_size (t : stype) : nat := match t with SFloat2 => 8 | SFloat3 => 12 | SUByte4 => 4 end.
(** Attribute: the name is the field of the shader's Attributes *)
Inductive sname := PositionAndOpacityShift | HslShift | SideDerivativeAndLabel | ForwardDerivativeAndLabel | SurfaceUv.
Definition sname_eqb (a b : sname) : bool :=
  match a, b with
  | PositionAndOpacityShift, PositionAndOpacityShift | HslShift, HslShift | SideDerivativeAndLabel, SideDerivativeAndLabel
  | ForwardDerivativeAndLabel, ForwardDerivativeAndLabel | SurfaceUv, SurfaceUv => true
  | _, _ => false
  end.
Record sattribute := SAttribute { stype_of : stype; soffset : nat; sname_of : sname }.
(** UniformId, and Uniform with its unpacking_attribute_index *)
Inductive uniform_id := ObjectToCanvasLinearComponent | BrushColor | PositionUnpackingTransform | SideDerivativeUnpackingTransform | ForwardDerivativeUnpackingTransform | TextureMapping.
Definition uniform_eqb (a b : uniform_id) : bool :=
  match a, b with
  | ObjectToCanvasLinearComponent, ObjectToCanvasLinearComponent | BrushColor, BrushColor | PositionUnpackingTransform, PositionUnpackingTransform
  | SideDerivativeUnpackingTransform, SideDerivativeUnpackingTransform | ForwardDerivativeUnpackingTransform, ForwardDerivativeUnpackingTransform
  | TextureMapping, TextureMapping => true
  | _, _ => false
  end.
(** Which main function vertex_shader_source ends in *)
Inductive main_source := InProgressMain | StrokeMain (with_hsl with_uv : bool).
Record specification := Specification { sattributes : list sattribute; sstride : nat; suniforms : list (uniform_id * option Z); smain : main_source }.

(** CreateForInProgressStroke(): mesh_specification_data.cc 92-193; [full] is StrokeVertex::FullMeshFormat() *)
Definition specification_in_progress (full : format) : specification :=
  let off k := uoff (attr_at full k) in
  Specification
    [SAttribute SFloat3 (off 0%nat) PositionAndOpacityShift; SAttribute SFloat3 (off 2%nat) HslShift; SAttribute SFloat3 (off 3%nat) SideDerivativeAndLabel;
     SAttribute SFloat3 (off 5%nat) ForwardDerivativeAndLabel; SAttribute SFloat2 (off 7%nat) SurfaceUv]
    (ustride full) [(ObjectToCanvasLinearComponent, None); (BrushColor, None); (TextureMapping, None)] InProgressMain.
(** CreateForInProgressStroke(mesh_format): 82-90 *)
Definition create_for_in_progress (f : format) : option specification :=
  match full_mesh_format with
  | Some full => if format_eqb f full then Some (specification_in_progress full) else None
  | None => None
  end.

(** FindTypeForPositionAndOpacityShift ... FindTypeForSurfaceUv: 199-262 *)
Definition position_and_opacity_type (p o : atype) : option stype :=
  match p, o with Float2In1Float, Float1Unpacked => Some SFloat2 | Float2In3Bytes_XY12, Float1In1Byte => Some SUByte4 | _, _ => None end.
Definition hsl_type (t : atype) : option stype := match t with Float3Unpacked => Some SFloat3 | Float3In4Bytes_XYZ10 => Some SUByte4 | _ => None end.
Definition derivative_and_label_type (d l : atype) : option stype :=
  match d, l with Float2Unpacked, Float1Unpacked => Some SFloat3 | Float2In3Bytes_XY12, Float1In1Byte => Some SUByte4 | _, _ => None end.
Definition uv_type (t : atype) : option stype := match t with Float2Unpacked => Some SFloat2 | Float2In4Bytes_X12_Y20 => Some SUByte4 | _ => None end.
(** SkiaStrokeAttributeTypesAndOffsets; GetValidatedStrokeAttributeTypesAndOffsets: 264-410 *)
Record validated := Validated { for_position : stype * nat; for_hsl : option (stype * nat); for_side : stype * nat; for_forward : stype * nat; for_uv : option (stype * nat) }.
Definition optional_part (f : format) (index : Z) (find : atype -> option stype) : option (option (stype * nat)) :=
  if index =? -1 then Some None
  else let a := attr_at f (Z.to_nat index) in match find (ty a) with Some t => Some (Some (t, poff a)) | None => None end.
Definition paired_part (f : format) (first second : Z) (find : atype -> atype -> option stype) : option (stype * nat) :=
  if negb (first + 1 =? second) then None
  else let a := attr_at f (Z.to_nat first) in match find (ty a) (ty (attr_at f (Z.to_nat second))) with Some t => Some (t, poff a) | None => None end.
Definition get_validated (f : format) : option validated :=
  let at_id := last_index f in
  if existsb (fun id => at_id id =? -1) [kOpacityShift; kSideDerivative; kSideLabel; kForwardDerivative; kForwardLabel] then None
  else match paired_part f (at_id kPosition) (at_id kOpacityShift) position_and_opacity_type with
  | None => None
  | Some p =>
    match optional_part f (at_id kColorShiftHsl) hsl_type with
    | None => None
    | Some h =>
      match paired_part f (at_id kSideDerivative) (at_id kSideLabel) derivative_and_label_type with
      | None => None
      | Some s =>
        match paired_part f (at_id kForwardDerivative) (at_id kForwardLabel) derivative_and_label_type with
        | None => None
        | Some w => match optional_part f (at_id kSurfaceUv) uv_type with None => None | Some u => Some (Validated p h s w u) end
        end
      end
    end
  end.
(** CreateForStroke: 414-540 *)
Definition sattr (x : stype * nat) (n : sname) : sattribute := SAttribute (fst x) (snd x) n.
Definition optional_attr (x : option (stype * nat)) (n : sname) : list sattribute := match x with Some x => [sattr x n] | None => [] end.
Definition is_some {A} (x : option A) : bool := match x with Some _ => true | None => false end.
Definition create_for_stroke (f : format) : option specification :=
  match get_validated f with
  | None => None
  | Some v =>
      Some (Specification
        ([sattr (for_position v) PositionAndOpacityShift; sattr (for_side v) SideDerivativeAndLabel; sattr (for_forward v) ForwardDerivativeAndLabel]
         ++ optional_attr (for_hsl v) HslShift ++ optional_attr (for_uv v) SurfaceUv)
        (pstride f)
        [(ObjectToCanvasLinearComponent, None); (BrushColor, None); (PositionUnpackingTransform, Some (last_index f kPosition));
         (SideDerivativeUnpackingTransform, Some (last_index f kSideDerivative)); (ForwardDerivativeUnpackingTransform, Some (last_index f kForwardDerivative)); (TextureMapping, None)]
        (StrokeMain (is_some (for_hsl v)) (is_some (for_uv v))))
  end.

(** ** MeshUniformData *)
(** FindUnpackingTransformUniformId: mesh_uniform_data.cc 73-87 *)
Definition unpacking_uniform (id : nat) : option uniform_id :=
  if Nat.eqb id kPosition then Some PositionUnpackingTransform
  else if Nat.eqb id kSideDerivative then Some SideDerivativeUnpackingTransform
  else if Nat.eqb id kForwardDerivative then Some ForwardDerivativeUnpackingTransform
  else None.
(** Copy2DUnpackingParams: 103-111; [None]: the CHECK fails *)
Definition as_uniform (c : list params) : option transform := match c with [x; y] => Some (Transform (offset x) (scale x) (offset y) (scale y)) | _ => None end.
Definition uniforms := uniform_id -> option transform.
(** InitializeAttributeUnpackingTransforms: 129-147, over the attributes and their parameters; a value not written yet is [None] *)
Fixpoint initialize_transforms (s : specification) (l : list (attribute * list params)) (u : uniforms) : option uniforms :=
  match l with
  | [] => Some u
  | (a, c) :: l =>
      match unpacking_uniform (aid a) with
      | None => initialize_transforms s l u
      | Some id =>
          if negb (existsb (fun x => uniform_eqb (fst x) id) (suniforms s)) then initialize_transforms s l u
          else match as_uniform c with
               | None => None
               | Some t => initialize_transforms s l (fun id' => if uniform_eqb id' id then Some t else u id')
               end
      end
  end.
Definition mesh_uniforms (s : specification) (m : imesh) : option uniforms :=
  initialize_transforms s (map (fun k => (attr_at (iformat m) k, nth k (coding m) [])) (seq 0 (length (attrs (iformat m))))) (fun _ => None).

(** ** The main functions: mesh_specification_data.cc 100-132, 432-480 *)
(** Vertex [i] of a buffer: the floats of an attribute, or its bytes, each as it is [load]ed *)
Definition fetched (load : Z -> f32) (t : stype) (bs : list Z) : list f32 :=
  match t with SFloat2 => bytes_floats 2 bs | SFloat3 => bytes_floats 3 bs | SUByte4 => map load bs end.
Definition fetch (load : Z -> f32) (s : specification) (buffer : list Z) (i : nat) (n : sname) : option (stype * list f32) :=
  match find (fun a => sname_eqb (sname_of a) n) (sattributes s) with
  | Some a => Some (stype_of a, fetched load (stype_of a) (peek (i * sstride s + soffset a) (stype_size (stype_of a)) buffer))
  | None => None
  end.
(** The overloads, by the type of the attribute: sksl_vertex_shader_helper_functions.h 276-348 *)
Definition overload_position (t : transform) (x : stype * list f32) : option (point * f32) :=
  match x with
  | (SFloat2, [x; y]) => Some (unpack_position_float t x y)
  | (SUByte4, [x; y; z; w]) => Some (unpack_position_bytes t x y z w)
  | _ => None
  end.
Definition overload_derivative (t : transform) (x : stype * list f32) : option (point * f32) :=
  match x with
  | (SFloat3, [x; y; z]) => Some (unpack_derivative_float3 x y z)
  | (SUByte4, [x; y; z; w]) => Some (unpack_derivative_bytes t x y z w)
  | _ => None
  end.
Definition overload_hsl (x : stype * list f32) : option (f32 * f32 * f32) :=
  match x with (SFloat3, [x; y; z]) => Some (x, y, z) | (SUByte4, [x; y; z; w]) => Some (unpack_hsl_bytes x y z w) | _ => None end.
Definition overload_uv (x : stype * list f32) : option point :=
  match x with (SFloat2, [x; y]) => Some (x, y) | (SUByte4, [x; y; z; w]) => Some (unpack_uv_bytes x y z w) | _ => None end.
Definition float3 (x : stype * list f32) : option (f32 * f32 * f32) := match x with (SFloat3, [x; y; z]) => Some (x, y, z) | _ => None end.
Definition float2 (x : stype * list f32) : option point := match x with (SFloat2, [x; y]) => Some (x, y) | _ => None end.
(** What main has of a vertex: its position and opacity shift, its derivatives with their labels, and the colour shift and texture
    coordinates if it uses any *)
Record vertex_seen := VertexSeen { seen_position : point; seen_opacity : f32; seen_side : point * f32; seen_forward : point * f32; seen_hsl : option (f32 * f32 * f32); seen_uv : option point }.
Definition bind {A B} (x : option A) (k : A -> option B) : option B := match x with Some a => k a | None => None end.
Definition used {A} (b : bool) (x : option A) : option (option A) := if b then match x with Some a => Some (Some a) | None => None end else Some None.
(** [None]: the source would not compile against the attributes, or a uniform is missing or was not written *)
Definition run_main (load : Z -> f32) (s : specification) (u : uniforms) (buffer : list Z) (i : nat) : option vertex_seen :=
  let get := fetch load s buffer i in
  match smain s with
  | InProgressMain =>
      bind (bind (get PositionAndOpacityShift) float3) (fun '(x, y, o) =>
      bind (bind (get SideDerivativeAndLabel) float3) (fun side =>
      bind (bind (get ForwardDerivativeAndLabel) float3) (fun forward =>
      bind (bind (get HslShift) float3) (fun h =>
      bind (bind (get SurfaceUv) float2) (fun uv =>
      Some (VertexSeen (x, y) o side forward (Some h) (Some uv)))))))
  | StrokeMain with_hsl with_uv =>
      bind (u PositionUnpackingTransform) (fun tp =>
      bind (bind (get PositionAndOpacityShift) (overload_position tp)) (fun p =>
      bind (u SideDerivativeUnpackingTransform) (fun ts =>
      bind (bind (get SideDerivativeAndLabel) (overload_derivative ts)) (fun side =>
      bind (u ForwardDerivativeUnpackingTransform) (fun tf =>
      bind (bind (get ForwardDerivativeAndLabel) (overload_derivative tf)) (fun forward =>
      bind (used with_hsl (bind (get HslShift) overload_hsl)) (fun h =>
      bind (used with_uv (bind (get SurfaceUv) overload_uv)) (fun uv =>
      Some (VertexSeen (fst p) (snd p) side forward h uv)))))))))
  end.

(** ** Which attributes a finished stroke keeps *)
Section Coats.
Context (N : num).
(** BrushTipUsesColorShift: brush_coat.cc 33-49 *)
Definition is_color_target (t : target) : bool := match t with kHueOffsetInRadians | kSaturationMultiplier | kLuminosity => true | _ => false end.
Definition uses_color_shift (t : brush_tip N) : bool :=
  existsb (existsb (fun n => match n with TargetNode t _ _ => is_color_target t | _ => false end)) (behaviors t).
(** GetRequiredAttributeIds: 74-105, for the tips of a coat and the mappings of its texture layers (kWinding or not) *)
Definition required_ids (tips : list (brush_tip N)) (winding : list bool) : list nat :=
  [kPosition; kSideDerivative; kSideLabel; kForwardDerivative; kForwardLabel; kOpacityShift]
  ++ (if existsb uses_color_shift tips then [kColorShiftHsl] else []) ++ (if existsb (fun w => w) winding then [kSurfaceUv] else []).
(** RetainAttributes; the loop of CopyToStroke: in_progress_stroke.cc 248-270 *)
Inductive retain := RetainAll | RetainUsed.
Definition omitted (r : retain) (f : format) (tips : list (brush_tip N)) (winding : list bool) : list nat :=
  match r with
  | RetainAll => []
  | RetainUsed => filter (fun id => negb (existsb (Nat.eqb id) (required_ids tips winding))) (map aid (attrs f))
  end.
(** the format of the meshes: MutableMesh::AsMeshes, mutable_mesh.cc 690-720, for the full format of an in-progress stroke *)
Definition copied_format (r : retain) (tips : list (brush_tip N)) (winding : list bool) : option format :=
  match full_mesh_format with Some full => without_attributes full (omitted r full tips winding) | None => None end.
End Coats.
