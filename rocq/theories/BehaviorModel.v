(** Brush behaviors: node graphs, their validation and execution, and the tip state they
    modify, for any arithmetic [num].  An angle is its number of radians, a duration its
    number of seconds, a physical distance its number of centimeters.  Printing and
    comparison of behaviors are not modelled. *)
From Coq Require Import ZArith List Bool.
From Verif Require Import NumModel EasingModel.
Import ListNotations.

(** Enumerations of BrushBehavior: /repo/ink/brush/brush_behavior.h 111-402.  A C++
    enumeration can hold a value that is no enumerator; that is the last constructor. *)
Inductive source : Type :=
| kNormalizedPressure | kTiltInRadians | kTiltXInRadians | kTiltYInRadians
| kOrientationInRadians | kOrientationAboutZeroInRadians
| kSpeedInMultiplesOfBrushSizePerSecond
| kVelocityXInMultiplesOfBrushSizePerSecond | kVelocityYInMultiplesOfBrushSizePerSecond
| kDirectionInRadians | kDirectionAboutZeroInRadians
| kNormalizedDirectionX | kNormalizedDirectionY
| kDistanceTraveledInMultiplesOfBrushSize
| kTimeOfInputInSeconds | kTimeOfInputInMillis
| kPredictedDistanceTraveledInMultiplesOfBrushSize
| kPredictedTimeElapsedInSeconds | kPredictedTimeElapsedInMillis
| kDistanceRemainingInMultiplesOfBrushSize
| kTimeSinceInputInSeconds | kTimeSinceInputInMillis
| kAccelerationInMultiplesOfBrushSizePerSecondSquared
| kAccelerationXInMultiplesOfBrushSizePerSecondSquared
| kAccelerationYInMultiplesOfBrushSizePerSecondSquared
| kAccelerationForwardInMultiplesOfBrushSizePerSecondSquared
| kAccelerationLateralInMultiplesOfBrushSizePerSecondSquared
| kInputSpeedInCentimetersPerSecond
| kInputVelocityXInCentimetersPerSecond | kInputVelocityYInCentimetersPerSecond
| kInputDistanceTraveledInCentimeters
| kPredictedInputDistanceTraveledInCentimeters
| kInputAccelerationInCentimetersPerSecondSquared
| kInputAccelerationXInCentimetersPerSecondSquared
| kInputAccelerationYInCentimetersPerSecondSquared
| kInputAccelerationForwardInCentimetersPerSecondSquared
| kInputAccelerationLateralInCentimetersPerSecondSquared
| OtherSource (code : Z).
Inductive target : Type :=
| kWidthMultiplier | kHeightMultiplier | kSizeMultiplier
| kSlantOffsetInRadians | kPinchOffset | kRotationOffsetInRadians | kCornerRoundingOffset
| kPositionOffsetXInMultiplesOfBrushSize | kPositionOffsetYInMultiplesOfBrushSize
| kPositionOffsetForwardInMultiplesOfBrushSize | kPositionOffsetLateralInMultiplesOfBrushSize
| kHueOffsetInRadians | kSaturationMultiplier | kLuminosity | kOpacityMultiplier
| OtherTarget (code : Z).
Inductive out_of_range : Type := kClamp | kRepeat | kMirror | OtherOutOfRange (code : Z).
Inductive optional_property : Type := kPressure | kTilt | kOrientation | kTiltXAndY | OtherProperty (code : Z).
Inductive binary_op : Type := kProduct | kSum | OtherBinaryOp (code : Z).
Inductive damping_source : Type :=
| kDistanceInCentimeters | kDistanceInMultiplesOfBrushSize | kTimeInSeconds | OtherDamping (code : Z).
Inductive interpolation : Type := kLerp | kInverseLerp | OtherInterpolation (code : Z).
(** EnabledToolTypes: brush_behavior.h 334-342 *)
Record tool_types := { t_unknown : bool; t_mouse : bool; t_touch : bool; t_stylus : bool }.
(** StrokeInput::ToolType: /repo/ink/strokes/input/stroke_input.h *)
Inductive tool_type : Type := kUnknown | kMouse | kTouch | kStylus | OtherTool (code : Z).

Section Behavior.
Context {N : num}.
Notation F := (T N).

(** BrushBehavior::Node: brush_behavior.h 412-535 *)
Inductive node : Type :=
| SourceNode (src : source) (oor : out_of_range) (lo hi : F)
| ConstantNode (v : F)
| FallbackFilterNode (p : optional_property)
| ToolTypeFilterNode (tts : tool_types)
| DampingNode (d : damping_source) (gap : F)
| ResponseNode (e : easing N)
| BinaryOpNode (op : binary_op)
| InterpolationNode (i : interpolation)
| TargetNode (t : target) (lo hi : F).

(** ** Validation *)
(** IsValidBehavior...: /repo/ink/brush/brush_behavior.cc 158-210, 273-348 *)
Definition is_valid_source (s : source) : bool := match s with OtherSource _ => false | _ => true end.
Definition is_valid_target (t : target) : bool := match t with OtherTarget _ => false | _ => true end.
Definition is_valid_out_of_range (o : out_of_range) : bool :=
  match o with kClamp | kRepeat | kMirror => true | OtherOutOfRange _ => false end.
Definition is_valid_property (p : optional_property) : bool :=
  match p with kPressure | kTilt | kOrientation | kTiltXAndY => true | OtherProperty _ => false end.
Definition is_valid_binary_op (o : binary_op) : bool := match o with kProduct | kSum => true | OtherBinaryOp _ => false end.
Definition is_valid_damping (d : damping_source) : bool :=
  match d with
  | kDistanceInCentimeters | kDistanceInMultiplesOfBrushSize | kTimeInSeconds => true
  | OtherDamping _ => false
  end.
Definition is_valid_interpolation (i : interpolation) : bool :=
  match i with kLerp | kInverseLerp => true | OtherInterpolation _ => false end.
(** ValidateSourceAndOutOfRangeCombination: brush_behavior.cc 212-271 *)
Definition valid_combination (s : source) (o : out_of_range) : bool :=
  match s with
  | kTimeSinceInputInSeconds | kTimeSinceInputInMillis => match o with kClamp => true | _ => false end
  | _ => true
  end.
(** IsRangeValid: brush_behavior.cc 305-308 *)
Definition is_range_valid (lo hi : F) : bool := nfin N lo && nfin N hi && negb (neqb N lo hi).
(** ValidateNode: brush_behavior.cc 374-476 *)
Definition valid_node (n : node) : bool :=
  match n with
  | SourceNode s o lo hi =>
      is_valid_source s && is_valid_out_of_range o && valid_combination s o && is_range_valid lo hi
  | ConstantNode v => nfin N v
  | FallbackFilterNode p => is_valid_property p
  | ToolTypeFilterNode t => t_unknown t || t_mouse t || t_touch t || t_stylus t
  | DampingNode d gap => is_valid_damping d && negb (negb (nfin N gap) || nlt N gap n0)
  | ResponseNode e => valid_easing e
  | BinaryOpNode o => is_valid_binary_op o
  | InterpolationNode i => is_valid_interpolation i
  | TargetNode t lo hi => is_valid_target t && is_range_valid lo hi
  end.
(** NodeInputCount, NodeOutputCount: brush_behavior.cc 350-372 *)
Definition input_count (n : node) : nat :=
  match n with
  | SourceNode _ _ _ _ | ConstantNode _ => 0
  | FallbackFilterNode _ | ToolTypeFilterNode _ | DampingNode _ _ | ResponseNode _ => 1
  | BinaryOpNode _ => 2
  | InterpolationNode _ => 3
  | TargetNode _ _ _ => 1
  end.
Definition output_count (n : node) : nat := match n with TargetNode _ _ _ => 0 | _ => 1 end.
(** ValidateBrushBehavior: brush_behavior.cc 484-507 *)
Fixpoint valid_from (depth : nat) (nodes : list node) : bool :=
  match nodes with
  | [] => negb (Nat.ltb 0 depth)
  | n :: rest =>
      if negb (valid_node n) then false
      else if Nat.ltb depth (input_count n) then false
      else valid_from (depth - input_count n + output_count n) rest
  end.
Definition valid_behavior (nodes : list node) : bool := valid_from 0 nodes.

(** ** Execution *)
(** ModeledStrokeInput, InputMetrics, StrokeInputModeler::State:
    /repo/ink/strokes/internal/stroke_input_modeler.h 43-120 *)
Record modeled_input := {
  pos_x : F; pos_y : F; vel_x : F; vel_y : F; acc_x : F; acc_y : F;
  traveled : F; elapsed : F; pressure : F; tilt : F; orientation : F }.
Record metrics := { m_traveled : F; m_elapsed : F }.
Record input_state := {
  st_tool : tool_type; st_unit : option F;
  st_complete_elapsed : F; st_complete_traveled : F;
  st_real_elapsed : F; st_real_distance : F;
  st_stable : nat; st_real : nat }.

(** Duration32 subtraction, Seconds, Millis, ToMillis, ratio:
    /repo/ink/types/duration.h 157-169, 212-215, duration.cc 51-62 *)
Definition dur_sub (a b : F) : F := if negb (nfin N a) then a else nsub N a b.
Definition dur_seconds (s : F) : F := if nnan N s then nInf N else s.
Definition dur_millis (ms : F) : F := if nnan N ms then nInf N else nmul N (ndy N 8589935 (-33)) ms.
Definition to_millis (d : F) : F := nmul N (nZ 1000) d.
Definition dur_ratio (a b : F) : F :=
  if neqb N b n0 then (if nle N n0 a then nInf N else nopp N (nInf N))
  else if negb (nfin N a) then
    (if Bool.eqb (nle N n0 a) (nle N n0 b) then nInf N else nopp N (nInf N))
  else ndiv N a b.

(** kNoPressure, kNoTilt, kNoOrientation: stroke_input.h 40-42 *)
Definition none_value : F := nZ (-1).

(** Vec::AsUnitVec: /repo/ink/geometry/vec.cc 28-62; [half_sqrt2] is the constant there *)
Definition copysign (a s : F) : F := if nsign N s then nopp N a else a.
Definition half_sqrt2 : F := ndy N 11863283 (-24).
Definition is_inf (x : F) : bool := negb (nfin N x) && negb (nnan N x).
Definition unit_vec (x y : F) : F * F :=
  if nnan N x || nnan N y then (nNaN N, nNaN N)
  else if is_inf x then
    (if is_inf y then (copysign half_sqrt2 x, copysign half_sqrt2 y) else (copysign n1 x, copysign n0 y))
  else if is_inf y then (copysign n0 x, copysign n1 y)
  else if neqb N x n0 && neqb N y n0 then (copysign n1 x, copysign n0 y)
  else
    let sx := nmul N (ndy N 1 (-1)) x in
    let sy := nmul N (ndy N 1 (-1)) y in
    let m := nhypot N sx sy in (ndiv N sx m, ndiv N sy m).
(** DotProduct, Orthogonal: vec.h 55, 71-73 *)
Definition dot (ax ay : F) (b : F * F) : F := nadd N (nmul N ax (fst b)) (nmul N ay (snd b)).
Definition orthogonal (v : F * F) : F * F := (nopp N (snd v), fst v).

(** IsToolTypeEnabled: /repo/ink/strokes/internal/brush_tip_modeler_helpers.cc 46-59 *)
Definition is_tool_type_enabled (e : tool_types) (t : tool_type) : bool :=
  match t with
  | kUnknown => t_unknown e | kMouse => t_mouse e | kTouch => t_touch e | kStylus => t_stylus e
  | OtherTool _ => false
  end.
(** GetTiltX, GetTiltY: helpers.cc 61-75 *)
Definition tilt_along (trig : F -> F) (tilt orientation : F) : option F :=
  if neqb N tilt n0 then Some n0
  else if neqb N tilt quarter_turn then None
  else Some (natan N (nmul N (trig orientation) (ntan N tilt))).
(** GetPredictedDistanceTraveledInStrokeUnits, GetPredictedTimeElapsed, GetTimeSinceInput:
    helpers.cc 77-96 *)
Definition predicted_distance (s : input_state) (i : modeled_input) : F :=
  nmax n0 (nsub N (traveled i) (st_real_distance s)).
Definition predicted_time (s : input_state) (i : modeled_input) : F :=
  nmax n0 (dur_sub (elapsed i) (st_real_elapsed s)).
Definition time_since_input (s : input_state) (i : modeled_input) : F :=
  dur_sub (st_complete_elapsed s) (elapsed i).
(** GetSourceValue: helpers.cc 98-236 *)
Definition get_source_value (i : modeled_input) (dir : option F) (size : F) (s : input_state)
    (src : source) : option F :=
  let per_size v := Some (ndiv N v size) in
  let in_cm v := match st_unit s with Some u => Some (nmul N v u) | None => None end in
  let no_tilt := neqb N (tilt i) none_value in
  let no_orientation := neqb N (orientation i) none_value in
  let unit_v := unit_vec (vel_x i) (vel_y i) in
  match src with
  | kNormalizedPressure => if neqb N (pressure i) none_value then None else Some (pressure i)
  | kTiltInRadians => if no_tilt then None else Some (tilt i)
  | kTiltXInRadians => if no_tilt || no_orientation then None else tilt_along (ncos N) (tilt i) (orientation i)
  | kTiltYInRadians => if no_tilt || no_orientation then None else tilt_along (nsin N) (tilt i) (orientation i)
  | kOrientationInRadians =>
      if no_orientation || neqb N (tilt i) n0 then None else Some (orientation i)
  | kOrientationAboutZeroInRadians =>
      if no_orientation || neqb N (tilt i) n0 then None else Some (normalized_about_zero (orientation i))
  | kSpeedInMultiplesOfBrushSizePerSecond => per_size (nhypot N (vel_x i) (vel_y i))
  | kVelocityXInMultiplesOfBrushSizePerSecond => per_size (vel_x i)
  | kVelocityYInMultiplesOfBrushSizePerSecond => per_size (vel_y i)
  | kDirectionInRadians => option_map (@normalized N) dir
  | kDirectionAboutZeroInRadians => dir
  | kNormalizedDirectionX => option_map (ncos N) dir
  | kNormalizedDirectionY => option_map (nsin N) dir
  | kDistanceTraveledInMultiplesOfBrushSize => per_size (traveled i)
  | kTimeOfInputInSeconds => Some (elapsed i)
  | kTimeOfInputInMillis => Some (to_millis (elapsed i))
  | kPredictedDistanceTraveledInMultiplesOfBrushSize => per_size (predicted_distance s i)
  | kPredictedTimeElapsedInSeconds => Some (predicted_time s i)
  | kPredictedTimeElapsedInMillis => Some (to_millis (predicted_time s i))
  | kDistanceRemainingInMultiplesOfBrushSize => per_size (nsub N (st_complete_traveled s) (traveled i))
  | kTimeSinceInputInSeconds => Some (time_since_input s i)
  | kTimeSinceInputInMillis => Some (to_millis (time_since_input s i))
  | kAccelerationInMultiplesOfBrushSizePerSecondSquared => per_size (nhypot N (acc_x i) (acc_y i))
  | kAccelerationXInMultiplesOfBrushSizePerSecondSquared => per_size (acc_x i)
  | kAccelerationYInMultiplesOfBrushSizePerSecondSquared => per_size (acc_y i)
  | kAccelerationForwardInMultiplesOfBrushSizePerSecondSquared => per_size (dot (acc_x i) (acc_y i) unit_v)
  | kAccelerationLateralInMultiplesOfBrushSizePerSecondSquared =>
      per_size (dot (acc_x i) (acc_y i) (orthogonal unit_v))
  | kInputSpeedInCentimetersPerSecond => in_cm (nhypot N (vel_x i) (vel_y i))
  | kInputVelocityXInCentimetersPerSecond => in_cm (vel_x i)
  | kInputVelocityYInCentimetersPerSecond => in_cm (vel_y i)
  | kInputDistanceTraveledInCentimeters => in_cm (traveled i)
  | kPredictedInputDistanceTraveledInCentimeters => in_cm (predicted_distance s i)
  | kInputAccelerationInCentimetersPerSecondSquared => in_cm (nhypot N (acc_x i) (acc_y i))
  | kInputAccelerationXInCentimetersPerSecondSquared => in_cm (acc_x i)
  | kInputAccelerationYInCentimetersPerSecondSquared => in_cm (acc_y i)
  | kInputAccelerationForwardInCentimetersPerSecondSquared => in_cm (dot (acc_x i) (acc_y i) unit_v)
  | kInputAccelerationLateralInCentimetersPerSecondSquared =>
      in_cm (dot (acc_x i) (acc_y i) (orthogonal unit_v))
  | OtherSource _ => None
  end.
(** IsOptionalInputPropertyPresent: helpers.cc 238-253 *)
Definition is_property_present (p : optional_property) (i : modeled_input) : bool :=
  match p with
  | kPressure => negb (neqb N (pressure i) none_value)
  | kTilt => negb (neqb N (tilt i) none_value)
  | kOrientation => negb (neqb N (orientation i) none_value)
  | kTiltXAndY => negb (neqb N (tilt i) none_value) && negb (neqb N (orientation i) none_value)
  | OtherProperty _ => false
  end.
(** ApplyOutOfRangeBehavior: helpers.cc 256-266 *)
Definition apply_out_of_range (o : out_of_range) (x : F) : F :=
  match o with
  | kClamp => nclamp x n0 n1
  | kRepeat => nsub N x (nfloor N x)
  | kMirror => nabs N (nsub N x (nmul N (nZ 2) (nround N (nmul N (ndy N 1 (-1)) x))))
  | OtherOutOfRange _ => n0
  end.
(** DampOffsetTransition: helpers.cc 268-298 *)
Definition damp_transition (target previous delta gap : F) : F :=
  if nle N delta n0 then previous
  else lerp target previous (nexp N (ndiv N (nopp N delta) gap)).

(** BehaviorNodeImplementation: brush_tip_modeler_helpers.h 49-75 *)
Inductive rnode : Type :=
| RSource (src : source) (oor : out_of_range) (lo hi : F)
| RConstant (v : F)
| RFallback (p : optional_property)
| RToolType (tts : tool_types)
| RDamping (index : nat) (d : damping_source) (gap : F)
| REasing (e : impl N)
| RBinary (op : binary_op)
| RInterpolation (i : interpolation)
| RTarget (index : nat) (lo hi : F).
(** BehaviorNodeContext: the constant part (helpers.h 79-90) *)
Record context := {
  cx_state : input_state; cx_input : modeled_input; cx_dir : option F; cx_size : F;
  cx_prev : option metrics }.
(** the mutable part; the top of the stack is the head of the list *)
Record machine := { stack : list F; damped : list F; modifiers : list F }.

Fixpoint set_nth (i : nat) (v : F) (l : list F) : option (list F) :=
  match i, l with
  | O, _ :: l' => Some (v :: l')
  | S i', a :: l' => option_map (cons a) (set_nth i' v l')
  | _, [] => None
  end.

(** the damping step of ProcessBehaviorNodeImpl(DampingNodeImplementation), helpers.cc
    342-393; [None] dereferences absent previous metrics *)
Definition damp_value (c : context) (d : damping_source) (gap old input : F) : option F :=
  if nnan N input then Some old
  else if nnan N old || neqb N gap n0 then Some input
  else
    match cx_prev c with
    | None => None
    | Some prev =>
        match d with
        | kDistanceInCentimeters =>
            match st_unit (cx_state c) with
            | None => Some input
            | Some u =>
                Some (damp_transition input old
                        (nmul N u (nsub N (traveled (cx_input c)) (m_traveled prev))) gap)
            end
        | kDistanceInMultiplesOfBrushSize =>
            Some (damp_transition input old (nsub N (traveled (cx_input c)) (m_traveled prev))
                    (nmul N (cx_size c) gap))
        | kTimeInSeconds =>
            Some (damp_transition input old (dur_sub (elapsed (cx_input c)) (m_elapsed prev))
                    (dur_seconds gap))
        | OtherDamping _ => Some old
        end
    end.
(** BinaryOpNode: helpers.cc 403-427 *)
Definition apply_binary (o : binary_op) (a b : F) : F :=
  let r := match o with
           | kProduct => nmul N a b
           | kSum => nadd N a b
           | OtherBinaryOp _ => a
           end in
  if nfin N r then r else nNaN N.
(** InterpolationNode: helpers.cc 429-460 *)
Definition apply_interpolation (i : interpolation) (param lo hi : F) : F :=
  if nnan N lo || nnan N hi || nnan N param then nNaN N
  else
    let finite r := if nfin N r then r else nNaN N in
    match i with
    | kLerp => finite (lerp lo hi param)
    | kInverseLerp => if neqb N lo hi then nNaN N else finite (inverse_lerp lo hi param)
    | OtherInterpolation _ => finite param
    end.

(** ProcessBehaviorNode: helpers.cc 300-479.  [None]: pop or read of an empty stack, index
    out of range, or another failure of a callee. *)
Definition process_node (c : context) (n : rnode) (m : machine) : option machine :=
  let st s := {| stack := s; damped := damped m; modifiers := modifiers m |} in
  match n with
  | RSource src o lo hi =>
      match get_source_value (cx_input c) (cx_dir c) (cx_size c) (cx_state c) src with
      | None => Some (st (nNaN N :: stack m))
      | Some v => Some (st (apply_out_of_range o (inverse_lerp lo hi v) :: stack m))
      end
  | RConstant v => Some (st (v :: stack m))
  | RFallback p =>
      match stack m with
      | [] => None
      | x :: s => Some (st ((if is_property_present p (cx_input c) then nNaN N else x) :: s))
      end
  | RToolType tts =>
      match stack m with
      | [] => None
      | x :: s => Some (st ((if negb (is_tool_type_enabled tts (st_tool (cx_state c))) then nNaN N else x) :: s))
      end
  | RDamping i d gap =>
      match stack m, nth_error (damped m) i with
      | x :: s, Some old =>
          match damp_value c d gap old x with
          | None => None
          | Some v =>
              match set_nth i v (damped m) with
              | None => None
              | Some l => Some {| stack := v :: s; damped := l; modifiers := modifiers m |}
              end
          end
      | _, _ => None
      end
  | REasing e =>
      match stack m with
      | [] => None
      | x :: s => match get_y e x with Some y => Some (st (y :: s)) | None => None end
      end
  | RBinary o =>
      match stack m with
      | b :: a :: s => Some (st (apply_binary o a b :: s))
      | _ => None
      end
  | RInterpolation i =>
      match stack m with
      | hi :: lo :: p :: s => Some (st (apply_interpolation i p lo hi :: s))
      | _ => None
      end
  | RTarget i lo hi =>
      match stack m with
      | [] => None
      | x :: s =>
          if nnan N x then Some (st s)
          else match set_nth i (lerp lo hi x) (modifiers m) with
               | None => None
               | Some l => Some {| stack := s; damped := damped m; modifiers := l |}
               end
      end
  end.
Fixpoint process_nodes (c : context) (ns : list rnode) (m : machine) : option machine :=
  match ns with
  | [] => Some m
  | n :: r => match process_node c n m with Some m' => process_nodes c r m' | None => None end
  end.

(** ** The tip and its state *)
(** BrushTip: /repo/ink/brush/brush_tip.h 43-122 *)
Record brush_tip := {
  scale_x : F; scale_y : F; corner_rounding : F; slant : F; pinch : F; rotation : F;
  opacity_multiplier : F; particle_gap_distance_scale : F; particle_gap_duration : F;
  behaviors : list (list node) }.
(** ValidateBrushTip: /repo/ink/brush/brush_tip.cc 48-108 *)
Definition valid_tip (t : brush_tip) : bool :=
  if negb (nfin N (scale_x t)) || negb (nfin N (scale_y t)) || nlt N (scale_x t) n0
     || nlt N (scale_y t) n0 || (neqb N (scale_x t) n0 && neqb N (scale_y t) n0) then false
  else if negb (nle N n0 (corner_rounding t) && nle N (corner_rounding t) n1) then false
  else if negb (nfin N (slant t))
          || negb (nle N (nopp N quarter_turn) (slant t) && nle N (slant t) quarter_turn) then false
  else if negb (nle N n0 (pinch t) && nle N (pinch t) n1) then false
  else if negb (nfin N (rotation t)) then false
  else if negb (nle N n0 (opacity_multiplier t) && nle N (opacity_multiplier t) (nZ 2)) then false
  else if negb (nfin N (particle_gap_distance_scale t)) || nlt N (particle_gap_distance_scale t) n0 then false
  else if negb (nfin N (particle_gap_duration t)) || nlt N (particle_gap_duration t) n0 then false
  else forallb valid_behavior (behaviors t).

(** BrushTipState: /repo/ink/strokes/internal/brush_tip_state.h 26-60 *)
Record tip_state := {
  ts_x : F; ts_y : F; ts_width : F; ts_height : F; ts_percent_radius : F; ts_rotation : F;
  ts_slant : F; ts_pinch : F; ts_hue : F; ts_saturation : F; ts_luminosity : F; ts_opacity : F }.
(** BrushTipStateModifiers: helpers.cc 484-496 *)
Record tip_modifiers := {
  mo_x : F; mo_y : F; mo_width : F; mo_height : F; mo_slant : F; mo_rounding : F;
  mo_rotation : F; mo_pinch : F; mo_hue : F; mo_saturation : F; mo_luminosity : F; mo_opacity : F }.
Definition no_modifiers : tip_modifiers :=
  {| mo_x := n0; mo_y := n0; mo_width := n1; mo_height := n1; mo_slant := n0; mo_rounding := n0;
     mo_rotation := n0; mo_pinch := n0; mo_hue := n0; mo_saturation := n1; mo_luminosity := n0;
     mo_opacity := n1 |}.
(** ApplyModifierToTarget: helpers.cc 500-563; FromDirectionAndMagnitude: vec.h 33-35 *)
Definition apply_modifier (dir : option F) (size : F) (m : tip_modifiers) (tm : target * F) : tip_modifiers :=
  let '(t, v) := tm in
  let upd x y w h sl ro rt pi hu sa lu op :=
    {| mo_x := x; mo_y := y; mo_width := w; mo_height := h; mo_slant := sl; mo_rounding := ro;
       mo_rotation := rt; mo_pinch := pi; mo_hue := hu; mo_saturation := sa; mo_luminosity := lu;
       mo_opacity := op |} in
  let mx := mo_x m in let my := mo_y m in let w := mo_width m in let h := mo_height m in
  let sl := mo_slant m in let ro := mo_rounding m in let rt := mo_rotation m in
  let pi := mo_pinch m in let hu := mo_hue m in let sa := mo_saturation m in
  let lu := mo_luminosity m in let op := mo_opacity m in
  match t with
  | kWidthMultiplier => upd mx my (nmul N w v) h sl ro rt pi hu sa lu op
  | kHeightMultiplier => upd mx my w (nmul N h v) sl ro rt pi hu sa lu op
  | kSizeMultiplier => upd mx my (nmul N w v) (nmul N h v) sl ro rt pi hu sa lu op
  | kSlantOffsetInRadians => upd mx my w h (nadd N sl v) ro rt pi hu sa lu op
  | kPinchOffset => upd mx my w h sl ro rt (nadd N pi v) hu sa lu op
  | kRotationOffsetInRadians => upd mx my w h sl ro (nadd N rt v) pi hu sa lu op
  | kCornerRoundingOffset => upd mx my w h sl (nadd N ro v) rt pi hu sa lu op
  | kPositionOffsetXInMultiplesOfBrushSize => upd (nadd N mx (nmul N v size)) my w h sl ro rt pi hu sa lu op
  | kPositionOffsetYInMultiplesOfBrushSize => upd mx (nadd N my (nmul N v size)) w h sl ro rt pi hu sa lu op
  | kPositionOffsetForwardInMultiplesOfBrushSize =>
      match dir with
      | None => m
      | Some d => upd (nadd N mx (nmul N (nmul N v size) (ncos N d)))
                      (nadd N my (nmul N (nmul N v size) (nsin N d))) w h sl ro rt pi hu sa lu op
      end
  | kPositionOffsetLateralInMultiplesOfBrushSize =>
      match dir with
      | None => m
      | Some d => upd (nadd N mx (nmul N (nmul N v size) (ncos N (nadd N d quarter_turn))))
                      (nadd N my (nmul N (nmul N v size) (nsin N (nadd N d quarter_turn)))) w h sl ro rt pi hu sa lu op
      end
  | kHueOffsetInRadians => upd mx my w h sl ro rt pi (nadd N hu v) sa lu op
  | kSaturationMultiplier => upd mx my w h sl ro rt pi hu (nmul N sa v) lu op
  | kLuminosity => upd mx my w h sl ro rt pi hu sa (nadd N lu v) op
  | kOpacityMultiplier => upd mx my w h sl ro rt pi hu sa lu (nmul N op v)
  | OtherTarget _ => m
  end.
(** ApplyModifiersToTipState: helpers.cc 565-605 *)
Definition apply_modifiers (m : tip_modifiers) (s : tip_state) : tip_state :=
  let unless_eq a b new old := if neqb N a b then old else new in
  {| ts_x := nadd N (ts_x s) (mo_x m);
     ts_y := nadd N (ts_y s) (mo_y m);
     ts_width := unless_eq (mo_width m) n1 (nmul N (ts_width s) (nclamp (mo_width m) n0 (nZ 2))) (ts_width s);
     ts_height := unless_eq (mo_height m) n1 (nmul N (ts_height s) (nclamp (mo_height m) n0 (nZ 2))) (ts_height s);
     ts_percent_radius :=
       unless_eq (mo_rounding m) n0 (nclamp (nadd N (ts_percent_radius s) (mo_rounding m)) n0 n1) (ts_percent_radius s);
     ts_rotation := unless_eq (mo_rotation m) n0 (normalized (nadd N (ts_rotation s) (mo_rotation m))) (ts_rotation s);
     ts_slant :=
       unless_eq (mo_slant m) n0
         (nclamp (nadd N (ts_slant s) (mo_slant m)) (nopp N quarter_turn) quarter_turn) (ts_slant s);
     ts_pinch := unless_eq (mo_pinch m) n0 (nclamp (nadd N (ts_pinch s) (mo_pinch m)) n0 n1) (ts_pinch s);
     ts_hue := unless_eq (mo_hue m) n0 (ndiv N (normalized (mo_hue m)) full_turn) (ts_hue s);
     ts_saturation := unless_eq (mo_saturation m) n1 (nclamp (mo_saturation m) n0 (nZ 2)) (ts_saturation s);
     ts_luminosity := unless_eq (mo_luminosity m) n0 (nclamp (mo_luminosity m) (nZ (-1)) n1) (ts_luminosity s);
     ts_opacity :=
       unless_eq (mo_opacity m) n1 (nclamp (nmul N (ts_opacity s) (mo_opacity m)) n0 (nZ 2)) (ts_opacity s) |}.
(** CreateTipState: helpers.cc 609-633 *)
Definition create_tip_state (x y : F) (dir : option F) (t : brush_tip) (size : F)
    (tms : list (target * F)) : tip_state :=
  apply_modifiers (fold_left (apply_modifier dir size) tms no_modifiers)
    {| ts_x := x; ts_y := y; ts_width := nmul N size (scale_x t); ts_height := nmul N size (scale_y t);
       ts_percent_radius := corner_rounding t; ts_rotation := rotation t; ts_slant := slant t;
       ts_pinch := pinch t; ts_hue := n0; ts_saturation := n1; ts_luminosity := n0;
       ts_opacity := opacity_multiplier t |}.

(** Lerp of two modeled inputs: helpers.cc 635-649; Segment::Lerp (geometry/segment.cc 26-30),
    Lerp of angles and NormalizedAngleLerp (geometry/internal/algorithms.cc 117-120) *)
Definition point_lerp (a b t : F) : F := nadd N (nmul N a (nsub N n1 t)) (nmul N b t).
Definition angle_lerp (a b t : F) : F := nadd N (nmul N (nsub N n1 t) a) (nmul N t b).
Definition normalized_angle_lerp (a b t : F) : F :=
  normalized (nadd N a (angle_lerp n0 (normalized_about_zero (nsub N b a)) t)).
Definition lerp_input (a b : modeled_input) (t : F) : modeled_input :=
  {| pos_x := point_lerp (pos_x a) (pos_x b) t; pos_y := point_lerp (pos_y a) (pos_y b) t;
     vel_x := lerp (vel_x a) (vel_x b) t; vel_y := lerp (vel_y a) (vel_y b) t;
     acc_x := lerp (acc_x a) (acc_x b) t; acc_y := lerp (acc_y a) (acc_y b) t;
     traveled := lerp (traveled a) (traveled b) t;
     elapsed := dur_millis (lerp (to_millis (elapsed a)) (to_millis (elapsed b)) t);
     pressure := lerp (pressure a) (pressure b) t;
     tilt := angle_lerp (tilt a) (tilt b) t;
     orientation := normalized_angle_lerp (orientation a) (orientation b) t |}.
End Behavior.
Arguments node : clear implicits.
Arguments rnode : clear implicits.
Arguments modeled_input : clear implicits.
Arguments metrics : clear implicits.
Arguments input_state : clear implicits.
Arguments context : clear implicits.
Arguments machine : clear implicits.
Arguments brush_tip : clear implicits.
Arguments tip_state : clear implicits.
Arguments tip_modifiers : clear implicits.
