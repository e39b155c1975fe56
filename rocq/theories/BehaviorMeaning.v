(** The documented meaning of behavior nodes and of tip states over the real numbers. *)
From Coq Require Import ZArith List Bool Reals.
From Flocq Require Import Core.
From Verif Require Import NumModel BehaviorModel.
Import ListNotations.
Open Scope R_scope.

(** One modeled input and the state of the stroke, as real numbers *)
Record rinput := {
  i_px : R; i_py : R; i_vx : R; i_vy : R; i_ax : R; i_ay : R;
  i_traveled : R; i_elapsed : R; i_pressure : R; i_tilt : R; i_orientation : R }.
Record rstate := {
  s_tool : tool_type; s_unit : option R;
  s_complete_elapsed : R; s_complete_traveled : R; s_real_elapsed : R; s_real_distance : R;
  s_stable : nat; s_real : nat }.
Definition fin_input (i : rinput) : modeled_input xnum :=
  @Build_modeled_input xnum (Fin (i_px i)) (Fin (i_py i)) (Fin (i_vx i)) (Fin (i_vy i)) (Fin (i_ax i)) (Fin (i_ay i))
    (Fin (i_traveled i)) (Fin (i_elapsed i)) (Fin (i_pressure i)) (Fin (i_tilt i)) (Fin (i_orientation i)).
Definition fin_state (s : rstate) : input_state xnum :=
  @Build_input_state xnum (s_tool s) (option_map Fin (s_unit s)) (Fin (s_complete_elapsed s)) (Fin (s_complete_traveled s))
    (Fin (s_real_elapsed s)) (Fin (s_real_distance s)) (s_stable s) (s_real s).

(** The constants of the code for a full, half and quarter turn: the float nearest to pi *)
Definition pi32 : R := 13176795 / 4194304.
Definition turn : R := 2 * pi32.

(** the value is reported exactly under condition [P], and is then as described by [Q] *)
Definition reported (P : Prop) (Q : R -> Prop) (r : option R) : Prop :=
  match r with Some x => P /\ Q x | None => ~ P end.
Definition always := reported True.
(** equal up to whole turns *)
Definition same_angle (a b : R) : Prop := exists k : Z, a = b + IZR k * turn.
(** [f] and [l] are the components of (ax, ay) along (vx, vy) and along (vx, vy) turned a
    quarter from x to y; for no velocity along the axes *)
Definition along (vx vy ax ay f l : R) : Prop :=
  let v := sqrt (vx * vx + vy * vy) in
  (v <> 0 -> v * ax = f * vx - l * vy /\ v * ay = f * vy + l * vx) /\ (v = 0 -> ax = f /\ ay = l).
(** a pen leaning by [tilt] toward [o], seen along one axis *)
Definition leans (tilt component x : R) : Prop :=
  - (PI / 2) < x < PI / 2 /\ (cos tilt <> 0 -> tan x * cos tilt = sin tilt * component).

(** brush_behavior.h, enum class Source *)
Definition source_means (i : rinput) (dir : option R) (size : R) (s : rstate) (src : source) : option R -> Prop :=
  let per_size (Q : R -> Prop) := always (fun x => Q (x * size)) in
  let in_cm (Q : R -> Prop) (r : option R) :=
    match s_unit s with None => r = None | Some u => exists y, Q y /\ r = Some (y * u) end in
  let speed x := 0 <= x /\ x * x = i_vx i * i_vx i + i_vy i * i_vy i in
  let acceleration x := 0 <= x /\ x * x = i_ax i * i_ax i + i_ay i * i_ay i in
  let forward x := exists l, along (i_vx i) (i_vy i) (i_ax i) (i_ay i) x l in
  let lateral x := exists f, along (i_vx i) (i_vy i) (i_ax i) (i_ay i) f x in
  let predicted_distance x := x = Rmax 0 (i_traveled i - s_real_distance s) in
  let predicted_time x := x = Rmax 0 (i_elapsed i - s_real_elapsed s) in
  let has_tilt := i_tilt i <> -1 in
  let has_orientation := i_orientation i <> -1 in
  match src with
  | kNormalizedPressure => reported (i_pressure i <> -1) (fun x => x = i_pressure i)
  | kTiltInRadians => reported has_tilt (fun x => x = i_tilt i)
  | kTiltXInRadians => reported (has_tilt /\ has_orientation /\ i_tilt i <> turn / 4) (leans (i_tilt i) (cos (i_orientation i)))
  | kTiltYInRadians => reported (has_tilt /\ has_orientation /\ i_tilt i <> turn / 4) (leans (i_tilt i) (sin (i_orientation i)))
  | kOrientationInRadians => reported (has_orientation /\ i_tilt i <> 0) (fun x => x = i_orientation i)
  | kOrientationAboutZeroInRadians =>
      reported (has_orientation /\ i_tilt i <> 0) (fun x => - (turn / 2) < x <= turn / 2 /\ same_angle x (i_orientation i))
  | kSpeedInMultiplesOfBrushSizePerSecond => per_size speed
  | kVelocityXInMultiplesOfBrushSizePerSecond => per_size (fun x => x = i_vx i)
  | kVelocityYInMultiplesOfBrushSizePerSecond => per_size (fun x => x = i_vy i)
  | kDirectionInRadians => reported (dir <> None) (fun x => exists d, dir = Some d /\ 0 <= x < turn /\ same_angle x d)
  | kDirectionAboutZeroInRadians => fun r => r = dir
  | kNormalizedDirectionX => reported (dir <> None) (fun x => exists d, dir = Some d /\ x = cos d)
  | kNormalizedDirectionY => reported (dir <> None) (fun x => exists d, dir = Some d /\ x = sin d)
  | kDistanceTraveledInMultiplesOfBrushSize => per_size (fun x => x = i_traveled i)
  | kTimeOfInputInSeconds => always (fun x => x = i_elapsed i)
  | kTimeOfInputInMillis => always (fun x => x / 1000 = i_elapsed i)
  | kPredictedDistanceTraveledInMultiplesOfBrushSize => per_size predicted_distance
  | kPredictedTimeElapsedInSeconds => always predicted_time
  | kPredictedTimeElapsedInMillis => always (fun x => predicted_time (x / 1000))
  | kDistanceRemainingInMultiplesOfBrushSize => per_size (fun x => i_traveled i + x = s_complete_traveled s)
  | kTimeSinceInputInSeconds => always (fun x => i_elapsed i + x = s_complete_elapsed s)
  | kTimeSinceInputInMillis => always (fun x => i_elapsed i + x / 1000 = s_complete_elapsed s)
  | kAccelerationInMultiplesOfBrushSizePerSecondSquared => per_size acceleration
  | kAccelerationXInMultiplesOfBrushSizePerSecondSquared => per_size (fun x => x = i_ax i)
  | kAccelerationYInMultiplesOfBrushSizePerSecondSquared => per_size (fun x => x = i_ay i)
  | kAccelerationForwardInMultiplesOfBrushSizePerSecondSquared => per_size forward
  | kAccelerationLateralInMultiplesOfBrushSizePerSecondSquared => per_size lateral
  | kInputSpeedInCentimetersPerSecond => in_cm speed
  | kInputVelocityXInCentimetersPerSecond => in_cm (fun x => x = i_vx i)
  | kInputVelocityYInCentimetersPerSecond => in_cm (fun x => x = i_vy i)
  | kInputDistanceTraveledInCentimeters => in_cm (fun x => x = i_traveled i)
  | kPredictedInputDistanceTraveledInCentimeters => in_cm predicted_distance
  | kInputAccelerationInCentimetersPerSecondSquared => in_cm acceleration
  | kInputAccelerationXInCentimetersPerSecondSquared => in_cm (fun x => x = i_ax i)
  | kInputAccelerationYInCentimetersPerSecondSquared => in_cm (fun x => x = i_ay i)
  | kInputAccelerationForwardInCentimetersPerSecondSquared => in_cm forward
  | kInputAccelerationLateralInCentimetersPerSecondSquared => in_cm lateral
  | OtherSource _ => fun _ => True
  end.
(** a value of the model that is null or finite *)
Definition fin_value (r : option R) : option ereal := option_map Fin r.

(** enum class OutOfRange, for a position [x] relative to the range *)
Definition out_of_range_means (o : out_of_range) (x y : R) : Prop :=
  match o with
  | kClamp => (x <= 0 -> y = 0) /\ (1 <= x -> y = 1) /\ (0 <= x <= 1 -> y = x)
  | kRepeat => 0 <= y < 1 /\ exists k : Z, y = x - IZR k
  | kMirror => 0 <= y <= 1 /\ exists k : Z, y = x - 2 * IZR k \/ y = 2 * IZR k - x
  | OtherOutOfRange _ => True
  end.

(** The tip state: enum class Target.  [total ts tms] adds, [product ts tms] multiplies the
    modifiers of the given targets. *)
Definition target_eqb (a b : target) : bool :=
  match a, b with
  | kWidthMultiplier, kWidthMultiplier | kHeightMultiplier, kHeightMultiplier | kSizeMultiplier, kSizeMultiplier
  | kSlantOffsetInRadians, kSlantOffsetInRadians | kPinchOffset, kPinchOffset
  | kRotationOffsetInRadians, kRotationOffsetInRadians | kCornerRoundingOffset, kCornerRoundingOffset
  | kPositionOffsetXInMultiplesOfBrushSize, kPositionOffsetXInMultiplesOfBrushSize
  | kPositionOffsetYInMultiplesOfBrushSize, kPositionOffsetYInMultiplesOfBrushSize
  | kPositionOffsetForwardInMultiplesOfBrushSize, kPositionOffsetForwardInMultiplesOfBrushSize
  | kPositionOffsetLateralInMultiplesOfBrushSize, kPositionOffsetLateralInMultiplesOfBrushSize
  | kHueOffsetInRadians, kHueOffsetInRadians | kSaturationMultiplier, kSaturationMultiplier
  | kLuminosity, kLuminosity | kOpacityMultiplier, kOpacityMultiplier => true
  | _, _ => false
  end.
Definition given (ts : list target) (tms : list (target * R)) : list R :=
  map snd (filter (fun tm => existsb (target_eqb (fst tm)) ts) tms).
Definition total (t : target) (tms : list (target * R)) : R := fold_right Rplus 0 (given [t] tms).
Definition product (ts : list target) (tms : list (target * R)) : R := fold_right Rmult 1 (given ts tms).
(** [y] is the point of [lo, hi] nearest to [x] *)
Definition nearest_in (lo hi x y : R) : Prop := lo <= y <= hi /\ (x <= lo -> y = lo) /\ (hi <= x -> y = hi) /\ (lo <= x <= hi -> y = x).
Record rtip := {
  p_scale_x : R; p_scale_y : R; p_rounding : R; p_slant : R; p_pinch : R; p_rotation : R; p_opacity : R;
  p_gap_scale : R; p_gap_duration : R }.
Definition fin_tip (p : rtip) (bs : list (list (node xnum))) : brush_tip xnum :=
  @Build_brush_tip xnum (Fin (p_scale_x p)) (Fin (p_scale_y p)) (Fin (p_rounding p)) (Fin (p_slant p)) (Fin (p_pinch p))
    (Fin (p_rotation p)) (Fin (p_opacity p)) (Fin (p_gap_scale p)) (Fin (p_gap_duration p)) bs.
Record rtip_state := {
  z_x : R; z_y : R; z_width : R; z_height : R; z_percent_radius : R; z_rotation : R; z_slant : R; z_pinch : R;
  z_hue : R; z_saturation : R; z_luminosity : R; z_opacity : R }.
Definition fin_tip_state (z : rtip_state) : tip_state xnum :=
  @Build_tip_state xnum (Fin (z_x z)) (Fin (z_y z)) (Fin (z_width z)) (Fin (z_height z)) (Fin (z_percent_radius z))
    (Fin (z_rotation z)) (Fin (z_slant z)) (Fin (z_pinch z)) (Fin (z_hue z)) (Fin (z_saturation z)) (Fin (z_luminosity z)) (Fin (z_opacity z)).
Definition tip_state_means (x y : R) (dir : option R) (p : rtip) (size : R) (tms : list (target * R)) (z : rtip_state) : Prop :=
  (* a quarter turn of the code's constants *)
  let forward := total kPositionOffsetForwardInMultiplesOfBrushSize tms in
  let lateral := total kPositionOffsetLateralInMultiplesOfBrushSize tms in
  let dx := total kPositionOffsetXInMultiplesOfBrushSize tms in
  let dy := total kPositionOffsetYInMultiplesOfBrushSize tms in
  match dir with
  | None => z_x z = x + size * dx /\ z_y z = y + size * dy
  | Some d =>
      z_x z = x + size * (dx + forward * cos d + lateral * cos (d + turn / 4)) /\
      z_y z = y + size * (dy + forward * sin d + lateral * sin (d + turn / 4))
  end /\
  (exists k, nearest_in 0 2 (product [kWidthMultiplier; kSizeMultiplier] tms) k /\ z_width z = size * p_scale_x p * k) /\
  (exists k, nearest_in 0 2 (product [kHeightMultiplier; kSizeMultiplier] tms) k /\ z_height z = size * p_scale_y p * k) /\
  nearest_in 0 1 (p_rounding p + total kCornerRoundingOffset tms) (z_percent_radius z) /\
  same_angle (z_rotation z) (p_rotation p + total kRotationOffsetInRadians tms) /\
  (total kRotationOffsetInRadians tms <> 0 -> 0 <= z_rotation z < turn) /\
  nearest_in (- (turn / 4)) (turn / 4) (p_slant p + total kSlantOffsetInRadians tms) (z_slant z) /\
  nearest_in 0 1 (p_pinch p + total kPinchOffset tms) (z_pinch z) /\
  0 <= z_hue z < 1 /\ same_angle (turn * z_hue z) (total kHueOffsetInRadians tms) /\
  nearest_in 0 2 (product [kSaturationMultiplier] tms) (z_saturation z) /\
  nearest_in (-1) 1 (total kLuminosity tms) (z_luminosity z) /\
  nearest_in 0 2 (p_opacity p * product [kOpacityMultiplier] tms) (z_opacity z).

(** Damping: how far the stroke went since the previous value, and the unit of the gap;
    [None]: no damping *)
Definition damp_progress (s : rstate) (i : rinput) (size prev_traveled prev_elapsed : R) (d : damping_source) : option (R * R) :=
  match d with
  | kDistanceInCentimeters => option_map (fun u => (u * (i_traveled i - prev_traveled), 1)) (s_unit s)
  | kDistanceInMultiplesOfBrushSize => Some (i_traveled i - prev_traveled, size)
  | kTimeInSeconds => Some (i_elapsed i - prev_elapsed, 1)
  | OtherDamping _ => None
  end.
(** exponential approach: what is left of the distance between old value and input *)
Definition damps (progress gap old x y : R) : Prop :=
  (progress <= 0 -> y = old) /\ (0 < progress -> y - x = (old - x) * exp (- (progress / gap))).
(** [d] is the direction from [a] to [b] *)
Definition directed (ax ay bx by_ d : R) : Prop :=
  - PI < d <= PI /\
  let len := sqrt ((bx - ax) * (bx - ax) + (by_ - ay) * (by_ - ay)) in
  bx - ax = len * cos d /\ by_ - ay = len * sin d.
(** Combining values; [None] is null *)
Definition binary_means (o : binary_op) (a b r : R) : Prop :=
  match o with kProduct => r = a * b | kSum => r = a + b | OtherBinaryOp _ => True end.
(** the fraction [p] of the way from [lo] to [hi], and the reverse *)
Definition interpolation_means (i : interpolation) (p lo hi : R) : option R -> Prop :=
  match i with
  | kLerp => always (fun x => x = (1 - p) * lo + p * hi)
  | kInverseLerp => reported (lo <> hi) (fun x => (1 - x) * lo + x * hi = p)
  | OtherInterpolation _ => fun _ => True
  end.
(** The direction of travel at input [k]: from the input before to the input after it, or
    from or to itself at the ends of the stroke; null if these two are at the same place *)
Definition direction_means (inputs : list rinput) (k : nat) (d : option R) : Prop :=
  exists a b, nth_error inputs (k - 1) = Some a /\
    nth_error inputs (if Nat.eqb (S k) (length inputs) then k else S k) = Some b /\
    reported (~ (i_px a = i_px b /\ i_py a = i_py b)) (directed (i_px a) (i_py a) (i_px b) (i_py b)) d.
