(** What modeling the brush tip is required to do. *)
From Coq Require Import ZArith List Bool.
From Verif Require Import NumModel EasingModel BehaviorModel TipModel.
Import ListNotations.

Section TipSpec.
Context {N : num}.
(** A stroke: after each update, the newly fixed and the volatile tip states *)
Fixpoint outputs (fuel : nat) (m : tip_modeler N) (us : list (input_state N * list (modeled_input N)))
    : option (list (list (tip_state N) * list (tip_state N))) :=
  match us with
  | [] => Some []
  | (st, inputs) :: r =>
      match update_stroke fuel m st inputs with
      | None => None
      | Some m' => option_map (cons (new_fixed_states m', volatile_states m')) (outputs fuel m' r)
      end
  end.

(** *** Updates of one stroke, as the input modeler gives them (property C27): stable inputs
    stay, progress does not decrease along them, and they are part of what is real *)
Record ok_update (st : input_state N) (inputs : list (modeled_input N)) : Prop := {
  u_stable : st_stable st <= length inputs;
  u_state : nfin N (st_real_distance st) = true /\ nfin N (st_real_elapsed st) = true /\
            nfin N (st_complete_traveled st) = true /\ nfin N (st_complete_elapsed st) = true;
  u_finite : forall k cur, k < st_stable st -> nth_error inputs k = Some cur ->
    nfin N (traveled cur) = true /\ nfin N (elapsed cur) = true;
  u_real : forall k cur, k < st_stable st -> nth_error inputs k = Some cur ->
    nle N (traveled cur) (st_real_distance st) = true /\ nle N (elapsed cur) (st_real_elapsed st) = true /\
    nle N (traveled cur) (st_complete_traveled st) = true /\ nle N (elapsed cur) (st_complete_elapsed st) = true;
  u_progress : forall k j a b, k <= j -> j < st_stable st -> nth_error inputs k = Some a -> nth_error inputs j = Some b ->
    nle N (traveled a) (traveled b) = true /\ nle N (elapsed a) (elapsed b) = true }.
Record extends (st : input_state N) (inputs : list (modeled_input N)) (st' : input_state N) (inputs' : list (modeled_input N)) : Prop := {
  x_tool : st_tool st' = st_tool st; x_unit : st_unit st' = st_unit st;
  x_stable : st_stable st <= st_stable st';
  x_inputs : forall k, k < st_stable st -> nth_error inputs' k = nth_error inputs k }.
Fixpoint extending (st : input_state N) (inputs : list (modeled_input N)) (us : list (input_state N * list (modeled_input N))) : Prop :=
  match us with
  | [] => True
  | (st', inputs') :: r => ok_update st' inputs' /\ extends st inputs st' inputs' /\ extending st' inputs' r
  end.
Definition stroke_updates (us : list (input_state N * list (modeled_input N))) : Prop :=
  match us with [] => True | (st, inputs) :: r => ok_update st inputs /\ extending st inputs r end.

(** *** After every update, what has been fixed so far followed by what is volatile is what
    the same modeler gives for the whole stroke so far at once *)
Fixpoint replays (fuel : nat) (m0 : tip_modeler N) (done : list (tip_state N)) (us : list (input_state N * list (modeled_input N)))
    (os : list (list (tip_state N) * list (tip_state N))) : Prop :=
  match us, os with
  | [], [] => True
  | u :: us', (f, v) :: os' =>
      (exists f' v', outputs fuel m0 [u] = Some [(f', v')] /\ f' ++ v' = done ++ f ++ v) /\ replays fuel m0 (done ++ f) us' os'
  | _, _ => False
  end.

(** *** What a tip uses *)
Definition uses_source (t : brush_tip N) (P : source -> Prop) : Prop :=
  exists s o lo hi, In (SourceNode s o lo hi) (concat (behaviors t)) /\ P s.
Definition uses_target (t : brush_tip N) (P : target -> Prop) : Prop :=
  exists a lo hi, In (TargetNode a lo hi) (concat (behaviors t)) /\ P a.
Definition of_direction (s : source) : Prop :=
  match s with kDirectionInRadians | kDirectionAboutZeroInRadians | kNormalizedDirectionX | kNormalizedDirectionY => True | _ => False end.
Definition along_direction (a : target) : Prop :=
  match a with kPositionOffsetForwardInMultiplesOfBrushSize | kPositionOffsetLateralInMultiplesOfBrushSize => True | _ => False end.
(** sources that look ahead to the end of the stroke, and that look back to the real inputs *)
Definition of_rest (s : source) : Prop :=
  match s with kDistanceRemainingInMultiplesOfBrushSize | kTimeSinceInputInSeconds | kTimeSinceInputInMillis => True | _ => False end.
Definition of_prediction (s : source) : Prop :=
  match s with
  | kPredictedDistanceTraveledInMultiplesOfBrushSize | kPredictedTimeElapsedInSeconds | kPredictedTimeElapsedInMillis
  | kPredictedInputDistanceTraveledInCentimeters => True
  | _ => False
  end.
Definition of_state_time (s : source) : Prop :=
  match s with
  | kTimeSinceInputInSeconds | kTimeSinceInputInMillis | kPredictedTimeElapsedInSeconds | kPredictedTimeElapsedInMillis => True
  | _ => False
  end.
Definition direction_safe (t : brush_tip N) : Prop := uses_source t of_direction \/ ~ uses_target t along_direction.
(** no particles: the tip is extruded continuously *)
Definition no_particles (t : brush_tip N) : Prop :=
  neqb N (particle_gap_distance_scale t) n0 = true /\ neqb N (particle_gap_duration t) n0 = true.

(** *** Time sources *)
Definition since_input (s : source) : Prop := match s with kTimeSinceInputInSeconds | kTimeSinceInputInMillis => True | _ => False end.
(** the same state of the input modeler, at another time *)
Definition at_time (st : input_state N) (e : T N) : input_state N :=
  {| st_tool := st_tool st; st_unit := st_unit st; st_complete_elapsed := e; st_complete_traveled := st_complete_traveled st;
     st_real_elapsed := st_real_elapsed st; st_real_distance := st_real_distance st; st_stable := st_stable st; st_real := st_real st |}.
End TipSpec.
