(** BrushTipModeler (/repo/ink/strokes/internal/brush_tip_modeler.h, .cc), for any
    arithmetic [num].  [None] is a CHECK failure, an access out of range, or a loop that
    is not finished within [fuel] (cubic Bezier tables, particle emission). *)
From Coq Require Import ZArith List Bool.
From Verif Require Import NumModel EasingModel BehaviorModel.
Import ListNotations.

Section Tip.
Context {N : num}.
Notation F := (T N).

(** InitialTargetModifierValue: brush_tip_modeler.cc 41-64.  LOG(FATAL) on other values,
    which validation excludes; the model uses 0. *)
Definition initial_modifier (t : target) : F :=
  match t with
  | kWidthMultiplier | kHeightMultiplier | kSizeMultiplier | kSaturationMultiplier | kOpacityMultiplier => n1
  | kSlantOffsetInRadians | kPinchOffset | kRotationOffsetInRadians | kCornerRoundingOffset
  | kPositionOffsetXInMultiplesOfBrushSize | kPositionOffsetYInMultiplesOfBrushSize
  | kPositionOffsetForwardInMultiplesOfBrushSize | kPositionOffsetLateralInMultiplesOfBrushSize
  | kHueOffsetInRadians | kLuminosity => n0
  | OtherTarget _ => n0
  end.
(** SourceOutOfRangeBehaviorHasUpperBound, SourceValueUpperBound: cc 66-90 *)
Definition has_upper_bound (o : out_of_range) : bool := match o with kClamp => true | _ => false end.
Definition value_upper_bound (o : out_of_range) (lo hi : F) : F :=
  if negb (has_upper_bound o) then nInf N else nmax lo hi.
(** DistanceRemainingUpperBound: cc 92-148 *)
Definition distance_upper_bound (s : source) (o : out_of_range) (lo hi size : F) : F :=
  match s with
  | kDistanceRemainingInMultiplesOfBrushSize => nmul N size (value_upper_bound o lo hi)
  | _ => n0
  end.
(** TimeRemainingUpperBound: cc 150-206 *)
Definition time_upper_bound (s : source) (o : out_of_range) (lo hi : F) : F :=
  match s with
  | kTimeSinceInputInSeconds => dur_seconds (value_upper_bound o lo hi)
  | kTimeSinceInputInMillis => dur_millis (value_upper_bound o lo hi)
  | _ => n0
  end.
(** SourceDependsOnNextModeledInput: cc 208-261 *)
Definition depends_on_next (s : source) : bool :=
  match s with
  | kDirectionInRadians | kDirectionAboutZeroInRadians | kNormalizedDirectionX | kNormalizedDirectionY => true
  | _ => false
  end.

(** Data members: brush_tip_modeler.h 163-212 *)
Record tip_modeler := {
  tip : brush_tip N;
  size : F;
  next_fixed : nat; (* input_index_for_next_fixed_state_ *)
  gap : metrics N; (* particle_gap_metrics_ *)
  last_fixed : option (metrics N); (* last_fixed_modeled_tip_state_metrics_ *)
  saved : list (tip_state N);
  new_fixed : nat;
  distance_bound : F;
  time_bound : F;
  depends_next : bool;
  nodes : list (rnode N);
  bstack : list F;
  cur_damped : list F; fixed_damped : list F;
  targets : list target;
  cur_mods : list F; fixed_mods : list F }.

(** AppendBehaviorNode: cc 312-376 *)
Definition append_node (fuel : nat) (m : tip_modeler) (n : node N) : option tip_modeler :=
  let add m r :=
    {| tip := tip m; size := size m; next_fixed := next_fixed m; gap := gap m; last_fixed := last_fixed m;
       saved := saved m; new_fixed := new_fixed m; distance_bound := distance_bound m;
       time_bound := time_bound m; depends_next := depends_next m; nodes := nodes m ++ [r];
       bstack := bstack m; cur_damped := cur_damped m; fixed_damped := fixed_damped m;
       targets := targets m; cur_mods := cur_mods m; fixed_mods := fixed_mods m |} in
  match n with
  | SourceNode s o lo hi =>
      Some (add {| tip := tip m; size := size m; next_fixed := next_fixed m; gap := gap m;
         last_fixed := last_fixed m; saved := saved m; new_fixed := new_fixed m;
         distance_bound := nmax (distance_bound m) (distance_upper_bound s o lo hi (size m));
         time_bound := nmax (time_bound m) (time_upper_bound s o lo hi);
         depends_next := if depends_on_next s then true else depends_next m;
         nodes := nodes m; bstack := bstack m; cur_damped := cur_damped m;
         fixed_damped := fixed_damped m; targets := targets m; cur_mods := cur_mods m;
         fixed_mods := fixed_mods m |} (RSource s o lo hi))
  | ConstantNode v => Some (add m (RConstant v))
  | FallbackFilterNode p => Some (add m (RFallback p))
  | ToolTypeFilterNode t => Some (add m (RToolType t))
  | DampingNode d g =>
      let m' := add m (RDamping (length (cur_damped m)) d g) in
      Some {| tip := tip m'; size := size m'; next_fixed := next_fixed m'; gap := gap m';
         last_fixed := last_fixed m'; saved := saved m'; new_fixed := new_fixed m';
         distance_bound := distance_bound m'; time_bound := time_bound m';
         depends_next := depends_next m'; nodes := nodes m'; bstack := bstack m';
         cur_damped := cur_damped m' ++ [nNaN N]; fixed_damped := fixed_damped m' ++ [nNaN N];
         targets := targets m'; cur_mods := cur_mods m'; fixed_mods := fixed_mods m' |}
  | ResponseNode e => option_map (fun i => add m (REasing i)) (make_impl fuel e)
  | BinaryOpNode o => Some (add m (RBinary o))
  | InterpolationNode i => Some (add m (RInterpolation i))
  | TargetNode t lo hi =>
      let m' := add m (RTarget (length (targets m)) lo hi) in
      Some {| tip := tip m'; size := size m'; next_fixed := next_fixed m'; gap := gap m';
         last_fixed := last_fixed m'; saved := saved m'; new_fixed := new_fixed m';
         distance_bound := distance_bound m'; time_bound := time_bound m';
         depends_next := depends_next m'; nodes := nodes m'; bstack := bstack m';
         cur_damped := cur_damped m'; fixed_damped := fixed_damped m';
         targets := targets m' ++ [t];
         cur_mods := cur_mods m' ++ [initial_modifier t];
         fixed_mods := fixed_mods m' ++ [initial_modifier t] |}
  end.
Fixpoint append_nodes (fuel : nat) (m : tip_modeler) (ns : list (node N)) : option tip_modeler :=
  match ns with
  | [] => Some m
  | n :: r => match append_node fuel m n with Some m' => append_nodes fuel m' r | None => None end
  end.
Fixpoint append_behaviors (fuel : nat) (m : tip_modeler) (bs : list (list (node N))) : option tip_modeler :=
  match bs with
  | [] => Some m
  | b :: r => match append_nodes fuel m b with Some m' => append_behaviors fuel m' r | None => None end
  end.
(** StartStroke: cc 272-310.  behavior_stack_ is kept from the previous stroke; it is
    empty after every completed call. *)
Definition start_stroke (fuel : nat) (t : brush_tip N) (sz : F) : option tip_modeler :=
  if negb (nfin N sz) || negb (nlt N n0 sz) then None
  else append_behaviors fuel
    {| tip := t; size := sz; next_fixed := 0;
       gap := {| m_traveled := nmul N (particle_gap_distance_scale t) sz; m_elapsed := particle_gap_duration t |};
       last_fixed := None; saved := []; new_fixed := 0; distance_bound := n0; time_bound := n0;
       depends_next := false; nodes := []; bstack := []; cur_damped := []; fixed_damped := [];
       targets := []; cur_mods := []; fixed_mods := [] |}
    (behaviors t).

(** GetTravelDirection: cc 380-387 *)
Definition travel_direction (inputs : list (modeled_input N)) (i : nat) : option (option F) :=
  match nth_error inputs i with
  | None => None
  | Some cur =>
      let start := match i with O => Some cur | S j => nth_error inputs j end in
      let stop := match nth_error inputs (S i) with Some e => e | None => cur end in
      match start with
      | None => None
      | Some a =>
          Some (if neqb N (pos_x a) (pos_x stop) && neqb N (pos_y a) (pos_y stop) then None
                else Some (natan2 N (nsub N (pos_y stop) (pos_y a)) (nsub N (pos_x stop) (pos_x a))))
      end
  end.

(** What processing an input reads and changes: saved_tip_states_, the current damped
    values, modifiers and stack, and last_modeled_tip_state_metrics. *)
Record work := { w_saved : list (tip_state N); w_machine : machine N; w_last : option (metrics N) }.

Definition metrics_of (i : modeled_input N) : metrics N := {| m_traveled := traveled i; m_elapsed := elapsed i |}.
(** AddNewTipState: cc 569-598 *)
Definition add_new_tip_state (m : tip_modeler) (st : input_state N) (i : modeled_input N) (dir : option F)
    (prev : option (metrics N)) (w : work) : option work :=
  let c := {| cx_state := st; cx_input := i; cx_dir := dir; cx_size := size m; cx_prev := prev |} in
  match process_nodes c (nodes m) (w_machine w) with
  | None => None
  | Some k =>
      Some {| w_saved := w_saved w ++
                [create_tip_state (pos_x i) (pos_y i) dir (tip m) (size m) (combine (targets m) (modifiers k))];
              w_machine := k;
              w_last := Some (metrics_of i) |}
  end.
(** AppendParticleGapTipState: h 155-157; BrushTipState{.width = 0, .height = 0}, position,
    radius, rotation, slant and pinch value-initialised *)
Definition gap_tip_state : tip_state N :=
  {| ts_x := n0; ts_y := n0; ts_width := n0; ts_height := n0; ts_percent_radius := n0; ts_rotation := n0;
     ts_slant := n0; ts_pinch := n0; ts_hue := n0; ts_saturation := n1; ts_luminosity := n0; ts_opacity := n1 |}.
Definition append_gap (w : work) : work :=
  {| w_saved := w_saved w ++ [gap_tip_state]; w_machine := w_machine w; w_last := w_last w |}.
(** The loop of ProcessSingleInput: cc 529-566 *)
Definition particle_due (m : tip_modeler) (i : modeled_input N) (last : metrics N) : bool :=
  nle N (m_traveled (gap m)) (nsub N (traveled i) (m_traveled last))
  && nle N (m_elapsed (gap m)) (dur_sub (elapsed i) (m_elapsed last)).
Definition particle_ratio (m : tip_modeler) (i p : modeled_input N) (last : metrics N) : F :=
  let t := n1 in
  let t := if negb (neqb N (m_traveled (gap m)) n0)
           then nmin t (ndiv N (nsub N (nsub N (traveled i) (m_traveled last)) (m_traveled (gap m)))
                               (nsub N (traveled i) (traveled p))) else t in
  if negb (neqb N (m_elapsed (gap m)) n0)
  then nmin t (dur_ratio (dur_sub (dur_sub (elapsed i) (m_elapsed last)) (m_elapsed (gap m)))
                         (dur_sub (elapsed i) (elapsed p))) else t.
Fixpoint emit_particles (fuel : nat) (m : tip_modeler) (st : input_state N) (i p : modeled_input N)
    (dir : option F) (w : work) : option work :=
  match w_last w with
  | None => None
  | Some last =>
      if particle_due m i last then
        match fuel with
        | O => None
        | S fuel' =>
            match add_new_tip_state m st (lerp_input i p (particle_ratio m i p last)) dir (Some last) w with
            | None => None
            | Some w' => emit_particles fuel' m st i p dir (append_gap w')
            end
        end
      else Some w
  end.
(** ProcessSingleInput: cc 486-567 *)
Definition continuous (m : tip_modeler) : bool := neqb N (m_traveled (gap m)) n0 && neqb N (m_elapsed (gap m)) n0.
Definition process_single_input (fuel : nat) (m : tip_modeler) (st : input_state N) (i : modeled_input N)
    (dir : option F) (prev : option (modeled_input N)) (w : work) : option work :=
  if continuous m || match w_last w with None => true | Some _ => false end then
    match add_new_tip_state m st i dir (option_map metrics_of prev) w with
    | None => None
    | Some w' => Some (if negb (continuous m) then append_gap w' else w')
    end
  else match prev with
       | None => None
       | Some p => emit_particles fuel m st i p dir w
       end.

(** CalculateMaxFixedInputMetrics: cc 466-484 *)
Definition max_fixed_metrics (m : tip_modeler) (st : input_state N) (inputs : list (modeled_input N)) : option (metrics N) :=
  match st_stable st with
  | O => Some {| m_traveled := n0; m_elapsed := n0 |}
  | S k => match nth_error inputs k with
           | None => None
           | Some l => Some {| m_traveled := nsub N (traveled l) (distance_bound m);
                               m_elapsed := dur_sub (elapsed l) (time_bound m) |}
           end
  end.

(** The two loops of UpdateStroke: cc 417-438 (stops at the first input that cannot be
    fixed yet; returns the next index) and 450-457; [n] bounds the number of inputs left *)
Fixpoint fixed_loop (fuel : nat) (m : tip_modeler) (st : input_state N) (inputs : list (modeled_input N))
    (mx : metrics N) (n i : nat) (prev : option (modeled_input N)) (w : work)
    : option (nat * option (modeled_input N) * work) :=
  match n with
  | O => Some (i, prev, w)
  | S n' =>
      if Nat.ltb (i + (if depends_next m then 1 else 0)) (st_stable st) then
        match nth_error inputs i with
        | None => None
        | Some cur =>
            if nlt N (m_traveled mx) (traveled cur) || nlt N (m_elapsed mx) (elapsed cur) then Some (i, prev, w)
            else match travel_direction inputs i with
                 | None => None
                 | Some dir =>
                     match process_single_input fuel m st cur dir prev w with
                     | None => None
                     | Some w' => fixed_loop fuel m st inputs mx n' (S i) (Some cur) w'
                     end
                 end
        end
      else Some (i, prev, w)
  end.
Fixpoint volatile_loop (fuel : nat) (m : tip_modeler) (st : input_state N) (inputs : list (modeled_input N))
    (n i : nat) (prev : option (modeled_input N)) (w : work) : option work :=
  match n with
  | O => Some w
  | S n' =>
      match nth_error inputs i, travel_direction inputs i with
      | Some cur, Some dir =>
          match process_single_input fuel m st cur dir prev w with
          | None => None
          | Some w' => volatile_loop fuel m st inputs n' (S i) (Some cur) w'
          end
      | _, _ => None
      end
  end.

(** UpdateStroke: cc 391-458 *)
Definition with_saved (m : tip_modeler) (l : list (tip_state N)) : tip_modeler :=
  {| tip := tip m; size := size m; next_fixed := next_fixed m; gap := gap m; last_fixed := last_fixed m;
     saved := l; new_fixed := new_fixed m; distance_bound := distance_bound m; time_bound := time_bound m;
     depends_next := depends_next m; nodes := nodes m; bstack := bstack m; cur_damped := cur_damped m;
     fixed_damped := fixed_damped m; targets := targets m; cur_mods := cur_mods m; fixed_mods := fixed_mods m |}.
Definition update_stroke (fuel : nat) (m : tip_modeler) (st : input_state N) (inputs : list (modeled_input N))
    : option tip_modeler :=
  match inputs with
  | [] => Some (with_saved m [])
  | _ :: _ =>
      match max_fixed_metrics m st inputs with
      | None => None
      | Some mx =>
          let prev := match next_fixed m with O => Some None | S k => option_map Some (nth_error inputs k) end in
          match prev with
          | None => None
          | Some prev =>
              let w0 := {| w_saved := [];
                           w_machine := {| stack := bstack m; damped := fixed_damped m; modifiers := fixed_mods m |};
                           w_last := last_fixed m |} in
              match fixed_loop fuel m st inputs mx (st_stable st - next_fixed m) (next_fixed m) prev w0 with
              | None => None
              | Some (i, prev1, w1) =>
                  match volatile_loop fuel m st inputs (length inputs - i) i prev1 w1 with
                  | None => None
                  | Some w2 =>
                      Some {| tip := tip m; size := size m; next_fixed := i; gap := gap m;
                              last_fixed := w_last w1; saved := w_saved w2;
                              new_fixed := length (w_saved w1);
                              distance_bound := distance_bound m; time_bound := time_bound m;
                              depends_next := depends_next m; nodes := nodes m;
                              bstack := stack (w_machine w2);
                              cur_damped := damped (w_machine w2); fixed_damped := damped (w_machine w1);
                              targets := targets m;
                              cur_mods := modifiers (w_machine w2); fixed_mods := modifiers (w_machine w1) |}
                  end
              end
          end
      end
  end.
(** NewFixedTipStates, VolatileTipStates: h 219-230 *)
Definition new_fixed_states (m : tip_modeler) : list (tip_state N) := firstn (new_fixed m) (saved m).
Definition volatile_states (m : tip_modeler) : list (tip_state N) := skipn (new_fixed m) (saved m).

(** TimeSinceLastInput, HasUnfinishedTimeBehaviors: cc 263-268, 460-464 *)
Definition has_unfinished (m : tip_modeler) (st : input_state N) : bool :=
  nlt N (dur_sub (st_complete_elapsed st) (st_real_elapsed st)) (time_bound m).
End Tip.
Arguments tip_modeler : clear implicits.
Arguments work : clear implicits.
