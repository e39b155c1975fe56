(** Finding a tip that can be joined to the last one:
    /repo/ink/strokes/internal/constrain_brush_tip_extrusion.cc 33-131,
    BrushTipState::LerpShapeAttributes (brush_tip_state.cc 21-41) and
    BrushTipExtrusion::EvaluateTangentQuality (brush_tip_extrusion.cc 138-159). *)
From Coq Require Import ZArith Bool List.
From Verif Require Import F32 F64 NumModel BehaviorModel GeomModel DistanceModel.
Import ListNotations.

Section Constrain.
Variable E : elem.
Notation N := (fnum E).
(** BrushTipExtrusion: brush_tip_extrusion.h 38-45; the shape is made of the state and the
    epsilon.  Break points are not passed to these functions. *)
Record extrusion := Extrusion { x_state : @tip_state N; x_eps : f32 }.
(** brush_tip_extrusion.h 53-66 *)
Inductive quality := FirstContainsSecond | SecondContainsFirst | BadTangents | GoodTangents.
(** EvaluateTangentQualityInternal (brush_tip_extrusion.cc 66-136) of the two shapes: a parameter *)
Variable internal : extrusion -> extrusion -> quality.
Definition is_good (q : quality) : bool := match q with GoodTangents => true | _ => false end.

Definition place (x : extrusion) : vec N := V (ts_x (x_state x)) (ts_y (x_state x)).
(** StatesHaveEqualShapeProperties: brush_tip_extrusion.cc 138-144 *)
Definition equal_shape (a b : @tip_state N) : bool :=
  feq (ts_width a) (ts_width b) && feq (ts_height a) (ts_height b) && feq (ts_percent_radius a) (ts_percent_radius b) &&
  feq (ts_rotation a) (ts_rotation b) && feq (ts_slant a) (ts_slant b) && feq (ts_pinch a) (ts_pinch b).
(** EvaluateTangentQuality: 148-159 *)
Definition evaluate (a b : extrusion) (threshold : f32) : quality :=
  if flt threshold (dist_points (place a) (place b)) && equal_shape (x_state a) (x_state b) then GoodTangents else internal a b.
(** LerpShapeAttributes: brush_tip_state.cc 21-41 *)
Definition lerp_shape (a b : @tip_state N) (t : f32) : @tip_state N :=
  {| ts_x := ts_x b; ts_y := ts_y b;
     ts_width := lerp (N := N) (ts_width a) (ts_width b) t;
     ts_height := lerp (N := N) (ts_height a) (ts_height b) t;
     ts_percent_radius := lerp (N := N) (ts_percent_radius a) (ts_percent_radius b) t;
     ts_rotation := normalized_angle_lerp (N := N) (ts_rotation a) (ts_rotation b) t;
     ts_slant := angle_lerp (N := N) (ts_slant a) (ts_slant b) t;
     ts_pinch := lerp (N := N) (ts_pinch a) (ts_pinch b) t;
     ts_hue := ts_hue b; ts_saturation := ts_saturation b; ts_luminosity := ts_luminosity b; ts_opacity := ts_opacity b |}.

(** ConstrainedBrushTipExtrusion: constrain_brush_tip_extrusion.h 25-61; of a result other than
    [Found] the amount and the extrusion are to be ignored *)
Inductive result := ProposedIsValid | Found (amount : f32) (x : extrusion) | ProposedContainsLast | LastContainsProposed | CannotFind.
(** kStationaryTol, the product of a double and a float stored in a float: cc 40 *)
Definition stationary (eps : f32) : f32 := to_f32 (dmul (dlit 1 1) (of_f32 eps)).
(** the loop: 101-124 *)
Fixpoint bisect (last : extrusion) (at_ : f32 -> extrusion) (tol : f32) (n : nat) (lower upper : f32) (guess : extrusion) : f32 * extrusion :=
  match n with
  | 0 => (lower, guess)
  | S n =>
      let next := lerp (N := N) lower upper (fdy 1 (-1)) in
      if is_good (evaluate last (at_ next) tol) then bisect last at_ tol n next upper (at_ next)
      else bisect last at_ tol n lower next guess
  end.
(** ConstrainBrushTipExtrusion: 33-131.  A negative [max_iterations] is the same as none. *)
Definition constrain (last proposed : extrusion) (eps : f32) (max_iterations : nat) : result :=
  let tol := stationary eps in
  match evaluate last proposed tol with
  | FirstContainsSecond => LastContainsProposed
  | SecondContainsFirst => ProposedContainsLast
  | GoodTangents => ProposedIsValid
  | BadTangents =>
      if flt (dist_points (place last) (place proposed)) tol then CannotFind
      else
        let at_ t := Extrusion (lerp_shape (x_state last) (x_state proposed) t) eps in
        if negb (is_good (evaluate last (at_ f0) tol)) then CannotFind
        else let '(t, x) := bisect last at_ tol max_iterations f0 f1 (at_ f0) in Found t x
  end.
End Constrain.
