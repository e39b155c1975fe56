(** EasingFunction validation and EasingImplementation, for any arithmetic [num].
    Not modelled: AppendUnitIntervalCriticalPoints (used nowhere in the library), printing. *)
From Coq Require Import ZArith List Bool.
From Verif Require Import NumModel.
Import ListNotations.

Section Easing.
Context {N : num}.
Notation F := (T N).

(** EasingFunction::Predefined, StepPosition: /repo/ink/brush/easing_function.h 44-58, 118-135.
    C++ enums can hold values that are no enumerator, hence Z. *)
Definition kLinear := 0%Z. Definition kEase := 1%Z. Definition kEaseIn := 2%Z. Definition kEaseOut := 3%Z.
Definition kEaseInOut := 4%Z. Definition kStepStart := 5%Z. Definition kStepEnd := 6%Z.
Definition kJumpEnd := 0%Z. Definition kJumpStart := 1%Z. Definition kJumpBoth := 2%Z. Definition kJumpNone := 3%Z.

(** EasingFunction::Parameters: easing_function.h 77-85, 107-112, 147-157. *)
Inductive easing :=
| EPredef (p : Z)
| EBezier (x1 y1 x2 y2 : F)
| ELinear (points : list (F * F))
| ESteps (count : Z) (pos : Z).

(** ValidateEasingFunctionParameters: /repo/ink/brush/easing_function.cc 68-173. *)
Definition valid_predef (p : Z) : bool := existsb (Z.eqb p) [kLinear; kEase; kEaseIn; kEaseOut; kEaseInOut; kStepStart; kStepEnd].
Definition valid_bezier (x1 y1 x2 y2 : F) : bool :=
  negb (negb (nfin N x1 && nfin N y1 && nfin N x2 && nfin N y2)
        || nlt N x1 n0 || nlt N n1 x1 || nlt N x2 n0 || nlt N n1 x2).
Definition valid_point (p : F * F) : bool :=
  if negb (nfin N (fst p)) || nlt N (fst p) n0 || nlt N n1 (fst p) then false else nfin N (snd p).
Fixpoint valid_order (ps : list (F * F)) : bool :=
  match ps with
  | p :: ((q :: _) as r) => if nlt N (fst q) (fst p) then false else valid_order r
  | _ => true
  end.
Definition valid_position (s : Z) : bool := existsb (Z.eqb s) [kJumpEnd; kJumpStart; kJumpNone; kJumpBoth].
Definition valid_steps (count pos : Z) : bool :=
  if negb (valid_position pos) then false
  else if Z.eqb pos kJumpNone && Z.ltb count 2 then false
  else negb (Z.ltb count 1).
(** ValidateEasingFunction: easing_function.cc 177-181. *)
Definition valid_easing (e : easing) : bool :=
  match e with
  | EPredef p => valid_predef p
  | EBezier x1 y1 x2 y2 => valid_bezier x1 y1 x2 y2
  | ELinear ps => forallb valid_point ps && valid_order ps
  | ESteps c s => valid_steps c s
  end.

(** EasingImplementation::implementation_type_:
    /repo/ink/strokes/internal/easing_implementation.h 54-96. *)
Inductive impl :=
| IIdentity
| ITable (lookup_table : list F)
| ILinear (points : list (F * F))
| ISteps (count height start : F).

(** CubicBezierValue: /repo/ink/strokes/internal/easing_implementation.cc 36-41. *)
Definition bezier_coeffs (t : F) : F * F * F :=
  let m := nsub N n1 t in
  (nmul N (nmul N (nmul N (nZ 3) m) m) t, nmul N (nmul N (nmul N (nZ 3) m) t) t, nmul N (nmul N t t) t).
Definition bezier_coord (t v1 v2 : F) : F :=
  let '(c1, c2, c3) := bezier_coeffs t in nadd N (nadd N (nmul N c1 v1) (nmul N c2 v2)) c3.

(** kTableDeltaX and kTStep: easing_implementation.cc 111-117; kTableSize is 14. *)
Definition table_dx : F := ndiv N n1 (nsub N (nZ 14) n1).
Definition t_step : F := ndiv N (nmul N (ndy N 1 (-1)) table_dx) (nZ 3).

(** The loops at easing_implementation.cc 119-133.  [fuel] bounds the total number of
    iterations of the inner do-while; [None] is "not finished within fuel". *)
Section Table.
Variables x1 y1 x2 y2 : F.
(** one table entry: returns the remaining fuel, t, value and the looked up y *)
Fixpoint table_entry (fuel : nat) (t vx vy target : F) : option (nat * F * F * F * F) :=
  match fuel with
  | O => None
  | S fuel' =>
      let t' := nadd N t t_step in
      let vx' := bezier_coord t' x1 x2 in
      let vy' := bezier_coord t' y1 y2 in
      if nlt N vx' target then table_entry fuel' t' vx' vy' target
      else Some (fuel', t', vx', vy', lerp vy vy' (inverse_lerp vx vx' target))
  end.
Fixpoint table_from (fuel : nat) (i n : nat) (t vx vy : F) : option (list F) :=
  match n with
  | O => Some nil
  | S n' =>
      match table_entry fuel t vx vy (nmul N (nZ (Z.of_nat i)) table_dx) with
      | None => None
      | Some (fuel', t', vx', vy', y) =>
          match table_from fuel' (S i) n' t' vx' vy' with
          | None => None
          | Some l => Some (y :: l)
          end
      end
  end.
Definition bezier_table (fuel : nat) : option (list F) := table_from fuel 0 14 n0 n0 n0.
End Table.

(** SetUpImplementationType(Linear): easing_implementation.cc 150-166.  The list under
    construction is kept in order; [None] for an empty vector's back() never arises. *)
Definition set_back (ps : list (F * F)) (p : F * F) : list (F * F) := removelast ps ++ [p].
Fixpoint compact_from (i : nat) (acc pts : list (F * F)) : list (F * F) :=
  match pts with
  | [] => acc
  | p :: r =>
      let back := last acc (n0, n0) in
      let back2 := last (removelast acc) (n0, n0) in
      if Nat.ltb 0 i && neqb N (fst p) n0 then
        compact_from (S i) (match acc with _ :: a => p :: a | [] => acc end) r
      else if neqb N (fst p) n1 && Nat.leb 1 (length acc) && neqb N (fst back) n1 then acc
      else if Nat.leb 2 (length acc) && neqb N (fst back) (fst p) && neqb N (fst back2) (fst p) then
        compact_from (S i) (set_back acc p) r
      else compact_from (S i) (acc ++ [p]) r
  end.
Definition compact (pts : list (F * F)) : list (F * F) := compact_from 0 [] pts.

(** SetUpImplementationType(Steps): easing_implementation.cc 170-198.  A position that is no
    enumerator leaves the fields unset; validation excludes it and the model uses 0. *)
Definition steps_impl (count pos : Z) : impl :=
  let c := nZ count in
  if Z.eqb pos kJumpEnd then ISteps c (ndiv N n1 c) n0
  else if Z.eqb pos kJumpStart then ISteps c (ndiv N n1 c) (ndiv N n1 c)
  else if Z.eqb pos kJumpNone then ISteps c (ndiv N n1 (nsub N c n1)) n0
  else if Z.eqb pos kJumpBoth then ISteps c (ndiv N n1 (nadd N c n1)) (ndiv N n1 (nadd N c n1))
  else ISteps c n0 n0.

(** GetAsCubicBezierParameters: easing_implementation.cc 43-63; 0.1f, 0.42f, 0.58f as exact dyadics. *)
Definition predef_bezier (p : Z) : option (F * F * F * F) :=
  if Z.eqb p kEase then Some (ndy N 1 (-2), ndy N 13421773 (-27), ndy N 1 (-2), n1)
  else if Z.eqb p kEaseIn then Some (ndy N 14092861 (-25), n0, n1, n1)
  else if Z.eqb p kEaseOut then Some (n0, n0, ndy N 9730785 (-24), n1)
  else if Z.eqb p kEaseInOut then Some (ndy N 14092861 (-25), n0, ndy N 9730785 (-24), n1)
  else None.

(** The constructor: easing_implementation.cc 67-91.  [None]: LOG(FATAL), or table loop
    not finished within [fuel]. *)
Definition make_impl (fuel : nat) (e : easing) : option impl :=
  match e with
  | EPredef p =>
      if Z.eqb p kLinear then Some IIdentity
      else if Z.eqb p kStepEnd then Some (steps_impl 1 kJumpEnd)
      else if Z.eqb p kStepStart then Some (steps_impl 1 kJumpStart)
      else match predef_bezier p with
           | Some (x1, y1, x2, y2) => option_map ITable (bezier_table x1 y1 x2 y2 fuel)
           | None => None
           end
  | EBezier x1 y1 x2 y2 => option_map ITable (bezier_table x1 y1 x2 y2 fuel)
  | ELinear ps => Some (ILinear (compact ps))
  | ESteps c s => Some (steps_impl c s)
  end.

(** CubicBezierApproximation::GetY: easing_implementation.cc 207-218; [None] is an access
    outside the table. *)
Definition get_y_table (tab : list F) (x : F) : option F :=
  if nnan N x then Some x
  else if nle N x n0 then hd_error tab
  else if nle N n1 x then hd_error (rev tab)
  else
    let x' := nmul N x (nZ 13) in
    let index := ntrunc N x' in
    let t := nsub N x' (nZ index) in
    match nth_error tab (Z.to_nat index), nth_error tab (Z.to_nat index + 1) with
    | Some a, Some b => if Z.ltb index 0 then None else Some (lerp a b t)
    | _, _ => None
    end.

(** std::upper_bound on a sorted vector: splits at the first point with x < point.x. *)
Fixpoint upper_bound (x : F) (ps : list (F * F)) : list (F * F) * list (F * F) :=
  match ps with
  | [] => ([], [])
  | p :: r => if nlt N x (fst p) then ([], ps) else let (a, b) := upper_bound x r in (p :: a, b)
  end.
(** Linear::GetY: easing_implementation.cc 220-254. *)
Definition segment_y (prev next : F * F) (x : F) : F :=
  if neqb N (snd prev) (snd next) then snd next
  else if neqb N (fst prev) (fst next) then (if nlt N x (fst next) then snd prev else snd next)
  else lerp (snd prev) (snd next) (ndiv N (nsub N x (fst prev)) (nsub N (fst next) (fst prev))).
Definition get_y_linear (ps : list (F * F)) (x : F) : F :=
  if nnan N x then x
  else
    let (before, after) := upper_bound x ps in
    segment_y (last before (n0, n0)) (hd (n1, n1) after) x.
(** Steps::GetY: easing_implementation.cc 256-261. *)
Definition get_y_steps (count height start : F) (x : F) : F :=
  if nlt N x n0 then n0
  else if nle N n1 x then n1
  else nadd N start (nmul N height (nfloor N (nmul N count x))).
(** GetY: easing_implementation.cc 200-205. *)
Definition get_y (i : impl) (x : F) : option F :=
  match i with
  | IIdentity => Some x
  | ITable tab => get_y_table tab x
  | ILinear ps => Some (get_y_linear ps x)
  | ISteps c h s => Some (get_y_steps c h s x)
  end.
End Easing.
Arguments easing : clear implicits.
Arguments impl : clear implicits.
