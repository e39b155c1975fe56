(** Model of StrokeInputModeler
    (/repo/ink/strokes/internal/stroke_input_modeler.h, .cc).

    The smoothing backend (stroke_model::StrokeModeler, a dependency) is an arbitrary
    machine: [reset] with the stroke unit length, [bupdate] for one event, failing with
    [None] (the caller CHECK-fails).  Save and Restore are a snapshot of that machine.
    [hyp] is std::hypot.  Velocity, acceleration, pressure, tilt and orientation of a
    result are passed through and kept together as a payload.  A batch is its list of
    inputs (property C06); input model and epsilon of the reset are fixed per stroke. *)
From Coq Require Import ZArith List Bool Arith.
From Flocq Require Import IEEE754.BinarySingleNaN.
From Verif Require Import F32 BatchModel DurationModel.
Import ListNotations.
Local Open Scope nat_scope.

Inductive event := EDown | EMove | EUp.

Section Modeler.
Variables M Pay : Type.
Variable reset : option f32 -> M.
Record result := { r_x : f32; r_y : f32; r_time : duration; r_pay : Pay }.
Variable bupdate : M -> event -> stroke_input -> option (M * list result).
Variable hyp : f32 -> f32 -> f32.
Variable eps : f32. (* brush_epsilon_, > 0 by the CHECK in StartStroke *)

(** ModeledStrokeInput, stroke_input_modeler.h 43-52 *)
Record modeled := { mx : f32; my : f32; mtraveled : f32; mtime : duration; mpay : Pay }.

(** State (h 81-125) and the data members (h 172-184) *)
Record modeler := {
  s_tool : Z;
  s_unit : option f32;
  s_complete_time : duration;
  s_complete_distance : f32;
  s_real_time : duration;
  s_real_distance : f32;
  s_stable : nat;
  s_real : nat;
  backend : M;
  has_input : bool;
  last_real : option stroke_input;
  inputs : list modeled;
}.

(** StartStroke, stroke_input_modeler.cc 50-68; the backend keeps its old state *)
Definition m_start (b : M) (h : bool) : modeler :=
  {| s_tool := 0%Z; s_unit := None; s_complete_time := d_zero; s_complete_distance := f0;
     s_real_time := d_zero; s_real_distance := f0; s_stable := 0; s_real := 0;
     backend := b; has_input := h; last_real := None; inputs := [] |}.

(** GetToolType / GetStrokeUnitLength of a batch, stroke_input_batch.h 301-313 *)
Definition batch_tool (l : list stroke_input) : Z := match l with [] => 0%Z | x :: _ => tool x end.
Definition batch_unit_length (l : list stroke_input) : option f32 :=
  match l with
  | [] => None
  | x :: _ => if fne (unit_len x) kNoUnit then Some (unit_len x) else None
  end.

(** ModelInput, the loop over results, cc 277-307 *)
Fixpoint accept (prev : option (f32 * f32)) (traveled : f32) (rs : list result) : list modeled :=
  match rs with
  | [] => []
  | r :: rs' =>
      match prev with
      | Some (x, y) =>
          let delta := hyp (fsub (r_x r) x) (fsub (r_y r) y) in
          if flt delta eps then accept prev traveled rs'
          else let t := fadd traveled delta in
               {| mx := r_x r; my := r_y r; mtraveled := t; mtime := r_time r; mpay := r_pay r |}
               :: accept (Some (r_x r, r_y r)) t rs'
      | None =>
          {| mx := r_x r; my := r_y r; mtraveled := traveled; mtime := r_time r; mpay := r_pay r |}
          :: accept (Some (r_x r, r_y r)) traveled rs'
      end
  end.
Definition push_results (l : list modeled) (rs : list result) : list modeled :=
  match nth_error l (length l - 1) with
  | Some z => l ++ accept (Some (mx z, my z)) (mtraveled z) rs
  | None => l ++ accept None f0 rs
  end.

Definition with_model (s : modeler) (b : M) (h : bool) (l : list modeled) : modeler :=
  {| s_tool := s_tool s; s_unit := s_unit s; s_complete_time := s_complete_time s;
     s_complete_distance := s_complete_distance s; s_real_time := s_real_time s;
     s_real_distance := s_real_distance s; s_stable := s_stable s; s_real := s_real s;
     backend := b; has_input := h; last_real := last_real s; inputs := l |}.

(** ModelInput, cc 240-308 *)
Definition model_input (s : modeler) (x : stroke_input) (last_in_update : bool) : option modeler :=
  let ev := if negb (has_input s) then EDown else if last_in_update then EUp else EMove in
  match bupdate (backend s) ev x with
  | None => None
  | Some (b, rs) => Some (with_model s b true (push_results (inputs s) rs))
  end.

(** the loops over real inputs (all but the last) and predicted inputs, cc 210-212, 231-234 *)
Fixpoint model_stable (s : modeler) (l : list stroke_input) : option modeler :=
  match l with
  | [] | [_] => Some s
  | x :: l' => match model_input s x false with Some s' => model_stable s' l' | None => None end
  end.
Fixpoint model_predicted (s : modeler) (l : list stroke_input) : option modeler :=
  match l with
  | [] => Some s
  | x :: l' => match model_input s x (length l' =? 0) with
               | Some s' => model_predicted s' l' | None => None end
  end.

(** std::max *)
Definition d_max (a b : duration) : duration := if d_lt a b then b else a.

(** UpdateStateTimeAndDistance, cc 310-327; [None] would be an index out of range *)
Definition update_time_and_distance (s : modeler) (t : duration) : option modeler :=
  match nth_error (inputs s) (length (inputs s) - 1) with
  | None =>
      Some {| s_tool := s_tool s; s_unit := s_unit s; s_complete_time := t;
         s_complete_distance := s_complete_distance s; s_real_time := s_real_time s;
         s_real_distance := s_real_distance s; s_stable := s_stable s; s_real := s_real s;
         backend := backend s; has_input := has_input s; last_real := last_real s;
         inputs := inputs s |}
  | Some z =>
      let complete rt rd :=
        {| s_tool := s_tool s; s_unit := s_unit s; s_complete_time := d_max (mtime z) t;
           s_complete_distance := mtraveled z; s_real_time := rt; s_real_distance := rd;
           s_stable := s_stable s; s_real := s_real s; backend := backend s;
           has_input := has_input s; last_real := last_real s; inputs := inputs s |} in
      if s_real s =? 0 then Some (complete (s_real_time s) (s_real_distance s))
      else match nth_error (inputs s) (s_real s - 1) with
           | Some r => Some (complete (mtime r) (mtraveled r))
           | None => None
           end
  end.

Definition with_counts (s : modeler) (stable real : nat) (lr : option stroke_input) : modeler :=
  {| s_tool := s_tool s; s_unit := s_unit s; s_complete_time := s_complete_time s;
     s_complete_distance := s_complete_distance s; s_real_time := s_real_time s;
     s_real_distance := s_real_distance s; s_stable := stable; s_real := real;
     backend := backend s; has_input := has_input s; last_real := lr; inputs := inputs s |}.

(** ExtendStroke, cc 169-238; [None] is a CHECK failure *)
Definition m_extend (s : modeler) (re pr : list stroke_input) (t : duration) : option modeler :=
  if (length re =? 0) && (length pr =? 0) && (s_real s =? length (inputs s))
  then update_time_and_distance s t
  else
    let s0 :=
      match last_real s with
      | Some _ => s
      | None =>
          {| s_tool := if length re =? 0 then batch_tool pr else batch_tool re;
             s_unit := if length re =? 0 then batch_unit_length pr else batch_unit_length re;
             s_complete_time := s_complete_time s; s_complete_distance := s_complete_distance s;
             s_real_time := s_real_time s; s_real_distance := s_real_distance s;
             s_stable := s_stable s; s_real := s_real s;
             backend := reset (batch_unit_length re); has_input := false;
             last_real := last_real s; inputs := inputs s |}
      end in
    (* modeled_inputs_.resize(stable_input_count) *)
    let s1 := with_model s0 (backend s0) (has_input s0) (firstn (s_stable s0) (inputs s0)) in
    match (match last_real s1, re with
           | Some x, _ :: _ => model_input s1 x false
           | _, _ => Some s1
           end) with
    | None => None
    | Some s2 =>
        match model_stable s2 re with
        | None => None
        | Some s3 =>
            let saved := backend s3 in
            let saved_has_input := has_input s3 in
            let lr := match nth_error re (length re - 1) with
                      | Some x => Some x | None => last_real s3 end in
            let s4 := with_counts s3 (length (inputs s3)) (s_real s3) lr in
            match (match lr with
                   | Some x => model_input s4 x (length pr =? 0)
                   | None => Some s4
                   end) with
            | None => None
            | Some s5 =>
                let s6 := with_counts s5 (s_stable s5) (length (inputs s5)) (last_real s5) in
                match model_predicted s6 pr with
                | None => None
                | Some s7 =>
                    update_time_and_distance
                      (with_model s7 saved saved_has_input (inputs s7)) t
                end
            end
        end
    end.

Fixpoint m_run (s : modeler) (cs : list (list stroke_input * list stroke_input * duration))
  : option modeler :=
  match cs with
  | [] => Some s
  | (re, pr, t) :: cs' =>
      match m_extend s re pr t with Some s' => m_run s' cs' | None => None end
  end.
End Modeler.
Arguments r_x {Pay}. Arguments r_y {Pay}. Arguments r_time {Pay}. Arguments r_pay {Pay}.
Arguments Build_result {Pay}.
Arguments mx {Pay}. Arguments my {Pay}. Arguments mtraveled {Pay}. Arguments mtime {Pay}. Arguments mpay {Pay}.
Arguments s_tool {M Pay}. Arguments s_unit {M Pay}. Arguments s_complete_time {M Pay}.
Arguments s_complete_distance {M Pay}. Arguments s_real_time {M Pay}. Arguments s_real_distance {M Pay}.
Arguments s_stable {M Pay}. Arguments s_real {M Pay}. Arguments backend {M Pay}.
Arguments has_input {M Pay}. Arguments last_real {M Pay}. Arguments inputs {M Pay}.
