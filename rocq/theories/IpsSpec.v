(** Specification of InProgressStroke: what a history of calls and their results says
    about the stroke, without looking at the object. *)
From Coq Require Import ZArith Reals List Bool Arith.
From Flocq Require Import IEEE754.BinarySingleNaN.
From Verif Require Import F32 BatchModel BatchSpec DurationModel IpsModel.
Import ListNotations.
Local Open Scope nat_scope.

(** A batch has one unit length, that of its first input (see [conform]). *)
Definition one_unit (l : list stroke_input) : list stroke_input := map (conform l) l.

(** One UpdateShape call: the real inputs, predicted inputs and time it processed. *)
Record call := { c_real : list stroke_input; c_pred : list stroke_input; c_time : duration }.

Section Spec.
Variable Br : Type.

(** What the calls since the last Start amount to *)
Record account := {
  brush_of : option Br;          (** the brush of the last Start, none after Clear *)
  ended : bool;                  (** FinishInputs was called *)
  real_done : list stroke_input; (** accepted and processed real inputs *)
  shown : list stroke_input;     (** the last processed prediction *)
  real_wait : list stroke_input; (** accepted, not yet processed *)
  pred_wait : list stroke_input;
  clock : duration;              (** time of the last successful UpdateShape *)
  calls : list call;             (** the successful UpdateShape calls, in order *)
}.
Definition blank (b : option Br) (e : bool) : account :=
  {| brush_of := b; ended := e; real_done := []; shown := []; real_wait := []; pred_wait := [];
     clock := f0; calls := [] |}.

Definition is_nil {A} (l : list A) : bool := match l with [] => true | _ => false end.

Definition book (m : account) (o : ips_op Br) (r : outcome) : account :=
  match o, r with
  | IClear, _ => blank None true
  | IStart b, _ => blank (Some b) false
  | IEnqueue re pr, ROk =>
      {| brush_of := brush_of m; ended := ended m; real_done := real_done m; shown := shown m;
         real_wait := real_wait m ++ re; pred_wait := pr; clock := clock m; calls := calls m |}
  | IUpdate t, ROk =>
      {| brush_of := brush_of m; ended := ended m; real_done := real_done m ++ real_wait m;
         shown := if negb (ended m) && is_nil (real_wait m) && is_nil (pred_wait m)
                  then shown m else pred_wait m;
         real_wait := []; pred_wait := []; clock := t;
         calls := calls m ++
           [{| c_real := one_unit (real_wait m); c_pred := pred_wait m; c_time := t |}] |}
  | IFinish, _ =>
      {| brush_of := brush_of m; ended := true; real_done := real_done m; shown := shown m;
         real_wait := real_wait m; pred_wait := []; clock := clock m; calls := calls m |}
  | _, _ => m
  end.
Fixpoint books (m : account) (os : list (ips_op Br)) (rs : list outcome) : account :=
  match os, rs with
  | o :: os', r :: rs' => books (book m o r) os' rs'
  | _, _ => m
  end.

(** When a call must succeed *)
Definition must_succeed (m : account) (o : ips_op Br) : Prop :=
  match o with
  | IEnqueue re pr => brush_of m <> None /\ ended m = false /\
      valid_sequence (real_done m ++ real_wait m ++ re ++ pr)
  | IUpdate t => brush_of m <> None /\ flt t f0 = false /\ flt t (clock m) = false
  | _ => True
  end.

(** The batches passed in are valid sequences (property C05) *)
Definition good_args (o : ips_op Br) : Prop :=
  match o with IEnqueue re pr => valid_sequence re /\ valid_sequence pr | _ => True end.

(** The inputs that a shape builder has been given: all real ones, and the prediction
    of the latest call (each ExtendStroke call replaces the earlier prediction). *)
Definition reflected (cs : list call) : list stroke_input :=
  concat (map c_real cs) ++ match rev cs with [] => [] | c :: _ => c_pred c end.

Definition is_reset (o : ips_op Br) : bool :=
  match o with IClear | IStart _ => true | _ => false end.
End Spec.
Arguments blank {Br}. Arguments book {Br}. Arguments books {Br}. Arguments must_succeed {Br}.
Arguments good_args {Br}. Arguments is_reset {Br}.
Arguments brush_of {Br}. Arguments ended {Br}. Arguments real_done {Br}. Arguments shown {Br}.
Arguments real_wait {Br}. Arguments pred_wait {Br}. Arguments clock {Br}. Arguments calls {Br}.
