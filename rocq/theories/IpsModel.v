(** Model of InProgressStroke (/repo/ink/strokes/in_progress_stroke.h, .cc).

    StrokeInputBatches are represented by their list of inputs (justified by
    property C06; [l_append] and [l_erase] are Append and Erase at that level, see
    [l_append_is_batch_append] in IpsProofs.v).  The shape builders are an arbitrary
    machine: [start] is StrokeShapeBuilder::StartStroke for coat i of a brush,
    [extend] is ExtendStroke with the region it reports, [unfinished] is
    HasUnfinishedTimeBehaviors.  Simplifications: StartStroke is taken to forget the
    builder's previous stroke; cached builders beyond the coat count are not kept. *)
From Coq Require Import ZArith List Bool Arith.
From Flocq Require Import IEEE754.BinarySingleNaN.
From Verif Require Import F32 BatchModel DurationModel.
Import ListNotations.
Local Open Scope nat_scope.

(** The unit length of a batch is that of its first input
    (stroke_input_batch.cc 179-186, 244-257) *)
Definition batch_unit (l : list stroke_input) (x : stroke_input) : stroke_input :=
  match l with
  | [] => x
  | y :: _ => {| tool := tool x; px := px x; py := py x; etime := etime x; unit_len := unit_len y;
                 pressure := pressure x; tilt := tilt x; orientation := orientation x |}
  end.

(** Append(StrokeInputBatch), stroke_input_batch.cc 329-354 *)
Definition l_append (l xs : list stroke_input) : option (list stroke_input) :=
  match xs with
  | [] => Some l
  | x :: _ =>
      match nth_error l (length l - 1) with
      | None => Some (map (batch_unit xs) xs)
      | Some z => if validate_consecutive z x then Some (l ++ map (batch_unit l) xs) else None
      end
  end.

(** Erase(start), stroke_input_batch.cc 356-371; [None] is the CHECK failure *)
Definition l_erase (l : list stroke_input) (start : nat) : option (list stroke_input) :=
  if start <=? length l then Some (firstn start l) else None.

Section Ips.
Variables Br B Reg : Type.
Variable coat_count : Br -> nat.
Variable start : Br -> nat -> B.
Variable extend : B -> list stroke_input -> list stroke_input -> f32 -> B * Reg.
Variable unfinished : B -> bool.
Variable reg_empty : Reg.
Variable reg_add : Reg -> Reg -> Reg.

(** in_progress_stroke.h 248-272 *)
Record ips := {
  i_brush : option Br;
  queued_real : list stroke_input;
  queued_pred : list stroke_input;
  processed : list stroke_input;
  real_count : nat;
  elapsed : duration;
  builders : list B;
  region : Reg;
  finished : bool;
}.

Definition ips_init : ips :=
  {| i_brush := None; queued_real := []; queued_pred := []; processed := []; real_count := 0;
     elapsed := d_zero; builders := []; region := reg_empty; finished := true |}.

(** Clear, in_progress_stroke.cc 48-57 *)
Definition ips_clear (s : ips) : ips :=
  {| i_brush := None; queued_real := []; queued_pred := []; processed := []; real_count := 0;
     elapsed := d_zero; builders := builders s; region := reg_empty; finished := true |}.

(** Start, in_progress_stroke.cc 59-77 *)
Definition ips_start (s : ips) (b : Br) : ips :=
  {| i_brush := Some b; queued_real := []; queued_pred := []; processed := []; real_count := 0;
     elapsed := d_zero; builders := map (start b) (seq 0 (coat_count b));
     region := reg_empty; finished := false |}.

(** ValidateNewInputs, in_progress_stroke.cc 180-214; [None] is a CHECK failure in Get *)
Definition validate_new_inputs (s : ips) (real pred : list stroke_input) : option bool :=
  match real ++ pred with
  | [] => Some true
  | first_new :: _ =>
      let old_ok :=
        if negb (length (queued_real s) =? 0) || negb (real_count s =? 0) then
          match (if length (queued_real s) =? 0
                 then nth_error (processed s) (real_count s - 1)
                 else nth_error (queued_real s) (length (queued_real s) - 1)) with
          | Some last_old => Some (validate_consecutive last_old first_new)
          | None => None
          end
        else Some true in
      match old_ok with
      | Some true =>
          match real, pred with
          | _ :: _, p :: _ =>
              match nth_error real (length real - 1) with
              | Some r => Some (validate_consecutive r p)
              | None => None
              end
          | _, _ => Some true
          end
      | o => o
      end
  end.

(** EnqueueInputs, in_progress_stroke.cc 79-112 *)
Definition ips_enqueue (s : ips) (real pred : list stroke_input) : outcome * ips :=
  match i_brush s with
  | None => (RErr, s)
  | Some _ =>
      if finished s then (RErr, s)
      else match validate_new_inputs s real pred with
           | None => (RAbort, s)
           | Some false => (RErr, s)
           | Some true =>
               match l_append (queued_real s) real with
               | None => (RErr, s)
               | Some q =>
                   (ROk, {| i_brush := i_brush s; queued_real := q; queued_pred := pred;
                            processed := processed s; real_count := real_count s;
                            elapsed := elapsed s; builders := builders s; region := region s;
                            finished := finished s |})
               end
           end
  end.

(** ValidateNewElapsedTime, in_progress_stroke.cc 216-232 *)
Definition validate_new_elapsed_time (s : ips) (t : duration) : bool :=
  if d_lt t d_zero then false else if d_lt t (elapsed s) then false else true.

(** UpdateShape, in_progress_stroke.cc 114-165.  An internal Append failure returns
    the partially updated object. *)
Definition ips_update (s : ips) (t : duration) : outcome * ips :=
  match i_brush s with
  | None => (RErr, s)
  | Some b =>
      if negb (validate_new_elapsed_time s t) then (RErr, s)
      else
        match (if finished s || negb (length (queued_real s) =? 0)
                  || negb (length (queued_pred s) =? 0)
               then l_erase (processed s) (real_count s) else Some (processed s)) with
        | None => (RAbort, s)
        | Some p1 =>
            let with_inputs p n :=
              {| i_brush := i_brush s; queued_real := queued_real s; queued_pred := queued_pred s;
                 processed := p; real_count := n; elapsed := elapsed s; builders := builders s;
                 region := region s; finished := finished s |} in
            match l_append p1 (queued_real s) with
            | None => (RErr, with_inputs p1 (real_count s))
            | Some p2 =>
                let n := real_count s + length (queued_real s) in
                match l_append p2 (queued_pred s) with
                | None => (RErr, with_inputs p2 n)
                | Some p3 =>
                    let updates := map (fun bd => extend bd (queued_real s) (queued_pred s) t)
                                       (firstn (coat_count b) (builders s)) in
                    (ROk, {| i_brush := i_brush s; queued_real := []; queued_pred := [];
                             processed := p3; real_count := n; elapsed := t;
                             builders := map fst updates;
                             region := fold_left reg_add (map snd updates) (region s);
                             finished := finished s |})
                end
            end
        end
  end.

(** FinishInputs, in_progress_stroke.h 278-281 *)
Definition ips_finish (s : ips) : ips :=
  {| i_brush := i_brush s; queued_real := queued_real s; queued_pred := [];
     processed := processed s; real_count := real_count s; elapsed := elapsed s;
     builders := builders s; region := region s; finished := true |}.

(** ResetUpdatedRegion, in_progress_stroke.h 320 *)
Definition ips_reset_region (s : ips) : ips :=
  {| i_brush := i_brush s; queued_real := queued_real s; queued_pred := queued_pred s;
     processed := processed s; real_count := real_count s; elapsed := elapsed s;
     builders := builders s; region := reg_empty; finished := finished s |}.

(** NeedsUpdate, in_progress_stroke.cc 167-178, and BrushCoatCount, .h 291-293 *)
Definition ips_coat_count (s : ips) : nat :=
  match i_brush s with Some b => coat_count b | None => 0 end.
Definition ips_needs_update (s : ips) : bool :=
  if negb (length (queued_real s) =? 0) || negb (length (queued_pred s) =? 0) then true
  else existsb unfinished (firstn (ips_coat_count s) (builders s)).

(** InputCount, RealInputCount, PredictedInputCount, in_progress_stroke.h 184-191;
    the subtraction is on size_t, i.e. wraps if negative *)
Definition ips_input_count (s : ips) : nat := length (processed s).
Definition ips_predicted_count (s : ips) : Z :=
  ((Z.of_nat (length (processed s)) - Z.of_nat (real_count s)) mod 2 ^ 64)%Z.

Inductive ips_op :=
| IClear | IStart (b : Br) | IEnqueue (real pred : list stroke_input)
| IUpdate (t : duration) | IFinish | IResetRegion.
Definition ips_step (s : ips) (o : ips_op) : outcome * ips :=
  match o with
  | IClear => (ROk, ips_clear s)
  | IStart b => (ROk, ips_start s b)
  | IEnqueue r p => ips_enqueue s r p
  | IUpdate t => ips_update s t
  | IFinish => (ROk, ips_finish s)
  | IResetRegion => (ROk, ips_reset_region s)
  end.
(** Runs a history; the list of results is in order. *)
Fixpoint ips_run (s : ips) (os : list ips_op) : list outcome * ips :=
  match os with
  | [] => ([], s)
  | o :: os' =>
      let (r, s') := ips_step s o in
      let (rs, s'') := ips_run s' os' in (r :: rs, s'')
  end.
End Ips.
Arguments i_brush {Br B Reg}. Arguments queued_real {Br B Reg}. Arguments queued_pred {Br B Reg}.
Arguments processed {Br B Reg}. Arguments real_count {Br B Reg}. Arguments elapsed {Br B Reg}.
Arguments builders {Br B Reg}. Arguments region {Br B Reg}. Arguments finished {Br B Reg}.
Arguments IClear {Br}. Arguments IStart {Br}. Arguments IEnqueue {Br}. Arguments IUpdate {Br}.
Arguments IFinish {Br}. Arguments IResetRegion {Br}.
Arguments ips_predicted_count {Br B Reg}. Arguments ips_input_count {Br B Reg}.
