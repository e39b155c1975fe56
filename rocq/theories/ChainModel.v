(** Which tips a stroke is extruded from: /repo/ink/strokes/internal/brush_tip_extruder.cc, the list [extrusions_] only
    (the geometry and the outlines made from it are in TipExtruderModel). *)
From Coq Require Import ZArith Bool List.
From Verif Require Import F32 F64 NumModel BehaviorModel ConstrainModel.
Import ListNotations.

Section Chain.
Variable E : elem.
Notation N := (fnum E).
Notation X := (extrusion E).
(** EvaluateTangentQualityInternal, and BrushTipShape::Contains of two shapes *)
Variables (internal : X -> X -> quality) (contains : X -> X -> bool).
Variable eps : f32.

(** brush_tip_extruder.h 197-211; a break-point is [None], which is also a default-constructed extrusion *)
Record extruder := Extruder { extrusions : list (option X); saved_count : nat; deleted : list (option X) }.
(** StartStroke: 57-74 *)
Definition start_stroke : extruder := Extruder [] 0 [].
Definition push (e : extruder) (x : option X) : extruder := Extruder (extrusions e ++ [x]) (saved_count e) (deleted e).
(** extrusions_.back(), if there is one and it is no break-point *)
Definition back (xs : list (option X)) : option X := match rev xs with Some x :: _ => Some x | _ => None end.
(** ExtrudeBreakPoint: 491-520 *)
Definition extrude_break (e : extruder) : extruder := match back (extrusions e) with None => e | Some _ => push e None end.
(** Save: 208-212 *)
Definition save (e : extruder) : extruder := Extruder (extrusions e) (length (extrusions e)) [].
(** Restore: 237-243; resize adds default-constructed extrusions *)
Definition restore (e : extruder) : extruder :=
  let xs := firstn (saved_count e) (extrusions e ++ repeat None (saved_count e - length (extrusions e))) in
  Extruder (firstn (length xs - length (deleted e)) xs ++ deleted e) (saved_count e) (deleted e).
(** ClearSinceLastExtrusionBreak: 245-281; the extrusions from the given index on are erased *)
Definition clear_from (e : extruder) (first : nat) (is_volatile : bool) : extruder :=
  Extruder (firstn first (extrusions e)) (saved_count e)
    (if is_volatile && match deleted e with [] => true | _ => false end && (first <? saved_count e)
     then firstn (saved_count e - first) (skipn first (extrusions e)) else deleted e).
(** the backwards loop: 334-354; [None] if a tip is not contained, or else the index to erase from *)
Fixpoint scan (new : X) (r : list (option X)) : option nat :=
  match r with
  | [] => Some 0
  | None :: _ => Some (length r)
  | Some x :: r' => if contains new x then scan new r' else None
  end.
(** kMinimumLerpAmount: 322 *)
Definition minimum_amount : f32 := to_f32 (dlit 1 1).
(** TryAppendNonBreakPointState: 283-380; [None]: rejected *)
Definition try_append (e : extruder) (s : @tip_state N) (is_volatile is_last : bool) : option extruder :=
  let new := Extrusion E s eps in
  match back (extrusions e) with
  | None => Some (push e (Some new))
  | Some last =>
      match constrain E internal last new eps 7 with
      | ProposedIsValid _ => Some (push e (Some new))
      | Found _ amount x => if negb is_last && flt amount minimum_amount then None else Some (push e (Some x))
      | ProposedContainsLast _ =>
          match scan new (tl (rev (extrusions e))) with
          | None => Some (push (extrude_break e) (Some new))
          | Some first => Some (push (clear_from e first is_volatile) (Some new))
          end
      | LastContainsProposed _ | CannotFind _ => None
      end
  end.
(** Extrude: 450-458 *)
Definition extrude (e : extruder) (s : @tip_state N) (is_volatile is_last : bool) : extruder :=
  if flt (ts_width s) eps && flt (ts_height s) eps then extrude_break e
  else match try_append e s is_volatile is_last with Some e => e | None => e end.
(** the loops of ExtendStroke; [closing]: the last state is the last of the batch *)
Fixpoint extrude_all (e : extruder) (ss : list (@tip_state N)) (is_volatile closing : bool) : extruder :=
  match ss with
  | [] => e
  | s :: ss => extrude_all (extrude e s is_volatile (closing && match ss with [] => true | _ => false end)) ss is_volatile closing
  end.
(** ExtendStroke: 101-131 *)
Definition extend (e : extruder) (batch : list (@tip_state N) * list (@tip_state N)) : extruder :=
  let '(fixed, volatile) := batch in
  let e := extrude_all (restore e) fixed false (match volatile with [] => true | _ => false end) in
  extrude_break (extrude_all (save e) volatile true true).
Definition stroke (batches : list (list (@tip_state N) * list (@tip_state N))) : extruder := fold_left extend batches start_stroke.
End Chain.
