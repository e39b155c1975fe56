(** Extending a stroke, tip state by tip state: /repo/ink/strokes/internal/brush_tip_extruder.{h,cc}.

    Which extrusions a tip state leads to (TryAppendNonBreakPointState, ConstrainBrushTipExtrusion) and which changes the
    triangulation then makes are not modelled: [event]s and the lists of geometry operations in them are arbitrary.  The
    geometry is that of ExtruderGeometryModel, an outline that of StrokeOutlineModel.

    Simplified: sizes are natural numbers; an Envelope is the list of the positions that were added to it; the update that
    ExtendStroke returns is in MeshViewModel. *)
From Coq Require Import Arith Bool List.
From Verif Require Import ExtruderGeometryModel.
From Verif Require StrokeOutlineModel.
Import ListNotations.
Notation storage := (StrokeOutlineModel.storage nat).

(** [Stuck]: Geometry cannot carry out an operation (see ExtruderGeometryModel).  [Broken]: a CHECK or DCHECK of
    BrushTipExtruder fails, or it takes a span outside an array. *)
Inductive result (A : Type) := Done (a : A) | Stuck | Broken.
Arguments Done {A}. Arguments Stuck {A}. Arguments Broken {A}.
Definition bind {A B} (r : result A) (f : A -> result B) : result B := match r with Done a => f a | Stuck => Stuck | Broken => Broken end.
Definition check {A} (b : bool) (r : result A) : result A := if b then r else Broken.
Definition ask {A} (o : option A) : result A := match o with Some a => Done a | None => Stuck end.
Definition need {A} (o : option A) : result A := match o with Some a => Done a | None => Broken end.
Notation "'let!' x := r 'in' k" := (bind r (fun x => k)) (at level 200, x pattern, r at level 100, k at level 200).

Section Extruder.
Variables (core shade T J R P X : Type) (zero_vertex : core * shade) (zero_triangle : T) (fresh : nat -> nat -> R) (empty_disc : J) (position : core -> P).
(** BrushTipExtrusion: a break-point ([None]) or a tip state with its shape; [default] as default-constructed *)
Variable default : option X.
Notation geometry := (geometry core shade T J R).
Notation op := (op core shade T J R).

(** brush_tip_extruder.h 185-222; [cached] with its two counts and [current]: Bounds *)
Record extruder := Extruder { extrusions : list (option X); saved_count : nat; deleted : list (option X); geo : geometry; outlines : list storage;
  cached : list P; cached_left : nat; cached_right : nat; current : list P }.
Definition with_geometry (e : extruder) g := Extruder (extrusions e) (saved_count e) (deleted e) g (outlines e) (cached e) (cached_left e) (cached_right e) (current e).
Definition with_outlines (e : extruder) os := Extruder (extrusions e) (saved_count e) (deleted e) (geo e) os (cached e) (cached_left e) (cached_right e) (current e).
Definition with_extrusions (e : extruder) xs := Extruder xs (saved_count e) (deleted e) (geo e) (outlines e) (cached e) (cached_left e) (cached_right e) (current e).

(** what ProcessNewVertices, what AddExtrusionBreak before it records the break and what UpdateMeshDerivatives may do *)
Definition drawing (o : op) : bool := match o with AddBreak | Clear | ResetTracking => false | _ => true end.
Definition moving (o : op) : bool := match o with SetVertex _ _ => true | _ => false end.
Definition shading (o : op) : bool := match o with Reshade _ _ => true | _ => false end.
Definition draw (allowed : op -> bool) (g : geometry) (os : list op) : result geometry :=
  if forallb allowed os then ask (run zero_vertex zero_triangle fresh empty_disc g os) else Stuck.

(** StartStroke: brush_tip_extruder.cc 57-74; [r]: the other members of a new Side.  InlinedVector::resize(1) of a new or used
    vector of outlines keeps the first, and that is truncated to nothing: [o] *)
Definition start_stroke (r : R) (o : storage) : extruder :=
  Extruder [] 0 [] (new_geometry r) [StrokeOutlineModel.truncate o 0 0] [] 0 0 [].

(** AddPositionsToEnvelope: 145-151 *)
Definition positions (g : geometry) (is : list nat) : option (list P) :=
  fold_right (fun i acc => match nth_error (vertices g) i, acc with Some (c, _), Some l => Some (position c :: l) | _, _ => None end) (Some []) is.
(** UpdateCachedPartialBoundsForSide: 153-178 *)
Definition update_cached_side (g : geometry) (is : list nat) (bounds : list P) (count : nat) : result (list P * nat) :=
  check (count <=? length is)
    (let new := removelast (skipn count is) in
     let! ps := need (positions g new) in
     Done (bounds ++ ps, count + length new)).
(** UpdateCachedPartialBounds: 182-199 *)
Definition update_cached (e : extruder) : result extruder :=
  let! (b1, l) := update_cached_side (geo e) (indices (left (geo e))) (cached e) (cached_left e) in
  let! (b2, r) := update_cached_side (geo e) (indices (right (geo e))) b1 (cached_right e) in
  Done (Extruder (extrusions e) (saved_count e) (deleted e) (geo e) (outlines e) b2 l r (current e)).
(** UpdateCurrentBounds: 201-214 *)
Definition update_current (e : extruder) : result extruder :=
  let g := geo e in
  check ((cached_left e <=? length (indices (left g))) && (cached_right e <=? length (indices (right g))))
    (let! l := need (positions g (skipn (cached_left e) (indices (left g)))) in
     let! r := need (positions g (skipn (cached_right e) (indices (right g)))) in
     Done (Extruder (extrusions e) (saved_count e) (deleted e) g (outlines e) (cached e) (cached_left e) (cached_right e) (cached e ++ l ++ r))).

(** Save: 216-220 *)
Definition save_extruder (e : extruder) : extruder :=
  Extruder (extrusions e) (length (extrusions e)) [] (set_save_point zero_vertex (geo e)) (outlines e) (cached e) (cached_left e) (cached_right e) (current e).
(** TruncateOutlines: 222-244 *)
Definition truncate_outlines (e : extruder) : result extruder :=
  let g := geo e in
  let n := break_count (last_break g) in
  check (n <=? length (outlines e))
    (if S n <=? length (outlines e) then
       let l := index_count (left_info (last_break g)) in
       let r := index_count (right_info (last_break g)) in
       check ((l <=? mutated_left g) && (r <=? mutated_right g))
         (match nth_error (outlines e) n with
          | Some o => Done (with_outlines e (firstn n (outlines e) ++ [StrokeOutlineModel.truncate o (mutated_left g - l) (mutated_right g - r)]))
          | None => Broken
          end)
     else Done e).
(** Restore: 246-252; [sv], [st], [so]: the order in which the three hash maps are walked *)
Definition restore (e : extruder) (sv : list (nat * (core * shade))) (st : list (nat * T)) (so : list (nat * nat)) : result extruder :=
  let! xs := need (copy_to_end (deleted e) (resize default (saved_count e) (extrusions e))) in
  let! g := ask (revert zero_vertex zero_triangle empty_disc (geo e) sv st so) in
  truncate_outlines (with_geometry (with_extrusions e xs) g).
(** the loop in TryAppendNonBreakPointState that finds the first extrusion since the last break-point: 340-358 *)
Fixpoint after_break (xs : list (option X)) : nat :=
  match xs with
  | [] => 0
  | _ :: rest => if existsb (fun x => match x with None => true | _ => false end) xs then S (after_break rest) else 0
  end.
(** ClearSinceLastExtrusionBreak: 254-290 *)
Definition clear_extruder (e : extruder) (is_volatile : bool) : result extruder :=
  let i := after_break (extrusions e) in
  check (i <? length (extrusions e))
    (let! d := (if is_volatile && (length (deleted e) =? 0) && (i <? saved_count e) then need (slice i (saved_count e) (extrusions e)) else Done (deleted e)) in
     let! g := ask (clear zero_vertex zero_triangle fresh empty_disc (geo e)) in
     let! e := truncate_outlines (Extruder (firstn i (extrusions e)) (saved_count e) d g (outlines e) (cached e) (cached_left e) (cached_right e) (current e)) in
     Done (Extruder (extrusions e) (saved_count e) (deleted e) (geo e) (outlines e) [] 0 0 (current e))).
Definition ends_in_break (xs : list (option X)) : bool := match rev xs with [] | None :: _ => true | _ => false end.
(** ExtrudeBreakPoint: 497-557.  [caps]: what extruding the end of the stroke does to the geometry; [closing]: what
    AddExtrusionBreak does before it records the break; [derivatives]: UpdateMeshDerivatives *)
Definition extrude_break (e : extruder) (caps closing derivatives : list op) : result extruder :=
  if ends_in_break (extrusions e) then Done e
  else
    let! g := draw drawing (geo e) caps in
    let l := index_count (left_info (last_break g)) in
    let r := index_count (right_info (last_break g)) in
    if (length (indices (left g)) <=? l) && (length (indices (right g)) <=? r) then Done (with_geometry e g)
    else
      let os := if length (outlines e) =? break_count (last_break g) then outlines e ++ [StrokeOutlineModel.fresh] else outlines e in
      let! g := draw moving g closing in
      let g := add_break fresh g in
      let! g := draw shading g derivatives in
      check (break_count (last_break g) =? length os)
        (match rev os with
         | [] => Broken
         | o :: before =>
             let (ol, or) := StrokeOutlineModel.get_counts o in
             check ((l + ol <=? length (indices (left g))) && (r + or <=? length (indices (right g))))
               (let! o := need (StrokeOutlineModel.append o (skipn (l + ol) (indices (left g))) (skipn (r + or) (indices (right g)))) in
                Done (Extruder (extrusions e ++ [None]) (saved_count e) (deleted e) g (rev before ++ [o]) (cached e) (cached_left e) (cached_right e) (current e)))
         end).
(** Extrude: 446-495 with TryAppendNonBreakPointState 292-378: a break-point, or perhaps a break-point or a clear and then
    perhaps a new extrusion and the geometry that it leads to.  Right after a break-point nothing is cleared: 295-303 *)
Inductive event :=
  | BreakPoint (caps closing derivatives : list op)
  | ClearAll
  | Extrusion (x : X) (work : list op).
Definition handle (is_volatile : bool) (e : extruder) (v : event) : result extruder :=
  match v with
  | BreakPoint caps closing derivatives => extrude_break e caps closing derivatives
  | ClearAll => if ends_in_break (extrusions e) then Done e else clear_extruder e is_volatile
  | Extrusion x work => let! g := draw drawing (geo e) work in Done (with_geometry (with_extrusions e (extrusions e ++ [Some x])) g)
  end.
Fixpoint handle_all (is_volatile : bool) (e : extruder) (vs : list event) : result extruder :=
  match vs with [] => Done e | v :: vs => let! e := handle is_volatile e v in handle_all is_volatile e vs end.

(** ExtendStroke: 101-133 *)
Definition before_volatile (e : extruder) sv st so (fixed : list event) : result extruder :=
  let! e := restore (with_geometry e (reset_tracking (geo e))) sv st so in
  let! e := handle_all false e fixed in
  let! e := update_cached e in
  Done (save_extruder e).
Definition extend (e : extruder) sv st so (fixed volatile : list event) (caps closing derivatives : list op) : result extruder :=
  let! e := before_volatile e sv st so fixed in
  let! e := handle_all true e volatile in
  let! e := extrude_break e caps closing derivatives in
  update_current e.
(** the non-empty ones are what StrokeShapeBuilder hands out: stroke_shape_builder.cc 107-112 *)
Definition non_empty_outlines (e : extruder) : option (list (list (option nat))) :=
  fold_right (fun o acc => match StrokeOutlineModel.get_indices o, acc with
    | Some is, Some l => Some (match is with [] => l | _ => is :: l end)
    | _, _ => None end) (Some []) (outlines e).
End Extruder.

Arguments Extruder {core shade T J R P X}.
Arguments extrusions {core shade T J R P X}.
Arguments saved_count {core shade T J R P X}.
Arguments deleted {core shade T J R P X}.
Arguments geo {core shade T J R P X}.
Arguments outlines {core shade T J R P X}.
Arguments cached {core shade T J R P X}.
Arguments cached_left {core shade T J R P X}.
Arguments cached_right {core shade T J R P X}.
Arguments current {core shade T J R P X}.
Arguments with_geometry {core shade T J R P X}.
Arguments with_outlines {core shade T J R P X}.
Arguments with_extrusions {core shade T J R P X}.
Arguments start_stroke {core shade T J R P X}.
Arguments update_cached {core shade T J R P X}.
Arguments update_current {core shade T J R P X}.
Arguments save_extruder {core shade T J R P X}.
Arguments truncate_outlines {core shade T J R P X}.
Arguments restore {core shade T J R P X}.
Arguments clear_extruder {core shade T J R P X}.
Arguments extrude_break {core shade T J R P X}.
Arguments handle {core shade T J R P X}.
Arguments handle_all {core shade T J R P X}.
Arguments before_volatile {core shade T J R P X}.
Arguments extend {core shade T J R P X}.
Arguments non_empty_outlines {core shade T J R P X}.
Arguments positions {core shade T J R P}.
Arguments update_cached_side {core shade T J R P}.
Arguments drawing {core shade T J R}.
Arguments moving {core shade T J R}.
Arguments shading {core shade T J R}.
Arguments draw {core shade T J R}.
Arguments BreakPoint {core shade T J R X}.
Arguments ClearAll {core shade T J R X}.
Arguments Extrusion {core shade T J R X}.
Arguments after_break {X}.
Arguments ends_in_break {X}.
