(** Model of StrokeInput and StrokeInputBatch
    (/repo/ink/strokes/input/stroke_input.h, stroke_input_batch.{h,cc},
     internal/stroke_input_validation_helpers.cc)
    on top of the copy-on-write heap of CowModel.v.

    Simplifications: error messages are dropped; vectors are unbounded lists (no
    allocation failure, no size_t overflow); vector::reserve is dropped. *)
From Coq Require Import ZArith List Bool Arith.
From Flocq Require Import IEEE754.BinarySingleNaN.
From Verif Require Import F32 CowModel.
Import ListNotations.
Local Open Scope nat_scope.
Local Open Scope bool_scope.

(** StrokeInput, stroke_input.h 30-88.  [tool] is the underlying int8_t of the enum
    (kUnknown 0, kMouse 1, kTouch 2, kStylus 3); angles are radians, unit length is
    centimetres, time is seconds. *)
Record stroke_input := {
  tool : Z;
  px : f32;
  py : f32;
  etime : f32;
  unit_len : f32;
  pressure : f32;
  tilt : f32;
  orientation : f32;
}.

(** stroke_input.h 38-42 *)
Definition kNoUnit : f32 := f0.
Definition kNo : f32 := fZ (-1).

(** stroke_input.h 44-49; [!=] on floats, so NaN counts as "has" *)
Definition has_unit (x : stroke_input) : bool := fne (unit_len x) kNoUnit.
Definition has_pressure (x : stroke_input) : bool := fne (pressure x) kNo.
Definition has_tilt (x : stroke_input) : bool := fne (tilt x) kNo.
Definition has_orientation (x : stroke_input) : bool := fne (orientation x) kNo.

(** angle.h 78 and 80: the floats nearest to pi/2 and 2*pi *)
Definition kQuarterTurn : f32 := fdy 13176795 (-23).
Definition kFullTurn : f32 := fdy 13176795 (-21).

(** ValidateSingleInput, stroke_input_batch.cc 98-156 *)
Definition validate_single (x : stroke_input) : bool :=
  (* 99-106 *)
  if negb (tool x =? 0)%Z && negb (tool x =? 1)%Z && negb (tool x =? 3)%Z && negb (tool x =? 2)%Z
  then false
  (* 108-111 *)
  else if negb (fisfinite (px x)) || negb (fisfinite (py x)) then false
  (* 113-118 *)
  else if negb (fisfinite (etime x)) || flt (etime x) f0 then false
  (* 120-127 *)
  else if has_unit x && negb (fisfinite (unit_len x) && fgt (unit_len x) f0) then false
  (* 129-135 *)
  else if negb (fisfinite (pressure x)) ||
          (has_pressure x && negb (fge (pressure x) f0 && fle (pressure x) f1)) then false
  (* 137-144 *)
  else if negb (fisfinite (tilt x)) ||
          (has_tilt x && negb (fge (tilt x) f0 && fle (tilt x) kQuarterTurn)) then false
  (* 146-153 *)
  else if negb (fisfinite (orientation x)) ||
          (has_orientation x && negb (fge (orientation x) f0 && fle (orientation x) kFullTurn))
  then false
  else true.

(** ValidateConsecutiveInputs, stroke_input_validation_helpers.cc 24-71 *)
Definition validate_consecutive (a b : stroke_input) : bool :=
  if negb (tool a =? tool b)%Z then false
  else if feq (px a) (px b) && feq (py a) (py b) && feq (etime a) (etime b) then false
  else if fgt (etime a) (etime b) then false
  else if fne (unit_len a) (unit_len b) then false
  else if negb (Bool.eqb (has_pressure a) (has_pressure b)) then false
  else if negb (Bool.eqb (has_tilt a) (has_tilt b)) then false
  else if negb (Bool.eqb (has_orientation a) (has_orientation b)) then false
  else true.

(** ValidateInputSequence, stroke_input_batch.cc 158-175: the loop over i >= 1 *)
Fixpoint validate_rest (prev : stroke_input) (l : list stroke_input) : bool :=
  match l with
  | [] => true
  | x :: l' => validate_single x && validate_consecutive prev x && validate_rest x l'
  end.
Definition validate_sequence (l : list stroke_input) : bool :=
  match l with
  | [] => true
  | x :: l' => validate_single x && validate_rest x l'
  end.

(** Inline metadata of a batch, stroke_input_batch.h 222-227 *)
Record meta := {
  m_size : nat;
  m_tool : Z;
  m_unit : f32;
  m_pressure : bool;
  m_tilt : bool;
  m_orientation : bool;
}.
Definition meta0 : meta :=
  {| m_size := 0; m_tool := 0; m_unit := kNoUnit;
     m_pressure := false; m_tilt := false; m_orientation := false |}.
Definition with_size (m : meta) (n : nat) : meta :=
  {| m_size := n; m_tool := m_tool m; m_unit := m_unit m; m_pressure := m_pressure m;
     m_tilt := m_tilt m; m_orientation := m_orientation m |}.

(** All batches of a program: batch [i] is [metas[i]] with [data_] = handle [i]. *)
Record bworld := { cow : world (list f32); metas : list meta }.
Definition bmeta (w : bworld) (i : nat) : meta := nth i (metas w) meta0.
Definition with_cow (w : bworld) (c : world (list f32)) : bworld :=
  {| cow := c; metas := metas w |}.
Definition with_meta (w : bworld) (i : nat) (m : meta) : bworld :=
  {| cow := cow w; metas := set_nth i m (metas w) |}.

(** FloatsPerInput, stroke_input_batch.h 353-369 *)
Definition b2n (b : bool) : nat := if b then 1 else 0.
Definition stride (m : meta) : nat := 3 + b2n (m_pressure m) + b2n (m_tilt m) + b2n (m_orientation m).

(** Duration32::Seconds, /repo/ink/types/duration.h 157-160 *)
Definition seconds (s : f32) : f32 := if fisnan s then finf else s.

(** reading one optional float: [cond ? *iter++ : dflt] *)
Definition take_opt (c : bool) (dflt : f32) (l : list f32) : option (f32 * list f32) :=
  if c then match l with v :: l' => Some (v, l') | [] => None end else Some (dflt, l).

(** Decoding of one input from the front of a span, stroke_input_batch.cc 248-256 and 47-52 *)
Definition read_input (m : meta) (l : list f32) : option stroke_input :=
  match l with
  | x :: y :: t :: l1 =>
      match take_opt (m_pressure m) kNo l1 with
      | None => None
      | Some (p, l2) =>
          match take_opt (m_tilt m) kNo l2 with
          | None => None
          | Some (ti, l3) =>
              match take_opt (m_orientation m) kNo l3 with
              | None => None
              | Some (o, _) =>
                  Some {| tool := m_tool m; px := x; py := y; etime := seconds t;
                          unit_len := m_unit m; pressure := p; tilt := ti; orientation := o |}
              end
          end
      end
  | _ => None
  end.

(** Get, stroke_input_batch.cc 244-257; [None] is the CHECK failure (or an
    out-of-range read, which the invariant excludes). *)
Definition b_get (w : bworld) (i k : nat) : option stroke_input :=
  if k <? m_size (bmeta w i) then
    match cow_value (cow w) i with
    | None => None
    | Some data => read_input (bmeta w i) (skipn (k * stride (bmeta w i)) data)
    end
  else None.

(** AppendInputToFloatVector, stroke_input_batch.cc 190-200 *)
Definition opt_list (c : bool) (v : f32) : list f32 := if c then [v] else [].
Definition input_floats (x : stroke_input) : list f32 :=
  [px x; py x; etime x] ++ opt_list (has_pressure x) (pressure x)
    ++ opt_list (has_tilt x) (tilt x) ++ opt_list (has_orientation x) (orientation x).

(** The floats written by Set, stroke_input_batch.cc 233-239 (the batch decides
    which optional values are written) *)
Definition input_floats_as (m : meta) (x : stroke_input) : list f32 :=
  [px x; py x; etime x] ++ opt_list (m_pressure m) (pressure x)
    ++ opt_list (m_tilt m) (tilt x) ++ opt_list (m_orientation m) (orientation x).

(** SetInlineFormatMetadata, stroke_input_batch.cc 179-186 *)
Definition set_inline (m : meta) (x : stroke_input) : meta :=
  {| m_size := m_size m; m_tool := tool x; m_unit := unit_len x;
     m_pressure := has_pressure x; m_tilt := has_tilt x; m_orientation := has_orientation x |}.

Inductive outcome := ROk | RErr | RAbort | RUB.

(** [data_.MutableValue()] followed by in-place modification [f] *)
Definition mutate_data (w : bworld) (i : nat) (f : list f32 -> list f32) (k : bworld -> bworld)
  : outcome * bworld :=
  match cow_mutate (cow w) i f with
  | None => (RAbort, w)
  | Some c => (ROk, k (with_cow w c))
  end.

(** Clear, stroke_input_batch.cc 64-77 *)
Definition b_clear (w : bworld) (i : nat) : bworld :=
  let c := cow w in
  let c1 := if cow_is_shared c i then cow_reset c i
            else if cow_has_value c i then
              match cow_mutate c i (fun _ => []) with Some c' => c' | None => c end
            else c in
  with_meta (with_cow w c1) i meta0.

(** [if (!data_.HasValue()) data_.Emplace();] *)
Definition ensure_data (w : bworld) (i : nat) : bworld :=
  if cow_has_value (cow w) i then w else with_cow w (cow_emplace (cow w) i []).

(** Set, stroke_input_batch.cc 204-242 *)
Definition overwrite (pos : nat) (new old : list f32) : list f32 :=
  firstn pos old ++ new ++ skipn (pos + length new) old.
Definition b_set (w : bworld) (i k : nat) (x : stroke_input) : outcome * bworld :=
  let m := bmeta w i in
  if negb (k <? m_size m) then (RAbort, w)
  else if negb (validate_single x) then (RErr, w)
  else if m_size m =? 1 then
    let w1 := ensure_data (b_clear w i) i in
    let w2 := with_meta w1 i (set_inline (bmeta w1 i) x) in
    mutate_data w2 i (fun d => d ++ input_floats x)
      (fun w3 => with_meta w3 i (with_size (bmeta w3 i) 1))
  else
    let prev_ok :=
      if 0 <? k then
        match b_get w i (k - 1) with
        | None => None
        | Some p => Some (validate_consecutive p x)
        end
      else Some true in
    match prev_ok with
    | None => (RAbort, w)
    | Some false => (RErr, w)
    | Some true =>
        let next_ok :=
          if k + 1 <? m_size m then
            match b_get w i (k + 1) with
            | None => None
            | Some n => Some (validate_consecutive x n)
            end
          else Some true in
        match next_ok with
        | None => (RAbort, w)
        | Some false => (RErr, w)
        | Some true =>
            mutate_data w i (overwrite (k * stride m) (input_floats_as m x)) (fun w' => w')
        end
    end.

(** Append(StrokeInput), stroke_input_batch.cc 259-279 *)
Definition b_append1 (w : bworld) (i : nat) (x : stroke_input) : outcome * bworld :=
  let m := bmeta w i in
  if negb (validate_single x) then (RErr, w)
  else
    let push w1 := mutate_data w1 i (fun d => d ++ input_floats x)
        (fun w2 => with_meta w2 i (with_size (bmeta w2 i) (S (m_size (bmeta w2 i))))) in
    if negb (m_size m =? 0) then
      match b_get w i (m_size m - 1) with
      | None => (RAbort, w)
      | Some l => if validate_consecutive l x then push w else (RErr, w)
      end
    else
      let w1 := ensure_data w i in
      push (with_meta w1 i (set_inline (bmeta w1 i) x)).

(** Append(Span), stroke_input_batch.cc 281-312 *)
Definition b_append_span (w : bworld) (i : nat) (xs : list stroke_input) : outcome * bworld :=
  let m := bmeta w i in
  match xs with
  | [] => (ROk, w)
  | x :: _ =>
      if negb (validate_sequence xs) then (RErr, w)
      else
        let push w1 := mutate_data w1 i (fun d => fold_left (fun d y => d ++ input_floats y) xs d)
            (fun w2 => with_meta w2 i (with_size (bmeta w2 i) (m_size (bmeta w2 i) + length xs))) in
        if negb (m_size m =? 0) then
          match b_get w i (m_size m - 1) with
          | None => (RAbort, w)
          | Some l => if validate_consecutive l x then push w else (RErr, w)
          end
        else
          let w1 := ensure_data w i in
          push (with_meta w1 i (set_inline (bmeta w1 i) x))
  end.

(** Copy assignment / construction (stroke_input_batch.h 79, 81), defaulted *)
Definition b_copy (w : bworld) (d s : nat) : bworld :=
  with_meta (with_cow w (cow_copy (cow w) d s)) d (bmeta w s).

(** Move assignment / construction (stroke_input_batch.h 80, 82), defaulted: the
    data pointer is moved, the scalar members are copied and left in the source. *)
Definition b_move (w : bworld) (d s : nat) : bworld :=
  with_meta (with_cow w (cow_move (cow w) d s)) d (bmeta w s).

(** MakeDeepCopy, stroke_input_batch.cc 79-85, into batch [d] *)
Definition b_deep_copy (w : bworld) (d s : nat) : bworld :=
  let w1 := b_copy w d s in
  match cow_value (cow w1) d with
  | None => w1
  | Some v => with_cow w1 (cow_emplace (cow w1) d v)
  end.

(** Append(StrokeInputBatch), stroke_input_batch.cc 329-354.  Appending a batch to
    itself makes vector::insert read from the vector it is growing: undefined. *)
Definition b_append_batch (w : bworld) (i j : nat) : outcome * bworld :=
  if m_size (bmeta w j) =? 0 then (ROk, w)
  else if m_size (bmeta w i) =? 0 then (ROk, b_copy w i j)
  else
    match b_get w i (m_size (bmeta w i) - 1), b_get w j 0 with
    | Some l, Some f =>
        if negb (validate_consecutive l f) then (RErr, w)
        else if i =? j then (RUB, w)
        else
          match cow_value (cow w) j with
          | None => (RAbort, w)
          | Some dj =>
              mutate_data w i (fun d => d ++ dj)
                (fun w' => with_meta w' i
                   (with_size (bmeta w' i) (m_size (bmeta w' i) + m_size (bmeta w' j))))
          end
    | _, _ => (RAbort, w)
    end.

(** Create, stroke_input_batch.cc 314-327, result stored in batch [d] on success.
    (The local batch is built in [d] after clearing it; on error the caller's
    batch [d] is left alone because no batch is returned.) *)
Definition b_create (w : bworld) (d : nat) (xs : list stroke_input) : outcome * bworld :=
  let w0 := with_meta (with_cow w (cow_reset (cow w) d)) d meta0 in
  match xs with
  | [] => (ROk, w0)
  | _ =>
      let w1 := with_cow w0 (cow_emplace (cow w0) d []) in
      match b_append_span w1 d xs with
      | (ROk, w2) => (ROk, w2)
      | (r, _) => (r, w)
      end
  end.

(** Erase, stroke_input_batch.cc 356-371 *)
Definition b_erase (w : bworld) (i start count : nat) : outcome * bworld :=
  let m := bmeta w i in
  if negb (start <=? m_size m) then (RAbort, w)
  else
    let n := Nat.min count (m_size m - start) in
    if n =? 0 then (ROk, w)
    else if (start =? 0) && (n =? m_size m) then (ROk, b_clear w i)
    else
      mutate_data w i
        (fun d => firstn (start * stride m) d ++ skipn ((start + n) * stride m) d)
        (fun w' => with_meta w' i (with_size (bmeta w' i) (m_size (bmeta w' i) - n))).

(** GetDuration, stroke_input_batch.cc 373-376, with Duration32's operator-
    (/repo/ink/types/duration.h; finite operands) *)
Definition b_duration (w : bworld) (i : nat) : option f32 :=
  if m_size (bmeta w i) =? 0 then Some f0
  else match b_get w i (m_size (bmeta w i) - 1), b_get w i 0 with
       | Some l, Some f => Some (fsub (etime l) (etime f))
       | _, _ => None
       end.

(** TransformPreservingDuration, stroke_input_batch.cc 386-396: the loop over the
    vector in steps of the stride.  [f] is AffineTransform::Apply. *)
Fixpoint transform_data (fuel st : nat) (f : f32 -> f32 -> f32 * f32) (d : list f32) : list f32 :=
  match fuel with
  | O => d
  | S fuel' =>
      match d with
      | x :: y :: _ =>
          let (x', y') := f x y in
          x' :: y' :: skipn 2 (firstn st d) ++ transform_data fuel' st f (skipn st d)
      | _ => d
      end
  end.

(** AffineTransform::Apply(Point), /repo/ink/geometry/affine_transform.cc 54-56,
    without fused multiply-add *)
Definition affine_apply (a b c d e f : f32) (x y : f32) : f32 * f32 :=
  (fadd (fadd (fmul a x) (fmul b y)) c, fadd (fadd (fmul d x) (fmul e y)) f).

(** Transform, stroke_input_batch.cc 378-384 *)
Definition b_transform (w : bworld) (i : nat) (f : f32 -> f32 -> f32 * f32) : outcome * bworld :=
  let m := bmeta w i in
  if m_size m =? 0 then (ROk, w)
  else mutate_data w i (fun d => transform_data (length d) (stride m) f d) (fun w' => w').

(** Iteration: ConstIterator, stroke_input_batch.cc 40-55 and .h 265-270.  The
    values produced by [for (x : batch)]: the iterator caches a value; operator++
    removes FloatsPerInput(value) floats from the sub-span and, unless it is now
    empty (end), overwrites the fields which the cached value reports. *)
Definition value_meta (v : stroke_input) : meta :=
  {| m_size := 0; m_tool := tool v; m_unit := unit_len v; m_pressure := has_pressure v;
     m_tilt := has_tilt v; m_orientation := has_orientation v |}.
Fixpoint iter_values (fuel : nat) (v : stroke_input) (sub : list f32) : option (list stroke_input) :=
  match sub with
  | [] => Some []
  | _ =>
      match fuel with
      | O => None
      | S fuel' =>
          match skipn (stride (value_meta v)) sub with
          | [] => Some [v]
          | sub' =>
              match read_input (value_meta v) sub' with
              | None => None
              | Some v' => option_map (cons v) (iter_values fuel' v' sub')
              end
          end
      end
  end.
Definition b_iterate (w : bworld) (i : nat) : option (list stroke_input) :=
  match cow_value (cow w) i with
  | None => Some []
  | Some d =>
      match d with
      | [] => Some []
      | _ => match b_get w i 0 with
             | None => None
             | Some v => iter_values (length d) v d
             end
      end
  end.

(** Histories of API calls *)
Inductive bop :=
| BAppend (i : nat) (x : stroke_input)
| BAppendSpan (i : nat) (xs : list stroke_input)
| BAppendBatch (i j : nat)
| BSet (i k : nat) (x : stroke_input)
| BErase (i start count : nat)
| BClear (i : nat)
| BTransform (i : nat) (f : f32 -> f32 -> f32 * f32)
| BCreate (d : nat) (xs : list stroke_input)
| BCopy (d s : nat)
| BDeepCopy (d s : nat)
| BMove (d s : nat).

Definition bstep (w : bworld) (o : bop) : outcome * bworld :=
  match o with
  | BAppend i x => b_append1 w i x
  | BAppendSpan i xs => b_append_span w i xs
  | BAppendBatch i j => b_append_batch w i j
  | BSet i k x => b_set w i k x
  | BErase i s c => b_erase w i s c
  | BClear i => (ROk, b_clear w i)
  | BTransform i f => b_transform w i f
  | BCreate d xs => b_create w d xs
  | BCopy d s => (ROk, b_copy w d s)
  | BDeepCopy d s => (ROk, b_deep_copy w d s)
  | BMove d s => (ROk, b_move w d s)
  end.

(** [n] default-constructed batches *)
Definition binit (n : nat) : bworld := {| cow := cow_init n; metas := repeat meta0 n |}.

(** Runs a history, recording the results; stops at an abort or undefined behaviour. *)
Fixpoint brun (w : bworld) (os : list bop) : list outcome * bworld :=
  match os with
  | [] => ([], w)
  | o :: os' =>
      match bstep w o with
      | (RAbort, w') => ([RAbort], w')
      | (RUB, w') => ([RUB], w')
      | (r, w') => let (rs, w'') := brun w' os' in (r :: rs, w'')
      end
  end.
