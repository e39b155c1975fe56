(** Specification of StrokeInputBatch: what a valid input sequence is (over the real
    values of the floats), and the API as operations on plain lists of inputs. *)
From Coq Require Import ZArith Reals List Bool Sorting.Sorted.
From Flocq Require Import IEEE754.BinarySingleNaN.
From Verif Require Import F32 BatchModel.
Import ListNotations.
Open Scope R_scope.

(** real value of a (finite) float *)
Notation val := (@B2R 24 128).
Definition fin (x : f32) : Prop := is_finite x = true.

Definition absent (v : f32) : Prop := fin v /\ val v = -1.
Definition between (lo hi : R) (v : f32) : Prop := fin v /\ lo <= val v <= hi.

(** float literals for pi/2 and 2 pi, in exact dyadic form *)
Definition quarter_turn : R := 13176795 / 8388608.
Definition full_turn : R := 13176795 / 2097152.

(** stroke_input_batch.h 48-62 *)
Record valid_input (x : stroke_input) : Prop := {
  vi_tool : tool x = 0%Z \/ tool x = 1%Z \/ tool x = 2%Z \/ tool x = 3%Z;
  vi_pos : fin (px x) /\ fin (py x);
  vi_time : fin (etime x) /\ 0 <= val (etime x);
  vi_unit : fin (unit_len x) /\ 0 <= val (unit_len x);
  vi_pressure : absent (pressure x) \/ between 0 1 (pressure x);
  vi_tilt : absent (tilt x) \/ between 0 quarter_turn (tilt x);
  vi_orientation : absent (orientation x) \/ between 0 full_turn (orientation x);
}.

(** Same tool, unit length and set of reported properties *)
Definition same_format (x y : stroke_input) : Prop :=
  tool x = tool y /\ val (unit_len x) = val (unit_len y) /\
  (absent (pressure x) <-> absent (pressure y)) /\
  (absent (tilt x) <-> absent (tilt y)) /\
  (absent (orientation x) <-> absent (orientation y)).

(** Equal as IEEE numbers.  (Inputs may have infinite or NaN positions, but
    only after Transform.) *)
Definition num_eq (a b : f32) : Prop :=
  (fin a /\ fin b /\ val a = val b) \/
  (exists s, a = B754_infinity s /\ b = B754_infinity s).

Definition coincide (x y : stroke_input) : Prop :=
  num_eq (px x) (px y) /\ num_eq (py x) (py y) /\ num_eq (etime x) (etime y).

(** No two neighbours coincide *)
Definition no_repeat (l : list stroke_input) : Prop :=
  forall n x y, nth_error l n = Some x -> nth_error l (S n) = Some y -> ~ coincide x y.

Definition valid_sequence (l : list stroke_input) : Prop :=
  (forall x, In x l -> valid_input x) /\
  (forall x y, In x l -> In y l -> same_format x y) /\
  StronglySorted (fun x y => val (etime x) <= val (etime y)) l /\
  no_repeat l.

(** [y] may directly follow [x] *)
Definition may_follow (x y : stroke_input) : Prop :=
  same_format x y /\ ~ coincide x y /\ val (etime x) <= val (etime y).

(** The batch stores one unit length for all inputs, so an added input is read
    back with the (numerically equal) unit length of the first one; only the
    sign of a zero unit length can differ. *)
Definition with_unit (u : f32) (x : stroke_input) : stroke_input :=
  {| tool := tool x; px := px x; py := py x; etime := etime x; unit_len := u;
     pressure := pressure x; tilt := tilt x; orientation := orientation x |}.
Definition unit_of (l : list stroke_input) (x : stroke_input) : f32 :=
  match l with [] => unit_len x | y :: _ => unit_len y end.
Definition conform (l : list stroke_input) (x : stroke_input) : stroke_input :=
  with_unit (unit_of l x) x.

Definition last_of (l : list stroke_input) : option stroke_input :=
  nth_error l (length l - 1)%nat.

(** [x] may be added at the end of [l] *)
Definition may_append (l : list stroke_input) (x : stroke_input) : Prop :=
  forall z, last_of l = Some z -> may_follow z x.

Definition replace (k : nat) (x : stroke_input) (l : list stroke_input) : list stroke_input :=
  firstn k l ++ x :: skipn (S k) l.

(** [x] may replace the [k]-th input *)
Definition may_replace (l : list stroke_input) (k : nat) (x : stroke_input) : Prop :=
  length l = 1%nat \/
  ((forall p, (0 < k)%nat -> nth_error l (k - 1) = Some p -> may_follow p x) /\
   (forall n, nth_error l (k + 1) = Some n -> may_follow x n)).

Definition move_position (f : f32 -> f32 -> f32 * f32) (x : stroke_input) : stroke_input :=
  {| tool := tool x; px := fst (f (px x) (py x)); py := snd (f (px x) (py x));
     etime := etime x; unit_len := unit_len x;
     pressure := pressure x; tilt := tilt x; orientation := orientation x |}.

(** Program state: the input list of every batch; [None] after being moved from. *)
Definition lists := nat -> option (list stroke_input).
Definition upd (s : lists) (i : nat) (l : option (list stroke_input)) : lists :=
  fun k => if Nat.eqb k i then l else s k.

(** One API call on lists.  [n] batches exist. *)
Inductive lstep (n : nat) (s : lists) : bop -> outcome -> lists -> Prop :=
| L_append_ok i l x : (i < n)%nat -> s i = Some l -> valid_input x -> may_append l x ->
    lstep n s (BAppend i x) ROk (upd s i (Some (l ++ [conform l x])))
| L_append_err i l x : (i < n)%nat -> s i = Some l -> ~ (valid_input x /\ may_append l x) ->
    lstep n s (BAppend i x) RErr s
| L_span_ok i l xs : (i < n)%nat -> s i = Some l -> valid_sequence xs ->
    (forall x, hd_error xs = Some x -> may_append l x) ->
    lstep n s (BAppendSpan i xs) ROk (upd s i (Some (l ++ map (conform (l ++ xs)) xs)))
| L_span_err i l xs : (i < n)%nat -> s i = Some l ->
    ~ (valid_sequence xs /\ forall x, hd_error xs = Some x -> may_append l x) ->
    lstep n s (BAppendSpan i xs) RErr s
| L_batch_ok i j li lj : (i < n)%nat -> (j < n)%nat -> s i = Some li -> s j = Some lj ->
    (forall x, hd_error lj = Some x -> may_append li x) ->
    (i = j -> li = []) ->
    lstep n s (BAppendBatch i j) ROk (upd s i (Some (li ++ map (conform (li ++ lj)) lj)))
| L_batch_err i j li lj : (i < n)%nat -> (j < n)%nat -> s i = Some li -> s j = Some lj ->
    ~ (forall x, hd_error lj = Some x -> may_append li x) ->
    lstep n s (BAppendBatch i j) RErr s
| L_batch_self i li : (i < n)%nat -> s i = Some li -> li <> [] ->
    (forall x, hd_error li = Some x -> may_append li x) ->
    lstep n s (BAppendBatch i i) RUB s
| L_set_ok i l k x : (i < n)%nat -> s i = Some l -> (k < length l)%nat -> valid_input x ->
    may_replace l k x ->
    lstep n s (BSet i k x) ROk
      (upd s i (Some (if Nat.eqb (length l) 1 then [x] else replace k (conform l x) l)))
| L_set_err i l k x : (i < n)%nat -> s i = Some l -> (k < length l)%nat ->
    ~ (valid_input x /\ may_replace l k x) ->
    lstep n s (BSet i k x) RErr s
| L_set_abort i l k x : (i < n)%nat -> s i = Some l -> (length l <= k)%nat ->
    lstep n s (BSet i k x) RAbort s
| L_erase i l a c : (i < n)%nat -> s i = Some l -> (a <= length l)%nat ->
    lstep n s (BErase i a c) ROk (upd s i (Some (firstn a l ++ skipn c (skipn a l))))
| L_erase_abort i l a c : (i < n)%nat -> s i = Some l -> (length l < a)%nat ->
    lstep n s (BErase i a c) RAbort s
| L_clear i : (i < n)%nat -> lstep n s (BClear i) ROk (upd s i (Some []))
| L_transform i l f : (i < n)%nat -> s i = Some l ->
    lstep n s (BTransform i f) ROk (upd s i (Some (map (move_position f) l)))
| L_create_ok d xs : (d < n)%nat -> valid_sequence xs ->
    lstep n s (BCreate d xs) ROk (upd s d (Some (map (conform xs) xs)))
| L_create_err d xs : (d < n)%nat -> ~ valid_sequence xs -> lstep n s (BCreate d xs) RErr s
| L_copy d a l : (d < n)%nat -> (a < n)%nat -> s a = Some l ->
    lstep n s (BCopy d a) ROk (upd s d (Some l))
| L_deep d a l : (d < n)%nat -> (a < n)%nat -> s a = Some l ->
    lstep n s (BDeepCopy d a) ROk (upd s d (Some l))
| L_move d a l : (d < n)%nat -> (a < n)%nat -> s a = Some l -> d <> a ->
    lstep n s (BMove d a) ROk (upd (upd s d (Some l)) a None)
| L_move_self a l : (a < n)%nat -> s a = Some l -> lstep n s (BMove a a) ROk s.

(** A call is within the contract if it names existing batches and does not read
    a moved-from batch (assigning to or clearing one is fine). *)
Definition usable (n : nat) (s : lists) (i : nat) : Prop := (i < n)%nat /\ s i <> None.
Definition call_ok (n : nat) (s : lists) (o : bop) : Prop :=
  match o with
  | BAppend i _ | BAppendSpan i _ | BSet i _ _ | BErase i _ _ | BTransform i _ => usable n s i
  | BAppendBatch i j => usable n s i /\ usable n s j
  | BClear i | BCreate i _ => (i < n)%nat
  | BCopy d a | BDeepCopy d a | BMove d a => (d < n)%nat /\ usable n s a
  end.

(** A history of calls within the contract, its results and its final state. *)
Inductive lrun (n : nat) : lists -> list bop -> list outcome -> lists -> Prop :=
| LR_nil s : lrun n s [] [] s
| LR_stop s o os r s' : lstep n s o r s' -> (r = RAbort \/ r = RUB) -> lrun n s (o :: os) [r] s'
| LR_go s o os r s' rs s'' : lstep n s o r s' -> (r = ROk \/ r = RErr) -> lrun n s' os rs s'' ->
    lrun n s (o :: os) (r :: rs) s''.

(** Every call of the history, as long as it runs, is within the contract. *)
Inductive within_contract (n : nat) : lists -> list bop -> Prop :=
| WC_nil s : within_contract n s []
| WC_cons s o os : call_ok n s o ->
    (forall r s', lstep n s o r s' -> (r = ROk \/ r = RErr) -> within_contract n s' os) ->
    within_contract n s (o :: os).

(** [n] default-constructed batches *)
Definition empty_lists : lists := fun _ => Some [].

(** *** Vocabulary of the property statements *)
Definition all_valid (s : lists) : Prop := forall i l, s i = Some l -> valid_sequence l.

(** Erasing at either end, and no Transform *)
Definition gentle (s : lists) (o : bop) : Prop :=
  match o with
  | BTransform _ _ => False
  | BErase i a c => forall l, s i = Some l -> a = 0%nat \/ (length l <= a + c)%nat
  | _ => True
  end.

Inductive gentle_history (n : nat) : lists -> list bop -> Prop :=
| GH_nil s : gentle_history n s []
| GH_cons s o os : gentle s o ->
    (forall r s', lstep n s o r s' -> (r = ROk \/ r = RErr) -> gentle_history n s' os) ->
    gentle_history n s (o :: os).

(** The batches a call may change *)
Definition writes (o : bop) (k : nat) : Prop :=
  match o with
  | BAppend i _ | BAppendSpan i _ | BAppendBatch i _ | BSet i _ _ | BErase i _ _
  | BClear i | BTransform i _ | BCreate i _ | BCopy i _ | BDeepCopy i _ => k = i
  | BMove d a => k = d \/ k = a
  end.

(** Calls naming existing batches, and not moving *)
Definition plain (n : nat) (o : bop) : Prop :=
  match o with
  | BAppend i _ | BAppendSpan i _ | BSet i _ _ | BErase i _ _ | BTransform i _
  | BClear i | BCreate i _ => (i < n)%nat
  | BAppendBatch i j | BCopy i j | BDeepCopy i j => (i < n)%nat /\ (j < n)%nat
  | BMove _ _ => False
  end.

(** Everything the const interface reports about batch [i] is that of the list [l]:
    Size, Get (an index past the end aborts), iteration, GetDuration, and the
    tool type / unit length / HasPressure / HasTilt / HasOrientation. *)
Definition shows (w : bworld) (i : nat) (l : list stroke_input) : Prop :=
  m_size (bmeta w i) = length l /\
  (forall k, b_get w i k = nth_error l k) /\
  b_iterate w i = Some l /\
  b_duration w i = match nth_error l 0, last_of l with
                   | Some f, Some z => Some (fsub (etime z) (etime f))
                   | _, _ => Some f0
                   end /\
  (match l with
   | [] => m_tool (bmeta w i) = 0%Z /\ m_unit (bmeta w i) = kNoUnit /\
           m_pressure (bmeta w i) = false /\ m_tilt (bmeta w i) = false /\
           m_orientation (bmeta w i) = false
   | x :: _ => m_tool (bmeta w i) = tool x /\ m_unit (bmeta w i) = unit_len x /\
           m_pressure (bmeta w i) = has_pressure x /\ m_tilt (bmeta w i) = has_tilt x /\
           m_orientation (bmeta w i) = has_orientation x
   end).
