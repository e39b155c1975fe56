(** Model of ink/strokes/internal/stroke_outline.h and stroke_outline.cc
    ([StrokeOutline]): the two-ended buffer in which the indices of the outline
    of a stroke are accumulated and handed out as one span.

    The model is of the memory, not of the intended lists: [data] is an array
    of [capacity] cells, each of which holds a value or is not yet written
    ([None]; the code allocates it with [new uint32_t[n]], which leaves it
    indeterminate).  Reading or writing outside of the array makes the
    operation [None].

    Simplified: [size_t] is a natural number (no wrap-around), and the index
    type [uint32_t] is an arbitrary type [A] (the code never looks at it). *)

From Coq Require Import Arith Lia List.
Import ListNotations.

Section Outline.
Variable A : Type.

(** stroke_outline.h:87-102, [StrokeOutline::IndexStorage]; the two counts are
    [used_counts] (stroke_outline.h:40-43). *)
Record storage : Type := Storage {
  data : list (option A);
  capacity : nat;
  left_used : nat;
  right_used : nat
}.

(** stroke_outline.h:45, the default constructor: no array, capacity 0. *)
Definition fresh : storage := Storage [] 0 0 0.

(** stroke_outline.h:127-131, [IndexStorage::UnusedLeftCapacity]. *)
Definition unused_left (s : storage) : nat := capacity s / 2 - left_used s.

(** stroke_outline.h:133-137, [IndexStorage::UnusedRightCapacity]. *)
Definition unused_right (s : storage) : nat := capacity s / 2 - right_used s.

(** [n] cells of an array from position [p], if they lie inside. *)
Definition read_at (d : list (option A)) (p n : nat) : option (list (option A)) :=
  if p + n <=? length d then Some (firstn n (skipn p d)) else None.

(** The array after the cells from [p] on have been overwritten by [xs], if
    they lie inside. *)
Definition write_at (d : list (option A)) (p : nat) (xs : list (option A))
  : option (list (option A)) :=
  if p + length xs <=? length d
  then Some (firstn p d ++ xs ++ skipn (p + length xs) d) else None.

(** stroke_outline.h:139-152, [IndexStorage::UsedSpan], where the span begins
    and its size. *)
Definition span_begin (s : storage) : nat := unused_right s.
Definition span_size (s : storage) : nat := left_used s + right_used s.

Definition used_span (s : storage) : option (list (option A)) :=
  read_at (data s) (span_begin s) (span_size s).

(** [absl::bit_ceil] (used at stroke_outline.cc:35): the smallest power of two
    that is not below the argument. *)
Definition bit_ceil (n : nat) : nat := 2 ^ Nat.log2_up n.

(** stroke_outline.cc:29-47, [StrokeOutline::GrowIndexStorage]. *)
Definition grow (s : storage) (new_left new_right : nat) : option storage :=
  let minimum_new_capacity :=
    2 * Nat.max (left_used s + new_left) (right_used s + new_right) in
  let new_capacity := bit_ceil minimum_new_capacity in
  let new_storage :=
    Storage (repeat None new_capacity) new_capacity (left_used s) (right_used s) in
  match used_span s with
  | None => None
  | Some old =>
      match write_at (data new_storage) (span_begin new_storage) old with
      | None => None
      | Some d => Some (Storage d new_capacity (left_used s) (right_used s))
      end
  end.

(** stroke_outline.cc:52-53, the test that makes an append allocate. *)
Definition must_grow (s : storage) (new_left new_right : list A) : bool :=
  (unused_left s <? length new_left) || (unused_right s <? length new_right).

(** stroke_outline.cc:49-68, [StrokeOutline::AppendNewIndices].  The second
    copy goes through a reverse iterator ([UsedSpan().rend() - n]): the first
    new right index lands on cell [n - 1] of the span, the last on cell 0. *)
Definition append (s : storage) (new_left new_right : list A) : option storage :=
  match (if must_grow s new_left new_right
         then grow s (length new_left) (length new_right) else Some s) with
  | None => None
  | Some s1 =>
      let s2 := Storage (data s1) (capacity s1)
                        (left_used s1 + length new_left)
                        (right_used s1 + length new_right) in
      match write_at (data s2)
                     (span_begin s2 + span_size s2 - length new_left)
                     (map Some new_left) with
      | None => None
      | Some d1 =>
          match write_at d1 (span_begin s2) (map Some (rev new_right)) with
          | None => None
          | Some d2 => Some (Storage d2 (capacity s2) (left_used s2) (right_used s2))
          end
      end
  end.

(** stroke_outline.h:112-117, [StrokeOutline::TruncateIndices]. *)
Definition truncate (s : storage) (left right : nat) : storage :=
  Storage (data s) (capacity s)
          (Nat.min (left_used s) left) (Nat.min (right_used s) right).

(** stroke_outline.h:119-121, [StrokeOutline::GetIndices]. *)
Definition get_indices (s : storage) : option (list (option A)) := used_span s.

(** stroke_outline.h:123-125, [StrokeOutline::GetIndexCounts]. *)
Definition get_counts (s : storage) : nat * nat := (left_used s, right_used s).

(** The two ways in which a caller changes an outline. *)
Inductive op : Type :=
| Append (new_left new_right : list A)
| Truncate (left right : nat).

Definition step (s : storage) (o : op) : option storage :=
  match o with
  | Append l r => append s l r
  | Truncate l r => Some (truncate s l r)
  end.

Fixpoint run (s : storage) (os : list op) : option storage :=
  match os with
  | [] => Some s
  | o :: rest => match step s o with None => None | Some s1 => run s1 rest end
  end.

(** How many times the array is reallocated along a run. *)
Definition grows (s : storage) (o : op) : nat :=
  match o with
  | Append l r => if must_grow s l r then 1 else 0
  | Truncate _ _ => 0
  end.

Fixpoint growths (s : storage) (os : list op) : nat :=
  match os with
  | [] => 0
  | o :: rest =>
      grows s o + match step s o with None => 0 | Some s1 => growths s1 rest end
  end.

End Outline.

Arguments fresh {A}.
Arguments data {A}. Arguments capacity {A}.
Arguments left_used {A}. Arguments right_used {A}.
Arguments Storage {A}. Arguments Append {A}. Arguments Truncate {A}.
Arguments run {A}. Arguments step {A}. Arguments append {A}. Arguments grow {A}.
Arguments truncate {A}. Arguments get_indices {A}. Arguments get_counts {A}.
Arguments used_span {A}. Arguments read_at {A}. Arguments write_at {A}.
Arguments span_begin {A}. Arguments span_size {A}.
Arguments unused_left {A}. Arguments unused_right {A}.
Arguments must_grow {A}. Arguments growths {A}. Arguments grows {A}.
