(** Model of ink_internal::CopyOnWrite<T> (/repo/ink/types/internal/copy_on_write.h 44-111)
    on top of an explicit heap of reference-counted cells (std::shared_ptr).

    A [world] has a list of handles (each a possibly-null shared_ptr, i.e. one
    CopyOnWrite object) and a heap.  Every operation on CopyOnWrite is written in
    terms of the primitive shared_ptr steps (allocate, increment, decrement,
    free at zero).  Simplification: a handle's lifetime is not modelled separately;
    destruction is [Reset], and construction is assignment to a null handle. *)
From Coq Require Import List Arith Bool.
Import ListNotations.

Section Cow.
Variable T : Type.

(** A heap cell: the managed object and the use count of its control block. *)
Record world := {
  ptrs : list (option nat);
  cells : list (option (T * nat));
}.

Fixpoint set_nth {A} (n : nat) (x : A) (l : list A) : list A :=
  match l, n with
  | [], _ => []
  | _ :: l', O => x :: l'
  | y :: l', S n' => y :: set_nth n' x l'
  end.

Definition ptr (w : world) (h : nat) : option nat := nth h (ptrs w) None.
Definition cell (w : world) (a : nat) : option (T * nat) := nth a (cells w) None.

Definition set_ptr (w : world) (h : nat) (p : option nat) : world :=
  {| ptrs := set_nth h p (ptrs w); cells := cells w |}.
Definition set_cell (w : world) (a : nat) (c : option (T * nat)) : world :=
  {| ptrs := ptrs w; cells := set_nth a c (cells w) |}.

(** shared_ptr primitives *)
Definition incref (w : world) (p : option nat) : world :=
  match p with
  | None => w
  | Some a => match cell w a with
              | Some (v, n) => set_cell w a (Some (v, S n))
              | None => w
              end
  end.
Definition decref (w : world) (p : option nat) : world :=
  match p with
  | None => w
  | Some a => match cell w a with
              | Some (v, n) => set_cell w a (if n <=? 1 then None else Some (v, n - 1))
              | None => w
              end
  end.
(** std::make_shared<T>(v): a new cell with use count 1, at a fresh address *)
Definition alloc (w : world) (v : T) : world * nat :=
  ({| ptrs := ptrs w; cells := cells w ++ [Some (v, 1)] |}, length (cells w)).

(** copy construction / copy assignment, copy_on_write.h 54 and 56
    (std::shared_ptr: [shared_ptr(r).swap( *this)]) *)
Definition cow_copy (w : world) (dst src : nat) : world :=
  let p := ptr w src in
  let w1 := incref w p in
  let old := ptr w1 dst in
  decref (set_ptr w1 dst p) old.

(** move construction / move assignment, copy_on_write.h 55 and 57
    (std::shared_ptr: [shared_ptr(std::move(r)).swap( *this)]) *)
Definition cow_move (w : world) (dst src : nat) : world :=
  let p := ptr w src in
  let w1 := set_ptr w src None in
  let old := ptr w1 dst in
  decref (set_ptr w1 dst p) old.

(** Emplace, copy_on_write.h 62-66; also the value constructors 49-51 *)
Definition cow_emplace (w : world) (h : nat) (v : T) : world :=
  let (w1, a) := alloc w v in
  let old := ptr w1 h in
  decref (set_ptr w1 h (Some a)) old.

(** Reset, copy_on_write.h 70; also the destructor 58 *)
Definition cow_reset (w : world) (h : nat) : world :=
  decref (set_ptr w h None) (ptr w h).

(** HasValue, copy_on_write.h 72 *)
Definition cow_has_value (w : world) (h : nat) : bool :=
  match ptr w h with Some _ => true | None => false end.

(** shared_ptr::use_count *)
Definition use_count (w : world) (h : nat) : nat :=
  match ptr w h with
  | None => 0
  | Some a => match cell w a with Some (_, n) => n | None => 0 end
  end.

(** IsShared, copy_on_write.h 76 *)
Definition cow_is_shared (w : world) (h : nat) : bool := 1 <? use_count w h.

(** Value / operator* / operator->, copy_on_write.h 90-107.  [None] is the
    CHECK failure (or undefined behaviour) for a handle without value. *)
Definition cow_value (w : world) (h : nat) : option T :=
  match ptr w h with
  | None => None
  | Some a => match cell w a with Some (v, _) => Some v | None => None end
  end.

(** MutableValue, copy_on_write.h 82-86: unshares.  [None] is the CHECK failure. *)
Definition cow_mutable (w : world) (h : nat) : option world :=
  match cow_value w h with
  | None => None
  | Some v => Some (if cow_is_shared w h then cow_emplace w h v else w)
  end.

(** Writing [v] through the reference returned by MutableValue / Emplace:
    an in-place store into the cell the handle points at. *)
Definition cow_store (w : world) (h : nat) (v : T) : world :=
  match ptr w h with
  | None => w
  | Some a => match cell w a with
              | Some (_, n) => set_cell w a (Some (v, n))
              | None => w
              end
  end.

(** [h.MutableValue() = f(h.Value())] *)
Definition cow_mutate (w : world) (h : nat) (f : T -> T) : option world :=
  match cow_mutable w h with
  | None => None
  | Some w1 => match cow_value w1 h with
               | None => None
               | Some v => Some (cow_store w1 h (f v))
               end
  end.

Inductive cow_op :=
| OpCopy (dst src : nat)
| OpMove (dst src : nat)
| OpEmplace (h : nat) (v : T)
| OpReset (h : nat)
| OpMutate (h : nat) (f : T -> T).

(** One operation; [None] is a CHECK failure (program abort). *)
Definition cow_step (w : world) (o : cow_op) : option world :=
  match o with
  | OpCopy d s => Some (cow_copy w d s)
  | OpMove d s => Some (cow_move w d s)
  | OpEmplace h v => Some (cow_emplace w h v)
  | OpReset h => Some (cow_reset w h)
  | OpMutate h f => cow_mutate w h f
  end.

Fixpoint cow_run (w : world) (os : list cow_op) : option world :=
  match os with
  | [] => Some w
  | o :: os' => match cow_step w o with Some w' => cow_run w' os' | None => None end
  end.

(** The initial world: [n] default-constructed handles and an empty heap. *)
Definition cow_init (n : nat) : world := {| ptrs := repeat None n; cells := [] |}.

End Cow.
Arguments ptrs {T}. Arguments cells {T}. Arguments ptr {T}. Arguments cell {T}.
Arguments set_ptr {T}. Arguments set_cell {T}.
Arguments incref {T}. Arguments decref {T}. Arguments alloc {T}.
Arguments cow_copy {T}. Arguments cow_move {T}. Arguments cow_emplace {T}.
Arguments cow_reset {T}. Arguments cow_has_value {T}. Arguments use_count {T}.
Arguments cow_is_shared {T}. Arguments cow_value {T}. Arguments cow_mutable {T}.
Arguments cow_store {T}. Arguments cow_mutate {T}. Arguments cow_step {T}.
Arguments cow_run {T}. Arguments cow_init {T}.
Arguments OpCopy {T}. Arguments OpMove {T}. Arguments OpEmplace {T}.
Arguments OpReset {T}. Arguments OpMutate {T}.
