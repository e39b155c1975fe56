(** Specification for CopyOnWrite: every handle owns a private optional value.
    Nothing here mentions pointers, cells or counts. *)
From Coq Require Import List.
From Verif Require Import CowModel.
Import ListNotations.

Section Spec.
Context {T : Type}.

(** Private values: handle number -> value *)
Definition priv := nat -> option T.

Definition put (p : priv) (h : nat) (v : option T) : priv :=
  fun k => if Nat.eqb k h then v else p k.

(** The operations as they would act on [std::optional<T>] values; only
    handles below [n] exist.  A moved-from handle is empty (unless moved to itself). *)
Inductive priv_step (n : nat) (p : priv) : cow_op T -> priv -> Prop :=
| P_copy d s : d < n -> s < n -> priv_step n p (OpCopy d s) (put p d (p s))
| P_move d s : d < n -> s < n -> d <> s ->
    priv_step n p (OpMove d s) (put (put p d (p s)) s None)
| P_move_self s : s < n -> priv_step n p (OpMove s s) p
| P_emplace h v : h < n -> priv_step n p (OpEmplace h v) (put p h (Some v))
| P_reset h : h < n -> priv_step n p (OpReset h) (put p h None)
| P_mutate h f v : h < n -> p h = Some v -> priv_step n p (OpMutate h f) (put p h (Some (f v))).

Inductive priv_run (n : nat) : priv -> list (cow_op T) -> priv -> Prop :=
| PR_nil p : priv_run n p [] p
| PR_cons p o p' os p'' : priv_step n p o p' -> priv_run n p' os p'' ->
    priv_run n p (o :: os) p''.

(** Operation only mentions existing handles *)
Definition op_in_range (n : nat) (o : cow_op T) : Prop :=
  match o with
  | OpCopy d s => d < n /\ s < n
  | OpMove d s => d < n /\ s < n
  | OpEmplace h _ => h < n
  | OpReset h => h < n
  | OpMutate h _ => h < n
  end.
End Spec.
