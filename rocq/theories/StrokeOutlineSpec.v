(** What an outline buffer should do, without any memory: it is two lists, and
    what is handed out is the right one backwards followed by the left one. *)

From Coq Require Import Arith List.
Import ListNotations.

Section Spec.
Variable A : Type.

(** The indices of the two sides, from the start of the stroke to its end. *)
Record sides : Type := Sides { lefts : list A; rights : list A }.

Definition none : sides := Sides [] [].

(** What a caller asks for. *)
Inductive request : Type :=
| Add (l r : list A)
| Keep (nl nr : nat).

Definition perform (s : sides) (q : request) : sides :=
  match q with
  | Add l r => Sides (lefts s ++ l) (rights s ++ r)
  | Keep nl nr => Sides (firstn nl (lefts s)) (firstn nr (rights s))
  end.

Definition after (qs : list request) : sides := fold_left perform qs none.

(** The outline: from the end of the stroke back along the right side, then
    along the left side to the end of the stroke. *)
Definition outline (s : sides) : list A := rev (rights s) ++ lefts s.

(** The longest side ever reached on the way. *)
Fixpoint longest (s : sides) (qs : list request) : nat :=
  match qs with
  | [] => Nat.max (length (lefts s)) (length (rights s))
  | q :: rest =>
      Nat.max (Nat.max (length (lefts s)) (length (rights s)))
              (longest (perform s q) rest)
  end.

End Spec.

Arguments Sides {A}. Arguments lefts {A}. Arguments rights {A}.
Arguments none {A}. Arguments Add {A}. Arguments Keep {A}.
Arguments perform {A}. Arguments after {A}. Arguments outline {A}.
Arguments longest {A}.
