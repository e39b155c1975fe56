(** What it means to split an outline into two sides. *)
From Coq Require Import Reals List.
From Verif Require Import GeomSpec CircleSpec.
Import ListNotations.
Local Open Scope R_scope.

(** the same closed outline, begun elsewhere *)
Definition turned_round {A} (l l' : list A) : Prop := exists a b, l = a ++ b /\ l' = b ++ a.
(** one side, then the other *)
Definition sorted_sides {A} (side : A -> bool) (left right : list A) : Prop :=
  (forall p, In p left -> side p = false) /\ (forall p, In p right -> side p = true).
Definition two_runs {A} (side : A -> bool) (l : list A) : Prop := exists a b, turned_round l (a ++ b) /\ sorted_sides side a b.
(** to the right of the line through [c] along [f] *)
Definition to_the_right (f c p : pt) : Prop := cross f (minus p c) < 0.
(** the corners of a convex polygon, clockwise *)
Definition clockwise (l : list pt) : Prop := forall l0 a l1 b l2 c l3,
  l = l0 ++ a :: l1 ++ b :: l2 ++ c :: l3 -> cross (minus b a) (minus c a) < 0.
(** indices around [n] places, each the next one clockwise *)
Definition before (n i j : nat) : Prop := (j = i - 1 /\ 0 < i)%nat \/ (i = 0 /\ j = n - 1)%nat.
Fixpoint around (n : nat) (l : list nat) : Prop := match l with i :: (j :: _) as k => before n i j /\ around n k | _ => True end.
