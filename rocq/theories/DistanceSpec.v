(** The smallest distance between two point sets. *)
From Coq Require Import Reals.
From Verif Require Import GeomSpec.
Local Open Scope R_scope.
(** no points of [S] and [U] are closer than [d], and some are [d] apart; [dist2] is the square of the distance of two points *)
Definition apart (S U : shape) (d : R) : Prop :=
  0 <= d /\ (exists p q, S p /\ U q /\ d * d = dist2 p q) /\ forall p q, S p -> U q -> d * d <= dist2 p q.
