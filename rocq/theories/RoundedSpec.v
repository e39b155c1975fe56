(** Convex arrangements of discs and their hull, in real numbers. *)
From Coq Require Import Reals List.
From Verif Require Import GeomSpec CircleSpec.
Import ListNotations.
Local Open Scope R_scope.

Definition ball := (pt * R)%type.
(** how far the disc reaches in direction [u] *)
Definition reach (b : ball) (u : pt) : R := inner (fst b) u + snd b.
(** the convex hull of the discs: the points that are in every half-plane that all discs are in *)
Definition hull (bs : list ball) : shape := fun p => forall u, unit u -> exists b, In b bs /\ inner p u <= reach b u.
Definition at_ (bs : list ball) (i : nat) : ball := nth i bs (P 0 0, 0).
(** One turn of directions, cut at the angles [a 0 < a 1 < ... < a n]: in the directions from [a i] to [a (S i)] it is disc [i] that
    reaches farthest *)
Record convex (bs : list ball) (a : nat -> R) : Prop := {
  convex_many : (2 <= length bs)%nat;
  convex_radius : forall b, In b bs -> 0 <= snd b;
  convex_order : forall i, (i < length bs)%nat -> a i < a (S i);
  convex_turn : a (length bs) = a 0%nat + 2 * PI;
  convex_farthest : forall i x b, (i < length bs)%nat -> a i <= x <= a (S i) -> In b bs -> reach b (toward x) <= reach (at_ bs i) (toward x) }.
