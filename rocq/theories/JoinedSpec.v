(** Going around a cycle; which circles make up a joined shape. *)
From Coq Require Import Reals List.
Import ListNotations.

(** the indices met on the way up from [i] to [j] around a cycle of [n], both included *)
Definition ccw (n i j : nat) : list nat := map (fun m => Nat.modulo (i + m) n) (seq 0 (S (Nat.modulo (j + n - i) n))).
Definition everything (n : nat) (l : list nat) : Prop := forall k, k < n -> In k l.
