(** Ratios along segments, in real numbers. *)
From Coq Require Import Reals.
From Verif Require Import GeomSpec.
Local Open Scope R_scope.

(** [t] is the smallest ratio in [0, 1] at which the way from [a] to [b] is in the set *)
Definition first_at (a b : pt) (S : shape) (t : R) : Prop :=
  0 <= t <= 1 /\ S (mix t a b) /\ forall t', 0 <= t' <= 1 -> S (mix t' a b) -> t <= t'.
(** the directions from [a] to [b] and from [c] to [d] are parallel, or one of them is none *)
Definition parallel (a b c d : pt) : Prop := (px b - px a) * (py d - py c) = (py b - py a) * (px d - px c).
(** [a] turned counter-clockwise by [r] *)
Definition turned (r : R) (a : pt) : pt := P (px a * cos r - py a * sin r) (px a * sin r + py a * cos r).
Definition scaled (k : R) (a : pt) : pt := P (k * px a) (k * py a).
Definition norm (a : pt) : R := sqrt (px a * px a + py a * py a).
Definition origin : pt := P 0 0.
(** [h] is the direction of [a]; the direction of the zero vector is that of the x axis *)
Definition heading (a h : pt) : Prop := a = scaled (norm a) h /\ norm h = 1 /\ (a = origin -> h = P 1 0).
