(** Discs, their tangents and chords, in real numbers. *)
From Coq Require Import Reals.
From Verif Require Import GeomSpec.
Local Open Scope R_scope.

(** the points within [r] of [c] *)
Definition disc (c : pt) (r : R) : shape := fun p => dist2 p c <= r * r.
Definition within (A B : shape) : Prop := forall p, A p -> B p.
Definition inner (a b : pt) : R := px a * px b + py a * py b.
Definition cross (a b : pt) : R := px a * py b - py a * px b.
Definition minus (a b : pt) : pt := P (px a - px b) (py a - py b).
(** the unit vector of an angle *)
Definition toward (a : R) : pt := P (cos a) (sin a).
Definition unit (u : pt) : Prop := px u * px u + py u * py u = 1.
(** the set is on one side of the line at height [h] in direction [u], and touches the line *)
Definition supports (A : shape) (u : pt) (h : R) : Prop := (forall p, A p -> inner p u <= h) /\ exists p, A p /\ inner p u = h.
(** the line is a tangent of both sets, which are on the same side of it *)
Definition tangent (A B : shape) (u : pt) : Prop := exists h, supports A u h /\ supports B u h.
(** the point of the circle in direction [u] *)
Definition rim (c : pt) (r : R) (u : pt) : pt := P (px c + r * px u) (py c + r * py u).
Definition distance (a b : pt) : R := sqrt (dist2 a b).
(** the height of the chord of the arc from [a] to [b]: how far the middle of the arc is from the middle of the chord *)
Definition sagitta (c : pt) (r a b : R) : R :=
  distance (rim c r (toward ((a + b) / 2))) (mix (/ 2) (rim c r (toward a)) (rim c r (toward b))).
