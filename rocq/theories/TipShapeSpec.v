(** What shape a tip should have, in real numbers. *)
From Coq Require Import Reals List.
From Verif Require Import GeomSpec CircleSpec.
Import ListNotations.
Local Open Scope R_scope.

(** the shape of a tip: its place, size, rounding, pinch, slant and rotation *)
Record tip := Tip { t_at : pt; t_width : R; t_height : R; t_rounding : R; t_pinch : R; t_slant : R; t_rotation : R }.
Definition valid (t : tip) : Prop := 0 <= t_width t /\ 0 <= t_height t /\ 0 <= t_rounding t <= 1 /\ 0 <= t_pinch t <= 1.
Definition plus (a b : pt) : pt := P (px a + px b) (py a + py b).
Definition turned (a : R) (p : pt) : pt := P (px p * cos a - py p * sin a) (px p * sin a + py p * cos a).
(** from the tip's own coordinates to the plane: the upright direction is slanted, and then everything is rotated *)
Definition placed (t : tip) (x y : R) : pt := plus (t_at t) (turned (t_rotation t) (plus (P x 0) (turned (t_slant t) (P 0 y)))).
(** a set of discs: their centers and radii *)
Definition discs := list (pt * R).
Definition discs_set (l : discs) : GeomSpec.shape := fun p => exists c r, In (c, r) l /\ disc c r p.
(** the tip as described: a rounded box, narrowed at the bottom *)
Definition ideal_radius (t : tip) : R := t_rounding t * Rmin (t_width t / 2) (t_height t / 2).
Definition ideal (t : tip) : discs :=
  let r := ideal_radius t in
  let x := t_width t / 2 - r in
  let y := t_height t / 2 - r in
  let b := (1 - t_pinch t) * x in
  [(placed t x y, r); (placed t (- x) y, r); (placed t (- b) (- y), r); (placed t b (- y), r)].
(** how far the discs reach in direction [u] *)
Definition reach (l : discs) (u : pt) (h : R) : Prop := supports (discs_set l) u h.
(** the closed convex hull: what is in every half-plane that has all of the set *)
Definition hull (A : GeomSpec.shape) : GeomSpec.shape := fun p => forall u h, (forall q, A q -> inner q u <= h) -> inner p u <= h.
