(** The plane and its point sets, in real numbers. *)
From Coq Require Import Reals List.
Import ListNotations.
Local Open Scope R_scope.

Record pt := P { px : R; py : R }.
(** the point at ratio [t] on the way from [a] to [b] *)
Definition mix (t : R) (a b : pt) : pt := P ((1 - t) * px a + t * px b) ((1 - t) * py a + t * py b).
Definition shape := pt -> Prop.
Definition meet (S U : shape) : Prop := exists p, S p /\ U p.
(** all points between two points; all weighted averages of three points; the points within an
    axis-aligned box; the parallelogram with the given center and semi-axes *)
Definition point_set (a : pt) : shape := fun p => p = a.
Definition seg_set (a b : pt) : shape := fun p => exists t, 0 <= t <= 1 /\ p = mix t a b.
Definition tri_set (a b c : pt) : shape := fun p => exists u v w, 0 <= u /\ 0 <= v /\ 0 <= w /\ u + v + w = 1 /\
  p = P (u * px a + v * px b + w * px c) (u * py a + v * py b + w * py c).
Definition box_set (x0 y0 x1 y1 : R) : shape := fun p => x0 <= px p <= x1 /\ y0 <= py p <= y1.
Definition par_set (c u v : pt) : shape := fun p => exists s t, -1 <= s <= 1 /\ -1 <= t <= 1 /\
  p = P (px c + s * px u + t * px v) (py c + s * py u + t * py v).
Definition dist2 (a b : pt) : R := (px a - px b) * (px a - px b) + (py a - py b) * (py a - py b).
(** The shape of a Quad as its documentation defines it: quad.h 30-41 *)
Definition quad_u (w r : R) : pt := P (/ 2 * w * cos r) (/ 2 * w * sin r).
Definition quad_v (h r s : R) : pt := P (/ 2 * h * (s * cos r - sin r)) (/ 2 * h * (s * sin r + cos r)).
Definition quad_set (c : pt) (w h r s : R) : shape := par_set c (quad_u w r) (quad_v h r s).
