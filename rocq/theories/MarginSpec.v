(** Staying on one side of a line, in real numbers. *)
From Coq Require Import ZArith Reals List.
From Verif Require Import GeomSpec.
Local Open Scope R_scope.

(** positive to the left of the line from [a] to [b], negative to its right *)
Definition aside (a b x : pt) : R := (px b - px a) * (py x - py a) - (py b - py a) * (px x - px a).
(** the line is not crossed on the way from [x] to [y]: [y] is not on the other side *)
Definition keeps (a b x y : pt) : Prop := 0 <= aside a b x * aside a b y.
Definition moved (v : pt) (k : R) (d : pt) : pt := P (px v + k * px d) (py v + k * py d).
(** 0.1f and 0.9f *)
Definition tenth : R := 13421773 / 134217728.
Definition nine_tenths : R := 15099494 / 16777216.
(** [x] is the point nearest to [v] in the middle part of the segment from [c] to [d] *)
Definition gate (v c d x : pt) : Prop := exists r, tenth <= r <= nine_tenths /\ x = mix r c d /\ forall r', tenth <= r' <= nine_tenths -> dist2 v x <= dist2 v (mix r' c d).
(** a corner [v] of a triangle with the other corners [c] and [d] can be moved along [d'] up to [m] times without crossing either line from another corner through its gate in the
    side opposite to it; these lines do separate [v] from the third corner *)
Definition free (v c d dir : pt) (m : R) : Prop := exists g h, gate c d v g /\ gate d v c h /\ aside c g v * aside c g d < 0 /\ aside d h v * aside d h c < 0 /\
  forall t, 0 <= t <= m -> keeps c g v (moved v t dir) /\ keeps d h v (moved v t dir).
(** and no farther than that is possible, unless up to 4 *)
Definition farthest (v c d dir : pt) (m : R) : Prop := m = 4 \/ exists g h, gate c d v g /\ gate d v c h /\ (aside c g (moved v m dir) = 0 \/ aside d h (moved v m dir) = 0).
