(** The common part of two segments, in real numbers. *)
From Coq Require Import Reals.
From Verif Require Import GeomSpec.
Local Open Scope R_scope.

(** the common part of the segment from [a] to [b] and that from [c] to [d] goes from [t0] to [t1] along the first, and from [u0] to [u1] along the second *)
Definition overlap (a b c d : pt) (t0 t1 u0 u1 : R) : Prop :=
  0 <= t0 <= t1 /\ t1 <= 1 /\ 0 <= u0 <= 1 /\ 0 <= u1 <= 1 /\ mix t0 a b = mix u0 c d /\ mix t1 a b = mix u1 c d /\
  forall t, 0 <= t <= 1 -> seg_set c d (mix t a b) -> t0 <= t /\ (a <> b -> t <= t1).
