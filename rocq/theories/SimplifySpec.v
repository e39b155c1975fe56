(** What simplifying a polyline should do. *)
From Coq Require Import Reals List.
From Verif Require Import GeomSpec.
Import ListNotations.

Section Spec.
Context {A : Type}.
(** [k] is [l] without some runs of vertices; for each vertex [v] of a run between the kept [a] and
    [b] we have [near a b v]. *)
Inductive drops (near : A -> A -> A -> Prop) : list A -> list A -> Prop :=
| drop_end a : drops near [a] [a]
| drop_run a mid b l k : (forall v, In v mid -> near a b v) -> drops near (b :: l) (b :: k) -> drops near (a :: mid ++ b :: l) (a :: b :: k).
(** The algorithm of Ramer, Douglas and Peucker between [a] and [b]: drop everything if nothing is
    farther than allowed from the segment; or else keep the (first) farthest vertex and go on on
    both sides of it. *)
Inductive peucker (far : A -> A -> A -> Prop) (as_far farther : A -> A -> A -> A -> Prop) : A -> A -> list A -> list A -> Prop :=
| p_stop a b l : (forall v, In v l -> ~ far a b v) -> peucker far as_far farther a b l []
| p_split a b l1 v l2 k1 k2 : far a b v -> (forall x, In x l1 -> ~ as_far a b x v) -> (forall x, In x l2 -> ~ farther a b x v) ->
    peucker far as_far farther a v l1 k1 -> peucker far as_far farther v b l2 k2 -> peucker far as_far farther a b (l1 ++ v :: l2) (k1 ++ v :: k2).
End Spec.
(** the points of a polyline *)
Definition on_line (l : list pt) (p : pt) : Prop := exists l1 a b l2, l = l1 ++ a :: b :: l2 /\ seg_set a b p.
Definition within (d : R) (p q : pt) : Prop := (sqrt (dist2 p q) <= d)%R.
