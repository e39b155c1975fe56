(** What saving and reverting should do: everything but the shading of old vertices is as it was. *)
From Coq Require Import Arith Permutation List.
From Verif Require Import ExtruderGeometryModel.
Import ListNotations.

Section Spec.
Variables (core shade T J R : Type) (zero_vertex : core * shade) (zero_triangle : T) (fresh : nat -> nat -> R) (empty_disc : J).
Notation geometry := (geometry core shade T J R).

(** two geometries that describe the same stroke, apart from the shading of its vertices, and are continued in the same way *)
Record same_stroke (g g' : geometry) : Prop := SameStroke {
  same_cores : map fst (vertices g) = map fst (vertices g');
  same_triangles : triangles g = triangles g';
  same_ids : ids g = ids g';
  same_offsets : offsets g = offsets g';
  same_opposites : opposites g = opposites g';
  same_left : left g = left g';
  same_right : right g = right g';
  same_break : last_break g = last_break g' }.

(** what can be reached by starting a stroke and calling anything *)
Inductive reachable : geometry -> Prop :=
  | started r : reachable (new_geometry r)
  | stepped g o g' : reachable g -> step zero_vertex zero_triangle fresh empty_disc g o = Some g' -> reachable g'
  | saved g : reachable g -> reachable (set_save_point zero_vertex g)
  | reverted g sv st so g' : reachable g -> Permutation sv (saved_vertices (save g)) -> Permutation st (saved_triangles (save g)) -> Permutation so (saved_opposites (save g)) ->
      revert zero_vertex zero_triangle empty_disc g sv st so = Some g' -> reachable g'.
End Spec.
Arguments same_stroke {core shade T J R}.
Arguments reachable {core shade T J R}.
