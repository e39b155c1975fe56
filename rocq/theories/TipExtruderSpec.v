(** What the outlines of a stroke should be: its two sides, cut into consecutive pieces. *)
From Coq Require Import Permutation List.
From Verif Require Import ExtruderGeometryModel TipExtruderModel.
From Verif Require StrokeOutlineModel StrokeOutlineSpec StrokeOutlineProps.
Import ListNotations.

(** an outline goes back along its piece of the right side and then along its piece of the left side *)
Definition around (p : list nat * list nat) : list nat := rev (snd p) ++ fst p.
(** [pieces] cut both sides, in order and completely, and each has something of a side *)
Definition cuts (pieces : list (list nat * list nat)) (left right : list nat) : Prop :=
  concat (map fst pieces) = left /\ concat (map snd pieces) = right /\ Forall (fun p => around p <> []) pieces.

Section Spec.
Variables (core shade T J R P X : Type) (zero_vertex : core * shade) (zero_triangle : T) (fresh : nat -> nat -> R) (empty_disc : J) (position : core -> P) (default : option X).
Notation extruder := (extruder core shade T J R P X).
(** an order in which the saved hash maps may be walked *)
Definition walks (e : extruder) sv st so : Prop :=
  Permutation sv (saved_vertices (save (geo e))) /\ Permutation st (saved_triangles (save (geo e))) /\ Permutation so (saved_opposites (save (geo e))).
(** the extruder of a stroke that was started and extended any number of times; [qs]: what its first outline was used for before *)
Inductive stroke : extruder -> Prop :=
  | started r qs o : StrokeOutlineModel.run StrokeOutlineModel.fresh (map StrokeOutlineProps.op_of qs) = Some o -> stroke (start_stroke r o)
  | extended e sv st so fixed volatile caps closing derivatives e' : stroke e -> walks e sv st so ->
      extend zero_vertex zero_triangle fresh empty_disc position default e sv st so fixed volatile caps closing derivatives = Done e' -> stroke e'.
(** two strokes that were given the same fixed events, but perhaps other volatile ones each time *)
Inductive same_fixed : extruder -> extruder -> Prop :=
  | both_started r qs o qs' o' : StrokeOutlineModel.run StrokeOutlineModel.fresh (map StrokeOutlineProps.op_of qs) = Some o -> StrokeOutlineModel.run StrokeOutlineModel.fresh (map StrokeOutlineProps.op_of qs') = Some o' ->
      same_fixed (start_stroke r o) (start_stroke r o')
  | both_extended a b sv st so sv' st' so' fixed volatile volatile' caps closing derivatives caps' closing' derivatives' a' b' : same_fixed a b -> walks a sv st so -> walks b sv' st' so' ->
      extend zero_vertex zero_triangle fresh empty_disc position default a sv st so fixed volatile caps closing derivatives = Done a' ->
      extend zero_vertex zero_triangle fresh empty_disc position default b sv' st' so' fixed volatile' caps' closing' derivatives' = Done b' -> same_fixed a' b'.
End Spec.
Arguments same_fixed {core shade T J R P X}.
Arguments walks {core shade T J R P X}.
Arguments stroke {core shade T J R P X}.
