(** What a query of a set of boxes should do. *)
From Coq Require Import Reals List Permutation.
From Flocq Require Import IEEE754.BinarySingleNaN.
From Verif Require Import F32 F32Lemmas NumModel GeomModel.
Import ListNotations.
Local Open Scope R_scope.

Section Spec.
Variable E : elem.
(** a box whose coordinates are numbers (infinities included) in the right order *)
Record box_ok (r : rect (fnum E)) : Prop := {
  b_x0 : is_nan (x_min r) = false; b_y0 : is_nan (y_min r) = false; b_x1 : is_nan (x_max r) = false; b_y1 : is_nan (y_max r) = false;
  b_x : fX (x_min r) <= fX (x_max r); b_y : fX (y_min r) <= fX (y_max r) }.
(** position on the extended line: [fX] *)
Definition inside (r : rect (fnum E)) (x y : R) : Prop :=
  fX (x_min r) <= x <= fX (x_max r) /\ fX (y_min r) <= y <= fX (y_max r).
Definition overlap (a b : rect (fnum E)) : Prop := exists x y, inside a x y /\ inside b x y.
End Spec.

(** [L] is the list of those elements of [l] that satisfy [P] *)
Inductive selects {A} (P : A -> Prop) : list A -> list A -> Prop :=
| sel_nil : selects P [] []
| sel_take a l L : P a -> selects P l L -> selects P (a :: l) (a :: L)
| sel_skip a l L : ~ P a -> selects P l L -> selects P (a :: l) L.
(** calling a visitor on one element after the other until it returns false *)
Inductive visits {A S} (v : S -> A -> S * bool) : list A -> S -> S -> Prop :=
| v_nil s : visits v [] s s
| v_go a l s s1 s2 : v s a = (s1, true) -> visits v l s1 s2 -> visits v (a :: l) s s2
| v_stop a l s s1 : v s a = (s1, false) -> visits v (a :: l) s s1.
