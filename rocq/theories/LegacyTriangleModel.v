(** Containment of a point in a triangle as the stroke tessellation decides it: /repo/ink/geometry/internal/legacy_triangle_contains.cc, for either reading of [num]. *)
From Coq Require Import Bool.
From Verif Require Import NumModel GeomModel LegacyModel.

Section LegacyTriangle.
Context {N : num}.
Variable next previous : T N -> T N.
(** ReverseRelativePosition: legacy_vector_utils.h 24-28 *)
Definition reverse (r : relative) : relative := match r with OnLeft => OnRight | OnRight => OnLeft | r => r end.
(** operator== of the enumeration *)
Definition relative_eqb (r s : relative) : bool :=
  match r, s with
  | OnLeft, OnLeft | OnRight, OnRight | OnLine, OnLine | Indeterminate, Indeterminate => true
  | _, _ => false
  end.
(** LegacyTriangleContains: legacy_triangle_contains.cc 24-35 *)
Definition legacy_contains (t : triangle N) (p : vec N) : bool :=
  if veq p (p0 t) || veq p (p1 t) || veq p (p2 t) then true
  else
    let r1 := position_relative next previous (p0 t) (p1 t) p in
    let r2 := position_relative next previous (p1 t) (p2 t) p in
    if relative_eqb r1 (reverse r2) then false
    else
      let r3 := position_relative next previous (p2 t) (p0 t) p in
      negb (relative_eqb r1 (reverse r3)) && negb (relative_eqb r2 (reverse r3)).
End LegacyTriangle.
