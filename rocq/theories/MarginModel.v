(** How far the vertices of a stroke mesh may be moved apart for anti-aliasing: the margins and averaged derivatives of
    /repo/ink/strokes/internal/brush_tip_extruder/derivative_calculator.cc, for either reading of [num].
    What a mesh is asked for is a record of functions; writes to the mesh are returned as a list.  Storing a margin in a label (WithMargin) is in StrokeVertexModel.
    Which triangles contribute which derivatives (AddDerivativesForTriangle, 191-268) is not modelled. *)
From Coq Require Import ZArith Bool Arith List.
From Verif Require Import NumModel GeomModel AlgorithmsModel CircleModel.
Import ListNotations.

Section Margin.
Context {N : num}.
(** position, DerivativeOutsetSign of the side label (-1, 0 or 1), side derivative, whether the forward category is kExteriorBack, and the triangles in order;
    only whether two categories are kExteriorBack is ever asked for margins *)
Record view := View { place : nat -> vec N; outset : nat -> Z; slope : nat -> vec N; back : nat -> bool; triangles : list (nat * nat * nat) }.
(** StrokeVertex::kMaximumMargin: stroke_vertex.h 96 *)
Definition most : T N := nZ 4.
(** ForEachTriangleWithTrackedIndices: 132-151; the triangles handed on, from the last *)
Fixpoint handed (least : nat) (from_last : list (nat * nat * nat)) : list (nat * nat * nat) :=
  match from_last with
  | [] => []
  | (i, j, k) :: rest => if (i <? least) && (j <? least) && (k <? least) then [] else (i, j, k) :: handed least rest
  end.
(** MakeOutsetSegment: 367-371 *)
Definition outset_segment (v : vec N) (sign : T N) (d : vec N) : segment N := Seg v (V (nadd N (vx v) (nmul N sign (vx d))) (nadd N (vy v) (nmul N sign (vy d)))).
(** MakeBoundingSegment: 377-388; 0.1f and 0.9f *)
Definition bounding_segment (v : vec N) (edge : segment N) : segment N :=
  let r := nclamp (match seg_project edge v with Some r => r | None => half end) (ndy N 13421773 (-27)) (ndy N 15099494 (-24)) in
  Seg v (seg_lerp edge r).
(** MarginUpperBound: 393-414 *)
Definition margin_bound (o b : segment N) : T N :=
  match line_ratio o b with
  | Some (t, _) => if nle N n0 t then t else most
  | None => most
  end.
(** the bound for one vertex: 479-497 *)
Definition vertex_bound (m : view) (i : nat) (b c : segment N) : T N :=
  if Z.eqb (outset m i) 0 then n0
  else let o := outset_segment (place m i) (nZ (outset m i)) (slope m i) in nmin (margin_bound o b) (margin_bound o c).
(** AddMarginUpperBoundsForTriangle: 422-498, as the list of calls of SaveSideMarginUpperBound *)
Definition triangle_bounds (m : view) (t : nat * nat * nat) : list (nat * T N) :=
  let '(i, j, k) := t in
  let a := place m i in
  let b := place m j in
  let c := place m k in
  if neqb N (signed_area (Tri a b c)) n0 then
    if negb (veq a b) && negb (veq a c) && negb (veq b c) then [(i, n0); (j, n0); (k, n0)] else []
  else
    let sa := bounding_segment a (Seg b c) in
    let sb := bounding_segment b (Seg c a) in
    let sc := bounding_segment c (Seg a b) in
    [(i, vertex_bound m i sb sc); (j, vertex_bound m j sc sa); (k, vertex_bound m k sa sb)].
Fixpoint change_at {A} (f : A -> A) (n : nat) (l : list A) : list A :=
  match l, n with
  | [], _ => []
  | x :: l, 0 => f x :: l
  | x :: l, S n => x :: change_at f n l
  end.
(** SaveSideMarginUpperBound: 351-357 *)
Definition save (least : nat) (tracked : list (T N)) (s : nat * T N) : list (T N) :=
  if fst s <? least then tracked else change_at (fun current => nmin current (snd s)) (fst s - least) tracked.
(** AccumulateMargins: 342-349, from the values of ResetTrackedValues: 99-104 *)
Definition accumulate (least count : nat) (m : view) : list (T N) :=
  fold_left (save least) (flat_map (triangle_bounds m) (handed least (rev (triangles m)))) (repeat most (count - least)).
(** StartingCoincidentConnectedCount: 509-532, less one *)
Fixpoint connected (m : view) (first : vec N) (previous : nat) (l : list nat) : nat :=
  match l with
  | [] => 0
  | i :: l => if negb (veq (place m i) first) then 0 else if back m previous && negb (back m i) then 0 else S (connected m first i l)
  end.
(** CalculateSideMargin: 536-558; an index out of range, which the code does not check, gives [most] *)
Definition side_margin (least : nat) (tracked : list (T N)) (group : list nat) : T N := fold_left (fun current i => nmin current (nth (i - least) tracked most)) group most.
(** UpdateMeshMargins: 561-577; what is written, in order *)
Fixpoint update_margins (fuel least : nat) (tracked : list (T N)) (m : view) (indices : list nat) : list (nat * T N) :=
  match fuel, indices with
  | S fuel, i :: rest =>
      let n := connected m (place m i) i rest in
      let group := i :: firstn n rest in
      map (fun x => (x, side_margin least tracked group)) group ++ update_margins fuel least tracked m (skipn n rest)
  | _, _ => []
  end.

(** AverageDerivative: derivative_calculator.h 42-59 *)
Record average := Average { lengths : T N; units : vec N; entries : nat }.
Definition no_average : average := Average n0 (V n0 n0) 0.
(** Add: derivative_calculator.cc 41-54 *)
Definition add_vec (a : average) (v : vec N) : average :=
  let m := magnitude v in
  if neqb N m n0 then a
  else Average (nadd N (lengths a) m) (V (nadd N (vx (units a)) (ndiv N (vx v) m)) (nadd N (vy (units a)) (ndiv N (vy v) m))) (S (entries a)).
Definition add_average (a b : average) : average :=
  Average (nadd N (lengths a) (lengths b)) (V (nadd N (vx (units a)) (vx (units b))) (nadd N (vy (units a)) (vy (units b)))) (entries a + entries b).
(** Value: 56-60 *)
Definition value (a : average) : vec N :=
  if Nat.eqb (entries a) 0 then V n0 n0
  else from_direction (direction (units a)) (ndiv N (lengths a) (nZ (Z.of_nat (entries a)))).
End Margin.
Arguments view : clear implicits.
Arguments average : clear implicits.
