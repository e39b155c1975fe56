(** ConvexHull: /repo/ink/geometry/convex_hull.h 27-31, internal/convex_hull_helper.h 43-151 (with Point as the vertex type:
    internal/point_tessellation_helper.h 26-45).
    [sort] stands for std::sort, whose result is only specified when the comparison is a strict weak ordering; it is a parameter. *)
From Coq Require Import ZArith Bool Arith List.
From Verif Require Import NumModel GeomModel.
Import ListNotations.

Section Hull.
Context {N : num}.
Variable sort : (vec N -> vec N -> bool) -> list (vec N) -> list (vec N).
(** PruneUsingAkiToussaint: 43-90.  The four extreme points are found in one pass; [else if] as written *)
Definition extremes := (vec N * vec N * vec N * vec N)%type. (* max x, min x, max y, min y *)
Definition extreme_step (e : extremes) (p : vec N) : extremes :=
  let '(xx, nx, xy, ny) := e in
  let '(xx, nx) := if nlt N (vx xx) (vx p) then (p, nx) else if nlt N (vx p) (vx nx) then (xx, p) else (xx, nx) in
  let '(xy, ny) := if nlt N (vy xy) (vy p) then (p, ny) else if nlt N (vy p) (vy ny) then (xy, p) else (xy, ny) in
  (xx, nx, xy, ny).
Definition prune (ps : list (vec N)) : list (vec N) :=
  match ps with
  | [] => []
  | p :: r =>
      let '(xx, nx, xy, ny) := fold_left extreme_step r (p, p, p, p) in
      filter (fun q => negb (tri_contains (Tri nx xx xy) q) && negb (tri_contains (Tri nx ny xx) q)) ps
  end.
(** std::min_element: 107-112 *)
Definition lower (a b : vec N) : bool := nlt N (vy a) (vy b) || (neqb N (vy a) (vy b) && nlt N (vx a) (vx b)).
Definition start_point (p : vec N) (r : list (vec N)) : vec N := fold_left (fun m q => if lower q m then q else m) r p.
(** the comparison by angle: 121-130 *)
Definition by_angle (s a b : vec N) : bool :=
  let u := vsub a s in let v := vsub b s in
  let d := det u v in
  nlt N n0 d || (neqb N d n0 && nlt N (nabs N (vx u)) (nabs N (vx v))).
(** removing concavities: 133-147.  The hull is kept with its last point first. *)
Fixpoint pop (h : list (vec N)) (p : vec N) : list (vec N) :=
  match h with
  | b :: ((a :: _) as r) => if nle N (det (vsub b a) (vsub p b)) n0 then pop r p else h
  | _ => h
  end.
Definition scan (s : vec N) (l : list (vec N)) : list (vec N) := rev (fold_left (fun h p => p :: pop h p) l [s]).
(** ConvexHull: 92-150 *)
Definition convex_hull (ps : list (vec N)) : list (vec N) :=
  match ps with
  | [] | [_] => ps
  | p :: r =>
      let pruned := if (500 <? length ps)%nat then prune ps else ps in
      let s := start_point p r in
      scan s (sort (by_angle s) (filter (fun v => negb (veq v s)) pruned))
  end.
End Hull.
