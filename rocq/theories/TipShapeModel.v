(** The shape of a brush tip: /repo/ink/strokes/internal/brush_tip_shape.cc, its construction, bounds and
    containment, for either reading of [num].  A failing ABSL_CHECK is [None]. *)
From Coq Require Import ZArith Bool List.
From Verif Require Import NumModel BehaviorModel GeomModel AffineModel CircleModel.
Import ListNotations.

Section TipShape.
Context {N : num}.
Variable acos : T N -> T N.
Notation "x + y" := (nadd N x y). Notation "x - y" := (nsub N x y).
Notation "x * y" := (nmul N x y). Notation "x / y" := (ndiv N x y).
Notation "x <? y" := (nlt N x y). Notation "x <=? y" := (nle N x y). Notation "x =? y" := (neqb N x y).

(** brush_tip_shape.h 148-149 *)
Record shape := Shape { s_center : vec N; s_circles : list (circle N) }.
(** CalculateCircleRadius: 53-64 *)
Definition circle_radius (percent half_width half_height min_sep : T N) : T N :=
  let unmodified := percent * nmin half_width half_height in
  if unmodified <? min_sep then n0 else unmodified.
(** make_circle of MakeShapeControlCircles: 99-104 *)
Definition corner (s : @tip_state N) (radius x y : T N) : option (circle N) :=
  let center_with_slant := padd (apply (rotate (ts_slant s)) (V n0 y)) (V x n0) in
  make_circle (apply (compose (translate (V (ts_x s) (ts_y s))) (rotate (ts_rotation s))) center_with_slant) radius.
Fixpoint all_of {A} (l : list (option A)) : option (list A) :=
  match l with
  | [] => Some []
  | None :: _ => None
  | Some a :: l => match all_of l with Some r => Some (a :: r) | None => None end
  end.
(** MakeShapeControlCircles: 66-143 *)
Definition control_circles (s : @tip_state N) (min_sep : T N) : option (list (circle N)) :=
  if negb ((n0 <=? ts_width s) && (n0 <=? ts_height s) && (n0 <=? ts_percent_radius s) && (ts_percent_radius s <=? n1) && (n0 <=? ts_pinch s) && (ts_pinch s <=? n1)) then None
  else
    let half_width := half * ts_width s in
    let half_height := half * ts_height s in
    let radius := circle_radius (ts_percent_radius s) half_width half_height min_sep in
    let x := half_width - radius in
    let y := half_height - radius in
    let x := if nZ 2 * x <? min_sep then n0 else x in
    let y := if nZ 2 * y <? min_sep then n0 else y in
    let at_ := corner s radius in
    let minus x := nopp N x in
    if (x =? n0) && (y =? n0) then all_of [make_circle (V (ts_x s) (ts_y s)) radius]
    else if y =? n0 then all_of [at_ x n0; at_ (minus x) n0]
    else if x =? n0 then all_of [at_ n0 y; at_ n0 (minus y)]
    else
      let pinched := (n1 - ts_pinch s) * x in
      if nZ 2 * pinched <? min_sep then all_of [at_ x y; at_ (minus x) y; at_ n0 (minus y)]
      else all_of [at_ x y; at_ (minus x) y; at_ (minus pinched) (minus y); at_ pinched (minus y)].
(** the constructor: 147-152; std::numeric_limits<float>::min() *)
Definition make_shape (s : @tip_state N) (min_sep : T N) : option shape :=
  match control_circles s (nmax min_sep (ndy N 1 (-126))) with
  | Some l => Some (Shape (V (ts_x s) (ts_y s)) l)
  | None => None
  end.
(** the box of one circle: Rect::FromCenterAndDimensions of a diameter *)
Definition circle_bounds (c : circle N) : option (rect N) := let d := nZ 2 * radius c in rect_from_center (center c) d d.
(** Bounds: 434-447; there is no shape without circles *)
Definition bounds (s : shape) : option (rect N) :=
  match s_circles s with
  | [] => None
  | c :: l =>
      fold_left (fun b c => match b, circle_bounds c with Some b, Some r => Some (rect_join b r) | _, _ => None end) l (circle_bounds c)
  end.
(** GetNextPerimeterIndexCw, GetNextPerimeterIndexCcw: 901-909 *)
Definition next_cw (s : shape) (i : nat) : nat := match i with 0 => Nat.pred (length (s_circles s)) | S i => i end.
Definition next_ccw (s : shape) (i : nat) : nat := if Nat.leb (length (s_circles s)) (S i) then 0 else S i.
(** ShapeIsOutsideOfCorner: 802-864 *)
Definition outside_corner (other : shape) (corner : circle N) (incoming outgoing : T N) : bool :=
  let outgoing := if outgoing <? incoming then outgoing + full_turn else outgoing in
  existsb (fun test =>
    if contains corner test then false
    else if contains test corner then true
    else
      let angle := right_tangent_angle acos corner test in
      let angle := if angle <? incoming then angle + full_turn else angle in
      angle <? outgoing) (s_circles other).
(** the loop of Contains: 886-898; [first] is the first circle, and the list is the rest of the circles with [corner] in front *)
Fixpoint no_corner_outside (other : shape) (first : circle N) (incoming : T N) (corner : circle N) (rest : list (circle N)) : bool :=
  let next := match rest with [] => first | c :: _ => c end in
  let outgoing := right_tangent_angle acos corner next in
  if outside_corner other corner incoming outgoing then false
  else match rest with [] => true | c :: rest => no_corner_outside other first outgoing c rest end.
(** BrushTipShape::Contains: 868-899 *)
Definition shape_contains (s other : shape) : option bool :=
  match bounds s, bounds other with
  | Some b, Some b' =>
      if negb (rect_contains_rect b b') then Some false
      else match s_circles s with
           | [] => None
           | [c] => Some (forallb (contains c) (s_circles other))
           | c :: rest => Some (no_corner_outside other c (right_tangent_angle acos (last rest c) c) c rest)
           end
  | _, _ => None
  end.
End TipShape.
Arguments shape : clear implicits.
