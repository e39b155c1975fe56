(** RoundedPolygon: /repo/ink/strokes/internal/rounded_polygon.{h,cc}, for either reading of [num].  [acos] is std::acos; a failing
    ABSL_CHECK is [None]. *)
From Coq Require Import ZArith Bool List.
From Verif Require Import NumModel GeomModel CircleModel.
Import ListNotations.

Section Rounded.
Context {N : num}.
Variable acos : T N -> T N.
(** RoundedPolygon::Arc: rounded_polygon.h 48-59 *)
Record arc := Arc { a_circle : circle N; a_from : vec N; a_to : vec N }.
(** the constructor: rounded_polygon.cc 33-65.  [arcs_from]: the loop and the last arc *)
Fixpoint arcs_from (last_angle incoming : T N) (c : circle N) (rest : list (circle N)) : option (list arc) :=
  match rest with
  | [] => Some [Arc c (from_direction incoming n1) (from_direction last_angle n1)]
  | d :: rest =>
      if contains c d || contains d c then None
      else let outgoing := right_tangent_angle acos c d in
           match arcs_from last_angle outgoing d rest with
           | Some arcs => Some (Arc c (from_direction incoming n1) (from_direction outgoing n1) :: arcs)
           | None => None
           end
  end.
Definition make_polygon (circles : list (circle N)) : option (list arc) :=
  match circles with
  | [] | [_] => None
  | front :: rest =>
      let back := last rest front in
      if contains front back || contains back front then None
      else let last_angle := right_tangent_angle acos back front in arcs_from last_angle last_angle front rest
  end.
(** The double 5e-6 is between this float and the next, so that a float is less than 5e-6 if and only if it is at most this float *)
Definition no_arc : T N := ndy N 10995116 (-41).
(** SignedDistanceToArc: 78-119 *)
Definition arc_distance (a : arc) (p : vec N) : option (T N) :=
  let v := vsub p (center (a_circle a)) in
  let d := det (a_from a) (a_to a) in
  if nle N (nabs N d) no_arc then None
  else if nlt N d n0 then
    if nlt N (det (a_from a) v) n0 && nlt N n0 (det (a_to a) v) then None else Some (nsub N (magnitude v) (radius (a_circle a)))
  else if nlt N (det (a_from a) v) n0 || nlt N n0 (det (a_to a) v) then None else Some (nsub N (magnitude v) (radius (a_circle a))).
(** SignedDistanceToSegment: 125-133 *)
Definition segment_distance (s : segment N) (p : vec N) : option (T N) :=
  match seg_project s p with
  | None => None
  | Some r => if nlt N r n0 || nlt N n1 r then None
              else Some (ndiv N (nopp N (det (seg_vector s) (vsub p (s_start s)))) (seg_length s))
  end.
(** GetSegment: rounded_polygon.h 101-111 *)
Definition joining (a b : arc) : segment N :=
  Seg (padd (center (a_circle a)) (vscale (radius (a_circle a)) (a_to a))) (padd (center (a_circle b)) (vscale (radius (a_circle b)) (a_from b))).
Definition get_segment (arcs : list arc) (i : nat) : option (segment N) :=
  match nth_error arcs i, nth_error arcs (Nat.modulo (S i) (length arcs)) with Some a, Some b => Some (joining a b) | _, _ => None end.
(** comparison of an optional with a float: no value is less than every value *)
Definition exceeds (d : option (T N)) (x : T N) : bool := match d with Some d => nlt N x d | None => false end.
(** ContainsCircle: rounded_polygon.cc 137-148 *)
Definition polygon_contains (arcs : list arc) (c : circle N) : bool :=
  forallb (fun i => match nth_error arcs i, get_segment arcs i with
                    | Some a, Some s => negb (exceeds (arc_distance a (center c)) (nopp N (radius c)) || exceeds (segment_distance s (center c)) (nopp N (radius c)))
                    | _, _ => false
                    end) (seq 0 (length arcs)).
End Rounded.
Arguments arc : clear implicits.
