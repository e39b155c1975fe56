(** Circles: /repo/ink/geometry/internal/circle.{h,cc}, for either reading of [num].  [acos] is std::acos. *)
From Coq Require Import ZArith Bool List.
From Verif Require Import NumModel GeomModel.
Import ListNotations.

Section Circle.
Context {N : num}.
Variable acos : T N -> T N.
Notation "x + y" := (nadd N x y). Notation "x - y" := (nsub N x y).
Notation "x * y" := (nmul N x y). Notation "x / y" := (ndiv N x y).
(** circle.h 31-124 *)
Record circle := Circle { center : vec N; radius : T N }.
(** the constructor: 129-132; a radius that is not at least 0 fails the CHECK *)
Definition make_circle (c : vec N) (r : T N) : option circle := if nle N n0 r then Some (Circle c r) else None.
(** Vec::FromDirectionAndMagnitude: vec.h 34-36 *)
Definition from_direction (a m : T N) : vec N := V (m * ncos N a) (m * nsin N a).
(** GetPoint: 138-140 *)
Definition get_point (c : circle) (a : T N) : vec N := padd (center c) (from_direction a (radius c)).
(** Contains: 151-153 *)
Definition contains (a b : circle) : bool := nle N (magnitude (vsub (center b) (center a)) + radius b) (radius a).
(** GetTangentAngles: circle.cc 58-79; the left and the right angle *)
Definition tangent_angles (a b : circle) : option (T N * T N) :=
  let offset := vsub (center b) (center a) in
  let distance := magnitude offset in
  let delta := radius a - radius b in
  if veq (center a) (center b) || nle N distance (nabs N delta) then None
  else let o := acos (delta / distance) in let r := direction offset in
       Some (normalized_about_zero (r + o), normalized_about_zero (r - o)).
(** GuaranteedRightTangentAngle: circle.h 142-149, after its DCHECKs *)
Definition right_tangent_angle (a b : circle) : T N :=
  let offset := vsub (center b) (center a) in
  normalized_about_zero (direction offset - acos ((radius a - radius b) / magnitude offset)).
(** GetArcAngleForChordHeight: circle.cc 81-84 *)
Definition arc_angle (c : circle) (height : T N) : T N :=
  if neqb N (radius c) n0 then n0 else nZ 2 * acos (nclamp (n1 - height / radius c) (nopp N n1) n1).
Definition nceil (x : T N) : T N := nopp N (nfloor N (nopp N x)).
(** [Undefined]: a NaN is converted to int32_t *)
Inductive outcome := Done (polyline : list (vec N)) | CheckFails | Undefined.
(** AppendArcToPolyline: circle.cc 31-56 *)
Definition append_arc (c : circle) (start arc height : T N) (polyline : list (vec N)) : outcome :=
  if negb (nlt N n0 height) then CheckFails
  else if neqb N (radius c) n0 then Done (polyline ++ [center c; center c])
  else
    let max_step := arc_angle c height in
    let count := nclamp (nceil (nabs N (arc / max_step))) n1 (nZ 32767) in
    if nnan N count then Undefined
    else
      let steps := ntrunc N count in
      let step := arc / nZ steps in
      Done (polyline ++ get_point c start :: map (fun i => get_point c (start + nZ (Z.of_nat i) * step)) (seq 1 (Z.to_nat steps - 1)) ++ [get_point c (start + arc)]).
End Circle.
Arguments circle : clear implicits.
Arguments outcome : clear implicits.
