(** Interpolation, projection and intersection ratios:
    /repo/ink/geometry/internal/algorithms.cc 40-233, with Vec::AsUnitVec and
    Vec::SignedAngleBetween (vec.cc 28-84), for either reading of [num].
    CalculateEnvelope (65-71) is [env_add_all] over the vertices (GeomModel) and
    CalculateCollapsedSegment (245-289) is in PartitionedMeshModel. *)
From Coq Require Import ZArith Bool List.
From Verif Require Import NumModel GeomModel.
Import ListNotations.

Section Algorithms.
Context {N : num}.
Notation "x + y" := (nadd N x y). Notation "x - y" := (nsub N x y).
Notation "x * y" := (nmul N x y). Notation "x / y" := (ndiv N x y).
Notation "x <? y" := (nlt N x y). Notation "x <=? y" := (nle N x y). Notation "x =? y" := (neqb N x y).

(** GetBarycentricCoordinates: 40-52 *)
Definition barycentric (t : triangle N) (p : vec N) : option (T N * T N * T N) :=
  let a := vsub (p2 t) (p0 t) in
  let b := vsub (p1 t) (p2 t) in
  let d := det a b in
  if d =? n0 then None
  else
    let c := vsub p (p2 t) in
    let b0 := det b c / d in
    let b1 := det a c / d in
    Some (b0, b1, (n1 - b0) - b1).

(** VectorFromPointToSegmentProjection: 73-102 *)
Definition to_projection (p : vec N) (s : segment N) : option (vec N) :=
  let base := seg_vector s in
  let l := magnitude_squared base in
  if l =? n0 then None
  else Some (vscale (det base (vsub (s_start s) p) / l) (orthogonal_vec base)).

(** Lerp for Point, for one channel of Color::RgbaFloat, for Angle and for Vec: 106-125.
    The float overload is [lerp] of NumModel. *)
Definition point_lerp (a b : vec N) (t : T N) : vec N := seg_lerp (Seg a b) t.
Definition channel_lerp (a b t : T N) : T N := (a * (n1 - t)) + (b * t).
Definition angle_lerp (a b t : T N) : T N := ((n1 - t) * a) + (t * b).
Definition normalized_angle_lerp (a b t : T N) : T N := (* 119-121 *)
  normalized (a + angle_lerp n0 (normalized_about_zero (b - a)) t).
Definition vec_lerp (a b : vec N) (t : T N) : vec N := V (lerp (vx a) (vx b) t) (lerp (vy a) (vy b) t).
(** LinearMap: 136-140 *)
Definition linear_map (v : T N) (input output : T N * T N) : T N :=
  lerp (fst output) (snd output) (inverse_lerp (fst input) (snd input) v).

(** SegmentIntersectionRatio: 142-208; Segment == compares both points (segment.h 73-76) *)
Definition seg_eq (a b : segment N) : bool := veq (s_start a) (s_start b) && veq (s_end a) (s_end b).
Definition segment_ratio (a b : segment N) : option (T N * T N) :=
  if seg_eq a b then Some (n0, n0)
  else
    let u := seg_vector a in
    let v := seg_vector b in
    let w := vsub (s_start b) (s_start a) in
    let d := det u v in
    if d =? n0 then
      if negb (det u w =? n0) then None
      else
        match seg_project a (s_start b), seg_project b (s_start a) with
        | None, Some r => if int_point_segment (s_start a) b then Some (n0, r) else None
        | Some r, None => if int_point_segment (s_start b) a then Some (r, n0) else None
        | None, None => None
        | Some ab, Some ba =>
            match seg_project a (s_end b), seg_project b (s_end a) with
            | Some ab', Some ba' =>
                if ((ab <? n0) && (ab' <? n0)) || ((n1 <? ab) && (n1 <? ab')) then None
                else Some (nmax (nmin ab ab') n0, nmax (nmin ba ba') n0)
            | _, _ => None (* ABSL_CHECK 179 *)
            end
        end
    else
      let t := det w v / d in
      let s := det w u / d in
      if (n0 <=? t) && (t <=? n1) && (n0 <=? s) && (s <=? n1) then Some (t, s) else None.
(** UniqueLineIntersectionRatio: 210-223 *)
Definition line_ratio (a b : segment N) : option (T N * T N) :=
  let u := seg_vector a in
  let v := seg_vector b in
  let d := det u v in
  if d =? n0 then None
  else let w := vsub (s_start b) (s_start a) in Some (det w v / d, det w u / d).
(** SegmentIntersection: 225-233 *)
Definition segment_intersection (a b : segment N) : option (vec N) :=
  match segment_ratio a b with Some (t, _) => Some (seg_lerp a t) | None => None end.

(** std::acos is a parameter; [copysign 0] is written [0], so this reading has no signed zeros. *)
Variable nacos : T N -> T N.
(** Vec::AsUnitVec: vec.cc 28-62; None is the failing ABSL_CHECK_NE of Vec / float (vec.h 156-159) *)
Definition unit_vec (a : vec N) : option (vec N) :=
  if nnan N (vx a) || nnan N (vy a) then Some (V (nNaN N) (nNaN N))
  else if negb (nfin N (vx a)) then
    if negb (nfin N (vy a)) then
      let h := ndy N 11863283 (-24) in (* 0.5f * sqrt(2) *)
      Some (V (if nsign N (vx a) then nopp N h else h) (if nsign N (vy a) then nopp N h else h))
    else Some (V (sign1 (vx a)) n0)
  else if negb (nfin N (vy a)) then Some (V n0 (sign1 (vy a)))
  else if (vx a =? n0) && (vy a =? n0) then Some (V (sign1 (vx a)) n0)
  else
    let scaled := vscale half a in
    let m := magnitude scaled in
    if m =? n0 then None else Some (V (vx scaled / m) (vy scaled / m)).
(** Vec::SignedAngleBetween: vec.cc 64-84 *)
Definition signed_angle (a b : vec N) : option (T N) :=
  match unit_vec a, unit_vec b with
  | Some ua, Some ub =>
      let angle := nacos (nclamp (dot ua ub) (nopp N n1) n1) in
      Some (if (angle =? half_turn) || (n0 <=? det ua ub) then angle else nopp N angle)
  | _, _ => None
  end.
(** SpiralLerp: 54-63 *)
Definition spiral_lerp (a b : vec N) (t : T N) : option (vec N) :=
  if t =? n0 then Some a
  else if t =? n1 then Some b
  else match signed_angle a b with
       | None => None
       | Some s =>
           let d := direction a + (t * s) in
           let m := ((n1 - t) * magnitude a) + (t * magnitude b) in
           Some (V (m * ncos N d) (m * nsin N d))
       end.
End Algorithms.
