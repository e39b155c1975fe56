(** Intersection of two segments as the stroke tessellation computes it: /repo/ink/geometry/internal/legacy_segment_intersection.cc and legacy_vector_utils.cc,
    for either reading of [num].  [next] and [previous] are the neighbouring floats (std::nextafter, legacy_vector_utils.cc 29-34).
    FindSafeExponentForSegmentIntersection (legacy_segment_intersection.cc 42-121), which frexp and square roots of float limits go into, is the parameter
    [exponent]. *)
From Coq Require Import ZArith Bool List.
From Verif Require Import NumModel GeomModel.

Section Legacy.
Context {N : num}.
Variable next previous : T N -> T N.
Variable exponent : segment N -> segment N -> Z.
(** RelativePos: legacy_vector_utils.h *)
Inductive relative := OnLeft | OnRight | OnLine | Indeterminate.
(** adjust_for_error: legacy_vector_utils.cc 70-83 *)
Definition adjust (x d : T N) : T N := if nlt N n0 d then next x else if nlt N d n0 then previous x else x.
Definition adjust_for_error (v dir : vec N) : vec N := V (adjust (vx v) (vx dir)) (adjust (vy v) (vy dir)).
(** PositionRelativeToLine: 38-101 *)
Definition position_relative (a b x : vec N) : relative :=
  if veq a b then Indeterminate
  else if veq a x || veq b x then OnLine
  else
    let line := vsub b a in
    let d := det line (vsub x a) in
    if neqb N d n0 then OnLine
    else
      let side := if nlt N n0 d then OnLeft else OnRight in
      let largest (p : vec N) := nmax (nabs N (vx p)) (nabs N (vy p)) in
      let distance := nmul N (ndy N 1 (-22)) (nmax (nmax (largest a) (largest b)) (largest x)) in
      if nle N (nmul N d d) (nmul N (nmul N distance distance) (dot line line)) then
        let error := if nlt N n0 d then orthogonal_vec line else vneg (orthogonal_vec line) in
        let '(a, b, x) :=
          if nlt N (nmax (dot a a) (dot b b)) (dot x x) then (a, b, adjust_for_error x (vneg error))
          else (adjust_for_error a error, adjust_for_error b error, x) in
        if nle N (nmul N d (det (vsub b a) (vsub x a))) n0 then OnLine else side
      else side.
Definition is_on_line (a b x : vec N) : bool := match position_relative a b x with OnLine => true | _ => false end.

(** the two intervals, of the first and of the second segment *)
Definition intervals := (T N * T N * (T N * T N))%type.
Definition within_unit (p : T N) : bool := nle N n0 p && nle N p n1.
(** SegmentIntersectionHelper from 151 on: legacy_segment_intersection.cc 151-275 *)
Definition intersect_scaled (a b c d : vec N) : option intervals :=
  let u := vsub b a in
  let v := vsub d c in
  let w := vsub c a in
  let uu := dot u u in
  let vv := dot v v in
  if neqb N uu n0 && neqb N vv n0 then
    if neqb N (dot w w) n0 then Some ((n0, n1), (n0, n1)) else None
  else
    let a_on := negb (neqb N vv n0) && is_on_line c d a in
    let b_on := negb (neqb N vv n0) && is_on_line c d b in
    let c_on := negb (neqb N uu n0) && is_on_line a b c in
    let d_on := negb (neqb N uu n0) && is_on_line a b d in
    let v_plus_w := vsub d a in
    let u_minus_w := vsub b c in
    if negb (neqb N uu n0) && negb (neqb N vv n0) && ((a_on && b_on) || (c_on && d_on)) then
      let x := ndiv N (dot u w) uu in
      let y := ndiv N (dot u v_plus_w) uu in
      let opposite := nlt N y x in
      let '(lo, hi) := if opposite then (y, x) else (x, y) in
      if nlt N hi n0 || nlt N n1 lo then None
      else
        let '(lo, from) := if nlt N lo n0 then (n0, ndiv N (dot v (vneg w)) vv) else (lo, if opposite then n1 else n0) in
        let '(hi, to) := if nlt N n1 hi then (n1, ndiv N (dot v u_minus_w) vv) else (hi, if opposite then n0 else n1) in
        Some ((lo, hi), (from, to))
    else
      let single (t s : T N) : option intervals := Some ((t, t), (s, s)) in
      let pa := ndiv N (dot v (vneg w)) vv in
      let pb := ndiv N (dot v u_minus_w) vv in
      let pc := ndiv N (dot u w) uu in
      let pd := ndiv N (dot u v_plus_w) uu in
      if a_on && within_unit pa then single n0 pa
      else if b_on && within_unit pb then single n1 pb
      else if c_on && within_unit pc then single pc n0
      else if d_on && within_unit pd then single pd n1
      else
        let determinant := det u v in
        if neqb N determinant n0 then None
        else
          let t := ndiv N (det w v) determinant in
          let s := ndiv N (det w u) determinant in
          if within_unit t && within_unit s then single t s else None.
(** std::ldexp by [e] *)
Definition scaled (e : Z) (p : vec N) : vec N := V (nmul N (vx p) (ndy N 1 e)) (nmul N (vy p) (ndy N 1 e)).
(** SegmentIntersectionHelper: 123-276 *)
Definition intersect_helper (s1 s2 : segment N) : option intervals :=
  if veq (s_start s1) (s_start s2) && veq (s_end s1) (s_end s2) then Some ((n0, n1), (n0, n1))
  else if veq (s_start s1) (s_end s2) && veq (s_end s1) (s_start s2) then Some ((n0, n1), (n1, n0))
  else
    let e := exponent s1 s2 in
    if Z.eqb e 0 then intersect_scaled (s_start s1) (s_end s1) (s_start s2) (s_end s2)
    else intersect_scaled (scaled e (s_start s1)) (scaled e (s_end s1)) (scaled e (s_start s2)) (scaled e (s_end s2)).
(** LegacyIntersection: 280-290 *)
Definition legacy_intersection (s1 s2 : segment N) : option (intervals * segment N) :=
  match intersect_helper s1 s2 with
  | Some i => Some (i, Seg (seg_lerp s1 (fst (fst i))) (seg_lerp s1 (snd (fst i))))
  | None => None
  end.
End Legacy.
