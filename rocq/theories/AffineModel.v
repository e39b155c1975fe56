(** Affine transforms: /repo/ink/geometry/affine_transform.{h,cc}, and the vector functions they
    use from vec.{h,cc}.  [acos] is std::acos. *)
From Coq Require Import ZArith Bool List.
From Verif Require Import NumModel GeomModel.
Import ListNotations.

Section Affine.
Context {N : num}.
Variable acos : T N -> T N.
Notation "x + y" := (nadd N x y). Notation "x - y" := (nsub N x y).
Notation "x * y" := (nmul N x y). Notation "x / y" := (ndiv N x y).
Notation "x <? y" := (nlt N x y). Notation "x <=? y" := (nle N x y). Notation "x =? y" := (neqb N x y).

(** a_, ..., f_: affine_transform.h 226-231 *)
Record affine := Affine { ma : T N; mb : T N; mc : T N; md : T N; me : T N; mf : T N }.
Definition identity : affine := Affine n1 n0 n0 n0 n1 n0. (* 76 *)
Definition translate (v : vec N) : affine := Affine n1 n0 (vx v) n0 n1 (vy v). (* 79-81 *)
Definition scale_xy (x y : T N) : affine := Affine x n0 n0 n0 y n0. (* 91-93 *)
Definition scale (s : T N) : affine := scale_xy s s. (* 85-87 *)
Definition scale_x (s : T N) : affine := scale_xy s n1. (* 97-99 *)
Definition scale_y (s : T N) : affine := scale_xy n1 s. (* 103-105 *)
Definition rotate (a : T N) : affine := Affine (ncos N a) (nopp N (nsin N a)) n0 (nsin N a) (ncos N a) n0. (* 109-113 *)
Definition shear_x (s : T N) : affine := Affine n1 s n0 n0 n1 n0. (* 117-119 *)
Definition shear_y (s : T N) : affine := Affine n1 n0 n0 s n1 n0. (* 123-125 *)
Definition scale_about (s : T N) (c : vec N) : affine := (* affine_transform.cc 33-37 *)
  Affine s n0 (vx c - (s * vx c)) n0 s (vy c - (s * vy c)).
Definition scale_xy_about (x y : T N) (c : vec N) : affine := (* 39-45 *)
  Affine x n0 (vx c - (x * vx c)) n0 y (vy c - (y * vy c)).
Definition rotate_about (a : T N) (c : vec N) : affine := (* 47-52 *)
  let s := nsin N a in let k := ncos N a in
  Affine k (nopp N s) ((vx c - (vx c * k)) + (vy c * s)) s k ((vy c - (vx c * s)) - (vy c * k)).
Definition inverse (t : affine) : option affine := (* affine_transform.h 241-253 *)
  let l := ma t * me t in let r := mb t * md t in
  if l =? r then None
  else let d := l - r in
       Some (Affine (me t / d) (nopp N (mb t) / d) (((mb t * mf t) - (mc t * me t)) / d)
                    (nopp N (md t) / d) (ma t / d) (((mc t * md t) - (ma t * mf t)) / d)).
Definition compose (l r : affine) : affine := (* operator*: affine_transform.cc 178-186 *)
  Affine ((ma l * ma r) + (mb l * md r)) ((ma l * mb r) + (mb l * me r)) (((ma l * mc r) + (mb l * mf r)) + mc l)
         ((md l * ma r) + (me l * md r)) ((md l * mb r) + (me l * me r)) (((md l * mc r) + (me l * mf r)) + mf l).
Definition apply (t : affine) (p : vec N) : vec N := (* 54-56 *)
  V (((ma t * vx p) + (mb t * vy p)) + mc t) (((md t * vx p) + (me t * vy p)) + mf t).
Definition apply_segment (t : affine) (s : segment N) : segment N := Seg (apply t (s_start s)) (apply t (s_end s)). (* 58-60 *)
Definition apply_triangle (t : affine) (s : triangle N) : triangle N := Tri (apply t (p0 s)) (apply t (p1 s)) (apply t (p2 s)). (* 62-64 *)
Definition apply_vec (t : affine) (v : vec N) : vec N := (* 68-70 *)
  V ((ma t * vx v) + (mb t * vy v)) ((md t * vx v) + (me t * vy v)).
(** Apply(Quad): 74-97.  [quad_image] gives the arguments of the Quad that is constructed. *)
Definition quad_image (t : affine) (q : quad N) : vec N * T N * T N * T N * T N :=
  let c := apply t (q_center q) in
  let (u0, v0) := quad_semi_axes q in
  let u1 := if q_width q =? n0 then V (n1 * ncos N (q_rotation q)) (n1 * nsin N (q_rotation q)) else u0 in
  let v1 := if q_height q =? n0 then vadd (vscale (q_shear q) u1) (orthogonal_vec u1) else v0 in
  let u := apply_vec t u1 in let v := apply_vec t v1 in
  let m := magnitude u in let d := dot u v in let k := det u v in
  (c, if q_width q =? n0 then n0 else n2 * m,
      if (q_height q =? n0) || (k =? n0) then n0 else (n2 * k) / m,
      direction u, if k =? n0 then n0 else d / k).
Definition apply_quad (t : affine) (q : quad N) : quad N :=
  let '(c, w, h, r, s) := quad_image t q in quad_make c w h r s.
Definition apply_rect (t : affine) (r : rect N) : quad N := apply_quad t (quad_from_rect r). (* 99-101 *)

(** Vec::AsUnitVec: vec.cc 28-62.  std::copysign of a positive literal.  Dividing a Vec by zero
    fails an ABSL_CHECK (vec.h 156-159): [None]. *)
Definition with_sign (m x : T N) : T N := if nsign N x then nopp N m else m.
Definition isinf (x : T N) : bool := negb (nfin N x) && negb (nnan N x).
Definition half_sqrt2 : T N := ndy N 11863283 (-24).
Definition vec_div (v : vec N) (s : T N) : option (vec N) := if s =? n0 then None else Some (V (vx v / s) (vy v / s)).
Definition unit_vec (v : vec N) : option (vec N) :=
  if nnan N (vx v) || nnan N (vy v) then Some (V (nNaN N) (nNaN N))
  else if isinf (vx v) then
    if isinf (vy v) then Some (V (with_sign half_sqrt2 (vx v)) (with_sign half_sqrt2 (vy v)))
    else Some (V (with_sign n1 (vx v)) (with_sign n0 (vy v)))
  else if isinf (vy v) then Some (V (with_sign n0 (vx v)) (with_sign n1 (vy v)))
  else if (vx v =? n0) && (vy v =? n0) then Some (V (with_sign n1 (vx v)) (with_sign n0 (vy v)))
  else let s := vscale half v in vec_div s (magnitude s).
(** Vec::SignedAngleBetween: vec.cc 64-85; AbsoluteAngleBetween: vec.h 94-97 *)
Definition absolute_angle (a b : vec N) : option (T N) :=
  match unit_vec a, unit_vec b with
  | Some ua, Some ub => Some (acos (nclamp (dot ua ub) (nopp N n1) n1))
  | _, _ => None
  end.
Definition signed_angle (a b : vec N) : option (T N) :=
  match unit_vec a, unit_vec b with
  | Some ua, Some ub =>
      let r := acos (nclamp (dot ua ub) (nopp N n1) n1) in
      Some (if (r =? half_turn) || (n0 <=? det ua ub) then r else nopp N r)
  | _, _ => None
  end.

(** Find: affine_transform.cc 103-176; the outer [None] is a failed ABSL_CHECK *)
Definition find_segment (from to : segment N) : option (option affine) :=
  let lf := seg_length from in let lt := seg_length to in
  if lf =? n0 then Some (if lt =? n0 then Some (translate (vsub (s_start to) (s_start from))) else None)
  else
    let sc := lt / lf in
    match signed_angle (seg_vector from) (seg_vector to) with
    | None => None
    | Some r =>
        let ss := sc * nsin N r in let cc := sc * ncos N r in
        let v1 := vneg (s_start from) in let v2 := s_start to in
        Some (Some (Affine cc (nopp N ss) (((cc * vx v1) - (ss * vy v1)) + vx v2)
                           ss cc (((ss * vx v1) + (cc * vy v1)) + vy v2)))
    end.
(** the six terms of the denominator and of the numerators n0, n1, n3, n4, left to right *)
Definition six (x0 x1 x2 y0 y1 y2 : T N) : T N :=
  (((((x1 * y0) - (x2 * y0)) - (x0 * y1)) + (x2 * y1)) + (x0 * y2)) - (x1 * y2).
(** the numerators n2, n5 *)
Definition six3 (b0 b1 b2 : T N) (a0 a1 a2 : vec N) : T N :=
  ((((((b2 * vx a1) * vy a0) - ((b1 * vx a2) * vy a0)) - ((b2 * vx a0) * vy a1)) + ((b0 * vx a2) * vy a1)) + ((b1 * vx a0) * vy a2)) - ((b0 * vx a1) * vy a2).
Definition find_triangle (from to : triangle N) : option affine :=
  let a0 := p0 from in let a1 := p1 from in let a2 := p2 from in
  let b0 := p0 to in let b1 := p1 to in let b2 := p2 to in
  let d := six (vx a0) (vx a1) (vx a2) (vy a0) (vy a1) (vy a2) in
  if (d =? n0) || (signed_area from =? n0) then None
  else
    let k0 := six (vx b0) (vx b1) (vx b2) (vy a0) (vy a1) (vy a2) in
    let k1 := six (vx b0) (vx b1) (vx b2) (vx a0) (vx a1) (vx a2) in
    let k2 := six3 (vx b0) (vx b1) (vx b2) a0 a1 a2 in
    let k3 := six (vy b0) (vy b1) (vy b2) (vy a0) (vy a1) (vy a2) in
    let k4 := six (vy b0) (vy b1) (vy b2) (vx a0) (vx a1) (vx a2) in
    let k5 := six3 (vy b0) (vy b1) (vy b2) a0 a1 a2 in
    Some (Affine (k0 / d) (k1 / nopp N d) (k2 / d) (k3 / d) (k4 / nopp N d) (k5 / d)).
Definition corner_triangle (l : list (vec N)) : option (triangle N) :=
  match l with a :: b :: c :: _ => Some (Tri a b c) | _ => None end.
Definition find_corners (from to : list (vec N)) : option affine :=
  match corner_triangle from, corner_triangle to with Some a, Some b => find_triangle a b | _, _ => None end.
Definition find_rect (from to : rect N) : option affine := find_corners (rect_corners from) (rect_corners to).
Definition find_quad (from to : quad N) : option affine := find_corners (quad_corners from) (quad_corners to).
End Affine.
Arguments affine : clear implicits.
