(** Plane geometry: /repo/ink/geometry/{vec,point,segment,triangle,rect,envelope}.{h,cc} and
    the intersection predicates of internal/intersects_internal.cc, for either reading of
    [num].  Point and Vec have the same two fields and share the type [vec].  A failing
    ABSL_CHECK is [None]. *)
From Coq Require Import ZArith Bool List.
From Verif Require Import NumModel.
Import ListNotations.

Section Geom.
Context {N : num}.
Notation "x + y" := (nadd N x y). Notation "x - y" := (nsub N x y).
Notation "x * y" := (nmul N x y). Notation "x / y" := (ndiv N x y).
Notation "x <? y" := (nlt N x y). Notation "x <=? y" := (nle N x y). Notation "x =? y" := (neqb N x y).
Definition half : T N := ndy N 1 (-1).
Definition n2 : T N := nZ 2.

(** ** Vec and Point: vec.h 29-105, 140-160; point.h 25-33, 65-82 *)
Record vec := V { vx : T N; vy : T N }.
Definition veq (a b : vec) : bool := (vx a =? vx b) && (vy a =? vy b).
Definition vadd (a b : vec) : vec := V (vx a + vx b) (vy a + vy b).
Definition vsub (a b : vec) : vec := V (vx a - vx b) (vy a - vy b).
Definition vscale (s : T N) (a : vec) : vec := V (s * vx a) (s * vy a).
Definition vneg (a : vec) : vec := V (nopp N (vx a)) (nopp N (vy a)).
Definition padd (p v : vec) : vec := V (vx v + vx p) (vy v + vy p). (* Point + Vec: point.h 74-79 *)
Definition dot (a b : vec) : T N := (vx a * vx b) + (vy a * vy b). (* vec.h 71-73 *)
Definition det (a b : vec) : T N := (vx a * vy b) - (vy a * vx b). (* vec.h 83-85 *)
Definition magnitude_squared (a : vec) : T N := (vx a * vx a) + (vy a * vy a). (* vec.h 42 *)
Definition magnitude (a : vec) : T N := nhypot N (vx a) (vy a). (* vec.h 39 *)
Definition orthogonal_vec (a : vec) : vec := V (nopp N (vy a)) (vx a). (* vec.h 56 *)
Definition direction (a : vec) : T N := natan2 N (vy a) (vx a). (* vec.h 52 *)

(** ** Segment: segment.h 28-70, segment.cc 26-44 *)
Record segment := Seg { s_start : vec; s_end : vec }.
Definition seg_vector (s : segment) : vec := vsub (s_end s) (s_start s).
Definition seg_length (s : segment) : T N := magnitude (seg_vector s).
Definition seg_lerp (s : segment) (r : T N) : vec :=
  let reverse := n1 - r in
  V ((vx (s_start s) * reverse) + (vx (s_end s) * r)) ((vy (s_start s) * reverse) + (vy (s_end s) * r)).
Definition seg_midpoint (s : segment) : vec := seg_lerp s half.
Definition seg_project (s : segment) (p : vec) : option (T N) :=
  if veq (s_start s) (s_end s) then None
  else let m := magnitude_squared (seg_vector s) in
       if m <=? n0 then None
       else Some (dot (vsub p (s_start s)) (seg_vector s) / m).

(** ** Triangle: triangle.h 27-47, triangle.cc 29-97 *)
Record triangle := Tri { p0 : vec; p1 : vec; p2 : vec }.
(** SignedArea: .5 * float is computed in double and then rounded to float; halving is exact
    except for the smallest floats, where rounding the exact half is what [half *] does. *)
Definition signed_area (t : triangle) : T N := half * det (vsub (p1 t) (p0 t)) (vsub (p2 t) (p1 t)).
Definition tri_contains (t : triangle) (p : vec) : bool :=
  let d0 := det (vsub p (p0 t)) (vsub (p1 t) (p0 t)) in
  let d1 := det (vsub p (p1 t)) (vsub (p2 t) (p1 t)) in
  if (d0 * d1) <? n0 then false
  else if (d0 =? n0) && (d1 =? n0) then
    let first := if negb (veq (p0 t) (p1 t)) then (seg_project (Seg (p0 t) (p1 t)) (p2 t), seg_project (Seg (p0 t) (p1 t)) p) else (None, None) in
    let chosen :=
      match first with
      | (Some a, Some b) => first
      | _ => if negb (veq (p1 t) (p2 t)) then (seg_project (Seg (p1 t) (p2 t)) (p0 t), seg_project (Seg (p1 t) (p2 t)) p) else first
      end in
    match chosen with
    | (Some third, Some test) => (nmin n0 third <=? test) && (test <=? nmax n1 third)
    | _ => veq p (p0 t)
    end
  else
    let d2 := det (vsub p (p2 t)) (vsub (p0 t) (p2 t)) in
    (n0 <=? (d1 * d2)) && (n0 <=? (d0 * d2)).
Definition tri_edges (t : triangle) : list segment := [Seg (p0 t) (p1 t); Seg (p1 t) (p2 t); Seg (p2 t) (p0 t)].

(** ** Rect: rect.h 33-320, rect.cc 27-80 *)
Record rect := Rect { x_min : T N; y_min : T N; x_max : T N; y_max : T N }.
Definition rect_default : rect := Rect n0 n0 n0 n0. (* rect.h 36 *)
Definition rect_from_center (c : vec) (w h : T N) : option rect := (* rect.h 44-49 *)
  if (n0 <=? w) && (n0 <=? h) then Some (Rect (vx c - (w / n2)) (vy c - (h / n2)) (vx c + (w / n2)) (vy c + (h / n2))) else None.
Definition rect_from_two (a b : vec) : rect := Rect (nmin (vx a) (vx b)) (nmin (vy a) (vy b)) (nmax (vx a) (vx b)) (nmax (vy a) (vy b)). (* 52-55 *)
Definition rect_width (r : rect) : T N := x_max r - x_min r. (* 248, 257 *)
Definition rect_height (r : rect) : T N := y_max r - y_min r.
Definition rect_semi_width (r : rect) : T N := (half * x_max r) - (half * x_min r). (* 267-268 *)
Definition rect_semi_height (r : rect) : T N := (half * y_max r) - (half * y_min r).
Definition rect_center (r : rect) : vec := (* rect.cc 27-35 *)
  let x := (half * x_min r) + (half * x_max r) in
  let y := (half * y_min r) + (half * y_max r) in
  V (if nnan N x then n0 else x) (if nnan N y then n0 else y).
Definition rect_set_center (r : rect) (c : vec) : rect := (* rect.h 239-246 *)
  Rect (vx c - rect_semi_width r) (vy c - rect_semi_height r) (vx c + rect_semi_width r) (vy c + rect_semi_height r).
Definition rect_set_width (r : rect) (w : T N) : option rect := (* 250-255 *)
  if n0 <=? w then let c := (x_min r + x_max r) / n2 in Some (Rect (c - (w / n2)) (y_min r) (c + (w / n2)) (y_max r)) else None.
Definition rect_set_height (r : rect) (h : T N) : option rect := (* 259-264 *)
  if n0 <=? h then let c := (y_min r + y_max r) / n2 in Some (Rect (x_min r) (c - (h / n2)) (x_max r) (c + (h / n2))) else None.
Definition rect_aspect_ratio (r : rect) : option (T N) := (* 97-101 *)
  if rect_height r =? n0 then None else Some (rect_width r / rect_height r).
Definition rect_area (r : rect) : T N := rect_width r * rect_height r. (* 104 *)
Definition rect_corners (r : rect) : list vec := (* 108-111 *)
  [V (x_min r) (y_min r); V (x_max r) (y_min r); V (x_max r) (y_max r); V (x_min r) (y_max r)].
Definition rect_edges (r : rect) : list segment := (* GetEdge: rect.cc 37-50 *)
  let a := V (x_min r) (y_min r) in let b := V (x_max r) (y_min r) in
  let c := V (x_max r) (y_max r) in let d := V (x_min r) (y_max r) in [Seg a b; Seg b c; Seg c d; Seg d a].
Definition rect_contains (r : rect) (p : vec) : bool := (* 120-123 *)
  (x_min r <=? vx p) && (vx p <=? x_max r) && (y_min r <=? vy p) && (vy p <=? y_max r).
Definition rect_contains_rect (r q : rect) : bool := (* 128-131 *)
  (x_min r <=? x_min q) && (x_max q <=? x_max r) && (y_min r <=? y_min q) && (y_max q <=? y_max r).
(** Offset: 141-148; SetWidth(0), SetHeight(0) cannot fail *)
Definition rect_offset (r : rect) (h v : T N) : rect :=
  let r1 := Rect (x_min r - h) (y_min r - v) (x_max r + h) (y_max r + v) in
  let r2 := if rect_width r1 <? n0 then match rect_set_width r1 n0 with Some q => q | None => r1 end else r1 in
  if rect_height r2 <? n0 then match rect_set_height r2 n0 with Some q => q | None => r2 end else r2.
Definition rect_scale (r : rect) (sx sy : T N) : option rect := (* 156-161 *)
  if (n0 <=? sx) && (n0 <=? sy) then
    Some (rect_offset r ((nopp N half * (n1 - sx)) * rect_width r) ((nopp N half * (n1 - sy)) * rect_height r)) else None.
Definition rect_translate (r : rect) (v : vec) : rect := (* 165-170 *)
  Rect (x_min r + vx v) (y_min r + vy v) (x_max r + vx v) (y_max r + vy v).
Definition rect_join_point (r : rect) (p : vec) : rect := (* 270-275 *)
  Rect (nmin (x_min r) (vx p)) (nmin (y_min r) (vy p)) (nmax (x_max r) (vx p)) (nmax (y_max r) (vy p)).
Definition rect_join (r q : rect) : rect := (* 277-282 *)
  Rect (nmin (x_min r) (x_min q)) (nmin (y_min r) (y_min q)) (nmax (x_max r) (x_max q)) (nmax (y_max r) (y_max q)).
Definition rect_containing_ratio (r : rect) (a : T N) : option rect := (* rect.cc 52-65 *)
  if n0 <? a then
    match rect_aspect_ratio r with
    | None => None
    | Some mine => if mine <? a then rect_from_center (rect_center r) (rect_height r * a) (rect_height r)
                   else rect_from_center (rect_center r) (rect_width r) (rect_width r / a)
    end
  else None.
Definition rect_interior_ratio (r : rect) (a : T N) : option rect := (* rect.cc 67-80 *)
  if n0 <=? a then
    match rect_aspect_ratio r with
    | None => None
    | Some mine => if mine <? a then rect_from_center (rect_center r) (rect_width r) (rect_width r / a)
                   else rect_from_center (rect_center r) (rect_height r * a) (rect_height r)
    end
  else None.
Definition rect_resize_x_min (r : rect) (x : T N) : rect := Rect x (y_min r) (if x_max r <? x then x else x_max r) (y_max r). (* 284-307 *)
Definition rect_resize_y_min (r : rect) (y : T N) : rect := Rect (x_min r) y (x_max r) (if y_max r <? y then y else y_max r).
Definition rect_resize_x_max (r : rect) (x : T N) : rect := Rect (if x <? x_min r then x else x_min r) (y_min r) x (y_max r).
Definition rect_resize_y_max (r : rect) (y : T N) : rect := Rect (x_min r) (if y <? y_min r then y else y_min r) (x_max r) y.
Definition rect_translate_x_min (r : rect) (x : T N) : rect := rect_translate r (V (x - x_min r) n0). (* 309-320 *)
Definition rect_translate_y_min (r : rect) (y : T N) : rect := rect_translate r (V n0 (y - y_min r)).
Definition rect_translate_x_max (r : rect) (x : T N) : rect := rect_translate r (V (x - x_max r) n0).
Definition rect_translate_y_max (r : rect) (y : T N) : rect := rect_translate r (V n0 (y - y_max r)).

(** ** Quad: quad.h 83-210, 220-255, quad.cc 32-107.  The cached semi-axes (reset by every setter of
    a parameter they depend on) are recomputed. *)
Record quad := Quad { q_center : vec; q_width : T N; q_height : T N; q_rotation : T N; q_shear : T N }.
Definition quad_normalize (q : quad) : quad := (* quad.h 197-203 *)
  if q_width q <? n0 then
    Quad (q_center q) (nopp N (q_width q)) (nopp N (q_height q)) (normalized (q_rotation q + half_turn)) (q_shear q)
  else q.
Definition quad_make (c : vec) (w h r s : T N) : quad := quad_normalize (Quad c w h (normalized r) s). (* quad.h 187-195 *)
Definition quad_from_rect (r : rect) : quad := quad_make (rect_center r) (rect_width r) (rect_height r) n0 n0. (* quad.h 105-107 *)
Definition quad_set_width (q : quad) (w : T N) : quad := (* quad.h 227-255 *)
  if w =? q_width q then q else quad_normalize (Quad (q_center q) w (q_height q) (q_rotation q) (q_shear q)).
Definition quad_set_height (q : quad) (h : T N) : quad :=
  if h =? q_height q then q else Quad (q_center q) (q_width q) h (q_rotation q) (q_shear q).
Definition quad_set_rotation (q : quad) (r : T N) : quad :=
  if r =? q_rotation q then q else Quad (q_center q) (q_width q) (q_height q) (normalized r) (q_shear q).
Definition quad_set_shear (q : quad) (s : T N) : quad :=
  if s =? q_shear q then q else Quad (q_center q) (q_width q) (q_height q) (q_rotation q) s.
Definition quad_semi_axes (q : quad) : vec * vec := (* quad.cc 32-43 *)
  let c := ncos N (q_rotation q) in let s := nsin N (q_rotation q) in
  (V ((half * q_width q) * c) ((half * q_width q) * s),
   V ((half * q_height q) * ((q_shear q * c) - s)) ((half * q_height q) * ((q_shear q * s) + c))).
Definition quad_unit_axes (q : quad) : vec * vec := (* quad.cc 70-77 *)
  let c := ncos N (q_rotation q) in let s := nsin N (q_rotation q) in
  (V c s, V ((q_shear q * c) - s) ((q_shear q * s) + c)).
Definition quad_corners (q : quad) : list vec := (* quad.cc 45-51 *)
  let (u, v) := quad_semi_axes q in let c := q_center q in
  [vsub (vsub c u) v; vsub (padd c u) v; padd (padd c u) v; padd (vsub c u) v].
Definition quad_edges (q : quad) : list segment := (* GetEdge: quad.cc 53-67 *)
  match quad_corners q with
  | [a; b; c; d] => [Seg a b; Seg b c; Seg c d; Seg d a]
  | _ => []
  end.
Definition sign1 (x : T N) : T N := if nsign N x then nopp N n1 else n1. (* std::copysign(1.f, x) *)
Definition quad_join (q : quad) (p : vec) : quad := (* quad.cc 80-98; abs is taken to be the float function *)
  let (u, v) := quad_unit_axes q in
  let d := vsub p (q_center q) in
  let u_dot := dot u d in let u_cross := det u d in let v_cross := det v d in
  let w := nmax (q_width q) ((half * q_width q) + nabs N (u_dot - (q_shear q * u_cross))) in
  let h := sign1 (q_height q) * nmax (nabs N (q_height q)) ((half * nabs N (q_height q)) + nabs N u_cross) in
  let u_offset := (nopp N half * sign1 v_cross) * (w - q_width q) in
  let v_offset := ((half * sign1 u_cross) * sign1 (q_height q)) * (h - q_height q) in
  Quad (padd (padd (q_center q) (vscale u_offset u)) (vscale v_offset v)) w h (q_rotation q) (q_shear q).
Definition quad_contains (q : quad) (p : vec) : bool := (* quad.cc 100-107 *)
  let (u, v) := quad_unit_axes q in
  let d := vsub p (q_center q) in
  let u_cross := det u d in
  if (half * nabs N (q_height q)) <? nabs N u_cross then false
  else nabs N (dot u d - (q_shear q * u_cross)) <=? (half * q_width q).

(** ** Envelope: envelope.h 123-181; an Envelope is an optional Rect *)
Inductive object := OPoint (p : vec) | OSegment (s : segment) | OTriangle (t : triangle) | ORect (r : rect) | OQuad (q : quad) | OEnvelope (e : option rect).
(** FromCenterAndDimensions(p, 0, 0) cannot fail *)
Definition env_add_point (e : option rect) (p : vec) : option rect :=
  match e with None => rect_from_center p n0 n0 | Some r => Some (rect_join_point r p) end.
Definition env_add (e : option rect) (o : object) : option rect :=
  match o with
  | OPoint p => env_add_point e p
  | OSegment s => match e with None => Some (rect_from_two (s_start s) (s_end s)) | Some r => Some (rect_join_point (rect_join_point r (s_start s)) (s_end s)) end
  | OTriangle t =>
      match e with
      | None => Some (rect_join_point (rect_from_two (p0 t) (p1 t)) (p2 t))
      | Some r => Some (rect_join_point (rect_join_point (rect_join_point r (p0 t)) (p1 t)) (p2 t))
      end
  | ORect r' => match e with None => Some r' | Some r => Some (rect_join r r') end
  | OQuad q =>
      match quad_corners q with
      | [a; b; c; d] =>
          match e with
          | None => Some (rect_join_point (rect_join_point (rect_from_two a b) c) d)
          | Some r => Some (fold_left rect_join_point [a; b; c; d] r)
          end
      | _ => e
      end
  | OEnvelope None => e
  | OEnvelope (Some r') => match e with None => Some r' | Some r => Some (rect_join r r') end
  end.
Definition env_add_all (e : option rect) (l : list object) : option rect := fold_left env_add l e.

(** ** Intersection: internal/intersects_internal.cc 30-302 *)
Definition int_point_segment (a : vec) (b : segment) : bool := (* 31-41 *)
  if veq (s_start b) (s_end b) then veq a (s_start b)
  else if negb (det (vsub a (s_start b)) (vsub (s_end b) (s_start b)) =? n0) then false
  else match seg_project b a with None => false | Some r => (n0 <=? r) && (r <=? n1) end.
Definition int_segments (a b : segment) : bool := (* 49-92 *)
  if veq (s_start a) (s_start b) || veq (s_start a) (s_end b) || veq (s_end a) (s_start b) || veq (s_end a) (s_end b) then true
  else if veq (s_start a) (s_end a) then int_point_segment (s_start a) b
  else if veq (s_start b) (s_end b) then int_point_segment (s_start b) a
  else
    let va := seg_vector a in let vb := seg_vector b in
    if det va vb =? n0 then
      if det va (vsub (s_start b) (s_start a)) =? n0 then
        if seg_length b =? n0 then int_point_segment (s_start b) a
        else match seg_project b (s_start a), seg_project b (s_end a) with
             | Some r1, Some r2 => ((n0 <=? r1) || (n0 <=? r2)) && ((r1 <=? n1) || (r2 <=? n1))
             | _, _ => false
             end
      else false
    else
      let v1 := det va (vsub (s_start b) (s_start a)) in
      let v2 := det va (vsub (s_end b) (s_start a)) in
      let v3 := det vb (vsub (s_start a) (s_start b)) in
      let v4 := det vb (vsub (s_end a) (s_start b)) in
      ((v1 * v2) <=? n0) && ((v3 * v4) <=? n0).
Definition tri_point_like (t : triangle) : bool := veq (p0 t) (p1 t) && veq (p0 t) (p2 t).
Definition rect_point_like (r : rect) : bool := (rect_width r =? n0) && (rect_height r =? n0).
Definition quad_point_like (q : quad) : bool := (q_width q =? n0) && (q_height q =? n0).
Definition edges_cross (l m : list segment) : bool := existsb (fun a => existsb (int_segments a) m) l.
Definition int_segment_triangle (a : segment) (b : triangle) : bool := (* 93-111 *)
  if veq (s_start a) (s_end a) then tri_contains b (s_start a)
  else if tri_point_like b then int_point_segment (p0 b) a
  else tri_contains b (s_start a) || edges_cross [a] (tri_edges b).
Definition int_segment_rect (a : segment) (b : rect) : bool := (* 112-131 *)
  if veq (s_start a) (s_end a) then rect_contains b (s_start a)
  else if rect_point_like b then int_point_segment (rect_center b) a
  else rect_contains b (s_start a) || edges_cross [a] (rect_edges b).
Definition int_segment_quad (a : segment) (b : quad) : bool := (* 132-151 *)
  if veq (s_start a) (s_end a) then quad_contains b (s_start a)
  else if quad_point_like b then int_point_segment (q_center b) a
  else quad_contains b (s_start a) || edges_cross [a] (quad_edges b).
Definition int_triangles (a b : triangle) : bool := (* 159-179 *)
  if tri_point_like a then tri_contains b (p0 a)
  else if tri_point_like b then tri_contains a (p0 b)
  else tri_contains b (p0 a) || tri_contains a (p0 b) || edges_cross (tri_edges a) (tri_edges b).
Definition int_triangle_rect (a : triangle) (b : rect) : bool := (* 180-201 *)
  if tri_point_like a then rect_contains b (p0 a)
  else if rect_point_like b then tri_contains a (rect_center b)
  else rect_contains b (p0 a) || tri_contains a (rect_center b) || edges_cross (tri_edges a) (rect_edges b).
Definition int_triangle_quad (a : triangle) (b : quad) : bool := (* 203-224 *)
  if tri_point_like a then quad_contains b (p0 a)
  else if quad_point_like b then tri_contains a (q_center b)
  else quad_contains b (p0 a) || tri_contains a (q_center b) || edges_cross (tri_edges a) (quad_edges b).
Definition int_rects (a b : rect) : bool := (* 235-244 *)
  if (x_max b <? x_min a) || (x_max a <? x_min b) then false
  else if (y_max b <? y_min a) || (y_max a <? y_min b) then false
  else true.
Definition int_rect_quad (a : rect) (b : quad) : bool := (* 245-267 *)
  if rect_point_like a then quad_contains b (rect_center a)
  else if quad_point_like b then rect_contains a (q_center b)
  else quad_contains b (rect_center a) || rect_contains a (q_center b) || edges_cross (rect_edges a) (quad_edges b).
Definition int_quads (a b : quad) : bool := (* 281-302 *)
  if quad_point_like a then quad_contains b (q_center a)
  else if quad_point_like b then quad_contains a (q_center b)
  else quad_contains b (q_center a) || quad_contains a (q_center b) || edges_cross (quad_edges a) (quad_edges b).
(** Intersects: intersects.h 97-250, which forward to internal/intersects_internal.cc 30-48, 152-158, 226-234,
    268-280.  There is no overload for Envelopes. *)
Definition intersects (a b : object) : bool :=
  match a, b with
  | OPoint p, OPoint q => veq p q
  | OPoint p, OSegment s | OSegment s, OPoint p => int_point_segment p s
  | OPoint p, OTriangle t | OTriangle t, OPoint p => tri_contains t p
  | OPoint p, ORect r | ORect r, OPoint p => rect_contains r p
  | OPoint p, OQuad q | OQuad q, OPoint p => quad_contains q p
  | OSegment s, OSegment s' => int_segments s s'
  | OSegment s, OTriangle t | OTriangle t, OSegment s => int_segment_triangle s t
  | OSegment s, ORect r | ORect r, OSegment s => int_segment_rect s r
  | OSegment s, OQuad q | OQuad q, OSegment s => int_segment_quad s q
  | OTriangle t, OTriangle t' => int_triangles t t'
  | OTriangle t, ORect r | ORect r, OTriangle t => int_triangle_rect t r
  | OTriangle t, OQuad q | OQuad q, OTriangle t => int_triangle_quad t q
  | ORect r, ORect r' => int_rects r r'
  | ORect r, OQuad q | OQuad q, ORect r => int_rect_quad r q
  | OQuad q, OQuad q' => int_quads q q'
  | OEnvelope _, _ | _, OEnvelope _ => false
  end.
End Geom.
Arguments vec : clear implicits.
Arguments segment : clear implicits.
Arguments triangle : clear implicits.
Arguments rect : clear implicits.
Arguments quad : clear implicits.
Arguments object : clear implicits.
