(** Distance between two objects: /repo/ink/geometry/distance.h 64-140 and distance.cc 26-289. *)
From Coq Require Import ZArith Bool List.
From Verif Require Import NumModel GeomModel.
Import ListNotations.

Section Model.
Context {N : num}.
(** std::min of an initializer list: the first of the smallest *)
Definition least (a : T N) (l : list (T N)) : T N := fold_left nmin l a.
(** triangle.p0 == triangle.p1 && triangle.p1 == triangle.p2 *)
Definition tri_one_point (t : triangle N) : bool := veq (p0 t) (p1 t) && veq (p1 t) (p2 t).
(** the smallest of the distances from the edges; [least] needs a first one, of which there always is one *)
Definition least_of (f : segment N -> T N) (l : list (segment N)) : T N := match l with [] => nNaN N | e :: es => least (f e) (map f es) end.

Definition dist_points (a b : vec N) : T N := magnitude (vsub a b). (* distance.h 68 *)
Definition dist_point_segment (p : vec N) (s : segment N) : T N := (* distance.h 69-92 *)
  if veq (s_start s) (s_end s) then dist_points (s_start s) p
  else match seg_project s p with
       | None => nmin (dist_points (s_start s) p) (dist_points (s_end s) p)
       | Some k => if nle N n1 k then dist_points p (s_end s)
                   else if nle N k n0 then dist_points p (s_start s)
                   else dist_points p (seg_lerp s k)
       end.
Definition dist_segments (a b : segment N) : T N := (* distance.h 94-109 *)
  if veq (s_start a) (s_end a) then dist_point_segment (s_start a) b
  else if veq (s_start b) (s_end b) then dist_point_segment (s_start b) a
  else if int_segments a b then n0
  else least (dist_point_segment (s_start a) b) [dist_point_segment (s_end a) b; dist_point_segment (s_start b) a; dist_point_segment (s_end b) a].
Definition dist_point_triangle (p : vec N) (t : triangle N) : T N := (* distance.cc 26-43 *)
  if tri_one_point t then dist_points (p0 t) p else if tri_contains t p then n0 else least_of (dist_point_segment p) (tri_edges t).
Definition dist_point_rect (p : vec N) (r : rect N) : T N := (* 45-61 *)
  if rect_point_like r then dist_points (rect_center r) p else if rect_contains r p then n0 else least_of (dist_point_segment p) (rect_edges r).
Definition dist_point_quad (p : vec N) (q : quad N) : T N := (* 63-78 *)
  if quad_point_like q then dist_points (q_center q) p else if quad_contains q p then n0 else least_of (dist_point_segment p) (quad_edges q).
Definition dist_segment_triangle (s : segment N) (t : triangle N) : T N := (* 80-101 *)
  if veq (s_start s) (s_end s) then dist_point_triangle (s_start s) t
  else if tri_one_point t then dist_point_segment (p0 t) s
  else if int_segment_triangle s t then n0 else least_of (dist_segments s) (tri_edges t).
Definition dist_segment_rect (s : segment N) (r : rect N) : T N := (* 103-124 *)
  if veq (s_start s) (s_end s) then dist_point_rect (s_start s) r
  else if rect_point_like r then dist_point_segment (rect_center r) s
  else if int_segment_rect s r then n0 else least_of (dist_segments s) (rect_edges r).
Definition dist_segment_quad (s : segment N) (q : quad N) : T N := (* 126-147 *)
  if veq (s_start s) (s_end s) then dist_point_quad (s_start s) q
  else if quad_point_like q then dist_point_segment (q_center q) s
  else if int_segment_quad s q then n0 else least_of (dist_segments s) (quad_edges q).
Definition dist_triangles (a b : triangle N) : T N := (* 149-169 *)
  if tri_one_point a then dist_point_triangle (p0 a) b
  else if tri_one_point b then dist_point_triangle (p0 b) a
  else if int_triangles a b then n0 else least_of (fun e => dist_segment_triangle e a) (tri_edges b).
Definition dist_triangle_rect (t : triangle N) (r : rect N) : T N := (* 171-193 *)
  if tri_one_point t then dist_point_rect (p0 t) r
  else if rect_point_like r then dist_point_triangle (rect_center r) t
  else if int_triangle_rect t r then n0 else least_of (fun e => dist_segment_rect e r) (tri_edges t).
Definition dist_triangle_quad (t : triangle N) (q : quad N) : T N := (* 195-217 *)
  if tri_one_point t then dist_point_quad (p0 t) q
  else if quad_point_like q then dist_point_triangle (q_center q) t
  else if int_triangle_quad t q then n0 else least_of (fun e => dist_segment_quad e q) (tri_edges t).
Definition dist_rects (a b : rect N) : T N := (* 219-239 *)
  if rect_point_like a then dist_point_rect (rect_center a) b
  else if rect_point_like b then dist_point_rect (rect_center b) a
  else if int_rects a b then n0 else least_of (fun e => dist_segment_rect e b) (rect_edges a).
Definition dist_rect_quad (r : rect N) (q : quad N) : T N := (* 241-263 *)
  if rect_point_like r then dist_point_quad (rect_center r) q
  else if quad_point_like q then dist_point_rect (q_center q) r
  else if int_rect_quad r q then n0 else least_of (fun e => dist_segment_quad e q) (rect_edges r).
Definition dist_quads (a b : quad N) : T N := (* 265-285 *)
  if quad_point_like a then dist_point_quad (q_center a) b
  else if quad_point_like b then dist_point_quad (q_center b) a
  else if int_quads a b then n0 else least_of (fun e => dist_segment_quad e b) (quad_edges a).
(** The overloads of distance.h 36-64; those with the arguments exchanged (112-140) call the others.  There is none for Envelopes. *)
Definition distance (a b : object N) : option (T N) :=
  match a, b with
  | OPoint p, OPoint q => Some (dist_points p q)
  | OPoint p, OSegment s | OSegment s, OPoint p => Some (dist_point_segment p s)
  | OPoint p, OTriangle t | OTriangle t, OPoint p => Some (dist_point_triangle p t)
  | OPoint p, ORect r | ORect r, OPoint p => Some (dist_point_rect p r)
  | OPoint p, OQuad q | OQuad q, OPoint p => Some (dist_point_quad p q)
  | OSegment s, OSegment s' => Some (dist_segments s s')
  | OSegment s, OTriangle t | OTriangle t, OSegment s => Some (dist_segment_triangle s t)
  | OSegment s, ORect r | ORect r, OSegment s => Some (dist_segment_rect s r)
  | OSegment s, OQuad q | OQuad q, OSegment s => Some (dist_segment_quad s q)
  | OTriangle t, OTriangle t' => Some (dist_triangles t t')
  | OTriangle t, ORect r | ORect r, OTriangle t => Some (dist_triangle_rect t r)
  | OTriangle t, OQuad q | OQuad q, OTriangle t => Some (dist_triangle_quad t q)
  | ORect r, ORect r' => Some (dist_rects r r')
  | ORect r, OQuad q | OQuad q, ORect r => Some (dist_rect_quad r q)
  | OQuad q, OQuad q' => Some (dist_quads q q')
  | OEnvelope _, _ | _, OEnvelope _ => None
  end.
End Model.
