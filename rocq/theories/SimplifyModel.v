(** Simplification of polylines, for either reading of [num]:
    /repo/ink/strokes/internal/brush_tip_extruder/simplify.cc, and which buffered vertices of an
    extrusion are simplified: brush_tip_extruder/geometry.cc 846-893.
    A vertex is anything that has a position; a range of iterators is a list. *)
From Coq Require Import Bool Arith List.
From Verif Require Import NumModel GeomModel DistanceModel.
Import ListNotations.

Section Simplify.
Context {N : num} {A : Type}.
Variable pos : A -> vec N.

(** The loop that finds the farthest point: simplify.cc 38-46.  [i] counts from the start. *)
Fixpoint farthest_from (seg : segment N) (l : list A) (i : nat) (best : nat * T N) : nat * T N :=
  match l with
  | [] => best
  | v :: r =>
      let distance := dist_point_segment (pos v) seg in
      farthest_from seg r (S i) (if nlt N (snd best) distance then (i, distance) else best)
  end.
Definition farthest (seg : segment N) (l : list A) : nat * T N := farthest_from seg l 0 (0, n0).
(** SimplifyPolylineInterior: 28-60.  [fuel] bounds the depth of the recursion; the length of the
    list is enough (SimplifyProofs.interior_eq). *)
Fixpoint interior (eps : T N) (fuel : nat) (seg : segment N) (l : list A) : list A :=
  match fuel with
  | 0 => []
  | S fuel =>
      match l with
      | [] => []
      | _ =>
          let '(i, d) := farthest seg l in
          if nlt N eps d then
            match nth_error l i with
            | Some v => interior eps fuel (Seg (s_start seg) (pos v)) (firstn i l) ++ v :: interior eps fuel (Seg (pos v) (s_end seg)) (skipn (S i) l)
            | None => []
            end
          else []
      end
  end.
(** SimplifyPolyline: 64-83 *)
Definition simplify (l : list A) (eps : T N) (output : list A) : list A :=
  match l with
  | a :: ((_ :: _ :: _) as r) =>
      let b := last r a in
      output ++ a :: interior eps (length l - 2) (Seg (pos a) (pos b)) (removelast r) ++ [b]
  | _ => output ++ l
  end.

(** What SimplifyBufferedVertices makes of the buffered vertices of a side, before it looks at the
    mesh: geometry.cc 850-888.  [None] is the early return of 850.  [second] is
    [next_buffered_vertex_offset == 2]; [simplified] are [last_simplified_vertex_positions]. *)
Definition buffered (eps limit : T N) (second : bool) (simplified : list (vec N)) (buffer : list A) : option (list A) :=
  if nle N eps n0 then None
  else
    match buffer with
    | a :: b :: c :: r =>
        let skip :=
          if nlt N limit (dist_points (pos a) (pos c)) then true
          else existsb (fun p => nlt N eps (dist_point_segment p (Seg (pos a) (pos c)))) simplified in
        Some (if second && skip then simplify (b :: c :: r) eps [a] else simplify buffer eps [])
    | _ => None
    end.
End Simplify.
