(** Which circles of two tips are joined by tangents, and whether the joined shape covers both tips:
    /repo/ink/strokes/internal/brush_tip_shape.cc 201-432 and brush_tip_extrusion.cc 25-137, for either reading of [num].  [acos] is
    std::acos; a failing ABSL_CHECK is [None]; ABSL_DCHECKs are not modelled. *)
From Coq Require Import ZArith Bool List.
From Verif Require Import NumModel GeomModel AffineModel CircleModel TipShapeModel TipCapModel RoundedModel.
Import ListNotations.

Section Joined.
Context {N : num}.
Variable acos : T N -> T N.
(** 1e-6 * x, computed in double and stored in a float: brush_tip_extrusion.cc 113 *)
Variable millionth : T N -> T N.
(** CalculateTangentProperties: brush_tip_shape.cc 202-228; turn angle and length, if there are tangents *)
Definition tangent_properties (left : bool) (start end_ : circle N) (direction : vec N) : option (option (T N * T N)) :=
  match tangent_angles acos start end_ with
  | None => Some None
  | Some (l, r) =>
      let a := if left then l else r in
      let offset := vsub (get_point end_ a) (get_point start a) in
      if veq offset (V n0 n0) then Some (Some (n0, magnitude offset))
      else match signed_angle acos direction offset with
           | Some angle => Some (Some (angle, magnitude offset))
           | None => None
           end
  end.
(** GetLeftmostTurningIndex: 241-267; GetRightmostTurningIndex: 276-302 *)
Definition backwards (left : bool) (a : T N) : bool := if left then nlt N quarter_turn a else nlt N a (nopp N quarter_turn).
Definition farther (left : bool) (a b : T N) : bool := if left then nlt N b a else nlt N a b.
Definition reaches (left : bool) (a limit : T N) : bool := if left then nle N limit a else nle N a limit.
Fixpoint turning_loop (left : bool) (start : circle N) (direction : vec N) (i : nat) (circles : list (circle N)) (best : option (nat * T N * T N)) : option (option (nat * T N * T N)) :=
  match circles with
  | [] => Some best
  | c :: rest =>
      match tangent_properties left start c direction with
      | None => None
      | Some None => turning_loop left start direction (S i) rest best
      | Some (Some (a, l)) =>
          if backwards left a then turning_loop left start direction (S i) rest best
          else turning_loop left start direction (S i) rest
                 (match best with
                  | None => Some (i, a, l)
                  | Some (_, b, m) => if farther left a b || (neqb N a b && nlt N l m) then Some (i, a, l) else best
                  end)
      end
  end.
Definition turning_index (left : bool) (start : circle N) (direction : vec N) (s : shape N) (limit : T N) : option (option nat) :=
  match turning_loop left start direction 0 (s_circles s) None with
  | None => None
  | Some None => Some None
  | Some (Some (i, a, _)) => Some (if reaches left a limit then Some i else None)
  end.
(** GetForwardDirectionWithFallback: 304-309 *)
Definition forward (first second : shape N) : option (vec N) :=
  if veq (s_center first) (s_center second) then Some (V n1 n0) else unit_vec (vsub (s_center second) (s_center first)).
(** TangentCircleIndices: brush_tip_shape.h; pairs of an index on the first and an index on the second shape *)
Record indices := Indices { i_left : nat * nat; i_right : nat * nat }.
(** GetTangentCircleIndices: 313-432.  [side_loop]: the loops 363-383 and 400-418, [rounds] of them *)
Fixpoint side_loop (left : bool) (first second : shape N) (ahead : vec N) (rounds candidate : nat) : option (option (nat * nat)) :=
  match rounds with
  | 0 => Some None
  | S rounds =>
      let next := if left then next_cw first candidate else next_ccw first candidate in
      match nth_error (s_circles first) candidate, nth_error (s_circles first) next with
      | Some c, Some d =>
          match tangent_properties left c d ahead with
          | Some (Some (a, _)) =>
              match turning_index left c ahead second a with
              | None => None
              | Some (Some j) => Some (Some (candidate, j))
              | Some None => side_loop left first second ahead rounds next
              end
          | _ => None
          end
      | _, _ => None
      end
  end.
Definition any_turn (left : bool) : T N := if left then nopp N half_turn else half_turn.
Definition or_zero (o : option nat) : nat := match o with Some i => i | None => 0 end.
Definition side (left : bool) (first second : shape N) (ahead : vec N) (rear : nat) : option (nat * nat) :=
  match side_loop left first second ahead (length (s_circles first)) rear with
  | None => None
  | Some (Some p) => Some p
  | Some None =>
      match nth_error (s_circles first) rear with
      | Some c => match turning_index left c ahead second (any_turn left) with Some o => Some (rear, or_zero o) | None => None end
      | None => None
      end
  end.
Definition tangent_indices (first second : shape N) : option indices :=
  if Nat.eqb (length (s_circles first)) 1 && Nat.eqb (length (s_circles second)) 1 then Some (Indices (0, 0) (0, 0))
  else match forward first second with
  | None => None
  | Some ahead =>
      match s_circles first with
      | [c] =>
          match turning_index true c ahead second (any_turn true), turning_index false c ahead second (any_turn false) with
          | Some l, Some r => Some (Indices (0, or_zero l) (0, or_zero r))
          | _, _ => None
          end
      | _ =>
          match rear_indices first ahead with
          | None => None
          | Some (l, r) => match side true first second ahead l, side false first second ahead r with Some l, Some r => Some (Indices l r) | _, _ => None end
          end
      end
  end.

(** the loops of ConstructJoinedShape: brush_tip_extrusion.cc 56-60 and EvaluateTangentQualityInternal: 121-134; the indices counter-clockwise
    from one, up to but without the other, [None] after more than [rounds] of them *)
Fixpoint walk_ccw (s : shape N) (rounds i stop : nat) : option (list nat) :=
  if Nat.eqb i stop then Some []
  else match rounds with
       | 0 => None
       | S rounds => match walk_ccw s rounds (next_ccw s i) stop with Some l => Some (i :: l) | None => None end
       end.
(** add_circles: 48-62 *)
Definition used (s : shape N) (first last : nat) : option (list nat) :=
  if Nat.eqb first last then Some [first]
  else match walk_ccw s (length (s_circles s)) first last with Some l => Some (l ++ [last]) | None => None end.
Definition circle_at (s : shape N) (i : nat) : option (circle N) := nth_error (s_circles s) i.
Definition enlarged (s : shape N) (offset : T N) (l : list nat) : option (list (circle N)) :=
  all_of (map (fun i => match circle_at s i with Some c => make_circle (center c) (nadd N (radius c) offset) | None => None end) l).
(** ConstructJoinedShape: 37-68, the circles of the RoundedPolygon *)
Definition joined (first second : shape N) (t : indices) (offset : T N) : option (list (circle N)) :=
  if negb (nle N n0 offset) then None
  else match used first (fst (i_left t)) (fst (i_right t)), used second (snd (i_right t)) (snd (i_left t)) with
       | Some l, Some m => match enlarged first offset l, enlarged second offset m with Some a, Some b => Some (a ++ b) | _, _ => None end
       | _, _ => None
       end.
(** the offset: 103-113 *)
Definition enlargement (first second : shape N) : option (T N) :=
  match bounds first, bounds second with
  | Some b, Some d => Some (millionth (fold_left nmax [nabs N (x_max b); nabs N (y_min b); nabs N (y_max b); nabs N (x_min d); nabs N (x_max d); nabs N (y_min d); nabs N (y_max d)] (nabs N (x_min b))))
  | _, _ => None
  end.
Inductive quality := FirstContainsSecond | SecondContainsFirst | BadTangents | GoodTangents.
(** whether all circles between two indices, both excluded, are in the polygon: 121-127, 128-134 *)
Definition rest_contained (s : shape N) (arcs : list (arc N)) (from to : nat) : option bool :=
  match walk_ccw s (length (s_circles s)) (next_ccw s from) to with
  | Some l => Some (forallb (fun i => match circle_at s i with Some c => polygon_contains arcs c | None => false end) l)
  | None => None
  end.
(** EvaluateTangentQualityInternal: 70-137 *)
Definition tangent_quality (first second : shape N) : option quality :=
  match shape_contains acos first second with
  | None => None
  | Some true => Some FirstContainsSecond
  | Some false =>
  match shape_contains acos second first with
  | None => None
  | Some true => Some SecondContainsFirst
  | Some false =>
  if Nat.eqb (length (s_circles first)) 1 && Nat.eqb (length (s_circles second)) 1 then Some GoodTangents
  else match tangent_indices first second with
  | None => None
  | Some t =>
  if Nat.eqb (next_cw first (fst (i_left t))) (fst (i_right t)) && Nat.eqb (next_cw second (snd (i_right t))) (snd (i_left t)) then Some GoodTangents
  else match enlargement first second with
  | None => None
  | Some offset =>
  match joined first second t offset with
  | None => None
  | Some circles =>
  match make_polygon acos circles with
  | None => None
  | Some arcs =>
  match rest_contained first arcs (fst (i_right t)) (fst (i_left t)) with
  | None => None
  | Some false => Some BadTangents
  | Some true =>
      match rest_contained second arcs (snd (i_left t)) (snd (i_right t)) with
      | None => None
      | Some b => Some (if b then GoodTangents else BadTangents)
      end
  end end end end end end end.
End Joined.
