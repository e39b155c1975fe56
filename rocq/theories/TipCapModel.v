(** Splitting the outline points of a cap into left and right, the circles a cap goes around and the rearmost circles:
    /repo/ink/strokes/internal/brush_tip_shape.cc.  The points themselves (AppendLeftCircularTurnPoints) are arbitrary. *)
From Coq Require Import Bool Arith List.
From Verif Require Import NumModel GeomModel CircleModel TipShapeModel.
Import ListNotations.

Section TipCap.
Context {N : num}.
(** IsRightPoint: 616-621 *)
Definition is_right (forward center p : vec N) : bool := nlt N (det forward (vsub p center)) n0.
(** the counting loop of MoveNewRightPointsOutOfLeft: 656-666; the number of right points and the "starting" index *)
Definition count_step (right : vec N -> bool) (st : nat * nat * option nat) (p : vec N) : nat * nat * option nat :=
  let '(i, count, start) := st in
  if right p then (S i, S count, start)
  else match start, count with None, S _ => (S i, count, Some (Nat.pred i)) | _, _ => (S i, count, start) end.
Definition right_run (right : vec N -> bool) (new : list (vec N)) : nat * option nat :=
  let '(_, count, start) := fold_left (count_step right) new (0, 0, None) in
  (count, match start, count with None, S _ => Some (Nat.pred (length new)) | _, _ => start end).
(** the last loop: 679-682 *)
Fixpoint move_back (k : nat) (left right : list (vec N)) : list (vec N) * list (vec N) :=
  match k with
  | 0 => (left, right)
  | S k => move_back k (left ++ [last right (V n0 n0)]) (removelast right)
  end.
(** MoveNewRightPointsOutOfLeft: 630-683 *)
Definition move_new_right_points (forward center : vec N) (count : nat) (left right : list (vec N)) : list (vec N) * list (vec N) :=
  let new := skipn (length left - count) left in
  let (rights, start) := right_run (is_right forward center) new in
  match start with
  | None => (left, right)
  | Some s =>
      let at_ i := nth (if Nat.leb i s then s - i else s + count - i) new (V n0 n0) in
      let right := right ++ map at_ (seq 0 count) in
      move_back (count - rights) (firstn (length left - count) left) right
  end.
(** the loop of AppendEndcapExtrusionPoints: 742-750; the points from the end on *)
Fixpoint take_right (right_point : vec N -> bool) (back right : list (vec N)) : list (vec N) * list (vec N) :=
  match back with
  | p :: rest => if right_point p then take_right right_point rest (right ++ [p]) else (back, right)
  | [] => ([], right)
  end.
Definition split_endcap (forward center : vec N) (count : nat) (left right : list (vec N)) : list (vec N) * list (vec N) :=
  let old := firstn (length left - count) left in
  let (back, right) := take_right (is_right forward center) (rev (skipn (length left - count) left)) right in
  (old ++ rev back, right).
(** the loop over the perimeter in AppendStartcapExtrusionPoints 694-699 and AppendEndcapExtrusionPoints 724-729: the indices of the
    circles, [None] if the loop takes more than [fuel] rounds *)
Fixpoint walk_cw (s : shape N) (fuel i stop : nat) : option (list nat) :=
  if Nat.eqb i stop then Some [i]
  else match fuel with
       | 0 => None
       | S fuel => match walk_cw s fuel (next_cw s i) stop with Some l => Some (i :: l) | None => None end
       end.
(** AppendWholeShapeExtrusionPoints: 783-787; [count] rounds *)
Fixpoint rounds_cw (s : shape N) (count i : nat) : list nat :=
  match count with 0 => [] | S count => i :: rounds_cw s count (next_cw s i) end.
Definition whole_circles (s : shape N) : list nat := rounds_cw s (length (s_circles s) + 2) (next_ccw s 0).
(** GetRearIndices: 167-199; the loop carries left and right index, rearmost dot product and the two determinants *)
Definition rear_step (forward center : vec N) (st : nat * (nat * nat * T N * T N * T N)) (c : circle N) : nat * (nat * nat * T N * T N * T N) :=
  let '(i, (l, r, rear, ld, rd)) := st in
  let offset := vsub (CircleModel.center c) center in
  let d := dot forward offset in let t := det forward offset in
  (S i, if nlt N d rear then (i, i, d, t, t)
        else if neqb N d rear then
          if nlt N ld t then (i, r, rear, t, rd) else if nlt N t rd then (l, i, rear, ld, t) else (l, r, rear, ld, rd)
        else (l, r, rear, ld, rd)).
Definition rear_indices (s : shape N) (forward : vec N) : option (nat * nat) :=
  match s_circles s with
  | [] => None
  | c :: rest =>
      let offset := vsub (CircleModel.center c) (s_center s) in
      let t := det forward offset in
      let '(_, (l, r, _, _, _)) := fold_left (rear_step forward (s_center s)) rest (1, (0, 0, dot forward offset, t, t)) in Some (l, r)
  end.
End TipCap.
