(** The outline of a turn around circles, in real numbers. *)
From Coq Require Import ZArith Reals List.
From Verif Require Import GeomSpec BehaviorMeaning CircleSpec RoundedSpec.
Import ListNotations.
Local Open Scope R_scope.

(** the segment from where [b] to where [c] reaches farthest in the direction of angle [x] *)
Definition top (b : ball) (x : R) : pt := P (px (fst b) + snd b * cos x) (py (fst b) + snd b * sin x).
Definition side_of (b c : ball) (x : R) : shape := seg_set (top b x) (top c x).
(** the points of a turn around [m], which comes from [s] along the side at angle [x] and leaves to [e] along the side at angle [y]: an arc of [n] steps,
    or the point where the two sides meet, or, if they do not, the ends of the sides *)
Inductive turn_outline (s m e : ball) (x y : R) : bool -> list pt -> Prop :=
  | OutlineArc n : (1 <= n)%nat -> turn_outline s m e x y true (map (fun i => top m (x + INR i / INR n * (y - x))) (seq 0 (S n)))
  | OutlineMeet p : side_of s m x p -> side_of m e y p -> turn_outline s m e x y false [p]
  | OutlineApart : ~ meet (side_of s m x) (side_of m e y) -> turn_outline s m e x y false [top m x; top m y].
(** which sides are arcs, for angles that have been brought into one turn from the incoming left one: the angles of the incoming right side, the outgoing left
    and the outgoing right side; if the order leaves it open it is the angle [t] from one line of centers to the other that decides *)
Definition open_case (ir ol or : R) : Prop := or < ol <= ir \/ ir < ol <= or.
Definition left_arc (ir ol or t : R) : Prop := (ir < ol /\ or < ol) \/ open_case ir ol or /\ (turn / 3 <= Rabs t \/ t < 0).
Definition right_arc (ir ol or t : R) : Prop := (ol <= ir < or \/ ir < or < ol) \/ open_case ir ol or /\ (turn / 3 <= Rabs t \/ 0 <= t).
(** angles that are nearly the same *)
Definition nearly (a b : R) : Prop := exists k : Z, Rabs (a - b - IZR k * turn) < 2 / 100000.
(** [t] is the angle from vector [a] to vector [b] *)
Definition angle_between (a b : pt) (t : R) : Prop := - PI < t <= PI /\ exists m, 0 < m /\ inner a b = m * cos t /\ cross a b = m * sin t.
(** [x] is the angle of the left (the right) common tangent of two discs, going from [b] to [c] *)
Definition side_angle (left : bool) (b c : ball) (x : R) : Prop := exists phi, tangent (disc (fst b) (snd b)) (disc (fst c) (snd c)) (toward phi) /\
  (if left then 0 < cross (minus (fst c) (fst b)) (toward phi) else cross (minus (fst c) (fst b)) (toward phi) < 0) /\ same_angle x phi.
(** the same angle as [a], or as [b] where the two are nearly the same *)
Definition about (x a b : R) : Prop := same_angle x a \/ same_angle x b /\ nearly a b.
(** arcs are clockwise on the left and counter-clockwise on the right, and at most a turn *)
Definition way (left : bool) (w : R) : Prop := if left then - turn <= w < 0 else 0 <= w < turn.
Definition apart (b c : ball) : Prop := ~ within (disc (fst b) (snd b)) (disc (fst c) (snd c)) /\ ~ within (disc (fst c) (snd c)) (disc (fst b) (snd b)).
(** The outline along a row of discs: for each disc but the first and last its turn, and for a disc without extent its center.  All turns are arcs unless
    [crossings] *)
Inductive row_outline (left crossings : bool) : list ball -> list pt -> Prop :=
  | RowEnd l : (length l <= 2)%nat -> row_outline left crossings l []
  | RowPoint s m e l pts : snd m = 0 -> row_outline left crossings (m :: e :: l) pts -> row_outline left crossings (s :: m :: e :: l) (fst m :: pts)
  | RowTurn s m e l a x y arc new pts : snd m <> 0 -> side_angle left s m a -> side_angle left m e y -> about x a y -> turn_outline s m e x y arc new ->
      (arc = true -> way left (y - x)) -> (crossings = false -> arc = true) ->
      row_outline left crossings (m :: e :: l) pts -> row_outline left crossings (s :: m :: e :: l) (new ++ pts).
(** neighbours of discs with an extent are not within one another *)
Fixpoint row (l : list ball) : Prop :=
  match l with s :: ((m :: e :: _) as rest) => (snd m = 0 \/ apart s m /\ apart m e) /\ row rest | _ => True end.
(** two sides that belong to different discs: where they meet or, if they do not, their ends *)
Inductive corner_outline (a b c d : ball) (x y : R) : list pt -> Prop :=
  | CornerMeet p : side_of a b x p -> side_of c d y p -> corner_outline a b c d x y [p]
  | CornerApart : ~ meet (side_of a b x) (side_of c d y) -> corner_outline a b c d x y [top b x; top c y].
(** a row of discs [bs] between two others *)
Definition path (a : ball) (bs : list ball) (l : list nat) (d : ball) : list ball := a :: map (at_ bs) l ++ [d].
(** whether the outline follows the discs of the tip, for angles in one turn from that of the incoming left side, rather than taking the way from one side to the other *)
Definition follows (left : bool) (ir ol or : R) : Prop := if left then ir <= ol \/ or <= ol else ir < or \/ or <= ol <= ir.
