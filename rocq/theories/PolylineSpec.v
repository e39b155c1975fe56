(** What closing and trimming a polyline should do, in real numbers. *)
From Coq Require Import Reals Arith Lia List.
From Verif Require Import GeomSpec AlgorithmsSpec.
Import ListNotations.
Local Open Scope R_scope.

Definition dist (a b : pt) : R := sqrt (dist2 a b).
Fixpoint path_length (l : list pt) : R := match l with a :: (b :: _) as r => dist a b + path_length r | _ => 0 end.
Definition pt_dec (a b : pt) : {a = b} + {a <> b}.
Proof. destruct a as [x y], b as [u v]. destruct (Req_EM_T x u) as [->|N]; [|right; congruence]. destruct (Req_EM_T y v) as [->|N]; [left; reflexivity|right; congruence]. Defined.
(** [o] is something that satisfies [P], if there is anything *)
Definition some_if_any {A} (P : A -> Prop) (o : option A) : Prop := match o with Some a => P a | None => forall a, ~ P a end.

Section Polyline.
Variable ps : list pt.
(** A place on the polyline is a number of a side and a ratio on it. *)
Definition sides : nat := (length ps - 1)%nat.
Definition corner (i : nat) : pt := nth i ps (P 0 0).
Definition side (i : nat) : shape := seg_set (corner i) (corner (S i)).
Definition place (c : nat * R) : pt := mix (snd c) (corner (fst c)) (corner (S (fst c))).
Definition no_later (c d : nat * R) : Prop := (fst c < fst d)%nat \/ fst c = fst d /\ snd c <= snd d.
(** the length of the polyline before and after a place *)
Definition ahead (c : nat * R) : R := path_length (firstn (S (fst c)) ps) + dist (corner (fst c)) (place c).
Definition behind (c : nat * R) : R := dist (place c) (corner (S (fst c))) + path_length (skipn (S (fst c)) ps).

(** ** Where it crosses itself *)
(** a place on a later side that is not the next one *)
Definition crosses_later (c : nat * R) : Prop := 0 <= snd c <= 1 /\ exists j, (S (fst c) < j < sides)%nat /\ side j (place c).
Definition first_crossing (c : nat * R) : Prop := crosses_later c /\ forall d, crosses_later d -> no_later c d.
(** the first place of a side on some earlier side that is not the one before *)
Definition enters_earlier (c : nat * R) : Prop := exists j, (S j < fst c < sides)%nat /\ first_at (corner (fst c)) (corner (S (fst c))) (side j) (snd c).
Definition last_crossing (c : nat * R) : Prop := enters_earlier c /\ forall d, enters_earlier d -> no_later d c.

(** ** Where an end can be joined to it *)
(** [c] is the place of its side that is nearest to [p], and [d] away *)
Definition nearest (p : pt) (c : nat * R) (d : R) : Prop :=
  0 <= snd c <= 1 /\ d = dist p (place c) /\ forall t, 0 <= t <= 1 -> d <= dist p (place (fst c, t)).
Variables min_walk max_dist min_ratio min_trim : R.
Definition can_join_first (c : nat * R) (d : R) : Prop :=
  (1 < fst c < sides)%nat /\ nearest (corner 0) c d /\ d < max_dist /\ min_walk <= ahead c /\ min_ratio * d <= ahead c /\
  forall x, first_crossing x -> min_trim * d <= ahead x.
Definition can_join_last (c : nat * R) (d : R) : Prop :=
  (fst c + 2 < sides)%nat /\ nearest (corner sides) c d /\ d < max_dist /\ min_walk <= behind c /\ min_ratio * d <= behind c /\
  forall y, last_crossing y -> min_trim * d <= behind y.
Definition best (can : nat * R -> R -> Prop) (c : nat * R) : Prop := exists d, can c d /\ forall c' d', can c' d' -> d <= d'.

(** ** The result *)
Definition earlier (a b : option (nat * R)) : option (nat * R) :=
  match a, b with
  | Some x, Some y => if lt_dec (fst y) (fst x) then b else if Nat.eq_dec (fst y) (fst x) then if Rlt_dec (snd y) (snd x) then b else a else a
  | None, _ => b
  | _, None => a
  end.
Definition later (a b : option (nat * R)) : option (nat * R) :=
  match a, b with
  | Some x, Some y => if lt_dec (fst x) (fst y) then b else if Nat.eq_dec (fst y) (fst x) then if Rlt_dec (snd x) (snd y) then b else a else a
  | None, _ => b
  | _, None => a
  end.
(** [x], [y]: the first and the last crossing; [c], [d]: where the first and the last point are
    joined.  If there are none, nothing changes.  The start is extended to [c]; or else it is cut
    at the earlier of [x] and [d].  The end is extended to [d]; or else it is cut at the later of
    [y] and [c].  No point is repeated. *)
Definition extend (p : pt) (l : list pt) : list pt := if pt_dec p (hd (P 0 0) l) then l else p :: l.
Definition extend_end (l : list pt) (p : pt) : list pt := if pt_dec p (last l (P 0 0)) then l else l ++ [p].
Definition cut (x y c d : option (nat * R)) : list pt :=
  match x, c, d with
  | None, None, None => ps
  | _, _, _ =>
      let a := match c with Some _ => 0%nat | None => match earlier x d with Some p => S (fst p) | None => 0%nat end end in
      let b := match d with Some _ => length ps | None => match later y c with Some p => S (fst p) | None => 0%nat end end in
      let start := match c with Some _ => c | None => earlier x d end in
      let finish := match d with Some _ => d | None => later y c end in
      let run := firstn (b - a) (skipn a ps) in
      let run := match start with Some p => extend (place p) run | None => run end in
      match finish with Some p => extend_end run (place p) | None => run end
  end.
Definition processed (out : list pt) : Prop :=
  exists x y c d, some_if_any first_crossing x /\ some_if_any last_crossing y /\
    some_if_any (best can_join_first) c /\ some_if_any (best can_join_last) d /\ out = cut x y c d.
End Polyline.
