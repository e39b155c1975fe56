(** What the searches along an outline look for, in real numbers. *)
From Coq Require Import Reals Bool Arith List.
From Verif Require Import GeomSpec CircleSpec.
Import ListNotations.
Local Open Scope R_scope.

(** the points with positions [first .. first + n - 1] of a list *)
Definition part {A} (l : list A) (first n : nat) : list A := firstn n (skipn first l).
(** consecutive points *)
Definition step (l : list pt) (i : nat) (p q : pt) : Prop := nth_error l i = Some p /\ nth_error l (S i) = Some q.
(** the distance of two points *)
Definition far (p q : pt) : R := sqrt (inner (minus q p) (minus q p)).
(** the length of the line through the first [i + 1] points *)
Fixpoint length_to (l : list pt) (i : nat) : R :=
  match i, l with
  | S i, p :: ((q :: _) as l) => far p q + length_to l i
  | _, _ => 0
  end.
(** none of the first [i] parts of the line meets [s], apart from those without extent; all of those end within [inside] *)
Definition clear (l : list pt) (s : shape) (i : nat) : Prop := forall j p q, (j < i)%nat -> step l j p q -> p <> q -> ~ meet (seg_set p q) s.
Definition inside (l : list pt) (k : shape) (i : nat) : Prop := forall j p q, (j < i)%nat -> step l j p q -> p <> q -> k q.
(** [t] along the segment from [p] to [q] is the first point of [s], which is [u] along the segment from [a] to [b] *)
Definition first_at (p q a b : pt) (t u : R) : Prop :=
  0 <= t <= 1 /\ 0 <= u <= 1 /\ mix t p q = mix u a b /\ forall t', 0 <= t' <= 1 -> seg_set a b (mix t' p q) -> t <= t'.
(** What is found along the line through the points [l] that begins with [budget]: the part it is found on, by its two ends, how far along the two segments
    it is, its position and what is left of the budget.  The last vertex counts only if all are at one position *)
Inductive along (l : list pt) (a b : pt) (k : shape) (budget : R) : option (nat * nat * R * R * pt) -> R -> Prop :=
  | AlongMeets i p q t u : step l i p q -> p <> q -> clear l (seg_set a b) i -> inside l k i -> length_to l i < budget -> first_at p q a b t u ->
      along l a b k budget (Some (i, S i, t, u, mix t p q)) (Rmax 0 (budget - (length_to l i + t * far p q)))
  | AlongSingle p t u : l <> [] -> (forall q, In q l -> q = p) -> 0 < budget -> first_at p p a b t u ->
      along l a b k budget (Some ((length l - 1)%nat, (length l - 1)%nat, t, u, P 0 0)) budget
  | AlongLeaves i p q : step l i p q -> p <> q -> clear l (seg_set a b) (S i) -> inside l k i -> length_to l i < budget -> ~ k q -> along l a b k budget None 0
  | AlongExhausted i : (i < length l \/ l = [])%nat -> clear l (seg_set a b) i -> inside l k i -> budget <= length_to l i -> along l a b k budget None 0
  | AlongEnds : clear l (seg_set a b) (length l) -> inside l k (length l) -> length_to l (length l) < budget -> (forall p, (forall q, In q l -> q = p) -> l <> [] -> ~ seg_set a b p) ->
      along l a b k budget None (budget - length_to l (length l)).
(** clockwise triangles of a fan around [c]: seen from the center, the outline turns the wrong way *)
Definition clockwise (left : bool) (c p q : pt) : Prop := if left then 0 < cross (minus p c) (minus q c) else cross (minus p c) (minus q c) < 0.
(** the last part of the line that makes a clockwise triangle *)
Definition last_clockwise (left : bool) (c : pt) (l : list pt) (p q : pt) : Prop :=
  exists i, step l i p q /\ clockwise left c p q /\ forall j p' q', (i < j)%nat -> step l j p' q' -> ~ clockwise left c p' q'.
(** offsets outside of the discontinuities; their ends are not within *)
Definition hidden (ds : list (nat * nat)) (i : nat) : bool := existsb (fun d => (fst d <? i)%nat && (i <? snd d)%nat) ds.
Definition visible (ds : list (nat * nat)) (first last : nat) : list nat := filter (fun i => negb (hidden ds i)) (seq first (last + 1 - first)).
(** discontinuities in order *)
Fixpoint in_order (from : nat) (ds : list (nat * nat)) : Prop :=
  match ds with [] => True | d :: ds => (from <= fst d < snd d)%nat /\ in_order (snd d) ds end.
(** [x] is the first of the list with a property *)
Definition first_with {A} (good : A -> bool) (l : list A) (x : option A) : Prop :=
  match x with
  | Some x => exists before after, l = before ++ x :: after /\ good x = true /\ forall y, In y before -> good y = false
  | None => forall y, In y l -> good y = false
  end.
