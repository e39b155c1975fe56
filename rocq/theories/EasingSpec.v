(** What easing functions are required to do, stated without the model's helpers. *)
From Coq Require Import ZArith List Bool Reals.
From Flocq Require Import Core.
From Verif Require Import F32 NumModel EasingModel.
Import ListNotations.
Open Scope R_scope.

(** Building the evaluator of [e] finishes and its value at [x] is [y]. *)
Definition eases {N : num} (e : easing N) (x y : T N) : Prop :=
  exists fuel i, make_impl fuel e = Some i /\ get_y i x = Some y.

(** *** The exact piecewise linear curve through points (0,0), the given ones, (1,1) *)
Definition line (p q : R * R) (x : R) : R := snd p + (snd q - snd p) * ((x - fst p) / (fst q - fst p)).
Definition curve (pts : list (R * R)) (x y : R) : Prop :=
  let full := (0, 0) :: pts ++ [(1, 1)] in
  (exists l1 p l2, full = l1 ++ p :: l2 /\ fst p = x /\ Forall (fun q => x < fst q) l2 /\ y = snd p)
  \/ (exists l1 p q l2, full = l1 ++ p :: q :: l2 /\ fst p < x < fst q /\ y = line p q x)
  \/ (x < 0 /\ exists q l2, full = (0, 0) :: q :: l2 /\ (fst q = 0 -> y = 0) /\ (fst q <> 0 -> y = line (0, 0) q x))
  \/ (1 < x /\ exists l1 p, full = l1 ++ [p; (1, 1)] /\ (fst p = 1 -> y = 1) /\ (fst p <> 1 -> y = line p (1, 1) x)).
Fixpoint ordered_points (pts : list (R * R)) : Prop :=
  match pts with
  | p :: ((q :: _) as r) => fst p <= fst q /\ ordered_points r
  | _ => True
  end.
Definition fin_points (pts : list (R * R)) : list (ereal * ereal) := map (fun p => (Fin (fst p), Fin (snd p))) pts.

(** *** The exact staircase: [n] steps on [0,1) with the jump at the end, start, both or neither *)
Definition stair (pos : Z) (n k : R) : R :=
  if Z.eqb pos 0 then k / n
  else if Z.eqb pos 1 then (k + 1) / n
  else if Z.eqb pos 2 then (k + 1) / (n + 1)
  else k / (n - 1).

(** *** The cubic Bezier curve with end points (0,0) and (1,1) *)
Definition bezier (a b t : R) : R := 3 * (1 - t) ^ 2 * t * a + 3 * (1 - t) * t ^ 2 * b + t ^ 3.
(** (x, y) is on a chord of the curve between two parameters at most 1/78 apart *)
Definition near_bezier (x1 y1 x2 y2 x y : R) : Prop :=
  exists s t w, 0 <= s < t /\ t <= 1 /\ t - s <= / 78 /\ 0 <= w <= 1 /\
    x = bezier x1 x2 s + w * (bezier x1 x2 t - bezier x1 x2 s) /\
    y = bezier y1 y2 s + w * (bezier y1 y2 t - bezier y1 y2 s).

(** *** Points that cannot matter: between two others at the same position, at 0 before
    another one at 0, at 1 after another one at 1 *)
Inductive redundant : list (f32 * f32) -> list (f32 * f32) -> Prop :=
| red_middle l1 a b c l2 : feq (fst a) (fst b) = true -> feq (fst b) (fst c) = true ->
    redundant (l1 ++ a :: b :: c :: l2) (l1 ++ a :: c :: l2)
| red_first a b l : feq (fst a) f0 = true -> feq (fst b) f0 = true -> redundant (a :: b :: l) (b :: l)
| red_last l a b : feq (fst a) f1 = true -> feq (fst b) f1 = true -> redundant (l ++ [a; b]) (l ++ [a]).
(** equal as C++ floats, or the very same NaN *)
Definition same_float (a b : f32) : Prop := a = b \/ feq a b = true.
