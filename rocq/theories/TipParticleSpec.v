(** What emitting particles is required to do, in exact arithmetic. *)
From Coq Require Import ZArith Reals List.
From Verif Require Import NumModel BehaviorModel TipModel TipSpec.
Import ListNotations.
Local Open Scope R_scope.
Local Notation N := xnum.
Local Notation input := (modeled_input xnum).

(** an input at a known distance and a known, non-negative time *)
Definition measured (i : input) (d e : R) : Prop := traveled i = Fin d /\ elapsed i = Fin e.
(** distance and time do not decrease *)
Definition advances (p i : input) : Prop := exists dp ep di ei, measured p dp ep /\ measured i di ei /\ dp <= di /\ 0 <= ep <= ei.
Fixpoint progressing (inputs : list input) : Prop :=
  match inputs with
  | p :: ((i :: _) as r) => advances p i /\ progressing r
  | [i] => exists d e, measured i d e /\ 0 <= e
  | [] => True
  end.
(** [b] is at least the two gaps after [a]; a gap of 0 asks for nothing *)
Definition gap_after (g h : R) (a b : input) : Prop :=
  exists da ea db eb, measured a da ea /\ measured b db eb /\ (g = 0 \/ da + g <= db) /\ (h = 0 \/ ea + h <= eb).
(** [x] is on the way from [p] to [i], and as early as the gaps after [a] allow: either at
    [p], or one of the gaps is met exactly *)
Definition on_the_way (g h : R) (p i a x : input) : Prop :=
  exists r da ea db eb dp ep, 0 <= r <= 1 /\ measured a da ea /\ measured i db eb /\ measured p dp ep /\
    x = lerp_input (N := N) i p (Fin r) /\
    (r = 1 \/ (g <> 0 /\ (1 - r) * db + r * dp = da + g) \/ (h <> 0 /\ (1 - r) * eb + r * ep = ea + h)).
(** no further particle fits before [i] *)
Definition filled (g h : R) (a i : input) : Prop :=
  exists da ea db eb, measured a da ea /\ measured i db eb /\ (db < da + g \/ eb < ea + h).
(** the points between the inputs [p] and [i], when [a] is the last point before *)
Fixpoint segment (g h : R) (p i a : input) (pts : list input) : Prop :=
  match pts with
  | [] => filled g h a i
  | x :: r => gap_after g h a x /\ on_the_way g h p i a x /\ segment g h p i x r
  end.
Fixpoint strewn (g h : R) (p a : input) (inputs pts : list input) : Prop :=
  match inputs with
  | [] => pts = []
  | i :: r => exists q s, pts = q ++ s /\ segment g h p i a q /\ strewn g h i (last q a) r s
  end.
(** a tip state at the point [x], followed by a gap (a tip of size 0) *)
Definition state_at (t : brush_tip N) (sz : R) (x : input) (s : tip_state N) : Prop :=
  exists dir tms, s = create_tip_state (N := N) (pos_x x) (pos_y x) dir t (Fin sz) tms /\ Forall (fun tm => uses_target t (eq (fst tm))) tms.
Definition with_gaps (ss : list (tip_state N)) : list (tip_state N) := flat_map (fun s => [s; gap_tip_state (N := N)]) ss.
