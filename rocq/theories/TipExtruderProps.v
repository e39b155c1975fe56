(** C69: what is drawn from predicted input leaves no trace in a stroke, and its outlines are always its two sides, cut at
    the breaks.

    /repo/ink/strokes/internal/brush_tip_extruder.{h,cc}: StartStroke, ExtendStroke, Save, Restore, TruncateOutlines,
    ClearSinceLastExtrusionBreak, ExtrudeBreakPoint; stroke_shape_builder.cc: ExtendStroke. *)
From Coq Require Import Arith Bool Lia Permutation List.
From Verif Require Import ExtruderGeometryModel ExtruderGeometrySpec ExtruderGeometryProofs TipExtruderModel TipExtruderSpec TipExtruderGeometry TipExtruderProofs TipExtruderHistory.
From Verif Require StrokeOutlineModel StrokeOutlineProps.
Import ListNotations.

Section Props.
Variables (core shade T J R P X : Type) (zero_vertex : core * shade) (zero_triangle : T) (fresh : nat -> nat -> R) (empty_disc : J) (position : core -> P) (default : option X).
Notation Stroke := (stroke zero_vertex zero_triangle fresh empty_disc position default).
Notation Same_fixed := (same_fixed zero_vertex zero_triangle fresh empty_disc position default).
Notation Extend := (extend zero_vertex zero_triangle fresh empty_disc position default).
Notation Restore := (restore zero_vertex zero_triangle empty_disc default).

(** Whenever a stroke has been extended, its outlines are the two sides cut into consecutive pieces, one for every break;
    none is empty. *)
Theorem C69_outlines : forall e sv st so fixed volatile caps closing derivatives e', Stroke e -> walks e sv st so -> Extend e sv st so fixed volatile caps closing derivatives = Done e' ->
  exists pieces, non_empty_outlines e' = Some (map (map Some) (map around pieces)) /\ cuts pieces (indices (left (geo e'))) (indices (right (geo e'))) /\ length pieces = break_count (last_break (geo e')).
Proof.
  intros e sv st so fixed volatile caps closing derivatives e' H PW E. pose proof (extend_good _ _ _ _ _ _ _ zero_vertex zero_triangle fresh empty_disc position default e sv st so fixed volatile caps closing derivatives (stroke_ready _ _ _ _ _ _ _ _ _ _ _ _ _ _ H) PW) as G. rewrite E in G.
  destruct G as (e0 & ps0 & tl0 & tr0 & ps & [_ G _ _ _ _]). exists ps. apply (good_outlines _ _ _ _ _ _ _ e' ps G).
Qed.

(** Every vertex of the mesh is in exactly one outline, and there only once. *)
Theorem C69_vertices : forall e sv st so fixed volatile caps closing derivatives e', Stroke e -> walks e sv st so -> Extend e sv st so fixed volatile caps closing derivatives = Done e' ->
  exists os, non_empty_outlines e' = Some (map (map Some) os) /\ Permutation (concat os) (seq 0 (length (vertices (geo e')))).
Proof.
  intros e sv st so fixed volatile caps closing derivatives e' H PW E. pose proof (extend_good _ _ _ _ _ _ _ zero_vertex zero_triangle fresh empty_disc position default e sv st so fixed volatile caps closing derivatives (stroke_ready _ _ _ _ _ _ _ _ _ _ _ _ _ _ H) PW) as G. rewrite E in G.
  destruct G as (e0 & ps0 & tl0 & tr0 & ps & [_ G _ _ _ _]). destruct (good_outlines _ _ _ _ _ _ _ e' ps G) as (O & (C1 & C2 & _) & _). exists (map around ps). split; [exact O|].
  eapply Permutation_trans; [|apply (proj1 (gd_numbered _ _ _ _ _ _ _ _ _ _ _ G))]. rewrite <- C1, <- C2. clear. induction ps as [|[l r] ps IH]; cbn; [apply perm_nil|]. unfold around at 1. cbn.
  eapply Permutation_trans; [apply Permutation_app; [apply Permutation_app; [apply Permutation_sym, Permutation_rev|apply Permutation_refl]|exact IH]|]. rewrite !app_assoc. eapply Permutation_trans; [apply Permutation_app_tail, Permutation_app_tail, Permutation_app_comm|].
  rewrite <- !app_assoc. apply Permutation_app_head. eapply Permutation_trans; [apply Permutation_app_comm|]. rewrite <- app_assoc. apply Permutation_app_head, Permutation_app_comm.
Qed.

(** No check fails and no span is taken outside an array while a stroke is extended. *)
Theorem C69_checks : forall e sv st so fixed volatile caps closing derivatives, Stroke e -> walks e sv st so -> Extend e sv st so fixed volatile caps closing derivatives <> Broken.
Proof.
  intros e sv st so fixed volatile caps closing derivatives H PW E. pose proof (extend_good _ _ _ _ _ _ _ zero_vertex zero_triangle fresh empty_disc position default e sv st so fixed volatile caps closing derivatives (stroke_ready _ _ _ _ _ _ _ _ _ _ _ _ _ _ H) PW) as G. rewrite E in G. exact G.
Qed.

(** The next call of ExtendStroke first brings back what the fixed events had led to. *)
Theorem C69_restore : forall e sv st so fixed volatile caps closing derivatives e0 e1 sv1 st1 so1, Stroke e -> walks e sv st so ->
  (let! e := Restore (with_geometry e (reset_tracking (geo e))) sv st so in handle_all zero_vertex zero_triangle fresh empty_disc false e fixed) = Done e0 ->
  Extend e sv st so fixed volatile caps closing derivatives = Done e1 -> walks e1 sv1 st1 so1 ->
  exists e2, Restore (with_geometry e1 (reset_tracking (geo e1))) sv1 st1 so1 = Done e2 /\ extrusions e2 = extrusions e0 /\ same_stroke (geo e2) (geo e0).
Proof.
  intros e sv st so fixed volatile caps closing derivatives e0 e1 sv1 st1 so1 H PW F E PW1. unfold extend, before_volatile in E. pose proof (stroke_ready _ _ _ _ _ _ _ _ _ _ _ _ _ _ H) as RD.
  destruct (ready_restore _ _ _ _ _ _ _ zero_vertex zero_triangle empty_disc default e sv st so RD PW) as (a & ps & tl & tr & EA & GA). rewrite EA in E, F. cbn [bind] in E, F. rewrite F in E. cbn [bind] in E.
  pose proof (handle_all_good _ _ _ _ _ _ _ zero_vertex zero_triangle fresh empty_disc false [] fixed a ps tl tr GA ltac:(discriminate)) as HG. rewrite F in HG. destruct HG as ((more & tl2 & tr2 & G2) & _).
  destruct (update_cached_ok _ _ _ _ _ _ _ zero_vertex position e0 _ _ _ G2) as (e3 & E3 & G3 & (B1 & B2 & B3 & B4 & B5)). rewrite E3 in E. cbn [bind] in E.
  pose proof (volatile_good _ _ _ _ _ _ _ zero_vertex zero_triangle fresh empty_disc position e3 _ _ _ volatile caps closing derivatives G3) as V. rewrite E in V. destruct V as (qs & V).
  destruct (restore_good _ _ _ _ _ _ _ zero_vertex zero_triangle empty_disc default _ _ _ _ _ _ _ _ sv1 st1 so1 V PW1) as (e2 & R1 & _ & R3 & R4 & _). exists e2. rewrite <- B1, <- B4. auto.
Qed.

(** Predictions leave no trace: of two strokes that got the same fixed events and whatever volatile ones, extended once
    more alike, both or neither get through, and both get the same vertices (but for shading), triangles and sides, the
    same extrusions and the same outlines. *)
Theorem C69_no_trace : forall a b sv st so sv' st' so' fixed volatile caps closing derivatives a', Same_fixed a b -> walks a sv st so -> walks b sv' st' so' -> Extend a sv st so fixed volatile caps closing derivatives = Done a' ->
  exists b', Extend b sv' st' so' fixed volatile caps closing derivatives = Done b' /\ same_stroke (geo a') (geo b') /\ extrusions a' = extrusions b' /\ non_empty_outlines a' = non_empty_outlines b'.
Proof.
  intros a b sv st so sv' st' so' fixed volatile caps closing derivatives a' H PW PW' E. pose proof (extend_same _ _ _ _ _ _ _ zero_vertex zero_triangle fresh empty_disc position default a b sv st so sv' st' so' fixed volatile caps closing derivatives (fixed_twins _ _ _ _ _ _ _ _ _ _ _ _ _ _ _ H) PW PW') as B. rewrite E in B.
  destruct (Extend b sv' st' so' fixed volatile caps closing derivatives) as [b'| |]; try contradiction. destruct B as ([EX (LK & _) _] & (ps & G & G')). exists b'. split; [reflexivity|]. split; [exact LK|]. split; [exact EX|].
  rewrite (proj1 (good_outlines _ _ _ _ _ _ _ _ _ G)), (proj1 (good_outlines _ _ _ _ _ _ _ _ _ G')). reflexivity.
Qed.
End Props.

(** * Cases *)
Notation Extend := (extend (0, 0) 0 (fun a b => (a, b)) tt (fun c : nat => c) (@None nat)).
Definition o0 : storage := StrokeOutlineModel.fresh.
Definition e0 : extruder nat nat nat unit (nat * nat) nat nat := start_stroke (0, 0) o0.
(** two fixed extrusions; volatile: an extrusion that also moves an old vertex, a clear, another one, a break and one more *)
Definition fixed1 : list (event nat nat nat unit (nat * nat) nat) := [Extrusion 1 [AppendVertex true (10, 0); AppendVertex false (11, 0)]; Extrusion 2 [AppendVertex true (12, 0); AppendTriangle 7]].
Definition volatile1 : list (event nat nat nat unit (nat * nat) nat) :=
  [Extrusion 3 [SetVertex 0 (99, 0); AppendVertex false (13, 0)]; ClearAll; Extrusion 4 [AppendVertex true (50, 0); AppendVertex false (51, 0); AppendTriangle 8]; BreakPoint [] [SetVertex 1 (52, 0)] [Reshade 0 5]; Extrusion 5 [AppendVertex true (60, 0)]].
Definition fixed2 : list (event nat nat nat unit (nat * nat) nat) := [Extrusion 6 [AppendVertex false (14, 0); SetTriangle 0 9]; BreakPoint [] [] []; Extrusion 7 [AppendVertex true (15, 0)]].
Definition get {A} (d : A) (r : result A) : A := match r with Done a => a | _ => d end.
Definition e1 := get e0 (Extend e0 [] [] [] fixed1 volatile1 [AppendVertex false (61, 0)] [] []).
Definition e1' := get e0 (Extend e0 [] [] [] fixed1 [] [] [] []).
Notation Then e := (Extend e (saved_vertices (save (geo e))) (saved_triangles (save (geo e))) (saved_opposites (save (geo e))) fixed2 [Extrusion 8 [AppendVertex false (16, 0)]] [AppendTriangle 1] [] []).
Definition e2 := get e0 (Then e1).
Definition e2' := get e0 (Then e1').
Example C69_applies :
  Extend e0 [] [] [] fixed1 volatile1 [AppendVertex false (61, 0)] [] [] = Done e1 /\ Extend e0 [] [] [] fixed1 [] [] [] [] = Done e1' /\ Then e1 = Done e2 /\ Then e1' = Done e2' /\
  non_empty_outlines e1 = Some [[Some 1; Some 0]; [Some 3; Some 2]] /\ map fst (vertices (geo e1)) = [50; 52; 60; 61] /\
  map fst (vertices (geo e2)) = [10; 11; 12; 14; 15; 16] /\ triangles (geo e2) = [9; 1] /\ extrusions e2 = [Some 1; Some 2; Some 6; None; Some 7; Some 8; None] /\
  non_empty_outlines e2 = Some [[Some 3; Some 1; Some 0; Some 2]; [Some 5; Some 4]] /\ map fst (vertices (geo e1')) = [10; 11; 12] /\
  same_fixed (0, 0) 0 (fun a b => (a, b)) tt (fun c : nat => c) (@None nat) e1 e1'.
Proof.
  assert (A : Extend e0 [] [] [] fixed1 volatile1 [AppendVertex false (61, 0)] [] [] = Done e1) by (vm_compute; reflexivity). assert (B : Extend e0 [] [] [] fixed1 [] [] [] [] = Done e1') by (vm_compute; reflexivity).
  split; [exact A|]. split; [exact B|]. split; [vm_compute; reflexivity|]. split; [vm_compute; reflexivity|]. split; [vm_compute; reflexivity|]. split; [vm_compute; reflexivity|]. split; [vm_compute; reflexivity|]. split; [vm_compute; reflexivity|]. split; [vm_compute; reflexivity|]. split; [vm_compute; reflexivity|]. split; [vm_compute; reflexivity|].
  assert (N : forall e : extruder nat nat nat unit (nat * nat) nat nat, save (geo e) = save (geo e0) -> walks e [] [] []) by (intros e E; unfold walks; rewrite E; cbn; repeat split; constructor).
  apply (both_extended _ _ _ _ _ _ _ _ _ _ _ _ _ e0 e0 [] [] [] [] [] [] fixed1 volatile1 [] [AppendVertex false (61, 0)] [] [] [] [] []); [|apply N; reflexivity|apply N; reflexivity|exact A|exact B].
  apply (both_started _ _ _ _ _ _ _ (0, 0) 0 (fun a b => (a, b)) tt (fun c : nat => c) None (0, 0) [] o0 [] o0); reflexivity.
Qed.

Print Assumptions C69_outlines.
Print Assumptions C69_vertices.
Print Assumptions C69_checks.
Print Assumptions C69_restore.
Print Assumptions C69_no_trace.
Print Assumptions C69_applies.
