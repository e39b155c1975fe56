(** C68: reverting a stroke's geometry to its save point undoes everything that was done since.

    /repo/ink/strokes/internal/brush_tip_extruder/geometry.{h,cc}: SetSavePoint, RevertToSavePoint, SetVertex,
    SetTriangleIndices, UpdateOppositeSideOffset, AddExtrusionBreak, ClearSinceLastExtrusionBreak and every other place
    that changes the mesh or the two sides. *)
From Coq Require Import Arith Bool Lia Permutation List.
From Verif Require Import ExtruderGeometryModel ExtruderGeometrySpec ExtruderGeometryLists ExtruderGeometryProofs.
Import ListNotations.

(** Whatever is done after the save point is set, even if it clears vertices from before the save point, and in whatever
    order the three hash maps are walked: reverting succeeds and brings back the vertices (but for their shading), the
    triangles, the three per-vertex arrays, both sides in full and the last extrusion break; and there is no save point
    any more. *)
Theorem C68_revert : forall core shade T J R (zero_vertex : core * shade) (zero_triangle : T) (fresh : nat -> nat -> R) (empty_disc : J) g0 os g sv st so,
  reachable zero_vertex zero_triangle fresh empty_disc g0 ->
  run zero_vertex zero_triangle fresh empty_disc (set_save_point zero_vertex g0) os = Some g ->
  Permutation sv (saved_vertices (save g)) -> Permutation st (saved_triangles (save g)) -> Permutation so (saved_opposites (save g)) ->
  exists g', revert zero_vertex zero_triangle empty_disc g sv st so = Some g' /\ same_stroke g' g0 /\ is_active (save g') = false.
Proof.
  intros core shade T J R zv zt fresh ed g0 os g sv st so RE RU P1 P2 P3. destruct (reachable_wf _ _ _ _ _ _ _ _ _ _ RE) as (W & _).
  destruct (inv_run _ _ _ _ _ _ _ _ _ _ _ _ _ _ W (wf_save _ _ _ _ _ _ _ W) (inv_start _ _ _ _ _ zv _ W) RU) as (Wg & b & I).
  destruct (revert_ok _ _ _ _ _ zv zt ed _ _ _ _ _ _ W Wg I P1 P2 P3) as (g' & R1 & R2 & R3 & _). exists g'. auto.
Qed.

(** Reverting when there is no save point changes nothing, and every state can be reverted. *)
Theorem C68_revert_always : forall core shade T J R (zero_vertex : core * shade) (zero_triangle : T) (fresh : nat -> nat -> R) (empty_disc : J) g sv st so,
  reachable zero_vertex zero_triangle fresh empty_disc g ->
  Permutation sv (saved_vertices (save g)) -> Permutation st (saved_triangles (save g)) -> Permutation so (saved_opposites (save g)) ->
  exists g', revert zero_vertex zero_triangle empty_disc g sv st so = Some g' /\ (is_active (save g) = false -> g' = g) /\ is_active (save g') = false.
Proof.
  intros core shade T J R zv zt fresh ed g sv st so RE P1 P2 P3. destruct (reachable_wf _ _ _ _ _ _ _ _ _ _ RE) as (W & IH). destruct (is_active (save g)) eqn:A.
  - destruct (IH eq_refl) as (g0 & b & W0 & I). destruct (revert_ok _ _ _ _ _ zv zt ed _ _ _ _ _ _ W0 W I P1 P2 P3) as (g' & R1 & _ & R3 & _). exists g'. split; [exact R1|]. split; [discriminate|exact R3].
  - exists g. split; [apply revert_inactive, A|]. auto.
Qed.

(** Clearing back to the last extrusion break fails in exactly one case: the break was added after the save point, at
    more vertices (or indices or discontinuities) but at the same number of triangles, there are vertices to clear, and
    nothing from before the save point had been cleared before. *)
Theorem C68_clear : forall core shade T J R (zero_vertex : core * shade) (zero_triangle : T) (fresh : nat -> nat -> R) (empty_disc : J) g0 os g,
  reachable zero_vertex zero_triangle fresh empty_disc g0 ->
  run zero_vertex zero_triangle fresh empty_disc (set_save_point zero_vertex g0) os = Some g ->
  let b := last_break g in
  step zero_vertex zero_triangle fresh empty_disc g Clear = None <->
    vertex_count b < length (vertices g) /\ contains_all (save g) = false /\ triangle_count b = length (triangles g0) /\
    (length (vertices g0) < vertex_count b \/ length (indices (left g0)) < index_count (left_info b) \/ length (discs (left g0)) < disc_count (left_info b)
     \/ length (indices (right g0)) < index_count (right_info b) \/ length (discs (right g0)) < disc_count (right_info b)).
Proof.
  intros core shade T J R zv zt fresh ed g0 os g RE RU b. destruct (reachable_wf _ _ _ _ _ _ _ _ _ _ RE) as (W & _).
  destruct (inv_run _ _ _ _ _ _ _ _ _ _ _ _ _ _ W (wf_save _ _ _ _ _ _ _ W) (inv_start _ _ _ _ _ zv _ W) RU) as (Wg & b' & I). cbn [step].
  rewrite (clear_none _ _ _ _ _ zv zt fresh ed g0 g b' W Wg I). fold b. unfold below, below_info, counts_of, info_of. cbn. split; intros (X1 & X2 & X3 & X4); repeat split; try assumption; lia.
Qed.

(** * Cases *)
Definition zv : nat * nat := (0, 0).
Notation Run := (run zv 0 (fun a b => (a, b)) tt).
Notation Reachable := (reachable zv 0 (fun a b => (a, b)) tt).
Definition start : list (op nat nat nat unit (nat * nat)) :=
  [AppendVertex true (10, 0); AppendVertex false (11, 0); AppendVertex true (12, 0); AppendTriangle 100; AddBreak; AppendVertex false (13, 0); AppendVertex true (14, 0); AppendTriangle 101].
Lemma reach_run os : forall g g', Reachable g -> Run g os = Some g' -> Reachable g'.
Proof.
  induction os as [|o os IH]; intros g g' H E; cbn [run] in E; [injection E as <-; exact H|]. destruct (step zv 0 (fun a b => (a, b)) tt g o) as [g1|] eqn:E1; [|discriminate]. apply (IH g1 g' (stepped _ _ _ _ _ _ _ _ _ _ _ _ H E1) E).
Qed.
(** A stroke with a break is saved; then an old vertex and an old triangle are changed, a triangle is inserted before the
    old one, vertices are added, everything since the break is cleared, and other vertices are added. *)
Definition after : list (op nat nat nat unit (nat * nat)) :=
  [SetVertex 3 (99, 0); SetTriangle 1 55; AppendVertex true (15, 0); Retriangulate 1 (fun _ t => t + 1) 77; SetVertex 0 (98, 0); SetOpposite 0 7; Clear; AppendVertex true (16, 0); AppendTriangle 500].
Example C68_applies : exists g0 g g', Reachable g0 /\ Run (set_save_point zv g0) after = Some g /\ contains_all (save g) = true /\ triangles g = [100; 500] /\
  revert zv 0 tt g (saved_vertices (save g)) (saved_triangles (save g)) (saved_opposites (save g)) = Some g' /\ map fst (vertices g') = [10; 11; 12; 13; 14] /\ triangles g' = [100; 101] /\ indices (left g') = [0; 2; 4].
Proof.
  destruct (Run (new_geometry (0, 0)) start) as [g0|] eqn:E; [|discriminate E]. exists g0. assert (RE : Reachable g0) by (apply (reach_run start (new_geometry (0, 0))); [apply started|exact E]).
  vm_compute in E. injection E as <-. eexists _, _. split; [exact RE|]. split; [vm_compute; reflexivity|]. split; [reflexivity|]. split; [reflexivity|]. split; [vm_compute; reflexivity|]. repeat split.
Qed.

(** A break added after the save point at one more vertex but no more triangles; then clearing fails. *)
Theorem C68_clear_refuted : exists g0 os g, Reachable g0 /\ Run (set_save_point zv g0) os = Some g /\ step zv 0 (fun a b => (a, b)) tt g Clear = None.
Proof.
  exists (new_geometry (0, 0)), [AppendVertex true (1, 0); AddBreak; AppendVertex true (2, 0)]. eexists. split; [apply started|]. split; [reflexivity|]. reflexivity.
Qed.
(** The shading of an old vertex is not brought back. *)
Theorem C68_shade_refuted : exists g0 os g g', Reachable g0 /\ Run (set_save_point zv g0) os = Some g /\
  revert zv 0 tt g (saved_vertices (save g)) (saved_triangles (save g)) (saved_opposites (save g)) = Some g' /\ vertices g' <> vertices g0.
Proof.
  destruct (Run (new_geometry (0, 0)) [AppendVertex true (1, 0)]) as [g0|] eqn:E; [|discriminate E]. exists g0, [Reshade 0 5]. assert (RE : Reachable g0) by (apply (reach_run [AppendVertex true (1, 0)] (new_geometry (0, 0))); [apply started|exact E]).
  vm_compute in E. injection E as <-. eexists _, _. split; [exact RE|]. split; [reflexivity|]. split; [reflexivity|]. cbn. discriminate.
Qed.

Print Assumptions C68_revert.
Print Assumptions C68_revert_always.
Print Assumptions C68_clear.
Print Assumptions C68_clear_refuted.
Print Assumptions C68_shade_refuted.
