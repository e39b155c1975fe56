(** C61: a mesh of stroke vertices is a list of vertices. *)
From Coq Require Import ZArith Bool Reals Lia Lra List.
From Flocq Require Import Core BinarySingleNaN.
From Verif Require Import F32 F32Lemmas BytesModel BytesLemmas MeshFormatModel MeshFormatProps PackModel PartitionModel MutableMeshModel MutableMeshSpec MutableMeshProofs MutableMeshProps StrokeVertexModel StrokeVertexSpec StrokeVertexProofs.
Import ListNotations.
Local Open Scope Z_scope.

(** FullMeshFormat exists; the formats that a stroke mesh may have are those that keep these components of these
    attributes in this order: position, opacity, colour, the two derivatives with their labels, texture coordinates. *)
Definition stroke_layout : list (nat * nat) := [(2, 0); (1, 2); (3, 1); (2, 4); (1, 5); (2, 6); (1, 7); (2, 8)]%nat.
Theorem C61_format : exists full, full_mesh_format = Some full /\ ustride full = 56%nat /\ find_attribute_indices full = full_indices /\
  forall l i f, create l i = Some f ->
    (unpacked_equiv f full = true <-> map (fun p => (components (fst p), snd p)) l = stroke_layout).
Proof.
  assert (H : option_map (fun g => (ustride g, find_attribute_indices g)) full_mesh_format = Some (56%nat, full_indices)) by (vm_compute; reflexivity).
  destruct full_mesh_format as [full|] eqn:E; [|discriminate H]. exists full. cbn [option_map] in H. assert (H1 : ustride full = 56%nat /\ find_attribute_indices full = full_indices) by (split; congruence). split; [reflexivity|]. split; [apply H1|]. split; [apply H1|]. clear H H1.
  intros l i f C. apply (proj2 (proj2 (C28_equal _ _ _ _ _ _ C E))).
Qed.
(** After any calls within their preconditions every vertex reads as it was put, with opacity and colour shifts limited to [-1, 1] and
    everything else bit for bit; the other vertices and the triangles are as the calls left them. *)
Theorem C61_reads full l i f os vs ts : full_mesh_format = Some full -> create l i = Some f -> unpacked_equiv f full = true ->
  stroke_history (index_limit i) os (vs, ts) ->
  let m := do_ops (new_mesh f) os in
  vcount m = count vs /\ tcount m = count ts /\
  (forall n v, 0 <= n -> nth_error vs (Z.to_nat n) = Some v ->
     get_from_mesh m n = Some v /\ vertex_position m n = position v /\
     get_side_derivative m n = Some (side_derivative (non_position v)) /\ get_side_label m n = Some (side_label (non_position v)) /\
     get_forward_derivative m n = Some (forward_derivative (non_position v)) /\ get_forward_label m n = Some (forward_label (non_position v)) /\
     get_surface_uv m n = Some (surface_uv (non_position v))) /\
  (forall j t, 0 <= j -> nth_error ts (Z.to_nat j) = Some t -> triangle_indices m j = t).
Proof.
  intros E C U H m. destruct (created_shape _ _ _ C) as (_ & LI). rewrite <- LI in H. pose proof (equivalent _ _ _ _ C E U) as F. pose proof (do_ops_rep f os _ F H) as R. cbn [fst snd] in R. fold m in R. assert (FM : fmt m = f) by apply do_ops_fmt. rewrite <- FM in F.
  split; [rewrite (rep_vc _ _ _ R); unfold count; rewrite map_length; reflexivity|]. split; [apply R|]. split; [|intros j t J N; apply (read_triangle m _ ts j t R J N)].
  intros n v N0 N. destruct (get_vertex m vs ts n v F R N0 N) as (G & P). unfold get_side_derivative, get_side_label, get_forward_derivative, get_forward_label, get_surface_uv. rewrite G. cbn [option_map]. repeat split; try assumption; reflexivity.
Qed.
(** Every vertex can be put: what is kept exists and is determined, and a second time nothing changes *)
Theorem C61_kept v : exists w, kept_as v w /\ (forall w', kept_as v w' -> w' = w) /\ kept_as w w.
Proof.
  exists (StrokeVertex (position v) (stored (non_position v))). pose proof (stored_kept v) as K. split; [exact K|]. split; [intros w' K'; apply (kept_unique v _ _ K' K)|].
  set (w := StrokeVertex _ _) in *. pose proof (stored_kept w) as K2. 
  assert (LL : forall x y, limited x y -> limited y y).
  { destruct (fZ_exact 1) as (R1 & F1); [lia|]. destruct (fZ_exact (-1)) as (Rm & Fm); [lia|]. intros x y [(A & ->)|[(A & B & ->)|[(A & ->)|[(A & B & ->)|[(A & B & ->)|(A & ->)]]]]]; unfold limited.
    - left. auto.
    - do 3 right. left. rewrite Rm. repeat split; try reflexivity; lra.
    - do 3 right. left. rewrite Rm. repeat split; try reflexivity; lra.
    - do 3 right. left. auto.
    - do 3 right. left. rewrite R1. repeat split; try reflexivity; lra.
    - do 3 right. left. rewrite R1. repeat split; try reflexivity; lra. }
  unfold kept_as in *. destruct v as [p [o [[h s] li] sd sl fd fl uv]]. cbn in *. destruct K as (_ & A & B & D & G & _). repeat split; try reflexivity; eapply LL; eassumption.
Qed.
(** ** A case: three vertices, one with an opacity shift beyond its limit, one changed afterwards *)
Definition ex_vertex (x : Z) (o : f32) : stroke_vertex := StrokeVertex (fZ x, f1) (Attributes o (f0, f1, fZ (-1)) (f1, f0) kExteriorPlusLabel (f0, f1) kInteriorLabel (f0, f1)).
Definition ex_calls : list stroke_op := [Append (ex_vertex 1 (fZ 3)); Append (ex_vertex 2 f1); Append (ex_vertex 3 f0); AddTriangle (0, 1, 2); Change 1 (SideLabel kExteriorMinusLabel)].
Definition ex_result : list stroke_vertex := [ex_vertex 1 f1; StrokeVertex (fZ 2, f1) (Attributes f1 (f0, f1, fZ (-1)) (f1, f0) kExteriorMinusLabel (f0, f1) kInteriorLabel (f0, f1)); ex_vertex 3 f0].
Lemma limited_in (x : f32) : is_finite x = true -> fle (fZ (-1)) x = true -> fle x (fZ 1) = true -> limited x x.
Proof.
  intros F A B. destruct (fZ_exact 1) as (R1 & F1); [lia|]. destruct (fZ_exact (-1)) as (Rm & Fm); [lia|]. pose proof (finite_not_nan _ F) as NX. do 3 right. left.
  apply fle_spec in A; [|reflexivity|exact NX]. apply fle_spec in B; [|exact NX|reflexivity]. rewrite !fX_finite in A, B by assumption. rewrite Rm in A. rewrite R1 in B. auto.
Qed.
Example C61_reads_applies full : full_mesh_format = Some full ->
  stroke_history (index_limit k32BitUnpacked16BitPacked) ex_calls (ex_result, [(0, 1, 2)]) /\ unpacked_equiv full full = true.
Proof.
  intros E. split.
  - assert (L0 : limited f0 f0) by (apply limited_in; reflexivity). assert (L1 : limited f1 f1) by (apply limited_in; reflexivity). assert (Lm : limited (fZ (-1)) (fZ (-1))) by (apply limited_in; reflexivity).
    assert (L3 : limited (fZ 3) f1).
    { do 4 right. left. destruct (fZ_exact 3) as (R3 & F3); [lia|]. split; [exact F3|]. split; [rewrite R3; lra|]. apply B2SF_inj. vm_compute. reflexivity. }
    unfold ex_calls. change [?a; ?b; ?c; ?d; ?e] with ((((([] ++ [a]) ++ [b]) ++ [c]) ++ [d]) ++ [e]).
    set (A := ex_vertex 1 f1). set (B := ex_vertex 2 f1). set (D := ex_vertex 3 f0).
    apply next with (s := ([A; B; D], [(0, 1, 2)])); [apply next with (s := ([A; B; D], [])); [apply next with (s := ([A; B], [])); [apply next with (s := ([A], [])); [apply next with (s := ([], [])); [apply nothing|..]|..]|..]|..]|..];
      try (cbn; unfold count, small; cbn [length]; lia).
    + exists A. split; [repeat split; assumption|reflexivity].
    + exists B. split; [repeat split; assumption|reflexivity].
    + exists D. split; [repeat split; assumption|reflexivity].
    + reflexivity.
    + exists B. split; reflexivity.
  - destruct C61_format as (full' & E' & _ & _ & A). rewrite E in E'. injection E' as <-. unfold full_mesh_format in E. apply (proj2 (A _ _ _ E)). reflexivity.
Qed.
Print Assumptions C61_format.
Print Assumptions C61_reads.
Print Assumptions C61_kept.
