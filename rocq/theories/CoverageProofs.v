(** Coverage and CoverageIsGreaterThan as sums over the triangles that a query visits. *)
From Coq Require Import ZArith Bool Arith Reals Lra Lia Permutation List.
From Flocq Require Import Core BinarySingleNaN.
From Verif Require Import F32 F32Lemmas NumModel GeomModel AffineModel RTreeModel RTreeSpec RTreeProofs MeshFormatModel MutableMeshModel PartitionedMeshModel PartitionedMeshSpec PartitionedMeshIndex.
Import ListNotations.
Local Open Scope Z_scope.

Section Sums.
Context {N : num} {M : Type}.
Variable MO : mesh_ops N M.
Variable sort : (nat -> nat -> bool) -> list nat -> list nat.
Variable d : data M.
Notation ms := (d_meshes d).
Hypothesis NE : ms <> [].
Hypothesis RD : forall i, In i (all_pairs MO ms) -> exists x, triangle_at MO ms i = Some x.
Definition area_at (i : ipair) : T N := match triangle_at MO ms i with Some x => absolute_area x | None => n0 end.
Definition area_sum (l : list ipair) : T N := fold_left (fun a i => nadd N a (area_at i)) l n0.
(** the query calls every visitor on [order], also visitors that are only defined on the triangles of the mesh *)
Definition queried (q : query) (t : affine N) (order : list ipair) : Prop := incl order (all_pairs MO ms) /\
  forall St (w : St -> ipair -> option (St * bool)) v, (forall s i, In i (all_pairs MO ms) -> w s i = Some (v s i)) ->
  forall s, exists s', visit_query MO sort w (Some d) q t s = Some s' /\ visits v order s s'.
Lemma total_sum : total_area MO d = Some (area_sum (all_pairs MO ms)).
Proof.
  unfold total_area, area_sum. destruct ms as [|m l] eqn:E; [congruence|]. rewrite <- E in *. rewrite <- pair_triangles.
  destruct (all_some_map (triangle_at MO ms) (all_pairs MO ms) RD) as (r & R1 & R2). rewrite R1. cbn [option_map]. f_equal. clear E R1. revert r R2. generalize (n0 (N := N)). induction (all_pairs MO ms) as [|i p IH]; intros a [|x r] Q; try discriminate; [reflexivity|]. cbn [map] in Q. injection Q as Q1 Q2. cbn [fold_left]. replace (area_at i) with (absolute_area x) by (unfold area_at; rewrite Q1; reflexivity). apply IH; [|exact Q2]. intros j J. apply RD. right. exact J.
Qed.
Lemma area_ok a i : In i (all_pairs MO ms) -> add_area MO d a i = Some (nadd N a (area_at i)).
Proof. intros I. unfold add_area, area_at. destruct (RD i I) as (x & ->). reflexivity. Qed.
Lemma coverage_sum q t order : queried q t order -> coverage MO sort (Some d) q t = Some (ndiv N (area_sum order) (area_sum (all_pairs MO ms))).
Proof.
  intros [_ H]. unfold coverage. rewrite total_sum.
  destruct (H _ (fun a i => option_map (fun a' => (a', true)) (add_area MO d a i)) (fun a i => (nadd N a (area_at i), true)) ltac:(intros s i I; cbv beta; rewrite (area_ok s i I); reflexivity) n0) as (c & -> & V). cbn [option_map]. f_equal. f_equal.
  unfold area_sum. revert V. generalize (n0 (N := N)). clear H. induction order as [|i l IH]; intros a V; inversion V; subst; [reflexivity| |discriminate]. injection H1 as <-. cbn [fold_left]. apply IH; assumption.
Qed.
Lemma greater_sum (ok : T N -> Prop) th :
  (forall a i, In i (all_pairs MO ms) -> ok a -> ok (nadd N a (area_at i)) /\
     (nlt N (nmul N th (area_sum (all_pairs MO ms))) a = true -> nlt N (nmul N th (area_sum (all_pairs MO ms))) (nadd N a (area_at i)) = true)) -> ok n0 ->
  forall q t order, queried q t order -> coverage_is_greater_than MO sort (Some d) q th t = Some (nlt N (nmul N th (area_sum (all_pairs MO ms))) (area_sum order)).
Proof.
  intros ok_add ok_0 q t order [I H]. unfold coverage_is_greater_than. rewrite total_sum. set (limit := nmul N th _) in *.
  destruct (H _ (fun a i => option_map (fun a' => (a', negb (nlt N limit a'))) (add_area MO d a i)) (fun a i => (nadd N a (area_at i), negb (nlt N limit (nadd N a (area_at i))))) ltac:(intros s i J; cbv beta; rewrite (area_ok s i J); reflexivity) n0) as (c & -> & V). cbn [option_map]. f_equal.
  unfold area_sum. revert V I. generalize ok_0. generalize (n0 (N := N)). clear H.
  assert (UP : forall l a, incl l (all_pairs MO ms) -> ok a -> nlt N limit a = true -> nlt N limit (fold_left (fun a i => nadd N a (area_at i)) l a) = true).
  { induction l as [|i l IH]; intros a I K L; [exact L|]. cbn [fold_left]. destruct (ok_add a i (I i (or_introl eq_refl)) K) as [K' L']. apply IH; [intros j J; apply I; right; exact J|exact K'|apply L', L]. }
  induction order as [|i l IH]; intros a K V J; inversion V; subst; [reflexivity| |].
  - injection H1 as <- G. cbn [fold_left]. apply IH; [apply ok_add; [apply J; left; reflexivity|exact K]|assumption|intros j Q; apply J; right; exact Q].
  - injection H3 as <- G. apply negb_false_iff in G. rewrite G. symmetry. cbn [fold_left]. apply UP; [intros j Q; apply J; right; exact Q|apply ok_add; [apply J; left; reflexivity|exact K]|exact G].
Qed.
End Sums.

(** ** When a query visits in a fixed order *)
Section Queried.
Context {N : num} {M : Type}.
Variable MO : mesh_ops N M.
Variable isnum : T N -> Prop.
Variable val : T N -> R.
Hypothesis Hlt : forall a b, isnum a -> isnum b -> (nlt N a b = true <-> (val a < val b)%R).
Variable sort : (nat -> nat -> bool) -> list nat -> list nat.
Hypothesis sort_perm : forall f l, Permutation l (sort f l).
(** a mesh that can be indexed and read *)
Record clean (d : data M) : Prop := {
  cl_few : addressable MO (d_meshes d);
  cl_some : d_meshes d <> [];
  cl_read : forall i, In i (all_pairs MO (d_meshes d)) -> exists x, triangle_at MO (d_meshes d) i = Some x /\ tri_nums (N := N) isnum x }.
Definition boxes (o : object N) (t : affine N) : Prop := exists box, env_add None (apply_object t o) = Some box /\ nums N isnum box.
(** no NaN arises in the boxes that a query is compared with *)
Definition query_ok (d : data M) (q : query) (t : affine N) : Prop :=
  match q with
  | QObject o => boxes o t
  | QMesh None => True
  | QMesh (Some e) => clean e /\ exists b, bounds MO (Some e) = Some b /\
      match inverse t with
      | Some back => boxes (ORect b) t /\ forall i x, In i (all_pairs MO (d_meshes d)) -> triangle_at MO (d_meshes d) i = Some x -> boxes (OTriangle x) back
      | None => exists c, collapsed_segment MO (d_meshes e) b t = Some c /\ boxes (OSegment c) identity
      end
  end.
Lemma from_order d (q : query) t order L : (forall i, In i L -> In i (all_pairs MO (d_meshes d))) -> Permutation order L ->
  (forall St (w : St -> ipair -> option (St * bool)) v, (forall s i, In i (all_pairs MO (d_meshes d)) -> w s i = Some (v s i)) ->
    forall s, exists s', visit_query MO sort w (Some d) q t s = Some s' /\ visits v order s s') -> queried MO sort d q t order.
Proof. intros H P V. split; [|exact V]. intros i I. apply H. apply (Permutation_in _ P I). Qed.
Lemma query_order d q t : clean d -> query_ok d q t -> exists order, queried MO sort d q t order.
Proof.
  intros [A B C] K. destruct q as [o|[e|]]; cbn [query_ok] in K.
  - destruct K as (box & E & Nb). destruct (visit_object_order MO isnum val Hlt sort sort_perm d A B C o t box E Nb) as (order & P & V). exists order. eapply from_order; [|exact P|exact V]. intros i I. apply filter_In in I. apply I.
  - destruct K as ([A' B' C'] & b & Eb & K). destruct (d_meshes e) as [|m l] eqn:Em; [congruence|]. destruct (inverse t) as [back|] eqn:Ei.
    + destruct K as [(box & E & Nb) T].
      assert (MT : forall i, In i (all_pairs MO (d_meshes d)) -> exists x r, triangle_at MO (d_meshes d) i = Some x /\ meets_triangle MO sort (Some e) x back = Some r).
      { intros i I. destruct (C i I) as (x & X & _). destruct (T i x I X) as (bt & E1 & E2). rewrite <- Em in A', B', C'. destruct (visit_object_order MO isnum val Hlt sort sort_perm e A' B' C' (OTriangle x) back bt E1 E2) as (o & _ & V).
        destruct (V bool (fun (_ : bool) _ => Some (true, false)) (fun _ _ => (true, false)) ltac:(reflexivity) false) as (r & R & _). exists x, r. split; [exact X|exact R]. }
      destruct (visit_tree_order MO isnum val Hlt sort sort_perm d A B C box (fun i => match triangle_at MO (d_meshes d) i with Some x => match meets_triangle MO sort (Some e) x back with Some r => r | None => false end | None => false end) Nb) as (order & P & V).
      exists order. eapply from_order; [|exact P|].
      * intros i I. apply filter_In in I. apply I.
      * intros St w v HW s. unfold visit_query, visit_mesh. cbn [meshes]. rewrite Em, Eb, Ei. cbn [apply_object] in E. rewrite E. apply V. intros u i I. destruct (MT i I) as (x & r & -> & ->). destruct r; [apply HW, I|reflexivity].
    + destruct K as (c & Ec & box & E & Nb). destruct (visit_object_order MO isnum val Hlt sort sort_perm d A B C (OSegment c) identity box E Nb) as (order & P & V). exists order. eapply from_order; [|exact P|].
      * intros i I. apply filter_In in I. apply I.
      * intros St w v HW s. unfold visit_query, visit_mesh. cbn [meshes]. rewrite Em, Eb, Ei, Ec. apply V, HW.
  - exists []. split; [intros i []|]. intros St w v _ s. exists s. split; [reflexivity|constructor].
Qed.
End Queried.
