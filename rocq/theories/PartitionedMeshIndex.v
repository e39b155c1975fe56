(** The spatial index of a PartitionedMesh lists every triangle once, and queries visit exactly those that match. *)
From Coq Require Import ZArith Bool Arith Reals Lia Permutation List.
From Verif Require Import NumModel GeomModel AffineModel RTreeModel RTreeSpec RTreeProofs MeshFormatModel MutableMeshModel PartitionedMeshModel PartitionedMeshSpec.
Import ListNotations.
Local Open Scope Z_scope.

Section Index.
Context {N : num} {M : Type}.
Variable MO : mesh_ops N M.
Notation tcount := (m_tcount MO).
(** ** The generator *)
Definition mesh_pairs (k : nat) (m : M) : list ipair := map (fun t => (Z.of_nat k, Z.of_nat t)) (seq 0 (Z.to_nat (tcount m))).
Lemma gen_mesh ms k m post n : nth_error ms k = Some m -> Z.of_nat k < 2 ^ 16 - 1 -> 0 < tcount m < 2 ^ 16 ->
  forall c t, (c + t = Z.to_nat (tcount m))%nat -> (0 < c)%nat -> generate MO ms n (Z.of_nat (S k), 0) = Some post ->
  generate MO ms (c + n) (Z.of_nat k, Z.of_nat t) = Some (map (fun t => (Z.of_nat k, Z.of_nat t)) (seq t c) ++ post).
Proof.
  intros E K T. induction c as [|c IH]; intros t C P G; [lia|]. cbn [Nat.add generate]. unfold next_pair at 1. cbn [fst snd]. rewrite Nat2Z.id, E. unfold u16z. rewrite (Z.mod_small (Z.of_nat t + 1)) by lia.
  destruct (Z.leb_spec (tcount m) (Z.of_nat t + 1)) as [L|L].
  - assert (c = 0)%nat as -> by lia. cbn [Nat.add seq map app]. rewrite (Z.mod_small (Z.of_nat k + 1)) by lia. replace (Z.of_nat k + 1) with (Z.of_nat (S k)) by lia. rewrite G. reflexivity.
  - replace (Z.of_nat t + 1) with (Z.of_nat (S t)) by lia. rewrite (IH (S t)) by (lia || exact G). reflexivity.
Qed.
Lemma gen_all : forall post pre, Z.of_nat (length (pre ++ post)) < 2 ^ 16 -> (forall m, In m post -> 0 < tcount m < 2 ^ 16) ->
  generate MO (pre ++ post) (fold_right (fun m n => Z.to_nat (tcount m) + n)%nat 0%nat post) (Z.of_nat (length pre), 0) =
  Some (flat_map (fun km => mesh_pairs (fst km) (snd km)) (combine (seq (length pre) (length post)) post)).
Proof.
  induction post as [|m post IH]; intros pre L H; [reflexivity|]. cbn [fold_right length seq combine flat_map fst snd]. pose proof (H m (or_introl eq_refl)) as Hm. unfold mesh_pairs at 1.
  apply (gen_mesh (pre ++ m :: post) (length pre) m _ _ ltac:(rewrite nth_error_app2, Nat.sub_diag by lia; reflexivity) ltac:(rewrite app_length in L; cbn in L; lia) Hm _ 0%nat); [lia|lia|].
  specialize (IH (pre ++ [m])). rewrite <- app_assoc in IH. cbn [app] in IH. replace (length (pre ++ [m])) with (S (length pre)) in IH by (rewrite app_length; cbn; lia). apply IH; [exact L|]. intros x I. apply H. right. exact I.
Qed.
Definition tri_total (ms : list M) : nat := fold_right (fun m n => Z.to_nat (tcount m) + n)%nat 0%nat ms.
Lemma total_u32 ms : (forall m, In m ms -> 0 < tcount m) -> Z.of_nat (tri_total ms) < 2 ^ 32 -> triangle_total MO ms = Z.of_nat (tri_total ms).
Proof.
  intros H L. unfold triangle_total. assert (G : forall l z, 0 <= z -> (forall m, In m l -> 0 < tcount m) -> z + Z.of_nat (tri_total l) < 2 ^ 32 -> fold_left (fun n m => u32 (n + tcount m)) l z = z + Z.of_nat (tri_total l)).
  { induction l as [|m l IH]; intros z Z0 P B; [cbn; lia|]. cbn [fold_left tri_total fold_right] in *. pose proof (P m (or_introl eq_refl)). fold (tri_total l) in *. unfold u32. rewrite Z.mod_small by lia. rewrite IH; [lia|lia|intros x I; apply P; right; exact I|lia]. }
  rewrite G by (lia || assumption). lia.
Qed.
(** a mesh list that the index can address *)
Record addressable (ms : list M) : Prop := {
  a_few : Z.of_nat (length ms) < 2 ^ 16;
  a_counts : forall m, In m ms -> 0 < tcount m < 2 ^ 16;
  a_total : Z.of_nat (length (all_pairs MO ms)) < 2 ^ 32 }.
Lemma all_pairs_length ms : length (all_pairs MO ms) = tri_total ms.
Proof.
  unfold all_pairs. assert (G : forall l k, length (flat_map (fun km => map (fun t => (Z.of_nat (fst km), Z.of_nat t)) (seq 0 (Z.to_nat (tcount (snd km))))) (combine (seq k (length l)) l)) = tri_total l).
  { induction l as [|m l IH]; intros k; [reflexivity|]. cbn [length seq combine flat_map fst snd tri_total fold_right]. rewrite app_length, map_length, seq_length, IH. reflexivity. }
  apply G.
Qed.
Theorem generated ms : addressable ms -> generate MO ms (Z.to_nat (triangle_total MO ms)) (0, 0) = Some (all_pairs MO ms).
Proof.
  intros [A B C]. rewrite all_pairs_length in C. rewrite total_u32 by (assumption || (intros m I; apply B in I; lia)). rewrite Nat2Z.id. apply (gen_all ms []); assumption.
Qed.
Lemma pair_in ms k t : In (k, t) (all_pairs MO ms) <-> exists m, nth_error ms (Z.to_nat k) = Some m /\ 0 <= k /\ 0 <= t < tcount m.
Proof.
  unfold all_pairs. rewrite in_flat_map. split.
  - intros ([i m] & I & J). cbn [fst snd] in J. apply in_map_iff in J. destruct J as (u & E & U). injection E as <- <-. apply in_seq in U. apply (In_nth_error) in I. destruct I as (n & I).
    assert (K : forall l a n, nth_error (combine (seq a (length l)) l) n = Some (i, m) -> i = (a + n)%nat /\ nth_error l n = Some m).
    { clear. induction l as [|x l IH]; intros a [|n] H; try discriminate; cbn in H; [injection H as <- <-; split; [lia|reflexivity]|]. apply IH in H. destruct H as [-> H]. split; [lia|exact H]. }
    destruct (K ms 0%nat n I) as [-> Q]. exists m. rewrite Nat2Z.id. split; [exact Q|lia].
  - intros (m & Q & K & T). exists (Z.to_nat k, m). split.
    + assert (G : forall l a n, nth_error l n = Some m -> In ((a + n)%nat, m) (combine (seq a (length l)) l)).
      { clear. induction l as [|x l IH]; intros a [|n] H; try discriminate; cbn in *; [injection H as ->; left; f_equal; lia|]. right. specialize (IH (S a) n H). replace (a + S n)%nat with (S a + n)%nat by lia. exact IH. }
      apply (G ms 0%nat (Z.to_nat k) Q).
    + cbn [fst snd]. apply in_map_iff. exists (Z.to_nat t). split; [f_equal; lia|apply in_seq; lia].
Qed.
(** the triangles, in the same order *)
Lemma pair_triangles ms : map (triangle_at MO ms) (all_pairs MO ms) = flat_map (mesh_triangles MO) ms.
Proof.
  assert (G : forall post pre, map (triangle_at MO (pre ++ post)) (flat_map (fun km => mesh_pairs (fst km) (snd km)) (combine (seq (length pre) (length post)) post)) = flat_map (mesh_triangles MO) post).
  { induction post as [|m post IH]; intros pre; [reflexivity|]. cbn [length seq combine flat_map fst snd]. rewrite map_app. f_equal.
    - unfold mesh_pairs, mesh_triangles. rewrite map_map. apply map_ext. intros t. unfold triangle_at. cbn [fst snd]. rewrite Nat2Z.id, nth_error_app2, Nat.sub_diag by lia. reflexivity.
    - specialize (IH (pre ++ [m])). rewrite <- app_assoc in IH. cbn [app] in IH. replace (length (pre ++ [m])) with (S (length pre)) in IH by (rewrite app_length; cbn; lia). exact IH. }
  apply (G ms []).
Qed.
Lemma all_some_map {A B} (f : A -> option B) l : (forall a, In a l -> exists b, f a = Some b) -> exists r, all_some (map f l) = Some r /\ map f l = map Some r.
Proof.
  induction l as [|a l IH]; intros H; [exists []; auto|]. destruct (H a (or_introl eq_refl)) as (b & E). destruct IH as (r & R1 & R2); [intros x I; apply H; right; exact I|]. exists (b :: r). cbn. rewrite E, R1, R2. auto.
Qed.
(** ** Queries *)
Variable isnum : T N -> Prop.
Variable val : T N -> R.
Hypothesis Hlt : forall a b, isnum a -> isnum b -> (nlt N a b = true <-> (val a < val b)%R).
Variable sort : (nat -> nat -> bool) -> list nat -> list nat.
Hypothesis sort_perm : forall f l, Permutation l (sort f l).
Variable d : data M.
Notation ms := (d_meshes d).
Hypothesis AD : addressable ms.
Hypothesis NE : ms <> [].
(** every triangle can be read and has numbers for coordinates *)
Definition tri_nums (x : triangle N) : Prop := forall v, In v [p0 x; p1 x; p2 x] -> isnum (vx v) /\ isnum (vy v).
Hypothesis RD : forall i, In i (all_pairs MO ms) -> exists x, triangle_at MO ms i = Some x /\ tri_nums x.
Lemma tri_box_nums x : tri_nums x -> exists r, env_add None (OTriangle x) = Some r /\ nums N isnum r.
Proof.
  intros H. eexists. split; [reflexivity|]. destruct (H (p0 x)) as [A1 A2]; [cbn; auto|]. destruct (H (p1 x)) as [B1 B2]; [cbn; auto|]. destruct (H (p2 x)) as [C1 C2]; [cbn; auto|].
  unfold rect_join_point, rect_from_two, nums. cbn [x_min y_min x_max y_max]. repeat split; apply min_nan with (val := val) || apply max_nan with (val := val); auto; apply min_nan with (val := val) || apply max_nan with (val := val); auto.
Qed.
Lemma box_nums i : In i (all_pairs MO ms) -> nums N isnum (pair_box MO ms i).
Proof. intros I. destruct (RD i I) as (x & E & X). destruct (tri_box_nums x X) as (r & R1 & R2). unfold pair_box. rewrite E, R1. exact R2. Qed.
Theorem index_exists : exists nodes, spatial_index MO sort d = Some (nodes, all_pairs MO ms) /\
  forall q, nums N isnum q -> exists order, Permutation order (filter (fun i => int_rects (pair_box MO ms i) q) (all_pairs MO ms)) /\
    forall S (v : S -> ipair -> S * bool) s, exists s', visit (pair_box MO ms) v nodes (all_pairs MO ms) q s = Some s' /\ visits v order s s'.
Proof.
  destruct (query_exact N isnum val Hlt (pair_box MO ms) branching ltac:(unfold branching; lia) sort sort_perm (all_pairs MO ms)) as (nodes & H1 & H2).
  - destruct ms as [|m l] eqn:E; [congruence|]. pose proof (a_counts _ AD m (or_introl eq_refl)) as C. intros Q. assert (In (0, 0) (all_pairs MO (m :: l))) as I by (apply pair_in; exists m; cbn; split; [reflexivity|lia]). rewrite Q in I. destruct I.
  - apply (a_total _ AD).
  - intros i I. apply box_nums, I.
  - exists nodes. split; [|exact H2]. unfold spatial_index. destruct ms as [|m l] eqn:E; [congruence|]. rewrite <- E in *. rewrite (generated ms AD).
    rewrite (proj2 (forallb_forall _ _)), H1; [reflexivity|]. intros i I. destruct (RD i I) as (x & -> & _). reflexivity.
Qed.
(** wrapping a visitor *)
Definition lifted {St} (w : St -> ipair -> option (St * bool)) (s : option St) (p : ipair) : option St * bool :=
  match s with None => (None, false) | Some s => match w s p with Some (s', go) => (Some s', go) | None => (None, false) end end.
Lemma lift_visits {St} (hit : ipair -> bool) (v : St -> ipair -> St * bool) (w : St -> ipair -> option (St * bool)) order :
  (forall i s, In i order -> w s i = Some (if hit i then v s i else (s, true))) ->
  forall s r, visits (lifted w) order (Some s) r -> exists s', r = Some s' /\ visits v (filter hit order) s s'.
Proof.
  induction order as [|i order IH]; intros W s r H; inversion H; subst; cbn [filter].
  - exists s. split; [reflexivity|constructor].
  - rename H2 into H3. cbn [lifted] in H3. rewrite (W i s (or_introl eq_refl)) in H3. destruct (hit i) eqn:E.
    + destruct (v s i) as [s2 g] eqn:V. injection H3 as <- ->. destruct (IH (fun j t I => W j t (or_intror I)) s2 r H5) as (s' & -> & Q). exists s'. split; [reflexivity|]. eapply v_go; [exact V|exact Q].
    + injection H3 as <-. apply (IH (fun j t I => W j t (or_intror I)) s r H5).
  - cbn [lifted] in H4. rewrite (W i s (or_introl eq_refl)) in H4. destruct (hit i) eqn:E; [|discriminate]. destruct (v s i) as [s2 g] eqn:V. injection H4 as <- ->. exists s2. split; [reflexivity|]. apply v_stop. exact V.
Qed.
(** for every query there is one order in which every visitor is called *)
Theorem visit_tree_order box (hit : ipair -> bool) : nums N isnum box ->
  exists order, Permutation order (filter (fun i => int_rects (pair_box MO ms i) box && hit i) (all_pairs MO ms)) /\
    forall St (w : St -> ipair -> option (St * bool)) v, (forall s i, In i (all_pairs MO ms) -> w s i = Some (if hit i then v s i else (s, true))) ->
    forall s, exists s', visit_tree MO sort d box w s = Some s' /\ visits v order s s'.
Proof.
  intros B. destruct index_exists as (nodes & H1 & H2). destruct (H2 box B) as (order & P & V). exists (filter hit order). split.
  - apply Permutation_trans with (filter hit (filter (fun i => int_rects (pair_box MO ms i) box) (all_pairs MO ms))); [apply perm_filter; exact P|].
    clear. induction (all_pairs MO ms) as [|i l IH]; [constructor|]. cbn [filter]. destruct (int_rects _ _); cbn [filter andb]; [destruct (hit i); [constructor|]|]; assumption.
  - intros St w v HW s. unfold visit_tree. rewrite H1. destruct (V (option St) (lifted w) (Some s)) as (r & V1 & V2). unfold lifted in V1. rewrite V1. apply (lift_visits hit v) in V2; [exact V2|].
    intros i t I. apply (Permutation_in _ P) in I. apply filter_In in I. apply HW, I.
Qed.
Theorem visit_tree_exact box (hit : ipair -> bool) (W : forall St, (St -> ipair -> St * bool) -> St -> ipair -> option (St * bool)) : nums N isnum box ->
  (forall St v s i, In i (all_pairs MO ms) -> W St v s i = Some (if hit i then v s i else (s, true))) ->
  visits_exactly (fun St v s => visit_tree MO sort d box (W St v) s) (filter (fun i => int_rects (pair_box MO ms i) box && hit i) (all_pairs MO ms)).
Proof.
  intros B HW. destruct (visit_tree_order box hit B) as (order & P & V). exists order. split; [exact P|]. intros St v s. apply V. intros t i I. apply HW, I.
Qed.
(** the triangles whose box meets the box of the query and that pass the intersection test *)
Definition object_hit (q : object N) (box : rect N) (i : ipair) : bool :=
  int_rects (pair_box MO ms i) box && match triangle_at MO ms i with Some x => intersects q (OTriangle x) | None => false end.
Theorem visit_object_order q t box : env_add None (apply_object t q) = Some box -> nums N isnum box ->
  exists order, Permutation order (filter (object_hit (apply_object t q) box) (all_pairs MO ms)) /\
    forall St (w : St -> ipair -> option (St * bool)) v, (forall s i, In i (all_pairs MO ms) -> w s i = Some (v s i)) ->
    forall s, exists s', visit_object MO sort w (Some d) q t s = Some s' /\ visits v order s s'.
Proof.
  intros E B. unfold visit_object. cbv zeta. rewrite E.
  destruct (visit_tree_order box (fun i => match triangle_at MO ms i with Some x => intersects (apply_object t q) (OTriangle x) | None => false end) B) as (order & P & V).
  exists order. split; [exact P|]. intros St w v HW s. apply V. intros u i I. destruct (RD i I) as (x & -> & _). destruct (intersects _ _); [apply HW, I|reflexivity].
Qed.
Theorem visit_object_exact q t box : env_add None (apply_object t q) = Some box -> nums N isnum box ->
  visits_exactly (fun St v s => visit_object MO sort (fun s i => Some (v s i)) (Some d) q t s) (filter (object_hit (apply_object t q) box) (all_pairs MO ms)).
Proof.
  intros E B. destruct (visit_object_order q t box E B) as (order & P & V). exists order. split; [exact P|]. intros St v s. apply V. reflexivity.
Qed.
(** two visitors that agree on the triangles *)
Lemma visits_agree {St} (v w : St -> ipair -> St * bool) order : (forall s i, In i order -> v s i = w s i) -> forall s r r', visits v order s r -> visits w order s r' -> r = r'.
Proof.
  induction order as [|i order IH]; intros H s r r' A B; inversion A; inversion B; subst; [reflexivity|..]; rewrite H in * by (left; reflexivity).
  - match goal with P : w s i = _, Q : w s i = _ |- _ => rewrite P in Q; injection Q as <- end. eapply IH; eauto. intros t j J. apply H. right. exact J.
  - congruence.
  - congruence.
  - congruence.
Qed.
Lemma tree_agree {St} (w w' : St -> ipair -> option (St * bool)) box s : nums N isnum box -> (forall s i, In i (all_pairs MO ms) -> w s i = w' s i) ->
  visit_tree MO sort d box w s = visit_tree MO sort d box w' s.
Proof.
  intros B H. destruct index_exists as (nodes & H1 & H2). destruct (H2 box B) as (order & P & V). unfold visit_tree. rewrite H1.
  destruct (V (option St) (lifted w) (Some s)) as (r & V1 & V2). destruct (V (option St) (lifted w') (Some s)) as (r' & V1' & V2'). unfold lifted in V1, V1'. rewrite V1, V1'.
  eapply visits_agree; [|exact V2|exact V2']. intros t i I. apply (Permutation_in _ P) in I. apply filter_In in I. destruct t; [|reflexivity]. cbn. rewrite H by apply I. reflexivity.
Qed.
End Index.
