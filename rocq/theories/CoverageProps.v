(** C39: CoverageIsGreaterThan against Coverage. *)
From Coq Require Import ZArith Bool Arith Reals Lra Lia Permutation List.
From Flocq Require Import Core BinarySingleNaN.
From Verif Require Import F32 F32Lemmas NumModel EasingExact BehaviorMeaning GeomModel AffineModel GeomSpec GeomReal GeomExact GeomMeet GeomOps AffineProofs AffineProps RTreeModel RTreeSpec RTreeProofs MeshFormatModel MutableMeshModel PartitionedMeshModel PartitionedMeshSpec PartitionedMeshIndex PartitionedMeshExact PartitionedMeshCross PartitionedMeshProps PartitionedMeshQueryProps CoverageProofs CoverageExact CoverageFloat.
Import ListNotations.
Local Open Scope R_scope.

(** ** Exact arithmetic *)
Section Exact.
Context {M : Type}.
Variable MO : mesh_ops N M.
Variable sort : (nat -> nat -> bool) -> list nat -> list nat.
Hypothesis sort_perm : forall f l, Permutation l (sort f l).
(** what the two functions should return when [A] of the total area [T] is covered *)
Definition reports (d : data M) (q : query) (t : affine N) (A T : R) : Prop :=
  0 <= A <= T /\
  (0 < T -> coverage MO sort (Some d) q t = Some (Fin (A / T) : ereal) /\
    forall th, coverage_is_greater_than MO sort (Some d) q (Fin th : ereal) t = Some true <-> th < A / T) /\
  (T = 0 -> coverage MO sort (Some d) q t = Some (Nan : ereal) /\ forall th, coverage_is_greater_than MO sort (Some d) q (Fin th : ereal) t = Some false).
Lemma make_reports (d : data M) q t Q L : real_meshes MO d -> query_ok MO isfin d q t -> selects Q (all_pairs MO (d_meshes d)) L ->
  visits_exactly (fun St v s => visit_query MO sort (fun s i => Some (v s i)) (Some d) q t s) L ->
  exists A T, areas MO d L A /\ areas MO d (all_pairs MO (d_meshes d)) T /\ reports d q t A T.
Proof.
  intros D K S V. destruct (exact_coverage MO d D sort sort_perm q t Q L K S V) as (A & T & HA & HT & LE & C1 & C2 & G). exists A, T. split; [exact HA|]. split; [exact HT|]. split; [exact LE|]. split.
  - intros P. split; [apply C1, P|]. intros th. rewrite G. split.
    + intros H. injection H as H. destruct (Rlt_bool_spec (th * T) A) as [X|X]; [|discriminate]. apply Rmult_lt_reg_r with T; [exact P|]. unfold Rdiv. rewrite Rmult_assoc, Rinv_l, Rmult_1_r by lra. exact X.
    + intros H. f_equal. apply Rlt_bool_true. apply Rmult_lt_compat_r with (r := T) in H; [|exact P]. unfold Rdiv in H. rewrite Rmult_assoc, Rinv_l, Rmult_1_r in H by lra. exact H.
  - intros ->. split; [apply C2; reflexivity|]. intros th. rewrite G. f_equal. apply Rlt_bool_false. lra.
Qed.
(** For a shape: the covered area is that of the triangles that meet the image of the shape. *)
Theorem C39_exact (d : data M) (q : thing) a b c a' b' c' : real_meshes MO d -> thing_ok q -> exactly_carried a b a' b' q ->
  exists L A T, selects (fun i => exists u v w, triangle_at MO (d_meshes d) i = Some (tr u v w) /\
      exists p, thing_set q p /\ tri_set u v w (P (a * px p + b * py p + c) (a' * px p + b' * py p + c'))) (all_pairs MO (d_meshes d)) L /\
    areas MO d L A /\ areas MO d (all_pairs MO (d_meshes d)) T /\ reports d (QObject (thing_object q)) (tf a b c a' b' c') A T.
Proof.
  intros D K C. destruct (C37_visits_what_meets MO sort sort_perm d q a b c a' b' c' D K C) as (L & S & V).
  destruct (carried a b c a' b' c' q K C) as (q' & E & K' & _).
  destruct (make_reports d (QObject (thing_object q)) (tf a b c a' b' c') _ L D (boxes_thing _ _ q' E K') S V) as (A & T & H). exists L, A, T. split; [exact S|exact H].
Qed.
(** For another PartitionedMesh *)
Theorem C39_exact_mesh (d e : data M) a b c a' b' c' : real_meshes MO d -> real_meshes MO e -> boxed MO e -> a * b' <> b * a' -> 0 <= a' ->
  exists L A T, selects (fun i => exists u v w, triangle_at MO (d_meshes d) i = Some (tr u v w) /\
      exists j x y z p, In j (all_pairs MO (d_meshes e)) /\ triangle_at MO (d_meshes e) j = Some (tr x y z) /\
        tri_set x y z p /\ tri_set u v w (P (a * px p + b * py p + c) (a' * px p + b' * py p + c'))) (all_pairs MO (d_meshes d)) L /\
    areas MO d L A /\ areas MO d (all_pairs MO (d_meshes d)) T /\ reports d (QMesh (Some e)) (tf a b c a' b' c') A T.
Proof.
  intros D Q B I A'. destruct (C55_visits_what_meets MO sort sort_perm d e a b c a' b' c' D Q B I A') as (L & S & V).
  assert (K : query_ok MO isfin d (QMesh (Some e)) (tf a b c a' b' c')).
  { split; [apply clean_real, Q|]. destruct (bounds_cover MO e (rm_some _ _ Q) B) as (x0 & y0 & x1 & y1 & EB & CB). exists (bx x0 y0 x1 y1). split; [exact EB|]. rewrite inverse_x, Req_bool_false by exact I.
    assert (OK : x0 <= x1 /\ y0 <= y1).
    { destruct (d_meshes e) as [|m l] eqn:E; [destruct (rm_some _ _ Q E)|]. pose proof (a_counts _ _ (rm_few _ _ Q) m) as CT. rewrite E in CT. specialize (CT (or_introl eq_refl)). destruct (rm_read _ _ Q (0%Z, 0%Z)) as (p & q & r & R1). { rewrite E. apply pair_in. exists m. cbn. split; [reflexivity|lia]. } rewrite E in R1. pose proof (CB (0%Z, 0%Z) p q r R1 p (or_introl eq_refl)) as X. unfold box_set in X. lra. }
    split.
    - destruct (carried a b c a' b' c' (TRect x0 y0 x1 y1) OK (conj I A')) as (q' & C1 & C2 & _). exact (boxes_thing _ _ q' C1 C2).
    - intros i x Ii R. destruct (rm_read _ _ D i Ii) as (u & v & w & R'). rewrite R' in R. injection R as <-.
      edestruct (carried) as (q' & C1 & C2 & _); [exact (Logic.I : thing_ok (TTriangle u v w))|exact Logic.I|]. eapply boxes_thing; [exact C1|exact C2]. }
  destruct (make_reports d (QMesh (Some e)) (tf a b c a' b' c') _ L D K S V) as (A & T & H). exists L, A, T. split; [exact S|exact H].
Qed.
End Exact.

(** ** Floats *)
Section Float.
Variable E : elem.
Context {M : Type}.
Variable MO : mesh_ops (fnum E) M.
Variable sort : (nat -> nat -> bool) -> list nat -> list nat.
Hypothesis sort_perm : forall f l, Permutation l (sort f l).
Notation number := (fun x : T (fnum E) => is_nan (x : f32) = false).
(** the areas of the triangles [l], as computed, one by one *)
Inductive float_areas (d : data M) : list ipair -> list f32 -> Prop :=
| fa_nil : float_areas d [] []
| fa_cons i l x r : triangle_at MO (d_meshes d) i = Some x -> float_areas d l r -> float_areas d (i :: l) (fabs (signed_area x : f32) :: r).
(** one after the other onto 0 *)
Fixpoint add_all (acc : f32) (l : list f32) : f32 := match l with [] => acc | a :: l => add_all (fadd acc a) l end.
Lemma float_sum d l r : float_areas d l r -> area_sum MO d l = add_all f0 r.
Proof.
  intros H. unfold area_sum. change (n0 (N := fnum E)) with f0. generalize f0. induction H as [|i l x r X H IH]; intros a; [reflexivity|]. cbn [fold_left add_all]. rewrite <- IH. f_equal. unfold area_at. rewrite X. reflexivity.
Qed.
Lemma float_areas_all d l : clean MO number d -> incl l (all_pairs MO (d_meshes d)) -> exists r, float_areas d l r.
Proof.
  intros C. induction l as [|i l IH]; intros I; [eexists; constructor|]. destruct IH as (r & H); [intros j J; apply I; right; exact J|]. destruct (cl_read _ _ _ C i (I i (or_introl eq_refl))) as (x & X & _). eexists. econstructor; eassumption.
Qed.
Definition areas_are_numbers (d : data M) : Prop := forall i x, In i (all_pairs MO (d_meshes d)) -> triangle_at MO (d_meshes d) i = Some x -> is_nan (signed_area x : f32) = false.
Lemma ok_add d : clean MO number d -> areas_are_numbers d -> forall (a : T (fnum E)) i, In i (all_pairs MO (d_meshes d)) -> nonneg a ->
  nonneg (nadd (fnum E) a (area_at MO d i)) /\ forall l : T (fnum E), nlt (fnum E) l a = true -> nlt (fnum E) l (nadd (fnum E) a (area_at MO d i)) = true.
Proof.
  intros C H a i I K. destruct (cl_read _ _ _ C i I) as (x & X & _). unfold area_at. rewrite X. change (nadd (fnum E)) with fadd. change (absolute_area x) with (fabs (signed_area x)). pose proof (abs_nonneg _ (H i x I X)) as B.
  destruct (add_up a _ K B) as [K' L]. split; [exact K'|]. intros l. apply lt_up; [apply K|apply K'|exact L].
Qed.
(** one area that is not a number makes the total no number *)
Lemma nan_total d l r i x : float_areas d l r -> In i l -> triangle_at MO (d_meshes d) i = Some x -> is_nan (signed_area x : f32) = true -> forall a, is_nan (add_all a r) = true.
Proof.
  assert (S : forall r a, is_nan a = true -> is_nan (add_all a r) = true). { induction r0 as [|b r0 IH]; intros a A; [exact A|]. cbn [add_all]. apply IH. destruct a; try discriminate. reflexivity. }
  intros H I X Nx. induction H as [|j l y r Y H IH]; intros a; [destruct I|]. cbn [add_all]. destruct I as [-> |I]; [|apply IH, I]. rewrite X in Y. injection Y as <-. apply S. destruct (signed_area x : f32); try discriminate. destruct a as [s|s| |s m e B]; reflexivity.
Qed.
Lemma numbers_or_not d : clean MO number d -> areas_are_numbers d \/ exists i x, In i (all_pairs MO (d_meshes d)) /\ triangle_at MO (d_meshes d) i = Some x /\ is_nan (signed_area x : f32) = true.
Proof.
  intros C. unfold areas_are_numbers. induction (all_pairs MO (d_meshes d)) as [|i l IH]; [left; intros i x []|]. destruct IH as [IH|(j & x & J & X & Nx)]; [|right; exists j, x; split; [right; exact J|auto]].
  destruct (triangle_at MO (d_meshes d) i) as [x|] eqn:X; [destruct (is_nan (signed_area x : f32)) eqn:Nx|].
  - right. exists i, x. split; [left; reflexivity|auto].
  - left. intros j y [<- |J] Y; [rewrite X in Y; injection Y as <-; exact Nx|apply (IH j y J Y)].
  - left. intros j y [<- |J] Y; [congruence|apply (IH j y J Y)].
Qed.
(** The comparison that stops as soon as the limit is passed gives the same answer as adding up the areas of all triangles that
    VisitIntersectedTriangles visits, in the same order, and comparing at the end.  Both functions use the same two sums. *)
Theorem C39_early_exit (d : data M) (q : query) (t : affine (fnum E)) : clean MO number d -> query_ok MO number d q t ->
  exists order covered all, (forall St (v : St -> ipair -> St * bool) s, exists s', visit_query MO sort (fun s i => Some (v s i)) (Some d) q t s = Some s' /\ visits v order s s') /\
    float_areas d order covered /\ float_areas d (all_pairs MO (d_meshes d)) all /\
    coverage MO sort (Some d) q t = Some (fdiv (add_all f0 covered) (add_all f0 all)) /\
    forall th, coverage_is_greater_than MO sort (Some d) q th t = Some (flt (fmul th (add_all f0 all)) (add_all f0 covered)).
Proof.
  intros C K. destruct (query_order MO number fX flt_spec sort sort_perm d q t C K) as (order & Q). destruct (float_areas_all d order C (proj1 Q)) as (covered & HC). destruct (float_areas_all d _ C (incl_refl _)) as (all & HA). exists order, covered, all.
  assert (RD : forall i, In i (all_pairs MO (d_meshes d)) -> exists x, triangle_at MO (d_meshes d) i = Some x) by (intros i I; destruct (cl_read _ _ _ C i I) as (x & X & _); eauto).
  split; [intros St v s; apply Q; reflexivity|]. split; [exact HC|]. split; [exact HA|]. rewrite <- (float_sum d _ _ HC), <- (float_sum d _ _ HA). split.
  - apply (coverage_sum MO sort d (cl_some _ _ _ C) RD q t order Q).
  - intros th. destruct (numbers_or_not d C) as [H|(i & x & I & X & Nx)].
    + apply (greater_sum MO sort d (cl_some _ _ _ C) RD nonneg th) with (q := q) (t := t) (order := order); [|split; [reflexivity|cbn; lra]|exact Q]. intros a i I A. destruct (ok_add d C H a i I A) as [A' L]. split; [exact A'|apply L].
    + apply (greater_sum MO sort d (cl_some _ _ _ C) RD (fun _ => True) th) with (q := q) (t := t) (order := order); [|exact Logic.I|exact Q]. intros a j J _. split; [exact Logic.I|]. rewrite (float_sum d _ _ HA). pose proof (nan_total d _ _ i x HA I X Nx f0) as NT. cbn [nlt nmul fnum]. destruct (add_all f0 all); try discriminate. intros A. exfalso. revert A. unfold fmul. destruct th; discriminate.
Qed.
(** The documentation says that CoverageIsGreaterThan is equivalent to [Coverage > threshold].  In floats this holds when the total
    is finite and the threshold is not within rounding distance below the coverage ([apart] is a relative distance of 2^-23). *)
Lemma sum_nonneg d l r : areas_are_numbers d -> incl l (all_pairs MO (d_meshes d)) -> float_areas d l r -> nonneg (add_all f0 r).
Proof.
  intros H I F. assert (G : forall a, nonneg a -> nonneg (add_all a r)).
  { induction F as [|i l x r X F IH]; intros a K; [exact K|]. cbn [add_all]. apply IH; [intros j J; apply I; right; exact J|]. apply add_up; [exact K|]. apply abs_nonneg. apply (H i x (I i (or_introl eq_refl)) X). }
  apply G. split; [reflexivity|cbn; lra].
Qed.
Theorem C39_agree (d : data M) (q : query) (t : affine (fnum E)) (th : f32) : clean MO number d -> query_ok MO number d q t -> is_finite th = true ->
  exists order covered all, (forall St (v : St -> ipair -> St * bool) s, exists s', visit_query MO sort (fun s i => Some (v s i)) (Some d) q t s = Some s' /\ visits v order s s') /\
    float_areas d order covered /\ float_areas d (all_pairs MO (d_meshes d)) all /\
    forall c total : f32, c = add_all f0 covered -> total = add_all f0 all -> is_finite c = true -> is_finite total = true -> 0 < fR total ->
      fR c <= fR th * fR total \/ apart (fR c) (fR total) (fR th) ->
      exists v, coverage MO sort (Some d) q t = Some v /\ coverage_is_greater_than MO sort (Some d) q th t = Some (flt th v).
Proof.
  intros C K Fh. destruct (C39_early_exit d q t C K) as (order & covered & all & V & HC & HA & E1 & E2). exists order, covered, all. split; [exact V|]. split; [exact HC|]. split; [exact HA|]. intros c total -> -> Fc Ft P W.
  eexists. split; [exact E1|]. rewrite E2. f_equal. destruct W as [W|W].
  - destruct (no_more _ _ th Fc Ft Fh P W) as [A B]. rewrite A, B. reflexivity.
  - assert (H : areas_are_numbers d). { destruct (numbers_or_not d C) as [H|(i & x & I & X & Nx)]; [exact H|]. pose proof (nan_total d _ _ i x HA I X Nx f0) as NT. destruct (add_all f0 all); discriminate. }
    assert (NN : nonneg (add_all f0 covered)).
    { eapply sum_nonneg; [exact H| |exact HC]. intros i I. destruct (V (list ipair) (fun s i => (s ++ [i], true)) []) as (s' & S1 & S2). destruct (query_order MO number fX flt_spec sort sort_perm d q t C K) as (order' & I' & Q). destruct (Q _ (fun s i => Some (s ++ [i], true)) (fun s i => (s ++ [i], true)) ltac:(reflexivity) (@nil ipair)) as (r & R1 & R2). cbv beta in S1. rewrite R1 in S1. injection S1 as <-. apply collects in R2, S2. cbn in R2, S2. subst r. subst order'. apply I', I. }
    destruct NN as [_ NN]. rewrite fX_finite in NN by exact Fc. destruct (more _ _ th Fc Ft Fh P NN W) as [A B]. rewrite A, B. reflexivity.
Qed.
End Float.

(** *** Concrete meshes: each of one triangle *)
Section Concrete.
Variable E : elem.
Notation F := (fnum E).
Definition ft (a b c d e f : Z) : triangle F := Tri (@V F (fZ a) (fZ b)) (@V F (fZ c) (fZ d)) (@V F (fZ e) (fZ f)).
Definition ft_ops : mesh_ops F (triangle F) := Ops F (triangle F) (fun _ => default_format) (fun _ => 3%Z) (fun _ => 1%Z) (fun _ _ => None)
  (fun m t => if (t =? 0)%Z then Some m else None) (fun m => env_add None (OTriangle m)).
Definition ft_data (l : list (triangle F)) : data (triangle F) := Data l [] [0%Z] [0%Z] [default_format].
Fixpoint insert (f : nat -> nat -> bool) (x : nat) (l : list nat) : list nat := match l with [] => [x] | y :: l' => if f y x then y :: insert f x l' else x :: l end.
Definition insertion_sort (f : nat -> nat -> bool) (l : list nat) : list nat := fold_right (insert f) [] l.
Definition big_first := ft_data [ft 0 0 8192 0 0 4096; ft 0 (-10) 2 (-10) 0 (-9); ft 0 (-20) 2 (-20) 0 (-19)].
Lemma insertion_perm f l : Permutation l (insertion_sort f l).
Proof.
  assert (G : forall x l, Permutation (x :: l) (insert f x l)). { induction l0 as [|y l0 IH]; [apply Permutation_refl|]. cbn [insert]. destruct (f y x); [|apply Permutation_refl]. eapply Permutation_trans; [apply perm_swap|]. constructor. exact IH. }
  induction l as [|x l IH]; [constructor|]. cbn. eapply Permutation_trans; [constructor; exact IH|apply G].
Qed.
Definition greater (o : option (T F)) (th : f32) : option bool := option_map (fun v => flt th v) o.
(** Rounding makes the two disagree, in both directions: areas 5 and 6 with the first covered, and areas 13 and 9 with the first
    covered. *)
Theorem C39_rounding_refuted : exists (d d' : data (triangle F)) (q : triangle F) (th th' : f32),
  from_mesh_groups ft_ops [Group (d_meshes d) []] = Some d /\ from_mesh_groups ft_ops [Group (d_meshes d') []] = Some d' /\
  greater (coverage ft_ops insertion_sort (Some d) (QObject (OTriangle q)) identity) th = Some true /\
  coverage_is_greater_than ft_ops insertion_sort (Some d) (QObject (OTriangle q)) th identity = Some false /\
  greater (coverage ft_ops insertion_sort (Some d') (QObject (OTriangle q)) identity) th' = Some false /\
  coverage_is_greater_than ft_ops insertion_sort (Some d') (QObject (OTriangle q)) th' identity = Some true.
Proof.
  exists (ft_data [ft 0 0 10 0 0 1; ft 100 0 112 0 100 1]), (ft_data [ft 0 0 26 0 0 1; ft 100 0 118 0 100 1]), (ft 0 0 1 0 0 1), (fdy 15252014 (-25)), (fdy 9913809 (-24)).
  split; [reflexivity|]. split; [reflexivity|]. repeat split; vm_compute; reflexivity.
Qed.
(** The two sums are added up in different orders, so a fully covered mesh can have a coverage greater than 1, and
    CoverageIsGreaterThan(..., 1) can return true: areas 2^24, 1, 1, where the index lists the small triangles first. *)
Theorem C39_more_than_all_refuted : exists (d : data (triangle F)) (q : triangle F),
  from_mesh_groups ft_ops [Group (d_meshes d) []] = Some d /\
  greater (coverage ft_ops insertion_sort (Some d) (QObject (OTriangle q)) identity) f1 = Some true /\
  coverage_is_greater_than ft_ops insertion_sort (Some d) (QObject (OTriangle q)) f1 identity = Some true.
Proof. exists big_first, (ft 0 (-20) 1 0 0 0). split; [reflexivity|]. split; vm_compute; reflexivity. Qed.
(** A mesh whose triangles have no area: the coverage is not a number. *)
Theorem C39_no_area_refuted : exists (d : data (triangle F)) (q : triangle F) (v : f32),
  from_mesh_groups ft_ops [Group (d_meshes d) []] = Some d /\ coverage ft_ops insertion_sort (Some d) (QObject (OTriangle q)) identity = Some v /\ is_nan v = true.
Proof.
  exists (ft_data [ft 0 0 1 0 2 0]), (ft 0 0 1 0 0 1).
  assert (G : match coverage ft_ops insertion_sort (Some (ft_data [ft 0 0 1 0 2 0])) (QObject (OTriangle (ft 0 0 1 0 0 1))) identity with Some v => is_nan (v : f32) | None => false end = true) by (vm_compute; reflexivity).
  destruct (coverage _ _ _ _ _) as [v|]; [|discriminate]. exists v. split; [reflexivity|]. split; [reflexivity|exact G].
Qed.
(** Example: a mesh and a query that meet the hypotheses of the theorems on floats *)
Notation number := (fun x : T F => is_nan (x : f32) = false).
Example C39_example : clean ft_ops number big_first /\ query_ok ft_ops number big_first (QObject (OTriangle (ft 0 (-20) 1 0 0 0))) identity.
Proof.
  split.
  - split; [split; [vm_compute; reflexivity|intros m [<- |[<- |[<- |[]]]]; vm_compute; split; reflexivity|vm_compute; reflexivity]|discriminate|].
    intros i [<- |[<- |[<- |[]]]]; (eexists; split; [reflexivity|]); intros v [<- |[<- |[<- |[]]]]; split; vm_compute; reflexivity.
  - eexists. split; [reflexivity|]. repeat split; vm_compute; reflexivity.
Qed.
End Concrete.
(** Example: of two triangles of area 1/2, one is covered by the query, also when the query is another PartitionedMesh *)
Example C39_exact_example sort : (forall f l, Permutation l (sort f l)) ->
  coverage tri_ops sort (Some (two (corner_tri 0) (corner_tri 5))) (QObject (OTriangle (tr (P 0 0) (P 1 0) (P 0 1)))) (tf 1 0 0 0 1 0) = Some (Fin (/ 2) : ereal) /\
  coverage tri_ops sort (Some (two (corner_tri 0) (corner_tri 5))) (QMesh (Some (one (corner_tri 0)))) (tf 1 0 0 0 1 0) = Some (Fin (/ 2) : ereal).
Proof.
  intros SP. set (d := two (corner_tri 0) (corner_tri 5)).
  assert (TA : forall x, tri_area (P x 0) (P (x + 1) 0) (P x 1) = / 2) by (intros x; unfold tri_area; cbn; rewrite Rabs_pos_eq; lra).
  assert (G : forall q Q L A T, selects Q [(0, 0); (1, 0)]%Z L -> Q (0, 0)%Z -> ~ Q (1, 0)%Z -> areas tri_ops d L A -> areas tri_ops d [(0, 0); (1, 0)]%Z T -> reports tri_ops sort d q (tf 1 0 0 0 1 0) A T ->
    coverage tri_ops sort (Some d) q (tf 1 0 0 0 1 0) = Some (Fin (/ 2) : ereal)).
  { intros q Q L A T S Q0 Q1 HA HT (_ & R & _). inversion S as [|? ? L1 _ S1|? ? ? X]; subst; [|contradiction]. inversion S1 as [|? ? ? X|? ? L2 _ S2]; subst; [contradiction|]. inversion S2; subst. clear S S1 S2.
    assert (A0 : areas tri_ops d [] 0) by constructor.
    assert (A1 : areas tri_ops d [(0, 0)%Z] (/ 2 + 0)) by (rewrite <- (TA 0); econstructor; [reflexivity|exact A0]).
    assert (A2 : areas tri_ops d [(0, 0)%Z; (1, 0)%Z] (/ 2 + (/ 2 + 0))) by (rewrite <- (TA 0) at 1; econstructor; [reflexivity|]; rewrite <- (TA 5); econstructor; [reflexivity|exact A0]).
    rewrite (areas_fun _ _ _ _ _ HA A1), (areas_fun _ _ _ _ _ HT A2) in R. destruct (R ltac:(lra)) as [-> _]. f_equal. f_equal. field. }
  split.
  - destruct (C39_exact tri_ops sort SP d (TTriangle (P 0 0) (P 1 0) (P 0 1)) 1 0 0 0 1 0 (two_real _ _) Logic.I Logic.I) as (L & A & T & S & HA & HT & R). eapply (G _ _ L A T S); [| |exact HA|exact HT|exact R].
    + exists (P 0 0), (P (0 + 1) 0), (P 0 1). split; [reflexivity|]. exists (P 0 0). split; [apply tri_corner; left; reflexivity|]. cbn. exists 1, 0, 0. repeat split; try lra. apply pt_eq; cbn; ring.
    + intros (u & v & w & X & p & (k & l & m & K1 & K2 & K3 & K4 & ->) & (k' & l' & m' & K1' & K2' & K3' & K4' & Q)). change (triangle_at tri_ops (d_meshes d) (1, 0)%Z) with (Some (tr (P 5 0) (P (5 + 1) 0) (P 5 1))) in X. apply tr_inj in X. destruct X as (<- & <- & <-). apply (f_equal px) in Q. cbn in Q. lra.
  - destruct (C39_exact_mesh tri_ops sort SP d (one (corner_tri 0)) 1 0 0 0 1 0 (two_real _ _) (one_real _) (tri_boxed _) ltac:(lra) ltac:(lra)) as (L & A & T & S & HA & HT & R). eapply (G _ _ L A T S); [| |exact HA|exact HT|exact R].
    + exists (P 0 0), (P (0 + 1) 0), (P 0 1). split; [reflexivity|]. exists (0, 0)%Z, (P 0 0), (P (0 + 1) 0), (P 0 1), (P 0 0). split; [left; reflexivity|]. split; [reflexivity|]. split; [apply tri_corner; left; reflexivity|]. cbn. exists 1, 0, 0. repeat split; try lra. apply pt_eq; cbn; ring.
    + intros (u & v & w & X & j & x & y & z & p & J & Y & (k & l & m & K1 & K2 & K3 & K4 & ->) & (k' & l' & m' & K1' & K2' & K3' & K4' & Q)). change (triangle_at tri_ops (d_meshes d) (1, 0)%Z) with (Some (tr (P 5 0) (P (5 + 1) 0) (P 5 1))) in X. apply tr_inj in X. destruct X as (<- & <- & <-).
      rewrite one_pairs in J. destruct J as [<- |[]]. change (triangle_at tri_ops (d_meshes (one (corner_tri 0))) (0, 0)%Z) with (Some (tr (P 0 0) (P (0 + 1) 0) (P 0 1))) in Y. apply tr_inj in Y. destruct Y as (<- & <- & <-). apply (f_equal px) in Q. cbn in Q. lra.
Qed.

Print Assumptions C39_exact.
Print Assumptions C39_exact_mesh.
Print Assumptions C39_early_exit.
Print Assumptions C39_agree.
Print Assumptions C39_rounding_refuted.
Print Assumptions C39_more_than_all_refuted.
Print Assumptions C39_no_area_refuted.
