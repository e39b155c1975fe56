(** Coverage in exact arithmetic. *)
From Coq Require Import ZArith Bool Arith Reals Lra Lia Permutation List.
From Flocq Require Import Core BinarySingleNaN.
From Verif Require Import F32 F32Lemmas NumModel EasingExact BehaviorMeaning GeomModel AffineModel GeomSpec GeomReal GeomExact GeomMeet GeomOps AffineProofs AffineProps RTreeModel RTreeSpec RTreeProofs MeshFormatModel MutableMeshModel PartitionedMeshModel PartitionedMeshSpec PartitionedMeshIndex PartitionedMeshExact PartitionedMeshCross PartitionedMeshProps PartitionedMeshQueryProps CoverageProofs.
Import ListNotations.
Local Open Scope R_scope.

(** the area of a triangle *)
Definition tri_area (a b c : pt) : R := Rabs ((px b - px a) * (py c - py a) - (px c - px a) * (py b - py a)) / 2.
Section Area.
Context {M : Type}.
Variable MO : mesh_ops N M.
Inductive areas (d : data M) : list ipair -> R -> Prop :=
| ar_nil : areas d [] 0
| ar_cons i l a b c s : triangle_at MO (d_meshes d) i = Some (tr a b c) -> areas d l s -> areas d (i :: l) (tri_area a b c + s).
Variable d : data M.
Lemma areas_fun l s s' : areas d l s -> areas d l s' -> s = s'.
Proof.
  intros H. revert s'. induction H as [|i l a b c s E H IH]; intros s' H'; inversion H'; subst; [reflexivity|]. rewrite E in H2. apply tr_inj in H2. destruct H2 as (-> & -> & ->). f_equal. apply IH. assumption.
Qed.
Lemma areas_perm l l' s : Permutation l l' -> areas d l s -> areas d l' s.
Proof.
  intros P. revert s. induction P as [|x l l' P IH|x y l|l l' l'' P IH P' IH']; intros s H.
  - exact H.
  - inversion H; subst. econstructor; [eassumption|apply IH; assumption].
  - inversion H as [|? ? a b c s1 E1 H1]; subst. inversion H1 as [|? ? a' b' c' s2 E2 H2]; subst. replace (tri_area a b c + (tri_area a' b' c' + s2)) with (tri_area a' b' c' + (tri_area a b c + s2)) by ring. repeat (econstructor; [eassumption|]). exact H2.
  - apply IH', IH, H.
Qed.
Lemma area_pos a b c : 0 <= tri_area a b c. Proof. unfold tri_area. pose proof (Rabs_pos ((px b - px a) * (py c - py a) - (px c - px a) * (py b - py a))). lra. Qed.
Lemma areas_pos l s : areas d l s -> 0 <= s.
Proof. induction 1 as [|i l a b c s E H IH]; [lra|]. pose proof (area_pos a b c). lra. Qed.
Lemma areas_sub (Q : ipair -> Prop) l L s : selects Q l L -> areas d l s -> exists r, areas d L r /\ r <= s.
Proof.
  intros S. revert s. induction S as [|i l L P S IH|i l L P S IH]; intros s H; inversion H as [|? ? a b c s1 E H1]; subst.
  - exists 0. split; [constructor|lra].
  - destruct (IH s1 H1) as (r & R1 & R2). exists (tri_area a b c + r). split; [econstructor; eassumption|lra].
  - destruct (IH s1 H1) as (r & R1 & R2). exists r. split; [exact R1|]. pose proof (area_pos a b c). lra.
Qed.
Lemma abs_area a b c : absolute_area (tr a b c) = Fin (tri_area a b c) :> ereal.
Proof. unfold absolute_area. rewrite signed_area_x. cbn [nabs N xnum]. f_equal. unfold tri_area. try (rewrite Rabs_mult, (Rabs_pos_eq (/ 2)) by lra). replace (det3 a b c) with ((px b - px a) * (py c - py a) - (px c - px a) * (py b - py a)) by (unfold det3, det2, sub; cbn; ring). lra. Qed.
Hypothesis RM : real_meshes MO d.
Lemma areas_all l : incl l (all_pairs MO (d_meshes d)) -> exists s, areas d l s.
Proof.
  induction l as [|i l IH]; intros I; [eexists; constructor|]. destruct IH as (s & H); [intros j J; apply I; right; exact J|]. destruct (rm_read _ _ RM i (I i (or_introl eq_refl))) as (a & b & c & E). eexists. econstructor; eassumption.
Qed.
Lemma sum_areas l s : areas d l s -> area_sum MO d l = (Fin s : T N).
Proof.
  intros H. unfold area_sum. rewrite EasingExact.x0. assert (G : forall r, fold_left (fun (a : T N) i => nadd N a (area_at MO d i)) l (Fin r : T N) = (Fin (r + s) : T N)).
  { induction H as [|i l a b c s E H IH]; intros r; cbn [fold_left]; [rewrite Rplus_0_r; reflexivity|]. unfold area_at at 2. rewrite E, abs_area. cbn [nadd N xadd]. rewrite IH. f_equal. ring. }
  rewrite G, Rplus_0_l. reflexivity.
Qed.
Lemma clean_real : clean MO isfin d.
Proof. destruct RM as [A B C]. split; [exact A|exact B|]. intros i I. apply (RD' MO d C i I). Qed.
Lemma boxes_thing o t q' : apply_object t o = thing_object q' -> thing_ok q' -> boxes isfin o t.
Proof. intros E K. destruct (thing_box q' K) as (x0 & y0 & x1 & y1 & B & _). exists (bx x0 y0 x1 y1). rewrite E. split; [exact B|apply nums_bx]. Qed.
Variable sort : (nat -> nat -> bool) -> list nat -> list nat.
Hypothesis sort_perm : forall f l, Permutation l (sort f l).
Lemma collects (order : list ipair) : forall s r, visits (fun s i => (s ++ [i], true)) order s r -> r = s ++ order.
Proof. induction order as [|i l IH]; intros s r H; inversion H as [|? ? ? ? ? A B|? ? ? ? A]; subst; [rewrite app_nil_r; reflexivity|injection A as <-; apply IH in B; rewrite B, <- app_assoc; reflexivity|discriminate]. Qed.
Theorem exact_coverage q t Q L : query_ok MO isfin d q t -> selects Q (all_pairs MO (d_meshes d)) L ->
  visits_exactly (fun St v s => visit_query MO sort (fun s i => Some (v s i)) (Some d) q t s) L ->
  exists A T, areas d L A /\ areas d (all_pairs MO (d_meshes d)) T /\ 0 <= A <= T /\
    (0 < T -> coverage MO sort (Some d) q t = Some (Fin (A / T) : ereal)) /\ (T = 0 -> coverage MO sort (Some d) q t = Some (Nan : ereal)) /\
    forall th, coverage_is_greater_than MO sort (Some d) q (Fin th : ereal) t = Some (Rlt_bool (th * T) A).
Proof.
  intros K S (order' & P' & V'). destruct (query_order MO isfin xval xlt_spec sort sort_perm d q t clean_real K) as (order & HQ).
  assert (order = order') as ->.
  { destruct HQ as [_ HQ]. destruct (HQ _ (fun s i => Some (s ++ [i], true)) (fun s i => (s ++ [i], true)) ltac:(reflexivity) (@nil ipair)) as (r & R1 & R2). destruct (V' _ (fun s i => (s ++ [i], true)) (@nil ipair)) as (r' & R1' & R2'). cbv beta in R1'. rewrite R1' in R1. injection R1 as <-. apply collects in R2, R2'. cbn in R2, R2'. congruence. }
  destruct (areas_all (all_pairs MO (d_meshes d)) ltac:(apply incl_refl)) as (T & HT). destruct (areas_sub _ _ _ _ S HT) as (A & HA & LE). exists A, T. pose proof (areas_pos _ _ HA) as PA.
  assert (RD : forall i, In i (all_pairs MO (d_meshes d)) -> exists x, triangle_at MO (d_meshes d) i = Some x) by (intros i I; destruct (rm_read _ _ RM i I) as (a & b & c & E); eauto).
  split; [exact HA|]. split; [exact HT|]. split; [lra|].
  assert (SO : area_sum MO d order' = (Fin A : NumModel.T N)) by (apply sum_areas; eapply areas_perm; [apply Permutation_sym; exact P'|exact HA]).
  rewrite (coverage_sum MO sort d (rm_some _ _ RM) RD q t order' HQ), SO, (sum_areas _ _ HT).
  split; [intros H; cbn [ndiv N xdiv]; rewrite ?Req_bool_false by lra; reflexivity|]. split; [intros ->; cbn [ndiv N xdiv]; assert (A = 0) as -> by lra; rewrite ?Req_bool_true by reflexivity; reflexivity|].
  intros th. rewrite (greater_sum MO sort d (rm_some _ _ RM) RD (fun a => exists r, a = (Fin r : ereal))) with (order := order').
  - rewrite SO, (sum_areas _ _ HT). reflexivity.
  - intros a i I (r & ->). destruct (rm_read _ _ RM i I) as (u & v & w & E). unfold area_at. rewrite E, abs_area. cbn [nadd N xadd]. split; [eexists; reflexivity|]. match goal with |- nlt N ?l _ = true -> _ => generalize l end. intros l. pose proof (area_pos u v w). destruct l as [l|[]|]; cbn [nlt N xlt]; try discriminate; try reflexivity. intros L'. apply Rlt_bool_true. destruct (Rlt_bool_spec l r) as [X|X]; [lra|discriminate].
  - rewrite EasingExact.x0. eexists. reflexivity.
  - exact HQ.
Qed.
End Area.
