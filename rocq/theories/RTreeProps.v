(** C38: a query of the static R-tree visits exactly the elements whose box meets the query. *)
From Coq Require Import ZArith Reals Lra Lia Permutation Bool Arith List.
From Flocq Require Import Core IEEE754.BinarySingleNaN.
From Verif Require Import F32 F32Lemmas F32Round NumModel GeomModel RTreeModel RTreeSpec RTreeProofs RTreeFloat.
Import ListNotations.
Local Open Scope nat_scope.

Section C38.
Variable E : elem.
Notation N := (fnum E).
Context {A : Type}.
Variable bounds : A -> rect N.
Variable B : nat.
Hypothesis HB : 2 <= B.
Variable sort : (nat -> nat -> bool) -> list nat -> list nat.
Hypothesis sort_perm : forall f l, Permutation l (sort f l).
Variable elements : list A.

Lemma not_lt_iff (a b : f32) : is_nan a = false -> is_nan b = false -> (flt a b = false <-> (fX b <= fX a)%R).
Proof.
  intros Ha Hb. split; intros H.
  - apply flt_false in H; auto.
  - apply not_true_is_false. intros Q. apply flt_spec in Q; auto. lra.
Qed.
Lemma int_overlap (r q : rect N) : box_ok E r -> box_ok E q -> (int_rects r q = true <-> overlap E r q).
Proof.
  intros [R1 R2 R3 R4 R5 R6] [Q1 Q2 Q3 Q4 Q5 Q6]. unfold int_rects. cbn [nlt N].
  destruct (flt (x_max q) (x_min r) || flt (x_max r) (x_min q)) eqn:H1; [|destruct (flt (y_max q) (y_min r) || flt (y_max r) (y_min q)) eqn:H2].
  - split; [discriminate|]. intros (x & y & [X1 Y1] & [X2 Y2]). apply orb_true_iff in H1. destruct H1 as [H1|H1]; apply flt_spec in H1; auto; lra.
  - split; [discriminate|]. intros (x & y & [X1 Y1] & [X2 Y2]). apply orb_true_iff in H2. destruct H2 as [H2|H2]; apply flt_spec in H2; auto; lra.
  - split; [intros _|reflexivity]. apply orb_false_iff in H1, H2. destruct H1 as [C2 C1], H2 as [C4 C3]. apply not_lt_iff in C1, C2, C3, C4; auto.
    exists (Rmax (fX (x_min r)) (fX (x_min q))), (Rmax (fX (y_min r)) (fX (y_min q))).
    unfold inside. unfold Rmax. destruct (Rle_dec (fX (x_min r)) (fX (x_min q))), (Rle_dec (fX (y_min r)) (fX (y_min q))); lra.
Qed.

Lemma filter_selects (P : A -> Prop) (f : A -> bool) l : (forall a, In a l -> f a = true <-> P a) -> selects P l (filter f l).
Proof.
  induction l as [|a l IH]; intros H; cbn; [constructor|]. destruct (f a) eqn:F.
  - apply sel_take; [apply H; [left; reflexivity|exact F]|apply IH; intros; apply H; right; assumption].
  - apply sel_skip; [intros Q; apply H in Q; [congruence|left; reflexivity]|apply IH; intros; apply H; right; assumption].
Qed.
Notation isnum := (fun x : T N => is_nan (x : f32) = false).
Lemma box_nums r : box_ok E r -> nums N isnum r.
Proof. intros [R1 R2 R3 R4 _ _]. repeat split; assumption. Qed.

(** Whatever the elements and their boxes, the tree can be built, and one tree answers every
    query: there is an order of exactly the elements whose box meets the query, each listed as
    often as it was given, in which every visitor is called until it asks to stop. *)
Theorem C38_query_exact : elements <> [] -> (Z.of_nat (length elements) < 2 ^ 32)%Z -> (forall a, In a elements -> box_ok E (bounds a)) ->
  exists nodes, init_tree B sort bounds elements = Some nodes /\
    forall q, box_ok E q -> exists hits order,
      selects (fun a => overlap E (bounds a) q) elements hits /\ Permutation order hits /\
      forall S (v : S -> A -> S * bool) s, exists s', visit bounds v nodes elements q s = Some s' /\ visits v order s s'.
Proof.
  intros Hne Hlen Hb. destruct (query_exact N isnum fX flt_spec bounds B HB sort sort_perm elements Hne Hlen (fun a Ha => box_nums _ (Hb a Ha))) as (nodes & H1 & H2).
  exists nodes. split; [exact H1|]. intros q Hq. destruct (H2 q (box_nums q Hq)) as (order & P & V). exists (filter (fun a => int_rects (bounds a) q) elements), order. split; [|split; assumption].
  apply filter_selects. intros a Ha. apply int_overlap; auto.
Qed.
(** a visitor that collects everything receives exactly the elements that meet the query *)
Theorem C38_collect : elements <> [] -> (Z.of_nat (length elements) < 2 ^ 32)%Z -> (forall a, In a elements -> box_ok E (bounds a)) ->
  exists nodes, init_tree B sort bounds elements = Some nodes /\
    forall q, box_ok E q -> exists hits found,
      selects (fun a => overlap E (bounds a) q) elements hits /\ Permutation found hits /\
      visit bounds (fun s a => (s ++ [a], true)) nodes elements q [] = Some found.
Proof.
  intros Hne Hlen Hb. destruct (C38_query_exact Hne Hlen Hb) as (nodes & H1 & H2). exists nodes. split; [exact H1|]. intros q Hq.
  destruct (H2 q Hq) as (hits & order & H3 & H4 & H5). exists hits, order. split; [exact H3|]. split; [exact H4|].
  destruct (H5 _ (fun s a => (s ++ [a], true)) []) as (s' & V1 & V2). rewrite V1. f_equal. 
  assert (G : forall (l s s' : list A), visits (fun s a => (s ++ [a], true)) l s s' -> s' = s ++ l).
  { induction 1 as [s|a l s s1 s2 Q V IH|a l s s1 Q]; [rewrite app_nil_r; reflexivity|injection Q as <-; rewrite IH, <- app_assoc; reflexivity|discriminate]. }
  exact (G _ _ _ V2).
Qed.
(** a visitor that asks to stop at its first element is called at most once, and is called if
    and only if some element meets the query *)
Theorem C38_any : elements <> [] -> (Z.of_nat (length elements) < 2 ^ 32)%Z -> (forall a, In a elements -> box_ok E (bounds a)) ->
  exists nodes, init_tree B sort bounds elements = Some nodes /\
    forall q, box_ok E q -> exists found, visit bounds (fun s a => (a :: s, false)) nodes elements q [] = Some found /\
      ((found = [] /\ forall a, In a elements -> ~ overlap E (bounds a) q) \/
       exists a, found = [a] /\ In a elements /\ overlap E (bounds a) q).
Proof.
  intros Hne Hlen Hb. destruct (C38_query_exact Hne Hlen Hb) as (nodes & H1 & H2). exists nodes. split; [exact H1|]. intros q Hq.
  destruct (H2 q Hq) as (hits & order & H3 & H4 & H5). destruct (H5 _ (fun s a => (a :: s, false)) []) as (s' & V1 & V2). exists s'. split; [exact V1|].
  assert (Sel : forall l L, selects (fun a => overlap E (bounds a) q) l L -> forall a, In a L <-> In a l /\ overlap E (bounds a) q).
  { induction 1 as [|a l L P S IH|a l L P S IH]; intros x; cbn; [tauto| |]; rewrite IH; split; intros H; [destruct H as [<-|[]]; auto|tauto|tauto|]. destruct H as [[<-|H] Q]; tauto. }
  inversion V2 as [s E1 E2 E3|a l s s1 s2 Q V E1 E2 E3|a l s s1 Q E1 E2 E3]; subst.
  - left. split; [reflexivity|]. apply Permutation_nil in H4. subst. intros a Ha O. apply (proj2 (Sel _ _ H3 a)). auto.
  - discriminate Q.
  - right. injection Q as <-. exists a. split; [reflexivity|]. apply (Sel _ _ H3). apply Permutation_in with (a :: l); [exact H4|left; reflexivity].
Qed.
(** Finding: a tree without elements has no root, and any query reads it all the same. *)
Theorem C38_empty_refuted : init_tree B sort bounds [] = Some [] /\ forall S (v : S -> A -> S * bool) q s, visit bounds v [] [] q s = None.
Proof. split; reflexivity. Qed.
(** Finding: 2^32 elements pass the size check of the constructor, but are counted as zero. *)
Theorem C38_max_size_refuted : Z.of_nat (length elements) = (2 ^ 32)%Z -> init_tree B sort bounds elements = None.
Proof.
  intros H. destruct elements as [|a l]; [discriminate H|]. unfold init_tree. assert (uint32 (length (a :: l)) = 0) as -> by (unfold uint32; rewrite H; reflexivity). 
  reflexivity.
Qed.
End C38.
Print Assumptions C38_query_exact.
Print Assumptions C38_collect.
Print Assumptions C38_any.
Print Assumptions C38_empty_refuted.
Print Assumptions C38_max_size_refuted.

(** the ceilings taken in double precision are those of the model *)
Theorem C38_double_ceilings (n d : nat) : 0 < n -> 0 < d -> (Z.of_nat n <= 2 ^ 32)%Z -> (Z.of_nat d <= 2 ^ 32)%Z ->
  Zceil (rnd64 (INR n / INR d)) = Z.of_nat (ceil_div n d) /\ Zceil (rnd64 (sqrt (INR n))) = Z.of_nat (ceil_sqrt n).
Proof. intros Hn Hd Bn Bd. split; [apply double_ceil_div; assumption|apply double_ceil_sqrt; assumption]. Qed.
Print Assumptions C38_double_ceilings.

(** the hypotheses are met: twelve unit squares around the diagonal, four children per node,
    insertion sort *)
Section Example.
Variable E : elem.
Notation N := (fnum E).
Fixpoint insert (f : nat -> nat -> bool) (x : nat) (l : list nat) : list nat :=
  match l with [] => [x] | y :: r => if f x y then x :: l else y :: insert f x r end.
Fixpoint isort (f : nat -> nat -> bool) (l : list nat) : list nat := match l with [] => [] | x :: r => insert f x (isort f r) end.
Lemma insert_perm f x l : Permutation (x :: l) (insert f x l).
Proof. induction l as [|y l IH]; cbn; [apply Permutation_refl|]. destruct (f x y); [apply Permutation_refl|]. eapply Permutation_trans; [apply perm_swap|]. apply perm_skip, IH. Qed.
Lemma isort_perm f l : Permutation l (isort f l).
Proof. induction l as [|x l IH]; cbn; [constructor|]. eapply Permutation_trans; [apply perm_skip, IH|apply insert_perm]. Qed.
Definition ex_box (i : nat) : rect N := Rect (fZ (Z.of_nat i) : T N) (fZ (7 * Z.of_nat i mod 12) : T N) (fZ (Z.of_nat i + 1) : T N) (fZ (7 * Z.of_nat i mod 12 + 1) : T N).
Definition ex_elements := seq 0 12.
Lemma fZ_small (z : Z) : (0 <= z < 100)%Z -> is_nan (fZ z) = false /\ fX (fZ z) = IZR z.
Proof. intros H. destruct (fZ_exact z) as [R F]; [lia|]. split; [apply finite_not_nan; exact F|]. rewrite (fX_finite _ F). exact R. Qed.
Lemma ex_ok i : i < 20 -> box_ok E (ex_box i).
Proof.
  intros H. pose proof (Z.mod_pos_bound (7 * Z.of_nat i) 12 ltac:(lia)) as M. set (m := (7 * Z.of_nat i mod 12)%Z) in *.
  destruct (fZ_small (Z.of_nat i) ltac:(lia)) as [A1 A2], (fZ_small m ltac:(lia)) as [B1 B2], (fZ_small (Z.of_nat i + 1) ltac:(lia)) as [C1 C2], (fZ_small (m + 1) ltac:(lia)) as [D1 D2].
  constructor; unfold ex_box; fold m; cbn [x_min y_min x_max y_max]; [exact A1|exact B1|exact C1|exact D1| |].
  - rewrite A2, C2, plus_IZR. lra.
  - rewrite B2, D2, plus_IZR. lra.
Qed.
Example C38_example : ex_elements <> [] /\ (Z.of_nat (length ex_elements) < 2 ^ 32)%Z /\ (forall a, In a ex_elements -> box_ok E (ex_box a)) /\ (forall f l, Permutation l (isort f l)) /\
  match init_tree 4 isort ex_box ex_elements with
  | Some nodes => length nodes = 4 /\ visit ex_box (fun s a => (s ++ [a], true)) nodes ex_elements (Rect (fZ 2 : T N) (fZ 0 : T N) (fZ 6 : T N) (fZ 9 : T N)) [] = Some [2; 4; 6; 1; 3]
      /\ visit ex_box (fun s a => (s ++ [a], length s <? 1)) nodes ex_elements (Rect (fZ 2 : T N) (fZ 0 : T N) (fZ 6 : T N) (fZ 9 : T N)) [] = Some [2; 4]
  | None => False
  end.
Proof.
  split; [discriminate|]. split; [cbn; lia|]. split; [intros a Ha; apply ex_ok; apply in_seq in Ha; lia|]. split; [apply isort_perm|].
  vm_compute. auto.
Qed.
End Example.
