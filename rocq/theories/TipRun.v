(** Executing the nodes of a started stroke for one input after the other, as an invariant
    of the machine. *)
From Coq Require Import ZArith List Bool Lia Permutation.
From Verif Require Import NumModel NumLaws EasingModel BehaviorModel BehaviorSpec BehaviorTree BehaviorRun TipModel.
Import ListNotations.

Section TipRun.
Context {N : num} (L : laws N) (RD : reads N).
Notation F := (T N).
Local Notation root := (root N (option F)).

Definition represents (code : list (rnode N)) (k : machine N) (rs : list root) (dm : list (option F)) : Prop :=
  ca 0 0 code rs dm /\ map not_nan (damped k) = dm /\ modifiers k = map (r_modifier _) rs /\ stack k = [].

Lemma rep_step c code k rs dm : represents code k rs dm -> bare c dm ->
  exists k' rs' dm', process_nodes c code k = Some k' /\ all_step c rs rs' /\ represents code k' rs' dm'.
Proof.
  intros (C & D & M & S) B. destruct (proj2 (exec L RD c) _ _ _ _ _ C B [] [] [] [] [] (damped k) eq_refl eq_refl D) as (rs1 & dm1 & fs1 & S1 & S2 & S3 & S4 & S5).
  unfold mach in S5. rewrite !app_nil_r in S5. cbn [app] in S5. destruct k as [st da mo]. cbn [stack damped modifiers] in *. subst st mo.
  eexists _, rs1, dm1. split; [exact S5|]. split; [exact S1|]. unfold represents. auto.
Qed.
Lemma bare_prev (c : context N) dm p : cx_prev c = Some p -> bare c dm.
Proof. intros H E. congruence. Qed.
Lemma bare_fresh (c : context N) k : bare c (repeat None k).
Proof. intros _. apply Forall_forall. intros x Hx. apply repeat_spec in Hx. exact Hx. Qed.
Lemma step_targets c (rs rs' : list root) : all_step c rs rs' -> map (r_target _) rs' = map (r_target _) rs.
Proof. induction 1 as [|a b l l' (v & e & _ & ->) _ IH]; cbn; [reflexivity|]. rewrite IH. reflexivity. Qed.
Lemma combine_roots (rs : list root) : combine (map (r_target _) rs) (map (r_modifier _) rs) = map (fun r => (r_target _ r, r_modifier _ r)) rs.
Proof. induction rs; cbn; congruence. Qed.
Lemma step_fun c (rs r1 r2 : list root) : all_step c rs r1 -> all_step c rs r2 -> r1 = r2.
Proof.
  intros A B. apply (all_steps_fun [c] rs); cbn [all_steps]; eauto.
Qed.
Lemma step_perm c (rs rs1 rs' rs1' : list root) : all_step c rs rs1 -> all_step c rs' rs1' -> Permutation rs rs' -> Permutation rs1 rs1'.
Proof.
  intros A B P. destruct (Permutation_Forall2 P A) as (x & P1 & A1). rewrite <- (step_fun c rs' x rs1' A1 B). exact P1.
Qed.
End TipRun.
