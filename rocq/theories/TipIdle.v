(** Time passing without input, once the time behaviors are finished, in exact arithmetic. *)
From Coq Require Import ZArith Reals Bool Lia Lra List.
From Flocq Require Import Core.
From Verif Require Import NumModel NumLaws EasingModel EasingExact BehaviorModel BehaviorSpec BehaviorTree BehaviorRun BehaviorExact BehaviorOrder TipModel TipSpec TipRun TipOrder TipFinal TipSettled TipStable TipAhead.
Import ListNotations.

Section Same.
Context {N : num}.
Local Notation input := (modeled_input N).
(** inputs that agree one by one give the same update *)
Variables (m : tip_modeler N) (st st' : input_state N) (inputs : list input).
Hypothesis Hst : st_stable st' = st_stable st.
Hypothesis Hagree : forall i dir prev fuel w, In i inputs -> (forall p, prev = Some p -> In p inputs) ->
  process_single_input fuel m st' i dir prev w = process_single_input fuel m st i dir prev w.
Definition prev_in (prev : option input) : Prop := forall p, prev = Some p -> In p inputs.
Lemma volatile_agree fuel : forall n i prev w, prev_in prev -> volatile_loop fuel m st' inputs n i prev w = volatile_loop fuel m st inputs n i prev w.
Proof.
  induction n as [|n IH]; intros i prev w P; cbn [volatile_loop]; [reflexivity|]. destruct (nth_error inputs i) as [cur|] eqn:E; [|reflexivity]. apply nth_error_In in E.
  destruct (travel_direction inputs i); [|reflexivity]. rewrite Hagree by assumption. destruct (process_single_input _ _ _ _ _ _ _); [|reflexivity]. apply IH. intros p [= <-]. exact E.
Qed.
Lemma fixed_agree fuel mx : forall n i prev w, prev_in prev -> fixed_loop fuel m st' inputs mx n i prev w = fixed_loop fuel m st inputs mx n i prev w.
Proof.
  induction n as [|n IH]; intros i prev w P; cbn [fixed_loop]; [reflexivity|]. rewrite Hst. destruct (Nat.ltb _ _); [|reflexivity].
  destruct (nth_error inputs i) as [cur|] eqn:E; [|reflexivity]. apply nth_error_In in E. destruct (_ || _); [reflexivity|].
  destruct (travel_direction inputs i); [|reflexivity]. rewrite Hagree by assumption. destruct (process_single_input _ _ _ _ _ _ _); [|reflexivity]. apply IH. intros p [= <-]. exact E.
Qed.
Lemma fixed_prev fuel mx : forall n i prev w j p w', prev_in prev -> fixed_loop fuel m st inputs mx n i prev w = Some (j, p, w') -> prev_in p.
Proof.
  induction n as [|n IH]; intros i prev w j p w' P; cbn [fixed_loop]; [intros [= <- <- <-]; exact P|]. destruct (Nat.ltb _ _); [|intros [= <- <- <-]; exact P].
  destruct (nth_error inputs i) as [cur|] eqn:E; [|discriminate]. apply nth_error_In in E. destruct (_ || _); [intros [= <- <- <-]; exact P|].
  destruct (travel_direction inputs i); [|discriminate]. destruct (process_single_input _ _ _ _ _ _ _); [|discriminate]. apply IH. intros q [= <-]. exact E.
Qed.
Lemma update_agree fuel : update_stroke fuel m st' inputs = update_stroke fuel m st inputs.
Proof.
  unfold update_stroke. destruct inputs as [|i0 l] eqn:EI; [reflexivity|]. rewrite <- EI in *. unfold max_fixed_metrics. rewrite Hst.
  match goal with |- match ?e with _ => _ end = _ => destruct e as [mx|]; [|reflexivity] end.
  destruct (match next_fixed m with O => Some None | S k => option_map Some (nth_error inputs k) end) as [prev|] eqn:EP; [|reflexivity].
  assert (P : prev_in prev). { intros p ->. destruct (next_fixed m) as [|k]; [discriminate|]. destruct (nth_error inputs k) eqn:E; [|discriminate]. injection EP as <-. exact (nth_error_In _ _ E). }
  rewrite fixed_agree by exact P. destruct (fixed_loop _ _ _ _ _ _ _ _ _) as [[[j p] w1]|] eqn:EF; [|reflexivity].
  rewrite volatile_agree; [reflexivity|]. exact (fixed_prev _ _ _ _ _ _ _ _ _ P EF).
Qed.
End Same.

Lemma outputs_app {N : num} fuel us : forall (m : tip_modeler N) us', outputs fuel m (us ++ us') =
  match us with [] => outputs fuel m us' | (st, inputs) :: r =>
    match update_stroke fuel m st inputs with None => None | Some m' => option_map (cons (new_fixed_states m', volatile_states m')) (outputs fuel m' (r ++ us')) end end.
Proof. destruct us as [|[st inputs] us]; reflexivity. Qed.
Lemma update_static {N : num} fuel (m0 m : tip_modeler N) st inputs m' : same_static m0 m -> update_stroke fuel m st inputs = Some m' -> same_static m0 m'.
Proof.
  intros S H. unfold update_stroke in H. destruct inputs; [injection H as <-; destruct S; split; assumption|].
  repeat match type of H with match ?e with _ => _ end = _ => destruct e as [?|]; [|discriminate] end.
  destruct p as [[j p] w1]. match type of H with match ?e with _ => _ end = _ => destruct e as [?|]; [|discriminate] end. injection H as <-. destruct S; split; assumption.
Qed.

Local Open Scope R_scope.
Local Notation N := xnum.
Local Notation F := (T xnum).
Local Notation input := (modeled_input xnum).
Section Idle.
Variables (fuel0 : nat) (t : brush_tip N) (sz : R) (m0 : tip_modeler N).
Hypothesis Hs : start_stroke (N := N) fuel0 t (Fin sz) = Some m0.
Hypothesis Vt : valid_tip t = true.
Variables (st : input_state N) (ce ce' re : R) (inputs : list input).
Hypothesis Hce : st_complete_elapsed st = Fin ce.
Hypothesis Hre : st_real_elapsed st = Fin re.
Hypothesis Hlater : ce <= ce'.
Hypothesis Hinputs : Forall (fun i : input => exists e, elapsed i = Fin e /\ e <= re) inputs.
Hypothesis Hdone : has_unfinished m0 st = false.
Hypothesis Hp : no_particles t \/ ~ uses_source t since_input.
Lemma bound_reached : exists bt, time_bound m0 = Fin bt /\ 0 <= bt /\ bt <= ce - re.
Proof.
  destruct (start_bounds _ _ _ _ Hs (Vb t Vt)) as (_ & _ & [A N1] & _). unfold has_unfinished in Hdone. rewrite Hce, Hre in Hdone. unfold dur_sub in Hdone. cbn [nfin N xnum negb nsub nlt] in Hdone.
  destruct (time_bound m0) as [bt|[]|]; try contradiction; try discriminate Hdone.
  exists bt. cbn in A. apply xlt_fin_false in Hdone. split; [reflexivity|lra].
Qed.
Lemma idle_pushed (i : input) s o (lo hi : F) (dir : option F) e : (~ since_input s \/ (elapsed i = Fin e /\ e <= re)) -> In (SourceNode s o lo hi) (concat (behaviors t)) ->
  pushed (N := N) (at_time (N := N) st (Fin ce')) i dir (Fin sz) s o lo hi = pushed (N := N) st i dir (Fin sz) s o lo hi.
Proof.
  intros C Is. destruct bound_reached as (bt & Eb & B0 & B1).
  assert (Cs : ~ since_input s \/ s = kTimeSinceInputInSeconds \/ s = kTimeSinceInputInMillis) by (destruct s; cbn; auto).
  destruct Cs as [NS|Cs]; [destruct s; try reflexivity; contradiction NS; exact I|].
  destruct C as [C|[Ee Le]]; [destruct Cs as [->| ->]; contradiction C; exact I|].
  destruct (behaviors_documented xlaws _ (Vb t Vt)) as (D & _). pose proof (proj1 (Forall_forall _ _) D _ Is) as Dn.
  assert (FD : finite_distinct lo hi) by (cbn in Dn; tauto). destruct FD as (Fl & Fh & Ne). apply fin_of in Fl, Fh. destruct Fl as [l ->], Fh as [h ->].
  assert (NE : l <> h) by (cbn in Ne; intros ->; rewrite Req_bool_true in Ne by reflexivity; discriminate).
  destruct (start_bounds _ _ _ _ Hs (Vb t Vt)) as (_ & _ & _ & Up). destruct (Up _ _ _ _ Is) as [_ Ut]. rewrite Eb in Ut.
  unfold pushed. destruct Cs as [->| ->]; cbn [get_source_value]; unfold time_since_input, dur_sub; cbn [at_time st_complete_elapsed]; rewrite Ee, Hce; unfold time_upper_bound in Ut;
    cbn [nfin N xnum negb nsub xsub xadd xopp].
  - assert (Uo : o = kClamp /\ value_upper_bound (N := N) o (Fin l) (Fin h) = Fin (Rmax l h)).
    { apply (upper_fin o l h bt). destruct (value_upper_bound (N := N) o (Fin l) (Fin h)) as [v|[]|] eqn:Ev; cbn in Ut |- *; try exact I; try contradiction. exact Ut. }
    destruct Uo as [-> Ev]. rewrite Ev in Ut. unfold dur_seconds in Ut. cbn [nnan N xnum above] in Ut. pose proof (Rmax_l l h). pose proof (Rmax_r l h).
    rewrite !saturates by lra. reflexivity.
  - assert (Uo : o = kClamp /\ value_upper_bound (N := N) o (Fin l) (Fin h) = Fin (Rmax l h)).
    { apply (upper_fin o l h (bt * 1000)). destruct (value_upper_bound (N := N) o (Fin l) (Fin h)) as [v|[]|] eqn:Ev; try exact I.
      - rewrite millis_x in Ut. cbn [above] in *. destruct (Rle_or_lt v 0); lra.
      - rewrite millis_inf in Ut. exact Ut.
      - exact Ut. }
    destruct Uo as [-> Ev]. rewrite Ev, millis_x in Ut. cbn [above] in Ut. pose proof (Rmax_l l h). pose proof (Rmax_r l h).
    assert (M : Rmax l h <= 1000 * bt) by (destruct (Rle_or_lt (Rmax l h) 0); lra).
    unfold to_millis. rewrite xZ. cbn [nmul N xnum xmul]. rewrite !saturates by lra. reflexivity.
Qed.
Lemma idle_update fuel (m : tip_modeler N) : same_static m0 m -> update_stroke fuel m (at_time (N := N) st (Fin ce')) inputs = update_stroke fuel m st inputs.
Proof.
  intros S. apply update_agree; [reflexivity|]. intros i dir prev f w Ii Ip. destruct (start_facts _ _ _ _ Hs) as (FS & _ & _ & Fz & _).
  assert (Sz : size m = Fin sz) by (rewrite (e_size _ _ S); exact Fz).
  assert (FSm : forall s o lo hi, In (RSource s o lo hi) (nodes m) -> In (SourceNode s o lo hi) (concat (behaviors t))) by (rewrite (e_nodes _ _ S); exact FS).
  destruct (proj1 (Forall_forall _ _) Hinputs i Ii) as (e & Ee & Le).
  apply single_same.
  - split; [reflexivity|reflexivity| |left; reflexivity]. intros s o lo hi HI. rewrite Sz. apply (idle_pushed i s o lo hi dir e); [right; auto|apply FSm, HI].
  - intros C p _ last _. split; [reflexivity|reflexivity| |left; reflexivity]. intros s o lo hi HI. rewrite Sz. apply FSm in HI. apply (idle_pushed _ s o lo hi dir 0); [|exact HI].
    left. intros X. destruct Hp as [P|P]; [|apply P; exists s, o, lo, hi; auto].
    destruct (continuous_iff xlaws xorder _ _ _ _ Hs (Vb t Vt)) as [_ Cn]. unfold continuous in C. rewrite (e_gap _ _ S) in C. unfold continuous in Cn. rewrite (Cn P) in C. discriminate.
Qed.
Theorem idle fuel us us' : outputs fuel m0 (us ++ (at_time (N := N) st (Fin ce'), inputs) :: us') = outputs fuel m0 (us ++ (st, inputs) :: us').
Proof.
  assert (G : forall us (m : tip_modeler N), same_static m0 m -> outputs fuel m (us ++ (at_time (N := N) st (Fin ce'), inputs) :: us') = outputs fuel m (us ++ (st, inputs) :: us')).
  { clear us. induction us as [|[s i] us IH]; intros m S; cbn [app outputs].
    - rewrite (idle_update fuel m S). reflexivity.
    - destruct (update_stroke fuel m s i) as [m'|] eqn:E; [|reflexivity]. rewrite (IH m'); [reflexivity|]. exact (update_static fuel m0 m s i m' S E). }
  apply G. split; reflexivity.
Qed.
End Idle.

(** *** exactly when time behaviors are unfinished *)
Lemma fold_time_lt l d : forall b, num_ok b -> b <> Inf true -> (forall n, In n l -> documented_node (N := N) n) -> 
  xlt (Fin d) (fold_left time_step l b) = true <-> xlt (Fin d) b = true \/ exists s o lo hi, In (SourceNode s o lo hi) l /\ xlt (Fin d) (time_upper_bound (N := N) s o lo hi) = true.
Proof.
  induction l as [|n l IH]; intros b Hb Hi Hl; cbn [fold_left].
  - split; [auto|]. intros [H|(s & o & lo & hi & [] & _)]. exact H.
  - assert (St : (num_ok (time_step b n) /\ time_step b n <> Inf true) /\ (xlt (Fin d) (time_step b n) = true <-> xlt (Fin d) b = true \/ exists s o lo hi, n = SourceNode s o lo hi /\ xlt (Fin d) (time_upper_bound (N := N) s o lo hi) = true)).
    { destruct n; cbn [time_step]; try (split; [auto|]; split; [auto|]; intros [H|(? & ? & ? & ? & H & _)]; [exact H|discriminate H]).
      pose proof (Hl _ (or_introl eq_refl)) as (_ & _ & _ & X1 & X2 & _). pose proof (time_ok src oor lo hi X1 X2) as Ht.
      destruct (above_max b (time_upper_bound (N := N) src oor lo hi) Hb Ht Hi) as (A1 & A2 & A3).
      split; [split; [apply xmax_ok; assumption|exact A3]|].
      split.
      - unfold nmax. destruct (nlt N b _); [right; do 4 eexists; split; [reflexivity|assumption]|auto].
      - intros [H|(s & o & lo' & hi' & [= <- <- <- <-] & H)].
        + revert A1 H. generalize (nmax (N := N) b (time_upper_bound (N := N) src oor lo hi)). intros c. destruct b as [x|[]|], c as [y|[]|]; cbn; try contradiction; try discriminate; auto. intros. destruct (Rlt_bool_spec d x); [|discriminate]. apply Rlt_bool_true. lra.
        + revert A2 H. generalize (nmax (N := N) b (time_upper_bound (N := N) src oor lo hi)). intros c. destruct (time_upper_bound (N := N) src oor lo hi) as [x|[]|], c as [y|[]|]; cbn; try contradiction; try discriminate; auto. intros. destruct (Rlt_bool_spec d x); [|discriminate]. apply Rlt_bool_true. lra. }
    destruct St as [[S1 S2] S3]. rewrite (IH _ S1 S2) by (intros k Hk; apply Hl; right; exact Hk). rewrite S3. split.
    + intros [[H|(s & o & lo & hi & -> & H)]|(s & o & lo & hi & HI & H)]; [auto| |]; right; exists s, o, lo, hi; (split; [|exact H]); [left; reflexivity|right; exact HI].
    + intros [H|(s & o & lo & hi & [->|HI] & H)]; [auto| |]; [left; right|right]; exists s, o, lo, hi; auto.
Qed.
Theorem unfinished_iff fuel0 (t : brush_tip N) sz (m0 : tip_modeler N) (st : input_state N) ce re : start_stroke (N := N) fuel0 t (Fin sz) = Some m0 -> valid_tip t = true ->
  st_complete_elapsed st = Fin ce -> st_real_elapsed st = Fin re -> re <= ce ->
  has_unfinished m0 st = true <-> exists s lo hi, In (SourceNode (N := N) s kClamp (Fin lo) (Fin hi)) (concat (behaviors t)) /\
    ((s = kTimeSinceInputInSeconds /\ ce - re < Rmax lo hi) \/ (s = kTimeSinceInputInMillis /\ ce - re < 8589935 / 8589934592 * Rmax lo hi)).
Proof.
  intros H Vt Ec Er Le. pose proof (Vb t Vt) as V. destruct (behaviors_documented xlaws _ V) as (D & _).
  unfold start_stroke in H. destruct (_ || _); [discriminate|]. rewrite append_concat in H. apply bounds_nodes in H. cbn [size time_bound] in H. rewrite x0 in H. destruct H as (_ & _ & Et & _).
  unfold has_unfinished. rewrite Et, Ec, Er. unfold dur_sub. cbn [nfin N xnum negb nsub nlt xsub xadd xopp].
  rewrite fold_time_lt; [|exact I|discriminate|intros n Hn; exact (proj1 (Forall_forall _ _) D n Hn)].
  split.
  - intros [Q|(s & o & lo & hi & HI & Q)]; [cbn in Q; destruct (Rlt_bool_spec (ce + - re) 0); [lra|discriminate]|].
    pose proof (proj1 (Forall_forall _ _) D _ HI) as Dn. cbn in Dn. destruct Dn as (D1 & D2 & D3 & X1 & X2 & X3). apply fin_of in X1, X2. destruct X1 as [l ->], X2 as [h ->].
    assert (VU : o = kClamp -> value_upper_bound (N := N) o (Fin l) (Fin h) = Fin (Rmax l h)).
    { intros ->. unfold value_upper_bound, nmax. cbn [has_upper_bound negb nlt N xnum xlt]. destruct (Rlt_bool_spec l h); [rewrite Rmax_right by lra|rewrite Rmax_left by lra]; reflexivity. }
    assert (Z : xlt (Fin (ce + - re)) (n0 (N := N)) = true -> False) by (rewrite x0; cbn; destruct (Rlt_bool_spec (ce + - re) 0); [lra|discriminate]).
    destruct s; try (exfalso; exact (Z Q)).
    + pose proof (D3 (or_introl eq_refl)). subst o.
      exists kTimeSinceInputInSeconds, l, h. split; [exact HI|]. left. split; [reflexivity|]. unfold time_upper_bound in Q. rewrite VU in Q by reflexivity. cbn in Q. destruct (Rlt_bool_spec (ce + - re) (Rmax l h)); [lra|discriminate].
    + pose proof (D3 (or_intror eq_refl)). subst o.
      exists kTimeSinceInputInMillis, l, h. split; [exact HI|]. right. split; [reflexivity|]. unfold time_upper_bound in Q. rewrite VU, millis_x in Q by reflexivity. cbn [xlt] in Q.
      match type of Q with Rlt_bool ?a ?b = _ => destruct (Rlt_bool_spec a b); [lra|discriminate] end.
  - intros (s & lo & hi & HI & Q). right. exists s, kClamp, (Fin lo), (Fin hi). split; [exact HI|].
    assert (VU : value_upper_bound (N := N) kClamp (Fin lo) (Fin hi) = Fin (Rmax lo hi)).
    { unfold value_upper_bound, nmax. cbn [has_upper_bound negb nlt N xnum xlt]. destruct (Rlt_bool_spec lo hi); [rewrite Rmax_right by lra|rewrite Rmax_left by lra]; reflexivity. }
    destruct Q as [[-> Q]|[-> Q]]; unfold time_upper_bound; rewrite VU; [|rewrite millis_x]; cbn; apply Rlt_bool_true; lra.
Qed.
