(** Fixed tip states are final: an update in steps gives the same as one from scratch. *)
From Coq Require Import ZArith List Bool Lia.
From Verif Require Import NumModel NumLaws EasingModel BehaviorModel BehaviorSpec BehaviorTree BehaviorRun TipModel TipSpec TipRun.
Import ListNotations.

Section Final.
Context {N : num}.
Notation F := (T N).
Local Notation input := (modeled_input N).

(** *** the stack is left as it was *)
Lemma stack_kept (c : context N) :
  (forall di ti code e rs dm, cv (N := N) di ti code e rs dm -> forall k k', process_nodes c code k = Some k' -> exists f, stack k' = f :: stack k) /\
  (forall di ti code rs dm, ca (N := N) di ti code rs dm -> forall k k', process_nodes c code k = Some k' -> stack k' = stack k).
Proof.
  assert (R1 : forall l n b k k', process_nodes c (l ++ n :: b) k = Some k' ->
    exists k1 k2, process_nodes c l k = Some k1 /\ process_node c n k1 = Some k2 /\ process_nodes c b k2 = Some k').
  { intros l n b k k' H. rewrite process_app in H. destruct (process_nodes c l k) as [k1|]; [|discriminate]. cbn [process_nodes] in H.
    destruct (process_node c n k1) as [k2|] eqn:E; [|discriminate]. eauto. }
  assert (R2 : forall l b k k', process_nodes c (l ++ b) k = Some k' -> exists k1, process_nodes c l k = Some k1 /\ process_nodes c b k1 = Some k').
  { intros l b k k' H. rewrite process_app in H. destruct (process_nodes c l k) as [k1|]; [|discriminate]. eauto. }
  apply cv_mutind; intros.
  - cbn [process_nodes process_node] in H0. destruct (get_source_value _ _ _ _ _); apply H in H0; rewrite H0; cbn; eauto.
  - cbn [process_nodes process_node] in H0. apply H in H0. rewrite H0. cbn. eauto.
  - apply R1 in H1. destruct H1 as (k1 & k2 & A & B & C). apply H in A. destruct A as [f A]. apply H0 in C. cbn [process_node] in B. rewrite A in B. injection B as <-. rewrite C. cbn. eauto.
  - apply R1 in H1. destruct H1 as (k1 & k2 & A & B & C). apply H in A. destruct A as [f A]. apply H0 in C. cbn [process_node] in B. rewrite A in B. injection B as <-. rewrite C. cbn. eauto.
  - apply R1 in H1. destruct H1 as (k1 & k2 & A & B & C). apply H in A. destruct A as [f A]. apply H0 in C. cbn [process_node] in B. rewrite A in B.
    destruct (nth_error (damped k1) _); [|discriminate]. destruct (damp_value _ _ _ _ _); [|discriminate]. destruct (set_nth _ _ _); [|discriminate]. injection B as <-. rewrite C. cbn. eauto.
  - apply R1 in H1. destruct H1 as (k1 & k2 & A & B & C). apply H in A. destruct A as [g A]. apply H0 in C. cbn [process_node] in B. rewrite A in B.
    destruct (get_y i g); [|discriminate]. injection B as <-. rewrite C. cbn. eauto.
  - apply R2 in H2. destruct H2 as (k0 & A0 & H2). apply R1 in H2. destruct H2 as (k1 & k2 & A & B & C). apply H in A0. destruct A0 as [f0 A0]. apply H0 in A. destruct A as [f A]. apply H1 in C.
    cbn [process_node] in B. rewrite A, A0 in B. injection B as <-. rewrite C. cbn. eauto.
  - apply R2 in H3. destruct H3 as (k0 & A0 & H3). apply R2 in H3. destruct H3 as (k3 & A3 & H3). apply R1 in H3. destruct H3 as (k1 & k2 & A & B & C).
    apply H in A0. destruct A0 as [f0 A0]. apply H0 in A3. destruct A3 as [f3 A3]. apply H1 in A. destruct A as [f A]. apply H2 in C.
    cbn [process_node] in B. rewrite A, A3, A0 in B. injection B as <-. rewrite C. cbn. eauto.
  - cbn in H. injection H as <-. reflexivity.
  - apply R1 in H1. destruct H1 as (k1 & k2 & A & B & C). apply H in A. destruct A as [f A]. apply H0 in C. cbn [process_node] in B. rewrite A in B.
    destruct (nnan N f); [injection B as <-|destruct (set_nth _ _ _); [injection B as <-|discriminate]]; rewrite C; reflexivity.
Qed.

(** *** what does not change during a stroke *)
Record same_static (m m' : tip_modeler N) : Prop := {
  e_tip : tip m' = tip m; e_size : size m' = size m; e_gap : gap m' = gap m; e_dist : distance_bound m' = distance_bound m;
  e_time : time_bound m' = time_bound m; e_next : depends_next m' = depends_next m; e_nodes : nodes m' = nodes m; e_targets : targets m' = targets m }.
Lemma add_static (m m' : tip_modeler N) st i dir prev w : same_static m m' -> add_new_tip_state m' st i dir prev w = add_new_tip_state m st i dir prev w.
Proof. intros []. unfold add_new_tip_state. rewrite e_tip0, e_size0, e_nodes0, e_targets0. reflexivity. Qed.
Lemma emit_static (m m' : tip_modeler N) st i p dir : same_static m m' -> forall fuel w, emit_particles fuel m' st i p dir w = emit_particles fuel m st i p dir w.
Proof.
  intros S. induction fuel as [|fuel IH]; intros w; cbn [emit_particles]; destruct (w_last w); try reflexivity;
  unfold particle_due, particle_ratio; rewrite (e_gap _ _ S); [reflexivity|]. destruct (_ && _); [|reflexivity].
  rewrite (add_static m m') by assumption. destruct (add_new_tip_state _ _ _ _ _ _); [apply IH|reflexivity].
Qed.
Lemma single_static fuel (m m' : tip_modeler N) st i dir prev w : same_static m m' -> process_single_input fuel m' st i dir prev w = process_single_input fuel m st i dir prev w.
Proof.
  intros S. unfold process_single_input, continuous. rewrite (e_gap _ _ S), (add_static m m') by assumption.
  destruct (_ || _); [reflexivity|]. destruct prev; [apply emit_static, S|reflexivity].
Qed.
Lemma volatile_static fuel (m m' : tip_modeler N) st inputs : same_static m m' -> forall n i prev w, volatile_loop fuel m' st inputs n i prev w = volatile_loop fuel m st inputs n i prev w.
Proof.
  intros S. induction n as [|n IH]; intros i prev w; cbn [volatile_loop]; [reflexivity|].
  destruct (nth_error inputs i); [|reflexivity]. destruct (travel_direction inputs i); [|reflexivity]. rewrite (single_static fuel m m') by assumption.
  destruct (process_single_input _ _ _ _ _ _ _); auto.
Qed.
Lemma fixed_static fuel (m m' : tip_modeler N) st inputs mx : same_static m m' -> forall n i prev w, fixed_loop fuel m' st inputs mx n i prev w = fixed_loop fuel m st inputs mx n i prev w.
Proof.
  intros S. induction n as [|n IH]; intros i prev w; cbn [fixed_loop]; [reflexivity|]. rewrite (e_next _ _ S).
  destruct (Nat.ltb _ _); [|reflexivity]. destruct (nth_error inputs i); [|reflexivity]. destruct (_ || _); [reflexivity|].
  destruct (travel_direction inputs i); [|reflexivity]. rewrite (single_static fuel m m') by assumption.
  destruct (process_single_input _ _ _ _ _ _ _); auto.
Qed.

(** *** earlier output does not matter *)
Definition pre (l : list (tip_state N)) (w : work N) : work N := {| w_saved := l ++ w_saved w; w_machine := w_machine w; w_last := w_last w |}.
Lemma add_pre (m : tip_modeler N) st i dir prev l w : add_new_tip_state m st i dir prev (pre l w) = option_map (pre l) (add_new_tip_state m st i dir prev w).
Proof. unfold add_new_tip_state. cbn [pre w_machine w_saved]. destruct (process_nodes _ _ _); [|reflexivity]. cbn. unfold pre. cbn. rewrite app_assoc. reflexivity. Qed.
Lemma gap_pre l w : append_gap (pre l w) = pre l (append_gap w).
Proof. unfold append_gap, pre. cbn. rewrite app_assoc. reflexivity. Qed.
Lemma emit_pre (m : tip_modeler N) st i p dir l : forall fuel w, emit_particles fuel m st i p dir (pre l w) = option_map (pre l) (emit_particles fuel m st i p dir w).
Proof.
  induction fuel as [|fuel IH]; intros w; cbn [emit_particles pre w_last]; destruct (w_last w); try reflexivity; destruct (particle_due m i _); try reflexivity.
  fold (pre l w). rewrite add_pre. destruct (add_new_tip_state _ _ _ _ _ _); cbn [option_map]; [|reflexivity]. rewrite gap_pre. apply IH.
Qed.
Lemma single_pre fuel (m : tip_modeler N) st i dir prev l w : process_single_input fuel m st i dir prev (pre l w) = option_map (pre l) (process_single_input fuel m st i dir prev w).
Proof.
  unfold process_single_input. change (w_last (pre l w)) with (w_last w). destruct (_ || _).
  - rewrite add_pre. destruct (add_new_tip_state _ _ _ _ _ _); cbn [option_map]; [|reflexivity]. destruct (negb _); [rewrite gap_pre|]; reflexivity.
  - destruct prev; [apply emit_pre|reflexivity].
Qed.
Lemma volatile_pre fuel (m : tip_modeler N) st inputs l : forall n i prev w, volatile_loop fuel m st inputs n i prev (pre l w) = option_map (pre l) (volatile_loop fuel m st inputs n i prev w).
Proof.
  induction n as [|n IH]; intros i prev w; cbn [volatile_loop]; [reflexivity|].
  destruct (nth_error inputs i); [|reflexivity]. destruct (travel_direction inputs i); [|reflexivity]. rewrite single_pre.
  destruct (process_single_input _ _ _ _ _ _ _); cbn [option_map]; auto.
Qed.

(** *** splitting loops *)
Definition prev_at (inputs : list input) (i : nat) : option input := match i with O => None | S k => nth_error inputs k end.
Lemma volatile_app fuel (m : tip_modeler N) st inputs k : forall n i w, volatile_loop fuel m st inputs (n + k) i (prev_at inputs i) w =
  match volatile_loop fuel m st inputs n i (prev_at inputs i) w with
  | Some w' => volatile_loop fuel m st inputs k (i + n) (prev_at inputs (i + n)) w'
  | None => None end.
Proof.
  induction n as [|n IH]; intros i w; cbn [volatile_loop Nat.add]; [rewrite Nat.add_0_r; reflexivity|].
  destruct (nth_error inputs i) as [cur|] eqn:E; [|reflexivity]. destruct (travel_direction inputs i); [|reflexivity].
  destruct (process_single_input _ _ _ _ _ _ _); [|reflexivity].
  specialize (IH (S i)). cbn [prev_at] in IH. rewrite E in IH. rewrite IH. replace (i + S n) with (S i + n) by lia. reflexivity.
Qed.
Definition in_bounds (mx : metrics N) (cur : input) : Prop := nlt N (m_traveled mx) (traveled cur) = false /\ nlt N (m_elapsed mx) (elapsed cur) = false.
Definition ready (m : tip_modeler N) st (inputs : list input) mx (k : nat) : Prop :=
  k + (if depends_next m then 1 else 0) < st_stable (N := N) st /\ exists cur, nth_error inputs k = Some cur /\ in_bounds mx cur.
Lemma fixed_volatile fuel (m : tip_modeler N) st inputs mx : forall n i w j p w',
  fixed_loop fuel m st inputs mx n i (prev_at inputs i) w = Some (j, p, w') ->
  i <= j <= i + n /\ p = prev_at inputs j /\ volatile_loop fuel m st inputs (j - i) i (prev_at inputs i) w = Some w' /\
  forall k, i <= k < j -> ready m st inputs mx k.
Proof.
  induction n as [|n IH]; intros i w j p w' H; cbn [fixed_loop] in H.
  { injection H as <- <- <-. rewrite Nat.sub_diag. split; [lia|]. split; [reflexivity|]. split; [reflexivity|]. intros; lia. }
  assert (Stop : Some (i, prev_at inputs i, w) = Some (j, p, w') -> i <= j <= i + S n /\ p = prev_at inputs j /\ volatile_loop fuel m st inputs (j - i) i (prev_at inputs i) w = Some w' /\
     forall k, i <= k < j -> ready m st inputs mx k).
  { intros E. injection E as <- <- <-. rewrite Nat.sub_diag. split; [lia|]. split; [reflexivity|]. split; [reflexivity|]. intros; lia. }
  destruct (Nat.ltb_spec (i + (if depends_next m then 1 else 0)) (st_stable st)) as [Lt|]; [|exact (Stop H)].
  destruct (nth_error inputs i) as [cur|] eqn:E; [|discriminate].
  destruct (nlt N (m_traveled mx) (traveled cur)) eqn:B1; [exact (Stop H)|]. destruct (nlt N (m_elapsed mx) (elapsed cur)) eqn:B2; [exact (Stop H)|]. cbn [orb] in H.
  destruct (travel_direction inputs i) as [dir|] eqn:ED; [|discriminate].
  destruct (process_single_input fuel m st cur dir (prev_at inputs i) w) as [w1|] eqn:EP; [|discriminate].
  assert (EQ : Some cur = prev_at inputs (S i)) by (cbn [prev_at]; congruence). rewrite EQ in H. apply IH in H. destruct H as (A & B & C & D).
  split; [lia|]. split; [exact B|]. split.
  - replace (j - i) with (S (j - S i)) by lia. cbn [volatile_loop]. rewrite E, ED, EP, EQ. exact C.
  - intros k Hk. destruct (Nat.eq_dec k i) as [->|]; [|apply D; lia]. split; [exact Lt|]. exists cur. unfold in_bounds. auto.
Qed.
Lemma fixed_some fuel (m : tip_modeler N) st inputs mx : forall n i prev w, volatile_loop fuel m st inputs n i prev w <> None ->
  fixed_loop fuel m st inputs mx n i prev w <> None.
Proof.
  induction n as [|n IH]; intros i prev w H; cbn [fixed_loop volatile_loop] in *; [discriminate|].
  destruct (Nat.ltb _ _); [|discriminate]. destruct (nth_error inputs i); [|congruence]. destruct (_ || _); [discriminate|].
  destruct (travel_direction inputs i); [|congruence]. destruct (process_single_input _ _ _ _ _ _ _); [|congruence]. apply IH, H.
Qed.

(** *** the invariant *)
Section Stroke.
Variable m0 : tip_modeler N.
Hypothesis Hnext : next_fixed m0 = 0.
Hypothesis Hlast : last_fixed m0 = None.
Hypothesis Hstack : bstack m0 = [].
Hypothesis Hkeeps : forall c k k', process_nodes c (nodes m0) k = Some k' -> stack k = [] -> stack k' = [].
Variable fuel : nat.
Definition fresh : work N := {| w_saved := []; w_machine := {| stack := []; damped := fixed_damped m0; modifiers := fixed_mods m0 |}; w_last := None |}.
Definition run st inputs n : option (work N) := volatile_loop fuel m0 st inputs n 0 (prev_at inputs 0) fresh.

Lemma add_stack st i dir prev w w' : add_new_tip_state m0 st i dir prev w = Some w' -> stack (w_machine w) = [] -> stack (w_machine w') = [].
Proof. unfold add_new_tip_state. destruct (process_nodes _ _ _) eqn:E; [|discriminate]. intros [= <-] H. cbn. exact (Hkeeps _ _ _ E H). Qed.
Lemma emit_stack st i p dir : forall f w w', emit_particles f m0 st i p dir w = Some w' -> stack (w_machine w) = [] -> stack (w_machine w') = [].
Proof.
  induction f as [|f IH]; intros w w' H S; cbn [emit_particles] in H; (destruct (w_last w); [|discriminate]); (destruct (particle_due m0 i m); [|injection H as <-; exact S]); [discriminate|].
  destruct (add_new_tip_state _ _ _ _ _ _) as [w1|] eqn:E; [|discriminate]. apply IH in H; [exact H|]. exact (add_stack _ _ _ _ _ _ E S).
Qed.
Lemma single_stack st i dir prev w w' : process_single_input fuel m0 st i dir prev w = Some w' -> stack (w_machine w) = [] -> stack (w_machine w') = [].
Proof.
  unfold process_single_input. destruct (_ || _).
  - destruct (add_new_tip_state _ _ _ _ _ _) as [w1|] eqn:E; [|discriminate]. intros [= <-] S. pose proof (add_stack _ _ _ _ _ _ E S). destruct (negb _); assumption.
  - destruct prev; [|discriminate]. apply emit_stack.
Qed.
Lemma volatile_stack st inputs : forall n i prev w w', volatile_loop fuel m0 st inputs n i prev w = Some w' -> stack (w_machine w) = [] -> stack (w_machine w') = [].
Proof.
  induction n as [|n IH]; intros i prev w w' H S; cbn [volatile_loop] in H; [injection H as <-; exact S|].
  destruct (nth_error inputs i); [|discriminate]. destruct (travel_direction inputs i); [|discriminate].
  destruct (process_single_input _ _ _ _ _ _ _) as [w1|] eqn:E; [|discriminate]. apply IH in H; [exact H|]. exact (single_stack _ _ _ _ _ _ E S).
Qed.

(** what is frozen, and why it stays so *)
Variable ok : input_state N -> list input -> Prop.
Variable next : input_state N -> list input -> input_state N -> list input -> Prop.
Variable frozen : input_state N -> list input -> nat -> Prop.
Hypothesis ok_stable : forall st inputs, ok st inputs -> st_stable st <= length inputs.
Hypothesis next_stable : forall st inputs st' inputs', next st inputs st' inputs' -> st_stable st <= st_stable st'.
Hypothesis freezes : forall st inputs mx k, ok st inputs -> max_fixed_metrics m0 st inputs = Some mx -> ready m0 st inputs mx k -> frozen st inputs k.
Hypothesis stays : forall st inputs st' inputs' k, ok st inputs -> ok st' inputs' -> next st inputs st' inputs' -> frozen st inputs k -> frozen st' inputs' k.
Hypothesis same_step : forall st inputs st' inputs' k cur dir w, ok st inputs -> ok st' inputs' -> next st inputs st' inputs' -> frozen st inputs k ->
  nth_error inputs k = Some cur -> travel_direction inputs k = Some dir ->
  exists dir', nth_error inputs' k = Some cur /\ prev_at inputs' k = prev_at inputs k /\ travel_direction inputs' k = Some dir' /\
    process_single_input fuel m0 st' cur dir' (prev_at inputs k) w = process_single_input fuel m0 st cur dir (prev_at inputs k) w.

Lemma run_next st inputs st' inputs' : ok st inputs -> ok st' inputs' -> next st inputs st' inputs' ->
  forall n w, (forall k, k < n -> frozen st inputs k) -> run st inputs n = Some w -> run st' inputs' n = Some w.
Proof.
  intros O O' Nx. unfold run. induction n as [|n IH]; intros w Fz H; [exact H|].
  replace (S n) with (n + 1) in * by lia. rewrite volatile_app in *.
  destruct (volatile_loop fuel m0 st inputs n 0 (prev_at inputs 0) fresh) as [w1|] eqn:E; [|discriminate].
  rewrite (IH w1); [|intros k Hk; apply Fz; lia|reflexivity]. cbn [Nat.add volatile_loop] in *.
  destruct (nth_error inputs n) as [cur|] eqn:En; [|discriminate]. destruct (travel_direction inputs n) as [dir|] eqn:Ed; [|discriminate].
  destruct (same_step st inputs st' inputs' n cur dir w1 O O' Nx (Fz n ltac:(lia)) En Ed) as (dir' & A & B & C & D).
  rewrite A, B, C, D. exact H.
Qed.

Record inv (m : tip_modeler N) (st : input_state N) (inputs : list input) (done : list (tip_state N)) : Prop := {
  i_static : same_static m0 m; i_stack : bstack m = []; i_stable : next_fixed m <= st_stable st;
  i_frozen : forall k, k < next_fixed m -> frozen st inputs k;
  i_run : run st inputs (next_fixed m) = Some {| w_saved := done; w_machine := {| stack := []; damped := fixed_damped m; modifiers := fixed_mods m |}; w_last := last_fixed m |} }.
Lemma inv0 st inputs : inv m0 st inputs [].
Proof. split; [split; reflexivity|exact Hstack|rewrite Hnext; lia|rewrite Hnext; intros; lia|]. rewrite Hnext, Hlast. reflexivity. Qed.
Lemma inv_next m st inputs st' inputs' done : ok st inputs -> ok st' inputs' -> next st inputs st' inputs' -> inv m st inputs done -> inv m st' inputs' done.
Proof.
  intros O O' Nx []. split; try assumption.
  - pose proof (next_stable _ _ _ _ Nx). lia.
  - intros k Hk. exact (stays st inputs st' inputs' k O O' Nx (i_frozen0 k Hk)).
  - exact (run_next st inputs st' inputs' O O' Nx _ _ i_frozen0 i_run0).
Qed.
Lemma run_split st inputs n i w : i <= n -> run st inputs i = Some w -> run st inputs n = volatile_loop fuel m0 st inputs (n - i) i (prev_at inputs i) w.
Proof.
  intros H E. unfold run in *. replace n with (i + (n - i)) at 1 by lia. rewrite volatile_app, E. reflexivity.
Qed.
Lemma update_run m st inputs done m' : ok st inputs -> inv m st inputs done -> update_stroke fuel m st inputs = Some m' ->
  inv m' st inputs (done ++ new_fixed_states m') /\
  exists w, run st inputs (length inputs) = Some w /\ w_saved w = done ++ new_fixed_states m' ++ volatile_states m'.
Proof.
  intros O [S K B Fz R] H. pose proof (ok_stable _ _ O) as OS. destruct inputs as [|i0 inputs].
  { cbn [update_stroke] in H. injection H as <-. cbn [length] in OS.
    unfold new_fixed_states, volatile_states. cbn [with_saved saved new_fixed]. rewrite firstn_nil, skipn_nil, app_nil_r.
    assert (NF : next_fixed m = 0) by lia. split.
    - split; cbn [with_saved next_fixed bstack fixed_damped fixed_mods last_fixed]; auto. destruct S. split; assumption.
    - rewrite NF in R. cbn [length]. rewrite R. eexists. split; [reflexivity|]. cbn. rewrite app_nil_r. reflexivity. }
  cbn [update_stroke] in H. set (inp := i0 :: inputs) in *.
  destruct (max_fixed_metrics m st inp) as [mx|] eqn:EM; [|discriminate].
  assert (PA : match next_fixed m with O => Some None | S k => option_map Some (nth_error inp k) end = Some (prev_at inp (next_fixed m))).
  { destruct (next_fixed m) as [|k] eqn:NF; [reflexivity|]. cbn [prev_at]. destruct (nth_error inp k) eqn:E; [reflexivity|]. apply nth_error_None in E. lia. }
  rewrite PA in H. rewrite K in H.
  set (w0 := {| w_saved := []; w_machine := {| stack := []; damped := fixed_damped m; modifiers := fixed_mods m |}; w_last := last_fixed m |}) in *.
  rewrite (fixed_static fuel m0 m) in H by exact S.
  destruct (fixed_loop fuel m0 st inp mx _ _ _ w0) as [[[j p] w1]|] eqn:EF; [|discriminate].
  apply fixed_volatile in EF. destruct EF as (J & -> & V1 & RD).
  rewrite (volatile_static fuel m0 m) in H by exact S.
  destruct (volatile_loop fuel m0 st inp (length inp - j) j (prev_at inp j) w1) as [w2|] eqn:V2; [|discriminate]. injection H as <-.
  assert (R0 : run st inp (next_fixed m) = Some (pre done w0)) by (rewrite R; unfold pre, w0; cbn; rewrite app_nil_r; reflexivity).
  assert (R1 : run st inp j = Some (pre done w1)).
  { rewrite (run_split st inp j (next_fixed m) (pre done w0)) by (lia || exact R0). rewrite volatile_pre, V1. reflexivity. }
  assert (R2 : run st inp (length inp) = Some (pre done w2)).
  { rewrite (run_split st inp (length inp) j (pre done w1)) by (lia || exact R1). rewrite volatile_pre, V2. reflexivity. }
  assert (Sv : exists l, w_saved w2 = w_saved w1 ++ l).
  { assert (X : w1 = pre (w_saved w1) {| w_saved := []; w_machine := w_machine w1; w_last := w_last w1 |}) by (destruct w1; unfold pre; cbn; rewrite app_nil_r; reflexivity).
    rewrite X, volatile_pre in V2. match type of V2 with option_map _ ?e = _ => destruct e; [|discriminate] end. injection V2 as <-. cbn. eauto. }
  destruct Sv as [l Sv].
  assert (FS : firstn (length (w_saved w1)) (w_saved w2) = w_saved w1) by (rewrite Sv, firstn_app, Nat.sub_diag, firstn_all, firstn_O, app_nil_r; reflexivity).
  unfold new_fixed_states, volatile_states. cbn [saved new_fixed]. split.
  - rewrite FS. split; cbn [next_fixed bstack fixed_damped fixed_mods last_fixed].
    + destruct S. split; cbn; assumption.
    + refine (volatile_stack _ _ _ _ _ _ _ V2 _). apply (volatile_stack _ _ _ _ _ _ _ V1 eq_refl).
    + lia.
    + intros k Hk. destruct (Nat.lt_ge_cases k (next_fixed m)); [apply Fz; assumption|]. eapply freezes; [exact O| |apply RD; lia].
      unfold max_fixed_metrics in *. destruct S. rewrite e_dist0, e_time0 in EM. exact EM.
    + rewrite R1. unfold pre. pose proof (volatile_stack _ _ _ _ _ _ _ V1 eq_refl) as ST. destruct (w_machine w1). cbn in *. subst. reflexivity.
  - exists (pre done w2). split; [exact R2|]. cbn [pre w_saved]. rewrite firstn_skipn. reflexivity.
Qed.

(** a stroke given in steps *)
Fixpoint chain (st : input_state N) (inputs : list input) (us : list (input_state N * list input)) : Prop :=
  match us with
  | [] => True
  | (st', inputs') :: r => ok st' inputs' /\ next st inputs st' inputs' /\ chain st' inputs' r
  end.
Definition steady us : Prop := match us with [] => True | (st, inputs) :: r => ok st inputs /\ chain st inputs r end.
Fixpoint replayed (done : list (tip_state N)) us (os : list (list (tip_state N) * list (tip_state N))) : Prop :=
  match us, os with
  | [], [] => True
  | u :: us', (f, v) :: os' =>
      (exists f' v', outputs fuel m0 [u] = Some [(f', v')] /\ f' ++ v' = done ++ f ++ v) /\ replayed (done ++ f) us' os'
  | _, _ => False
  end.
Lemma update_some m st inputs done : ok st inputs -> inv m st inputs done -> run st inputs (length inputs) <> None ->
  exists m', update_stroke fuel m st inputs = Some m'.
Proof.
  intros O [S K B Fz R] H. pose proof (ok_stable _ _ O) as OS. destruct inputs as [|i0 inputs]; [eexists; reflexivity|].
  cbn [update_stroke]. set (inp := i0 :: inputs) in *.
  assert (EM : exists mx, max_fixed_metrics m st inp = Some mx).
  { unfold max_fixed_metrics. destruct (st_stable st) as [|k]; [eauto|]. destruct (nth_error inp k) eqn:E; [eauto|]. apply nth_error_None in E. lia. }
  destruct EM as [mx ->].
  assert (PA : match next_fixed m with O => Some None | S k => option_map Some (nth_error inp k) end = Some (prev_at inp (next_fixed m))).
  { destruct (next_fixed m) as [|k] eqn:NF; [reflexivity|]. cbn [prev_at]. destruct (nth_error inp k) eqn:E; [reflexivity|]. apply nth_error_None in E. lia. }
  rewrite PA, K.
  set (w0 := {| w_saved := []; w_machine := {| stack := []; damped := fixed_damped m; modifiers := fixed_mods m |}; w_last := last_fixed m |}) in *.
  rewrite (fixed_static fuel m0 m) by exact S.
  assert (R0 : run st inp (next_fixed m) = Some (pre done w0)) by (rewrite R; unfold pre, w0; cbn; rewrite app_nil_r; reflexivity).
  assert (V : volatile_loop fuel m0 st inp (length inp - next_fixed m) (next_fixed m) (prev_at inp (next_fixed m)) w0 <> None).
  { rewrite (run_split st inp (length inp) (next_fixed m) (pre done w0)) in H by (lia || exact R0). rewrite volatile_pre in H. intros X. rewrite X in H. apply H. reflexivity. }
  assert (V1 : volatile_loop fuel m0 st inp (st_stable st - next_fixed m) (next_fixed m) (prev_at inp (next_fixed m)) w0 <> None).
  { intros X. apply V. replace (length inp - next_fixed m) with ((st_stable st - next_fixed m) + (length inp - st_stable st)) by lia. rewrite volatile_app, X. reflexivity. }
  pose proof (fixed_some fuel m0 st inp mx _ _ _ _ V1) as FX.
  destruct (fixed_loop fuel m0 st inp mx _ _ _ w0) as [[[j p] w1]|] eqn:EF; [|congruence].
  apply fixed_volatile in EF. destruct EF as (J & -> & W1 & _). rewrite (volatile_static fuel m0 m) by exact S.
  replace (length inp - next_fixed m) with ((j - next_fixed m) + (length inp - j)) in V by lia. rewrite volatile_app, W1 in V.
  replace (next_fixed m + (j - next_fixed m)) with j in V by lia.
  destruct (volatile_loop fuel m0 st inp (length inp - j) j (prev_at inp j) w1); [eauto|congruence].
Qed.
Lemma scratch st inputs w : ok st inputs -> run st inputs (length inputs) = Some w ->
  exists f v, outputs fuel m0 [(st, inputs)] = Some [(f, v)] /\ f ++ v = w_saved w.
Proof.
  intros O R. destruct (update_some m0 st inputs [] O (inv0 st inputs) ltac:(congruence)) as [m' U].
  destruct (update_run m0 st inputs [] m' O (inv0 st inputs) U) as (_ & w' & R' & Sv). rewrite R in R'. injection R' as <-.
  cbn [outputs]. rewrite U. cbn [option_map]. eexists _, _. split; [reflexivity|]. symmetry. exact Sv.
Qed.
Lemma replay_chain us : forall m st inputs done os, ok st inputs -> inv m st inputs done -> chain st inputs us -> outputs fuel m us = Some os -> replayed done us os.
Proof.
  induction us as [|[st' inputs'] us IH]; intros m st inputs done os O I C H; cbn [outputs] in H; [injection H as <-; exact Logic.I|].
  destruct C as (O' & Nx & C). destruct (update_stroke fuel m st' inputs') as [m'|] eqn:U; [|discriminate].
  destruct (outputs fuel m' us) as [os'|] eqn:E; [|discriminate]. injection H as <-.
  pose proof (inv_next _ _ _ _ _ _ O O' Nx I) as I'. destruct (update_run _ _ _ _ _ O' I' U) as (I2 & w & R & Sv).
  cbn [replayed]. split.
  - destruct (scratch st' inputs' w O' R) as (f & v & A & B). exists f, v. split; [exact A|]. rewrite B, Sv. reflexivity.
  - exact (IH _ _ _ _ _ O' I2 C E).
Qed.
Theorem replay us os : steady us -> outputs fuel m0 us = Some os -> replayed [] us os.
Proof.
  destruct us as [|[st inputs] us]; [intros _ [= <-]; exact Logic.I|]. intros [O C] H. cbn [outputs] in H.
  destruct (update_stroke fuel m0 st inputs) as [m'|] eqn:U; [|discriminate]. destruct (outputs fuel m' us) as [os'|] eqn:E; [|discriminate]. injection H as <-.
  destruct (update_run _ _ _ _ _ O (inv0 st inputs) U) as (I2 & w & R & Sv). cbn [replayed]. split.
  - destruct (scratch st inputs w O R) as (f & v & A & B). exists f, v. split; [exact A|]. rewrite B, Sv. reflexivity.
  - exact (replay_chain us _ _ _ _ _ O I2 C E).
Qed.
End Stroke.
End Final.
