(** Fixed tip states are final, for any arithmetic in which a difference of ordered numbers
    is not positive and zero stays zero: sources that do not look ahead. *)
From Coq Require Import ZArith Reals Bool Lia Lra List.
From Flocq Require Import Core IEEE754.BinarySingleNaN.
From Verif Require Import F32 F32Lemmas F32Round NumModel NumLaws EasingModel EasingExact BehaviorModel BehaviorSpec BehaviorTree BehaviorRun TipModel TipSpec TipRun TipFinal TipSettled.
Import ListNotations.

Record order_laws (N : num) := {
  l_sub_le : forall a b, nfin N a = true -> nfin N b = true -> nle N a b = true -> nlt N n0 (nsub N a b) = false;
  l_mul0 : forall a b, neqb N a n0 = true -> nfin N b = true -> neqb N (nmul N a b) n0 = true }.
Lemma xorder : order_laws xnum.
Proof.
  split.
  - intros [a| |] [b| |]; try discriminate. intros _ _. rewrite x0. cbn. unfold xle, xlt, xeq. destruct (Rlt_bool_spec a b), (Req_bool_spec a b); try discriminate; intros _; apply Rlt_bool_false; lra.
  - intros [a| |] [b| |]; rewrite ?x0; try discriminate. cbn. intros H _. destruct (Req_bool_spec a 0); [|discriminate]. subst. rewrite Rmult_0_l. apply Req_bool_true. reflexivity.
Qed.
Lemma forder E : order_laws (fnum E).
Proof.
  split; cbn [fnum T nfin nle nlt nsub neqb nmul].
  - intros a b Fa Fb H. apply fle_spec in H; try (apply finite_not_nan; assumption).
    change (@n0 (fnum E)) with f0. change (is_finite a = true) in Fa. change (is_finite b = true) in Fb.
    destruct (fsub_X a b Fa Fb) as [S1 S2]. apply flt_false; [reflexivity|exact S2|]. rewrite S1. change (fX f0) with 0.
    rewrite (fX_finite a Fa), (fX_finite b Fb) in H. pose proof big_pos. rewrite <- (clampX_id 0) by lra. apply clampX_mono. rewrite <- rnd_0. apply rnd_mono. lra.
  - intros a b H Fb. change (@n0 (fnum E)) with f0 in *. change (is_finite b = true) in Fb.
    assert (Na : is_nan a = false) by (destruct a; try reflexivity; discriminate).
    apply feq_spec in H; [|exact Na|reflexivity]. change (fX f0) with 0 in H. pose proof big_pos.
    assert (Fa : is_finite a = true) by (destruct a as [ |[] | |]; try reflexivity; try discriminate; cbn [fX] in H; lra).
    rewrite (fX_finite a Fa) in H. destruct (fmul_X a b Fa Fb) as [M1 M2].
    apply feq_spec; [exact M2|reflexivity|]. change (fX f0) with 0. rewrite M1, H, Rmult_0_l, rnd_0. apply clampX_id. lra.
Qed.

Section Stable.
Context {N : num} (L : laws N) (O2 : order_laws N).
Notation F := (T N).
Local Notation input := (modeled_input N).
Lemma continuous_iff fuel0 t sz (m0 : tip_modeler N) : start_stroke fuel0 t sz = Some m0 -> forallb (valid_behavior (N := N)) (behaviors t) = true ->
  gap m0 = {| m_traveled := nmul N (particle_gap_distance_scale t) sz; m_elapsed := particle_gap_duration t |} /\ (no_particles t -> continuous m0 = true).
Proof.
  intros H V. destruct (behaviors_documented L _ V) as (D & rs & Ls & Fr).
  destruct (started fuel0 t sz m0 rs H D Ls Fr) as (n & _ & _ & _ & _ & _ & _ & _ & _ & _ & G & _). split; [exact G|].
  intros [A B]. unfold continuous. rewrite G. cbn [m_traveled m_elapsed]. rewrite B.
  destruct (start_facts _ _ _ _ H) as (_ & _ & _ & _ & Fs & _). rewrite (l_mul0 _ O2) by assumption. reflexivity.
Qed.
Lemma predicted_zero (a b : F) : nfin N a = true -> nfin N b = true -> nle N a b = true -> nmax n0 (nsub N a b) = n0 /\ nmax n0 (dur_sub a b) = n0.
Proof. intros Fa Fb H. unfold nmax, dur_sub. rewrite Fa. cbn [negb]. rewrite (l_sub_le _ O2) by assumption. auto. Qed.
Lemma source_plain (st st' : input_state N) i dir dir' sz s : st_unit st' = st_unit st -> ~ of_rest s -> ~ of_prediction s -> (dir' = dir \/ ~ of_direction s) ->
  get_source_value i dir' sz st' s = get_source_value i dir sz st s.
Proof.
  intros U R P D. destruct s; cbn [of_rest of_prediction of_direction get_source_value] in *; try contradiction; try (rewrite U); try reflexivity;
  (destruct D as [->|D]; [reflexivity|contradiction]).
Qed.
Lemma source_past (st st' : input_state N) i dir dir' sz s : st_unit st' = st_unit st -> ~ of_rest s -> (dir' = dir \/ ~ of_direction s) ->
  predicted_distance st i = n0 -> predicted_distance st' i = n0 -> predicted_time st i = n0 -> predicted_time st' i = n0 ->
  get_source_value i dir' sz st' s = get_source_value i dir sz st s.
Proof.
  intros U R D P1 P2 P3 P4. destruct s; cbn [of_rest of_direction get_source_value] in *; try contradiction; try (rewrite U); rewrite ?P1, ?P2, ?P3, ?P4; try reflexivity;
  (destruct D as [->|D]; [reflexivity|contradiction]).
Qed.
Theorem stable_replay fuel0 fuel t sz (m0 : tip_modeler N) us os :
  start_stroke fuel0 t sz = Some m0 -> forallb (valid_behavior (N := N)) (behaviors t) = true -> direction_safe t ->
  ~ uses_source t of_rest -> (no_particles t \/ ~ uses_source t of_prediction) ->
  stroke_updates us -> outputs fuel m0 us = Some os -> replays fuel m0 [] us os.
Proof.
  intros Hs V Ds R P. destruct (continuous_iff _ _ _ _ Hs V) as [_ Cn].
  refine (settled_replay L fuel0 t sz m0 Hs V Ds (fun _ _ _ => True) _ _ _ fuel us os); auto.
  intros st inputs st' inputs' k cur s o lo hi dir dir' O O' X Hk _ En Is Dn Dir.
  assert (NR : ~ of_rest s) by (intros Y; apply R; exists s, o, lo, hi; auto).
  pose proof (x_unit _ _ _ _ X) as U.
  assert (Pl : ~ of_prediction s -> forall i, pushed st' i dir' sz s o lo hi = pushed st i dir sz s o lo hi).
  { intros NP i. unfold pushed. rewrite (source_plain st st' i dir dir') by assumption. reflexivity. }
  destruct P as [P|P].
  - split; [|intros C; rewrite (Cn P) in C; discriminate]. unfold pushed. rewrite (source_past st st' cur dir dir'); try assumption; try reflexivity.
    all: destruct (u_finite _ _ O k cur Hk En) as [F1 F2]; destruct (u_real _ _ O k cur Hk En) as (B1 & B2 & _);
         assert (Hk' : (k < st_stable st')%nat) by (pose proof (x_stable _ _ _ _ X); lia); assert (En' : nth_error inputs' k = Some cur) by (rewrite (x_inputs _ _ _ _ X) by exact Hk; exact En);
         destruct (u_real _ _ O' k cur Hk' En') as (B3 & B4 & _); destruct (u_state _ _ O) as (S1 & S2 & _); destruct (u_state _ _ O') as (S3 & S4 & _).
    all: unfold predicted_distance, predicted_time; apply predicted_zero; assumption.
  - assert (NP : ~ of_prediction s) by (intros Y; apply P; exists s, o, lo, hi; auto). split; [apply Pl, NP|]. intros. apply Pl, NP.
Qed.

(** *** no update of a continuous tip fails *)
Context (RD : reads N).
Section Total.
Variables (fuel0 : nat) (t : brush_tip N) (sz : F) (m0 : tip_modeler N).
Hypothesis Hs : start_stroke fuel0 t sz = Some m0.
Hypothesis V : forallb (valid_behavior (N := N)) (behaviors t) = true.
Hypothesis NP : no_particles t.
Definition sound (i : nat) (k : machine N) : Prop := exists rs dm, represents (nodes m0) k rs dm /\ (i = 0%nat -> Forall (fun x => x = None) dm).
Lemma volatile_total fuel st inputs : forall n i w, (i + n <= length inputs)%nat -> sound i (w_machine w) ->
  exists w', volatile_loop fuel m0 st inputs n i (prev_at inputs i) w = Some w' /\ sound (i + n) (w_machine w').
Proof.
  induction n as [|n IH]; intros i w Hi Sd; cbn [volatile_loop]; [exists w; rewrite Nat.add_0_r; auto|].
  destruct (nth_error inputs i) as [cur|] eqn:E; [|apply nth_error_None in E; lia].
  destruct (direction_some inputs i) as [dir ->]; [lia|].
  unfold process_single_input. rewrite (proj2 (continuous_iff _ _ _ _ Hs V) NP). cbn [orb negb].
  destruct Sd as (rs & dm & Rp & B). unfold add_new_tip_state.
  match goal with |- context [process_nodes ?c _ _] => destruct (rep_step L RD c _ _ _ _ Rp) as (k' & rs' & dm' & PN & _ & Rp') end.
  { intros Q. cbn [cx_prev] in Q. apply B. destruct i as [|i]; [reflexivity|]. cbn [prev_at] in Q. destruct (nth_error inputs i) eqn:E2; [discriminate|]. apply nth_error_None in E2. lia. }
  rewrite PN.
  assert (EQ : Some cur = prev_at inputs (S i)) by (cbn [prev_at]; congruence). rewrite EQ.
  replace (i + S n)%nat with (S i + n)%nat by lia. apply IH; [lia|]. cbn [w_machine]. exists rs', dm'. split; [exact Rp'|discriminate].
Qed.
Lemma represents_eta code (k : machine N) rs dm : represents code k rs dm -> represents code {| stack := []; damped := damped k; modifiers := modifiers k |} rs dm.
Proof. intros (A & B & C & D). unfold represents. auto. Qed.
Theorem total fuel us : stroke_updates us -> exists os, outputs fuel m0 us = Some os.
Proof.
  enough (G : forall us (m : tip_modeler N), same_static m0 m -> bstack m = [] -> sound (next_fixed m) {| stack := []; damped := fixed_damped m; modifiers := fixed_mods m |} ->
    (match us with [] => True | (st, inputs) :: r => (next_fixed m <= st_stable st)%nat /\ ok_update st inputs /\ extending st inputs r end) -> exists os, outputs fuel m us = Some os).
  { intros U. destruct (behaviors_documented L _ V) as (D & rs & Ls & Fr).
    destruct (started fuel0 t sz m0 rs Hs D Ls Fr) as (n & C & _ & SM & _ & _ & A & _). unfold start_machine in SM. injection SM as B1 B2 B3.
    apply G; [split; reflexivity|exact B1| |].
    - exists rs, (repeat None n). split; [split; [exact C|]|intros _; apply Forall_forall; intros x Hx; apply repeat_spec in Hx; exact Hx].
      cbn [damped modifiers stack]. rewrite B2, B3. split; [apply map_NaN, L|auto].
    - destruct us as [|[st inputs] us]; [exact I|]. rewrite A. split; [lia|exact U]. }
  clear us. induction us as [|[st inputs] us IH]; intros m S K Sd H; [eexists; reflexivity|]. destruct H as (HN & O & Ex). cbn [outputs].
  pose proof (u_stable _ _ O) as OS.
  assert (UP : exists m', update_stroke fuel m st inputs = Some m' /\ same_static m0 m' /\ bstack m' = [] /\ sound (next_fixed m') {| stack := []; damped := fixed_damped m'; modifiers := fixed_mods m' |} /\ (next_fixed m' <= st_stable st)%nat).
  { destruct inputs as [|i0 inputs]; [eexists; split; [reflexivity|]; cbn; split; [destruct S; split; assumption|auto]|].
    cbn [update_stroke]. set (inp := i0 :: inputs) in *.
    assert (EM : exists mx, max_fixed_metrics m st inp = Some mx).
    { unfold max_fixed_metrics. destruct (st_stable st) as [|k] eqn:Est; [eauto|]. destruct (nth_error inp k) eqn:E; [eauto|]. apply nth_error_None in E. lia. }
    destruct EM as [mx ->].
    assert (PA : match next_fixed m with O => Some None | S k => option_map Some (nth_error inp k) end = Some (prev_at inp (next_fixed m))).
    { destruct (next_fixed m) as [|k] eqn:NF; [reflexivity|]. cbn [prev_at]. destruct (nth_error inp k) eqn:E; [reflexivity|]. apply nth_error_None in E. lia. }
    rewrite PA, K.
    set (w0 := {| w_saved := []; w_machine := {| stack := []; damped := fixed_damped m; modifiers := fixed_mods m |}; w_last := last_fixed m |}) in *.
    rewrite (fixed_static fuel m0 m) by exact S.
    destruct (volatile_total fuel st inp (st_stable st - next_fixed m) (next_fixed m) w0) as (wf & E1 & _); [lia|exact Sd|].
    pose proof (fixed_some fuel m0 st inp mx (st_stable st - next_fixed m) (next_fixed m) (prev_at inp (next_fixed m)) w0 ltac:(rewrite E1; discriminate)) as FX.
    destruct (fixed_loop fuel m0 st inp mx _ _ _ w0) as [[[j p] w1]|] eqn:EF; [|congruence].
    apply fixed_volatile in EF. destruct EF as (J & -> & W1 & _). rewrite (volatile_static fuel m0 m) by exact S.
    destruct (volatile_total fuel st inp (j - next_fixed m) (next_fixed m) w0) as (w1' & E2 & Sd1); [lia|exact Sd|].
    rewrite W1 in E2. injection E2 as <-. replace (next_fixed m + (j - next_fixed m))%nat with j in Sd1 by lia.
    destruct (volatile_total fuel st inp (length inp - j) j w1) as (w2 & E3 & Sd2); [lia|exact Sd1|]. rewrite E3.
    eexists. split; [reflexivity|]. cbn [next_fixed bstack fixed_damped fixed_mods]. split; [destruct S; split; cbn; assumption|].
    split; [destruct Sd2 as (rs & dm & (_ & _ & _ & Q) & _); exact Q|]. split; [|lia].
    destruct Sd1 as (rs & dm & Q & B). exists rs, dm. split; [apply represents_eta, Q|exact B]. }
  destruct UP as (m' & -> & S' & K' & Sd' & HN'). destruct (IH m' S' K' Sd') as [os ->]; [|eexists; reflexivity].
  destruct us as [|[st' inputs'] us]; [exact I|]. destruct Ex as (O' & X & Ex). pose proof (x_stable _ _ _ _ X). split; [lia|auto].
Qed.
End Total.
End Stable.
