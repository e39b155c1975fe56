(** When an input has been fixed, later updates process it in the same way. *)
From Coq Require Import ZArith Bool Lia List.
From Verif Require Import NumModel NumLaws EasingModel BehaviorModel BehaviorSpec BehaviorTree BehaviorRun TipModel TipSpec TipRun TipFinal.
Import ListNotations.

Section Settled.
Context {N : num}.
Notation F := (T N).
Local Notation input := (modeled_input N).

(** *** the runtime nodes come from the nodes of the tip *)
Lemma of_direction_next s : of_direction s <-> depends_on_next s = true.
Proof. destruct s; cbn; split; intros; try discriminate; try contradiction; auto. Qed.
Lemma append_facts fuel : forall l (m m' : tip_modeler N), append_nodes fuel m l = Some m' ->
  (forall s o lo hi, In (RSource s o lo hi) (nodes m') -> In (RSource s o lo hi) (nodes m) \/ In (SourceNode s o lo hi) l) /\
  (forall a, In a (targets m') -> In a (targets m) \/ exists lo hi, In (TargetNode a lo hi) l) /\
  (depends_next m' = true <-> depends_next m = true \/ exists s o lo hi, In (SourceNode s o lo hi) l /\ of_direction s) /\
  size m' = size m.
Proof.
  induction l as [|n l IH]; intros m m' H; cbn [append_nodes] in H.
  - injection H as <-. split; [auto|]. split; [auto|]. split; [|reflexivity]. split; [auto|]. intros [X|(s & o & lo & hi & [] & _)]; exact X.
  - destruct (append_node fuel m n) as [m1|] eqn:E; [|discriminate]. destruct (IH _ _ H) as (A & B & C & D).
    assert (E1 : (forall s o lo hi, In (RSource s o lo hi) (nodes m1) -> In (RSource s o lo hi) (nodes m) \/ n = SourceNode s o lo hi) /\
       (forall a, In a (targets m1) -> In a (targets m) \/ exists lo hi, n = TargetNode a lo hi) /\
       (depends_next m1 = true <-> depends_next m = true \/ exists s o lo hi, n = SourceNode s o lo hi /\ of_direction s) /\ size m1 = size m).
    { clear - E. destruct n; cbn [append_node] in E; try (injection E as <-); try (destruct (make_impl fuel e) as [i|]; [cbn [option_map] in E; injection E as <-|discriminate]);
        cbn [nodes targets depends_next size];
        (split; [intros ? ? ? ? X; try (apply in_app_or in X; destruct X as [X|[X|[]]]); [auto|try discriminate X]|]);
        try (injection X as <- <- <- <-; right; reflexivity);
        (split; [intros a X; try (apply in_app_or in X; destruct X as [X|[X|[]]]); auto; subst; eauto|]);
        (split; [|reflexivity]);
        try (split; [auto|]; intros [X|(? & ? & ? & ? & X & _)]; [exact X|discriminate X]).
      split.
      - destruct (depends_on_next src) eqn:Q; [|auto]. intros _. right. do 4 eexists. split; [reflexivity|]. apply of_direction_next, Q.
      - intros [X|(? & ? & ? & ? & [= <- <- <- <-] & X)]; [destruct (depends_on_next src); auto|]. apply of_direction_next in X. rewrite X. reflexivity. }
    destruct E1 as (A1 & B1 & C1 & D1). split; [|split; [|split; [|congruence]]].
    + intros s o lo hi X. apply A in X. destruct X as [X|X]; [|right; right; exact X]. apply A1 in X. destruct X as [X|X]; [left; exact X|right; left; exact X].
    + intros a X. apply B in X. destruct X as [X|(lo & hi & X)]; [|right; exists lo, hi; right; exact X].
      apply B1 in X. destruct X as [X|(lo & hi & X)]; [left; exact X|right; exists lo, hi; left; exact X].
    + rewrite C, C1. split.
      * intros [[X|(s & o & lo & hi & X & Y)]|(s & o & lo & hi & X & Y)]; [left; exact X| |]; right; exists s, o, lo, hi; (split; [|exact Y]); [left|right]; exact X.
      * intros [X|(s & o & lo & hi & [X|X] & Y)]; [auto| |]; [left; right|right]; exists s, o, lo, hi; auto.
Qed.
Lemma start_facts fuel t sz (m : tip_modeler N) : start_stroke fuel t sz = Some m ->
  (forall s o lo hi, In (RSource s o lo hi) (nodes m) -> In (SourceNode s o lo hi) (concat (behaviors t))) /\
  (forall a, In a (targets m) -> exists lo hi, In (TargetNode a lo hi) (concat (behaviors t))) /\
  (depends_next m = true <-> uses_source t of_direction) /\ size m = sz /\ nfin N sz = true /\ nlt N n0 sz = true.
Proof.
  unfold start_stroke. destruct (nfin N sz) eqn:Fs; [|discriminate]. destruct (nlt N n0 sz) eqn:Ps; [|discriminate]. cbn [negb orb].
  rewrite append_concat. intros H. apply append_facts in H. cbn [nodes targets depends_next size] in H. destruct H as (A & B & C & D).
  split; [intros s o lo hi X; apply A in X; destruct X as [[]|X]; exact X|].
  split; [intros a X; apply B in X; destruct X as [[]|X]; exact X|]. split; [|auto].
  rewrite C. unfold uses_source. split; [intros [X|X]; [discriminate|exact X]|auto].
Qed.

(** *** processing an input in the same way *)
Definition pushed (st : input_state N) (i : input) (dir : option F) (sz : F) (s : source) (o : out_of_range) (lo hi : F) : F :=
  match get_source_value i dir sz st s with None => nNaN N | Some v => apply_out_of_range o (inverse_lerp lo hi v) end.
Lemma nodes_same (st st' : input_state N) i dir dir' sz prev : st_tool st' = st_tool st -> st_unit st' = st_unit st -> forall code,
  (forall s o lo hi, In (RSource s o lo hi) code -> pushed st' i dir' sz s o lo hi = pushed st i dir sz s o lo hi) ->
  forall k, process_nodes {| cx_state := st'; cx_input := i; cx_dir := dir'; cx_size := sz; cx_prev := prev |} code k =
            process_nodes {| cx_state := st; cx_input := i; cx_dir := dir; cx_size := sz; cx_prev := prev |} code k.
Proof.
  intros HT HU. induction code as [|n code IH]; intros HS k; cbn [process_nodes]; [reflexivity|].
  assert (E : process_node {| cx_state := st'; cx_input := i; cx_dir := dir'; cx_size := sz; cx_prev := prev |} n k =
              process_node {| cx_state := st; cx_input := i; cx_dir := dir; cx_size := sz; cx_prev := prev |} n k).
  { destruct n; cbn [process_node cx_state cx_input cx_dir cx_size]; try reflexivity.
    - specialize (HS src oor lo hi (or_introl eq_refl)). unfold pushed in HS.
      destruct (get_source_value i dir' sz st' src), (get_source_value i dir sz st src); congruence.
    - rewrite HT. reflexivity.
    - destruct (stack k); [reflexivity|]. destruct (nth_error (damped k) index); [|reflexivity].
      unfold damp_value. cbn [cx_state cx_input cx_dir cx_size cx_prev]. rewrite HU. reflexivity. }
  rewrite E. clear E. match goal with |- match ?e with _ => _ end = _ => destruct e as [k1|]; [|reflexivity] end. apply IH. intros s o lo hi X. apply HS. right. exact X.
Qed.
Lemma create_same x y dir dir' t sz (tms : list (target * F)) : dir' = dir \/ (forall a v, In (a, v) tms -> ~ along_direction a) ->
  create_tip_state x y dir' t sz tms = create_tip_state x y dir t sz tms.
Proof.
  intros [->|H]; [reflexivity|]. unfold create_tip_state. f_equal. generalize (no_modifiers (N := N)).
  induction tms as [|[a v] tms IH]; intros mo; cbn [fold_left]; [reflexivity|].
  rewrite IH by (intros b w X; apply (H b w); right; exact X). f_equal.
  specialize (H a v (or_introl eq_refl)). destruct a; cbn in H |- *; try reflexivity; contradiction H; exact I.
Qed.
Record agree (m : tip_modeler N) (st st' : input_state N) (i : input) (dir dir' : option F) : Prop := {
  g_tool : st_tool st' = st_tool st; g_unit : st_unit st' = st_unit st;
  g_pushed : forall s o lo hi, In (RSource s o lo hi) (nodes m) -> pushed st' i dir' (size m) s o lo hi = pushed st i dir (size m) s o lo hi;
  g_dir : dir' = dir \/ (forall a, In a (targets m) -> ~ along_direction a) }.
Lemma add_same (m : tip_modeler N) st st' i dir dir' prev w : agree m st st' i dir dir' ->
  add_new_tip_state m st' i dir' prev w = add_new_tip_state m st i dir prev w.
Proof.
  intros []. unfold add_new_tip_state. rewrite (nodes_same st st' i dir dir') by assumption.
  destruct (process_nodes _ _ _) as [k|]; [|reflexivity]. rewrite (create_same _ _ dir dir'); [reflexivity|].
  destruct g_dir0 as [E|E]; [left; exact E|right]. intros a v X. apply in_combine_l in X. exact (E a X).
Qed.
Lemma emit_same (m : tip_modeler N) st st' i p dir dir' :
  (forall last, particle_due m i last = true -> agree m st st' (lerp_input i p (particle_ratio m i p last)) dir dir') ->
  forall fuel w, emit_particles fuel m st' i p dir' w = emit_particles fuel m st i p dir w.
Proof.
  intros A. induction fuel as [|fuel IH]; intros w; cbn [emit_particles]; destruct (w_last w) as [last|]; try reflexivity.
  destruct (particle_due m i last) eqn:E; [|reflexivity]. rewrite (add_same m st st' _ dir dir') by (apply A, E).
  destruct (add_new_tip_state _ _ _ _ _ _); [apply IH|reflexivity].
Qed.
Lemma single_same fuel (m : tip_modeler N) st st' i dir dir' prev w : agree m st st' i dir dir' ->
  (continuous m = false -> forall p, prev = Some p -> forall last, particle_due m i last = true -> agree m st st' (lerp_input i p (particle_ratio m i p last)) dir dir') ->
  process_single_input fuel m st' i dir' prev w = process_single_input fuel m st i dir prev w.
Proof.
  intros A B. unfold process_single_input. rewrite (add_same m st st' _ dir dir') by exact A.
  destruct (continuous m) eqn:C; cbn [orb]; [reflexivity|]. destruct (w_last w); [|reflexivity].
  destruct prev as [p|]; [|reflexivity]. apply emit_same. exact (B eq_refl p eq_refl).
Qed.
Lemma direction_some (inputs : list input) k : k < length inputs -> exists dir, travel_direction inputs k = Some dir.
Proof.
  intros H. unfold travel_direction. destruct (nth_error inputs k) eqn:E; [|apply nth_error_None in E; lia].
  destruct k as [|k]; [eauto|]. destruct (nth_error inputs k) eqn:E2; [eauto|]. apply nth_error_None in E2. lia.
Qed.
Lemma direction_same (inputs inputs' : list input) n k : (forall j, j < n -> nth_error inputs' j = nth_error inputs j) -> S k < n ->
  travel_direction inputs' k = travel_direction inputs k.
Proof.
  intros E H. unfold travel_direction. rewrite (E k), (E (S k)) by lia. destruct (nth_error inputs k); [|reflexivity].
  destruct k as [|k]; [reflexivity|]. rewrite (E k) by lia. reflexivity.
Qed.

(** *** the stroke *)
Section Stroke.
Context (L : laws N).
Variables (fuel0 : nat) (t : brush_tip N) (sz : F) (m0 : tip_modeler N).
Hypothesis Hstart : start_stroke fuel0 t sz = Some m0.
Hypothesis Hvalid : forallb (valid_behavior (N := N)) (behaviors t) = true.
Hypothesis Hdir : direction_safe t.
Definition lookahead : nat := if depends_next m0 then 1 else 0.
(** what else is known of an input when it is fixed *)
Variable Q : input_state N -> list input -> nat -> Prop.
Hypothesis Qfreezes : forall st inputs mx k, ok_update st inputs -> max_fixed_metrics m0 st inputs = Some mx -> ready m0 st inputs mx k -> Q st inputs k.
Hypothesis Qstays : forall st inputs st' inputs' k, ok_update st inputs -> ok_update st' inputs' -> extends st inputs st' inputs' ->
  k < st_stable st -> Q st inputs k -> Q st' inputs' k.
Hypothesis Qsame : forall st inputs st' inputs' k cur s o lo hi dir dir', ok_update st inputs -> ok_update st' inputs' -> extends st inputs st' inputs' ->
  k < st_stable st -> Q st inputs k -> nth_error inputs k = Some cur -> In (SourceNode s o lo hi) (concat (behaviors t)) ->
  documented_node (SourceNode (N := N) s o lo hi) -> (dir' = dir \/ ~ of_direction s) ->
  pushed st' cur dir' sz s o lo hi = pushed st cur dir sz s o lo hi /\
  (continuous m0 = false -> forall p, prev_at inputs k = Some p -> forall last, particle_due m0 cur last = true ->
     pushed st' (lerp_input cur p (particle_ratio m0 cur p last)) dir' sz s o lo hi = pushed st (lerp_input cur p (particle_ratio m0 cur p last)) dir sz s o lo hi).

Definition is_frozen (st : input_state N) (inputs : list input) (k : nat) : Prop := k + lookahead < st_stable st /\ Q st inputs k.

Lemma settled_step fuel st inputs st' inputs' k cur dir w : ok_update st inputs -> ok_update st' inputs' -> extends st inputs st' inputs' -> is_frozen st inputs k ->
  nth_error inputs k = Some cur -> travel_direction inputs k = Some dir ->
  exists dir', nth_error inputs' k = Some cur /\ prev_at inputs' k = prev_at inputs k /\ travel_direction inputs' k = Some dir' /\
    process_single_input fuel m0 st' cur dir' (prev_at inputs k) w = process_single_input fuel m0 st cur dir (prev_at inputs k) w.
Proof.
  intros O O' X [Lt HQ] En Ed. destruct (start_facts _ _ _ _ Hstart) as (FS & FT & FD & Fz & _).
  destruct (behaviors_documented L _ Hvalid) as (D & _).
  assert (Hk : k < st_stable st) by lia.
  pose proof (u_stable _ _ O') as US. pose proof (x_stable _ _ _ _ X) as XS.
  destruct (direction_some inputs' k) as [dir' Ed']; [lia|]. exists dir'.
  split; [rewrite (x_inputs _ _ _ _ X) by exact Hk; exact En|].
  split; [destruct k as [|k]; [reflexivity|]; cbn [prev_at]; apply (x_inputs _ _ _ _ X); lia|].
  split; [exact Ed'|].
  assert (DD : dir' = dir \/ depends_next m0 = false).
  { destruct (depends_next m0) eqn:E; [left|right; reflexivity]. unfold lookahead in Lt. rewrite E in Lt.
    rewrite (direction_same inputs inputs' (st_stable st) k) in Ed' by (exact (x_inputs _ _ _ _ X) || lia). congruence. }
  assert (DS : forall s o lo hi, In (SourceNode s o lo hi) (concat (behaviors t)) -> dir' = dir \/ ~ of_direction s).
  { intros s o lo hi HI. destruct DD as [E|E]; [left; exact E|right]. intros Y. enough (depends_next m0 = true) by congruence. apply FD. exists s, o, lo, hi. auto. }
  assert (DT : dir' = dir \/ (forall a, In a (targets m0) -> ~ along_direction a)).
  { destruct DD as [E|E]; [left; exact E|right]. intros a Ia Y. destruct Hdir as [U|U]; [apply FD in U; congruence|].
    apply U. destruct (FT a Ia) as (lo & hi & I2). exists a, lo, hi. auto. }
  assert (Src : forall s o lo hi, In (RSource s o lo hi) (nodes m0) -> _) by
    (intros s o lo hi HI; apply FS in HI; exact (Qsame st inputs st' inputs' k cur s o lo hi dir dir' O O' X Hk HQ En HI (proj1 (Forall_forall _ _) D _ HI) (DS _ _ _ _ HI))).
  apply single_same.
  - split; [apply (x_tool _ _ _ _ X)|apply (x_unit _ _ _ _ X)| |exact DT]. rewrite Fz. intros s o lo hi HI. apply (Src s o lo hi HI).
  - intros C p Ep last Du. split; [apply (x_tool _ _ _ _ X)|apply (x_unit _ _ _ _ X)| |exact DT]. rewrite Fz. intros s o lo hi HI. exact (proj2 (Src s o lo hi HI) C p Ep last Du).
Qed.

Lemma keeps_stack c k k' : process_nodes c (nodes m0) k = Some k' -> stack k = [] -> stack k' = [].
Proof.
  intros H S. destruct (behaviors_documented L _ Hvalid) as (D & rs & Ls & Fr).
  destruct (started fuel0 t sz m0 rs Hstart D Ls Fr) as (n & C & _). rewrite (proj2 (stack_kept c) _ _ _ _ _ C _ _ H). exact S.
Qed.
Lemma start_bare : next_fixed m0 = 0 /\ last_fixed m0 = None /\ bstack m0 = [].
Proof.
  destruct (behaviors_documented L _ Hvalid) as (D & rs & Ls & Fr).
  destruct (started fuel0 t sz m0 rs Hstart D Ls Fr) as (n & _ & _ & SM & _ & _ & A & B & _). unfold start_machine in SM. injection SM as SM _ _. auto.
Qed.
Lemma chain_extending st inputs us : extending st inputs us -> chain (ok_update (N := N)) (extends (N := N)) st inputs us.
Proof. revert st inputs. induction us as [|[st' inputs'] us IH]; intros st inputs; cbn; [auto|]. intros (A & B & C). auto. Qed.
Lemma replays_replayed fuel us : forall done os, replayed m0 fuel done us os -> replays fuel m0 done us os.
Proof. induction us as [|u us IH]; intros done [|[f v] os]; cbn; auto. intros [A B]. auto. Qed.
Theorem settled_replay fuel us os : stroke_updates us -> outputs fuel m0 us = Some os -> replays fuel m0 [] us os.
Proof.
  intros U H. apply replays_replayed. destruct start_bare as (A & B & C).
  refine (replay m0 A B C keeps_stack fuel (ok_update (N := N)) (extends (N := N)) is_frozen _ _ _ _ (settled_step fuel) us os _ H).
  - intros st inputs O. apply (u_stable _ _ O).
  - intros st inputs st' inputs' X. apply (x_stable _ _ _ _ X).
  - intros st inputs mx k O E R. split; [exact (proj1 R)|exact (Qfreezes st inputs mx k O E R)].
  - intros st inputs st' inputs' k O O' X [Lt HQ]. split; [pose proof (x_stable _ _ _ _ X); lia|]. refine (Qstays st inputs st' inputs' k O O' X _ HQ). lia.
  - destruct us as [|[st inputs] us]; [exact I|]. destruct U as [O E]. split; [exact O|]. apply chain_extending, E.
Qed.
End Stroke.
End Settled.
