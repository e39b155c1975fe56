(** Properties C24, C25 and C26: fixed tip states, time behaviors and particles. *)
From Coq Require Import ZArith Bool Reals Lra Lia List.
From Flocq Require Import Core IEEE754.BinarySingleNaN.
From Verif Require Import F32 F32Lemmas NumModel NumLaws EasingModel EasingSpec EasingExact EasingProps BehaviorMeaning.
From Verif Require Import BehaviorModel TipModel BehaviorSpec BehaviorRun BehaviorOrder BehaviorExact BehaviorProps TipSpec TipSettled TipStable TipAhead TipIdle TipParticleSpec TipParticles.
Import ListNotations.
Local Open Scope R_scope.

Section Floats.
Variable E : elem.
Local Notation N := (fnum E).

(** *** C24 *)
(** Whatever the sequence of updates, and whatever was fixed at which of them: fixed states
    followed by volatile ones are what modeling the whole stroke at once gives.  In floats
    for tips without sources that look ahead to the end of the stroke. *)
Theorem C24_fixed_is_final (fuel0 fuel : nat) (t : brush_tip N) (sz : f32) (m0 : tip_modeler N) us os :
  start_stroke fuel0 t sz = Some m0 -> valid_tip t = true -> direction_safe t -> ~ uses_source t of_rest ->
  no_particles t \/ ~ uses_source t of_prediction ->
  stroke_updates us -> outputs fuel m0 us = Some os -> replays fuel m0 [] us os.
Proof.
  intros Hs Vt. apply (stable_replay (flaws E) (forder E) fuel0 fuel t sz m0 us os Hs).
  unfold valid_tip in Vt. repeat match type of Vt with (if ?c then false else _) = true => destruct c; [discriminate|] end. exact Vt.
Qed.
(** and without particles there always is such a result *)
Theorem C24_updates_succeed (fuel0 fuel : nat) (t : brush_tip N) (sz : f32) (m0 : tip_modeler N) us :
  start_stroke fuel0 t sz = Some m0 -> valid_tip t = true -> no_particles t -> stroke_updates us -> exists os, outputs fuel m0 us = Some os.
Proof.
  intros Hs Vt Np. apply (total (flaws E) (forder E) (reads32 E) fuel0 t sz m0 Hs); [|exact Np].
  unfold valid_tip in Vt. repeat match type of Vt with (if ?c then false else _) = true => destruct c; [discriminate|] end. exact Vt.
Qed.
End Floats.

Section Exact.
Local Notation N := xnum.
(** Without rounding also for sources that look ahead. *)
Theorem C24_fixed_is_final_exact (fuel0 fuel : nat) (t : brush_tip N) (sz : R) (m0 : tip_modeler N) us os :
  start_stroke (N := N) fuel0 t (Fin sz) = Some m0 -> valid_tip t = true -> direction_safe t ->
  no_particles t \/ ~ uses_source t of_state_time ->
  stroke_updates us -> outputs fuel m0 us = Some os -> replays fuel m0 [] us os.
Proof. intros Hs Vt. exact (ahead_replay fuel0 t sz m0 Hs Vt fuel us os). Qed.

(** *** C25 *)
(** With HasUnfinishedTimeBehaviors false, the tip states are the same at every later time,
    and so is everything afterwards, if no modeled input is later than the last real one. *)
Theorem C25_finished_stays (fuel0 fuel : nat) (t : brush_tip N) (sz : R) (m0 : tip_modeler N) (st : input_state N) (ce ce' re : R) inputs us us' :
  start_stroke (N := N) fuel0 t (Fin sz) = Some m0 -> valid_tip t = true ->
  st_complete_elapsed st = Fin ce -> st_real_elapsed st = Fin re -> ce <= ce' ->
  Forall (fun i : modeled_input N => exists e, elapsed i = Fin e /\ e <= re) inputs ->
  no_particles t \/ ~ uses_source t since_input ->
  has_unfinished m0 st = false ->
  outputs fuel m0 (us ++ (at_time (N := N) st (Fin ce'), inputs) :: us') = outputs fuel m0 (us ++ (st, inputs) :: us').
Proof. intros Hs Vt H1 H2 H3 H4 H5 H6. exact (idle fuel0 t sz m0 Hs Vt st ce ce' re inputs H1 H2 H3 H4 H6 H5 fuel us us'). Qed.
(** It is true exactly when some source that measures the time since an input has not yet
    reached the end of its range for the last real input. *)
Theorem C25_unfinished_iff (fuel0 : nat) (t : brush_tip N) (sz : R) (m0 : tip_modeler N) (st : input_state N) (ce re : R) :
  start_stroke (N := N) fuel0 t (Fin sz) = Some m0 -> valid_tip t = true ->
  st_complete_elapsed st = Fin ce -> st_real_elapsed st = Fin re -> re <= ce ->
  has_unfinished m0 st = true <-> exists s lo hi, In (SourceNode (N := N) s kClamp (Fin lo) (Fin hi)) (concat (behaviors t)) /\
    ((s = kTimeSinceInputInSeconds /\ ce - re < Rmax lo hi) \/ (s = kTimeSinceInputInMillis /\ ce - re < 8589935 / 8589934592 * Rmax lo hi)).
Proof. exact (unfinished_iff fuel0 t sz m0 st ce re). Qed.

(** *** C26 *)
(** A tip with particle gaps leaves one tip state at the first input and one at each of a
    sequence of points between inputs, each followed by a break.  Each point is as early as
    possible at least both gaps after the one before. *)
Theorem C26_particles (fuel0 fuel : nat) (t : brush_tip N) (sz : R) (m0 : tip_modeler N) (s h : R) (st : input_state N) (i0 : modeled_input N) inputs f v :
  start_stroke (N := N) fuel0 t (Fin sz) = Some m0 -> valid_tip t = true ->
  particle_gap_distance_scale t = Fin s -> particle_gap_duration t = Fin h -> 0 < s \/ 0 < h ->
  progressing (i0 :: inputs) -> (st_stable st <= length (i0 :: inputs))%nat ->
  outputs fuel m0 [(st, i0 :: inputs)] = Some [(f, v)] ->
  exists pts ss, f ++ v = with_gaps ss /\ Forall2 (state_at t sz) (i0 :: pts) ss /\ strewn (s * sz) h i0 i0 inputs pts.
Proof.
  intros Hs Vt E1 E2 Pos. destruct (tip_gaps _ _ _ _ Hs Vt) as (s' & h' & E1' & E2' & S0 & H0 & Z0 & G1 & G2).
  rewrite E1 in E1'. injection E1' as <-. rewrite E2 in E2'. injection E2' as <-.
  apply (particles fuel0 t sz (s * sz) h m0 Hs Vt G1 G2); [nra|exact H0|]. destruct Pos as [P|P]; [left; nra|right; exact P].
Qed.
(** Emission ends, for strokes of any length. *)
Theorem C26_terminates (fuel0 fuel : nat) (t : brush_tip N) (sz : R) (m0 : tip_modeler N) (s h : R) (st : input_state N) (i0 : modeled_input N) inputs d0 e0 d e :
  start_stroke (N := N) fuel0 t (Fin sz) = Some m0 -> valid_tip t = true ->
  particle_gap_distance_scale t = Fin s -> particle_gap_duration t = Fin h ->
  progressing (i0 :: inputs) -> (st_stable st <= length (i0 :: inputs))%nat ->
  measured i0 d0 e0 -> measured (last inputs i0) d e ->
  d - d0 < INR fuel * (s * sz) \/ e - e0 < INR fuel * h ->
  exists f v, outputs fuel m0 [(st, i0 :: inputs)] = Some [(f, v)].
Proof.
  intros Hs Vt E1 E2 Pr OS M0 Ml En. destruct (tip_gaps _ _ _ _ Hs Vt) as (s' & h' & E1' & E2' & S0 & H0 & Z0 & G1 & G2).
  rewrite E1 in E1'. injection E1' as <-. rewrite E2 in E2'. injection E2' as <-.
  assert (ND : 0 <= d - d0 /\ 0 <= e - e0) by (destruct (progress_le i0 inputs d e Pr Ml i0 d0 e0 (or_introl eq_refl) M0); lra).
  assert (0 <= s * sz) by nra. pose proof (pos_INR fuel).
  refine (particles_end fuel0 t sz (s * sz) h m0 Hs Vt G1 G2 _ H0 _ fuel st i0 inputs d0 e0 d e Pr OS M0 Ml En); [lra|].
  destruct En; [left|right]; nra.
Qed.
(** Any sequence of points spaced like that has at most distance / gap elements, and at
    most duration / gap elements (up to the float constant 0.001 of Duration32::Millis). *)
Theorem C26_count (g h : R) i0 inputs pts d0 e0 d e : 0 <= g -> 0 <= h -> 0 <= e0 ->
  progressing (i0 :: inputs) -> measured i0 d0 e0 -> measured (last inputs i0) d e -> strewn g h i0 i0 inputs pts ->
  (0 < g -> INR (length pts) <= (d - d0) / g) /\ (0 < h -> INR (length pts) <= (8589935000 / 8589934592 * e - e0) / h).
Proof.
  intros G0 H0 Z0 Pr M0 Ml St. destruct (strewn_count g h G0 H0 inputs i0 i0 pts d0 e0 d0 e0 d e Pr M0 M0 (Rle_refl _)) as [A B]; [unfold ms; lra|exact Ml|exact St|].
  split; intros P; [specialize (A P)|specialize (B P); unfold ms in B]; (apply Rmult_le_reg_r with (1 := P)); unfold Rdiv; rewrite Rmult_assoc, Rinv_l, Rmult_1_r by lra; lra.
Qed.
End Exact.

(** *** Where the claims fail *)
Section Refuted.
(** library functions with the right values where they are used: atan2(0, 1) = 0, cos 0 = 1, sin 0 = 0 *)
Definition E1 : elem := {| e_exp := fun _ => f1; e_sin := fun _ => f0; e_cos := fun _ => f1; e_tan := fun _ => f0; e_atan := fun _ => f0;
  e_atan2 := fun _ _ => f0; e_hypot := fun x _ => x; e_fmod := fun x _ => x |}.
Local Notation N := (fnum E1).
Definition at_x (x t : f32) : modeled_input N := @Build_modeled_input N x f0 f0 f0 f0 f0 x t f0 f0 f0.
Definition all_stable (k : nat) (e : f32) : input_state N := @Build_input_state N kStylus None e e e e k k.

(** A position offset along the travel direction without a source of the direction: the
    state at the last stable input is fixed although its direction is not yet known. *)
Definition forward_tip : brush_tip N := plain_tip E1 [[ConstantNode (N := N) f1; TargetNode (N := N) kPositionOffsetForwardInMultiplesOfBrushSize f0 f1]].
Definition forward_updates := [(all_stable 1 f0, [at_x f0 f0]); (all_stable 2 f1, [at_x f0 f0; at_x f1 f1])].
Lemma forward_ok : stroke_updates forward_updates.
Proof.
  assert (A : forall k e (l : list (modeled_input N)), k = length l -> is_finite e = true -> (forall i, In i l -> is_finite (traveled i) = true /\ is_finite (elapsed i) = true /\ fle (traveled i) e = true /\ fle (elapsed i) e = true) ->
    (forall p j a b, (p <= j)%nat -> nth_error l p = Some a -> nth_error l j = Some b -> fle (traveled a) (traveled b) = true /\ fle (elapsed a) (elapsed b) = true) -> ok_update (N := N) (all_stable k e) l).
  { intros k e l -> Fe Hl Hp. split; cbn [all_stable st_stable st_real_distance st_real_elapsed st_complete_traveled st_complete_elapsed].
    - lia.
    - cbn [nfin N]. auto.
    - intros j c _ Hj. apply nth_error_In in Hj. destruct (Hl c Hj) as (? & ? & _). auto.
    - intros j c _ Hj. apply nth_error_In in Hj. destruct (Hl c Hj) as (_ & _ & ? & ?). auto.
    - intros p j a b L _ Ha Hb. exact (Hp p j a b L Ha Hb). }
  unfold forward_updates. split; [apply A|split; [apply A|split; [split|exact Logic.I]]].
  - reflexivity.
  - vm_compute; reflexivity.
  - intros i [<-|[]]. repeat split; vm_compute; reflexivity.
  - intros [|p] [|j] a b L Ha Hb; try lia; cbn in Ha, Hb; try (destruct p); try (destruct j); try discriminate. injection Ha as <-. injection Hb as <-. split; vm_compute; reflexivity.
  - reflexivity.
  - vm_compute; reflexivity.
  - intros i [<-|[<-|[]]]; repeat split; vm_compute; reflexivity.
  - intros [|[|p]] [|[|j]] a b L Ha Hb; try lia; cbn in Ha, Hb; try (destruct p); try (destruct j); try discriminate; injection Ha as <-; injection Hb as <-; split; vm_compute; reflexivity.
  - reflexivity.
  - reflexivity.
  - cbn. lia.
  - intros [|k] L; [reflexivity|cbn in L; lia].
Qed.
Theorem C24_forward_offset_refuted : valid_tip forward_tip = true /\ stroke_updates forward_updates /\
  exists m0 os, start_stroke 0 forward_tip f1 = Some m0 /\ outputs 1 m0 forward_updates = Some os /\ ~ replays 1 m0 [] forward_updates os.
Proof.
  split; [vm_compute; reflexivity|]. split; [exact forward_ok|].
  assert (A : match start_stroke 0 forward_tip f1 with Some m0 => match outputs 1 m0 forward_updates with Some [(f, []); _] => match f with [s] => feq (ts_x s) f0 | _ => false end | _ => false end | None => false end = true) by (vm_compute; reflexivity).
  assert (B : match start_stroke 0 forward_tip f1 with Some m0 => match outputs 1 m0 (tl forward_updates) with Some [(f, v)] => match f ++ v with s :: _ => negb (feq (ts_x s) f0) | _ => false end | _ => false end | None => false end = true) by (vm_compute; reflexivity).
  destruct (start_stroke 0 forward_tip f1) as [m0|]; [|discriminate]. exists m0. set (us := forward_updates) in *.
  destruct (outputs 1 m0 us) as [[|[f v] [|[f2 v2] os]]|]; try discriminate; destruct v; try discriminate. destruct os as [|]; try discriminate.
  exists [(f, []); (f2, v2)]. split; [reflexivity|]. split; [reflexivity|]. intros R. unfold us, forward_updates in R. cbn [replays] in R. destruct R as (_ & (f' & v' & O & Eq) & _).
  unfold us, forward_updates in B. cbn [tl] in B. rewrite O in B. destruct f as [|s [|? ?]]; try discriminate. rewrite Eq in B. cbn [app] in B. rewrite A in B. discriminate B.
Qed.

(** HasUnfinishedTimeBehaviors looks at the last real input only: with predicted inputs the
    tip still changes after it returns false. *)
Definition fading_tip : brush_tip N := plain_tip E1 [[SourceNode (N := N) kTimeSinceInputInSeconds kClamp f0 f1; TargetNode (N := N) kWidthMultiplier f1 f0]].
Definition predicted_state (e : f32) : input_state N := @Build_input_state N kStylus None e f1 f0 f0 1 1.
Definition predicted_inputs := [at_x f0 f0; at_x f1 half32].
Theorem C25_predicted_refuted : valid_tip fading_tip = true /\ no_particles fading_tip /\
  exists m0, start_stroke 0 fading_tip f1 = Some m0 /\ has_unfinished m0 (predicted_state f1) = false /\
  outputs 1 m0 [(at_time (N := N) (predicted_state f1) (fZ 2), predicted_inputs)] <> outputs 1 m0 [(predicted_state f1, predicted_inputs)].
Proof.
  split; [vm_compute; reflexivity|]. split; [split; vm_compute; reflexivity|].
  pose (W := fun e => match start_stroke 0 fading_tip f1 with Some m0 => match outputs 1 m0 [(at_time (N := N) (predicted_state f1) e, predicted_inputs)] with
     Some [(f, v)] => map (ts_width (N := N)) (f ++ v) | _ => [] end | None => [] end).
  assert (A : match W f1 with [_; w] => feq w half32 | _ => false end = true) by (vm_compute; reflexivity).
  assert (B : match W (fZ 2) with [_; w] => feq w half32 | _ => true end = false) by (vm_compute; reflexivity).
  assert (H : match start_stroke 0 fading_tip f1 with Some m0 => negb (has_unfinished m0 (predicted_state f1)) | None => false end = true) by (vm_compute; reflexivity).
  unfold W in A, B. destruct (start_stroke 0 fading_tip f1) as [m0|]; [|discriminate]. exists m0. split; [reflexivity|]. split; [apply negb_true_iff in H; exact H|].
  intros Eq. rewrite Eq in B. change (at_time (N := N) (predicted_state f1) f1) with (predicted_state f1) in A.
  revert A B. match goal with |- context [match outputs ?a ?b ?c with _ => _ end] => destruct (outputs a b c) as [[|[f v] [|]]|] end; try discriminate.
  intros A B. destruct (map _ (f ++ v)) as [|? [|? [|]]]; try discriminate. rewrite A in B. discriminate B.
Qed.
End Refuted.

(** With floats, a gap that is lost in rounding makes the emission of particles run forever:
    a gap of 1/2 after a traveled distance of 2^24. *)
Section Forever.
Variable E : elem.
Local Notation N := (fnum E).
Definition gap_tip : brush_tip N := {| scale_x := (f1 : T N); scale_y := f1; corner_rounding := f1; slant := f0; pinch := f0; rotation := f0; opacity_multiplier := f1;
  particle_gap_distance_scale := half32; particle_gap_duration := f0; behaviors := [] |}.
Definition far_input (x d : f32) : modeled_input N := @Build_modeled_input N x f0 f0 f0 f0 f0 d f0 f0 f0 f0.
Definition far_a : modeled_input N := far_input f0 (fZ 16777216).
Definition far_b : modeled_input N := far_input (fZ 2) (fZ 16777218).
Definition far_state : input_state N := @Build_input_state N kStylus None f0 (fZ 16777218) f0 (fZ 16777218) 0 2.
Lemma far_fixed (m : tip_modeler N) : gap m = {| m_traveled := (fmul half32 f1 : T N); m_elapsed := f0 |} ->
  particle_due m far_b (metrics_of far_a) = true /\ metrics_of (lerp_input (N := N) far_b far_a (particle_ratio m far_b far_a (metrics_of far_a))) = metrics_of far_a.
Proof.
  intros G. unfold particle_due, particle_ratio. rewrite G. split; [vm_compute; reflexivity|].
  unfold metrics_of. cbn [lerp_input traveled elapsed m_traveled m_elapsed]. f_equal; apply B2SF_inj; vm_compute; reflexivity.
Qed.
Theorem C26_floats_endless_refuted (fuel0 fuel : nat) : valid_tip gap_tip = true /\
  exists m0, start_stroke fuel0 gap_tip f1 = Some m0 /\ outputs fuel m0 [(far_state, [far_a; far_b])] = None.
Proof.
  split; [vm_compute; reflexivity|]. eexists. split; [reflexivity|].
  match goal with |- outputs _ ?m _ = _ => set (m0 := m) end.
  destruct (far_fixed m0 eq_refl) as [D L].
  assert (A : forall st i dir prev w, exists w', add_new_tip_state m0 st i dir prev w = Some w' /\ w_last w' = Some (metrics_of i)) by (intros; eexists; split; reflexivity).
  assert (Em : forall f dir w, w_last w = Some (metrics_of far_a) -> emit_particles f m0 far_state far_b far_a dir w = None).
  { induction f as [|f IH]; intros dir w Hw; cbn [emit_particles]; rewrite Hw, D; [reflexivity|].
    match goal with |- context [add_new_tip_state m0 far_state ?i dir ?p w] => destruct (A far_state i dir p w) as (w' & -> & Hl) end. apply IH. cbn [append_gap w_last]. rewrite Hl, L. reflexivity. }
  cbn [outputs]. unfold update_stroke.
  change (max_fixed_metrics m0 far_state [far_a; far_b]) with (Some {| m_traveled := n0 (N := N); m_elapsed := n0 (N := N) |}).
  change (next_fixed m0) with 0%nat. cbn [fixed_loop far_state st_stable Nat.sub length volatile_loop nth_error].
  cbn [travel_direction nth_error]. unfold process_single_input at 1. cbn [w_last m0 last_fixed]. fold m0. rewrite orb_true_r.
  match goal with |- context [add_new_tip_state m0 far_state ?i ?d ?p ?w] => destruct (A far_state i d p w) as (w' & -> & Hl) end.
  assert (C : continuous m0 = false) by (vm_compute; reflexivity). rewrite C. cbn [negb].
  unfold process_single_input. rewrite C. cbn [orb append_gap w_last]. rewrite Hl. fold far_state. rewrite Em; [reflexivity|exact Hl].
Qed.
End Forever.

Print Assumptions C24_fixed_is_final.
Print Assumptions C24_updates_succeed.
Print Assumptions C24_fixed_is_final_exact.
Print Assumptions C25_finished_stays.
Print Assumptions C25_unfinished_iff.
Print Assumptions C26_particles.
Print Assumptions C26_terminates.
Print Assumptions C26_count.
Print Assumptions C24_forward_offset_refuted.
Print Assumptions C25_predicted_refuted.
Print Assumptions C26_floats_endless_refuted.

(** *** Concrete cases meeting the hypotheses *)
(** with a source of the direction, the offset along the direction is safe *)
Local Notation N1 := (fnum E1).
Definition directed_tip : brush_tip N1 := plain_tip E1
  [[ConstantNode (N := N1) f1; TargetNode (N := N1) kPositionOffsetForwardInMultiplesOfBrushSize f0 f1];
   [SourceNode (N := N1) kNormalizedDirectionX kClamp f0 f1; TargetNode (N := N1) kWidthMultiplier f0 f1];
   [SourceNode (N := N1) kPredictedTimeElapsedInSeconds kClamp f0 f1; TargetNode (N := N1) kLuminosity f0 f1]].
Example ex_final : valid_tip directed_tip = true /\ direction_safe directed_tip /\ ~ uses_source directed_tip of_rest /\ no_particles directed_tip /\
  match start_stroke 0 directed_tip f1 with Some _ => true | None => false end = true /\ stroke_updates (N := N1) forward_updates.
Proof.
  split; [vm_compute; reflexivity|]. split; [left; exists kNormalizedDirectionX, kClamp, f0, f1; cbn; auto 10|].
  split; [intros (s & o & lo & hi & HI & P); cbn in HI; repeat (destruct HI as [HI|HI]; [try discriminate HI; injection HI as <- <- <- <-; exact P|]); exact HI|].
  split; [split; vm_compute; reflexivity|]. split; [vm_compute; reflexivity|exact forward_ok].
Qed.
Local Notation X := xnum.
(** fades within a second after each input, particles every half a brush size *)
Definition fade : list (node X) := [SourceNode (N := X) kTimeSinceInputInSeconds kClamp (Fin 0) (Fin 1); TargetNode (N := X) kWidthMultiplier (Fin 1) (Fin 0)].
Definition fade_tip : brush_tip X := fin_tip ex_rtip [fade].
Definition spray_tip : brush_tip X := fin_tip (Build_rtip 1 1 1 0 0 0 1 (1/2) (1/10)) [ex_b1].
Lemma fade_valid : valid_tip fade_tip = true.
Proof.
  unfold valid_tip, fade_tip, fin_tip, ex_rtip, fade, valid_behavior.
  rewrite ?x_quarter, ?x0, ?x1e, ?xZ. pose proof turn_pos.
  cbn [scale_x scale_y corner_rounding slant pinch rotation opacity_multiplier particle_gap_distance_scale particle_gap_duration behaviors p_scale_x p_scale_y p_rounding p_slant p_pinch p_rotation p_opacity p_gap_scale p_gap_duration forallb valid_from valid_node].
  unfold is_range_valid. cbn [nfin nlt nle neqb nopp X xopp xlt xle xeq is_valid_target is_valid_source valid_combination]. unfold xle. cbn [xlt xeq].
  repeat match goal with |- context [Rlt_bool ?a ?b] => destruct (Rlt_bool_spec a b); try lra | |- context [Req_bool ?a ?b] => destruct (Req_bool_spec a b); try lra end; try reflexivity.
Qed.
Lemma spray_valid : valid_tip spray_tip = true.
Proof.
  unfold valid_tip, spray_tip, fin_tip, ex_b1, valid_behavior.
  rewrite ?x_quarter, ?x0, ?x1e, ?xZ. pose proof turn_pos.
  cbn [scale_x scale_y corner_rounding slant pinch rotation opacity_multiplier particle_gap_distance_scale particle_gap_duration behaviors p_scale_x p_scale_y p_rounding p_slant p_pinch p_rotation p_opacity p_gap_scale p_gap_duration forallb valid_from valid_node].
  unfold is_range_valid. cbn [nfin nlt nle neqb nopp X xopp xlt xle xeq is_valid_target]. unfold xle. cbn [xlt xeq].
  repeat match goal with |- context [Rlt_bool ?a ?b] => destruct (Rlt_bool_spec a b); try lra | |- context [Req_bool ?a ?b] => destruct (Req_bool_spec a b); try lra end; try reflexivity.
Qed.
Definition x_input (d e : R) : modeled_input X := @Build_modeled_input X (Fin d) (Fin 0) (Fin 0) (Fin 0) (Fin 0) (Fin 0) (Fin d) (Fin e) (Fin 0) (Fin 0) (Fin 0).
Definition x_state (k : nat) (ce re : R) : input_state X := @Build_input_state X kStylus None (Fin ce) (Fin 9) (Fin re) (Fin 9) k 2.
(** one second after the last input the fading is over, half a second after it is not *)
Example ex_idle : exists fuel m0, start_stroke fuel fade_tip (Fin 1) = Some m0 /\ no_particles fade_tip /\
  has_unfinished m0 (x_state 2 3 2) = false /\ has_unfinished m0 (x_state 2 (5/2) 2) = true /\
  Forall (fun i : modeled_input X => exists e, elapsed i = Fin e /\ e <= 2) [x_input 0 0; x_input 9 2].
Proof.
  destruct (C17_starts_exact fade_tip 1 (Vb fade_tip fade_valid)) as (fuel & m0 & Hs); [lra|]. exists fuel, m0. split; [exact Hs|].
  split; [split; rewrite x0; cbn; rewrite Req_bool_true by reflexivity; reflexivity|].
  assert (Mx : Rmax 0 1 = 1) by (apply Rmax_right; lra).
  split; [|split].
  - apply not_true_is_false. intros H. apply (C25_unfinished_iff _ _ _ _ (x_state 2 3 2) 3 2 Hs fade_valid eq_refl eq_refl) in H; [|lra].
    destruct H as (s & lo & hi & [HI|[HI|[]]] & [[-> L]|[-> L]]); try discriminate HI; injection HI as <- <-; rewrite Mx in L; lra.
  - apply (C25_unfinished_iff _ _ _ _ (x_state 2 (5/2) 2) (5/2) 2 Hs fade_valid eq_refl eq_refl); [lra|]. exists kTimeSinceInputInSeconds, 0, 1. split; [left; reflexivity|]. left. split; [reflexivity|]. rewrite Mx. lra.
  - constructor; [exists 0; split; [reflexivity|lra]|]. constructor; [exists 2; split; [reflexivity|lra]|constructor].
Qed.
(** a stroke of length 9 and 2 s with gaps of 1 and 0.1 s: 10 particles are enough *)
Example ex_particles : exists fuel0 m0 f v, start_stroke fuel0 spray_tip (Fin 2) = Some m0 /\ progressing [x_input 0 0; x_input 9 2] /\
  outputs 10 m0 [(x_state 2 2 2, [x_input 0 0; x_input 9 2])] = Some [(f, v)].
Proof.
  destruct (C17_starts_exact spray_tip 2 (Vb spray_tip spray_valid)) as (fuel0 & m0 & Hs); [lra|].
  assert (Pr : progressing [x_input 0 0; x_input 9 2]).
  { cbn [progressing]. split; [exists 0, 0, 9, 2; repeat split; lra|]. exists 9, 2. repeat split; lra. }
  destruct (C26_terminates fuel0 10 spray_tip 2 m0 (1/2) (1/10) (x_state 2 2 2) (x_input 0 0) [x_input 9 2] 0 0 9 2 Hs spray_valid eq_refl eq_refl Pr) as (f & v & O).
  - cbn. lia.
  - split; reflexivity.
  - split; reflexivity.
  - left. cbn [INR]. lra.
  - exists fuel0, m0, f, v. auto.
Qed.
