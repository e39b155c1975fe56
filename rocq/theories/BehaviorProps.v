(** Properties C16 to C20, C53 and C54: brush behaviors and tip states. *)
From Coq Require Import ZArith Bool Reals Lra Lia Permutation List.
From Flocq Require Import Core IEEE754.BinarySingleNaN.
From Verif Require Import F32 F32Lemmas NumModel NumLaws EasingModel EasingSpec EasingBezier EasingExact EasingProps.
From Verif Require Import BehaviorModel TipModel BehaviorSpec BehaviorMeaning TipSpec BehaviorTree BehaviorRun BehaviorRange BehaviorOrder BehaviorExact TipOrder.
Import ListNotations.
Open Scope R_scope.

Section Props.
Variable E : elem.
Local Notation N := (fnum E).
Local Notation node32 := (node N).
Local Notation root32 := (root N (option f32)).

Lemma builds32 : builds (N := N).
Proof. intros e V. destruct (C23_easing_total E e f0 V) as (y & fuel & i & A & _). eauto. Qed.
Lemma reads32 : reads N. Proof. intros tab x H. exact (table_read E tab x H). Qed.

(** *** C16 *)
(** A list of nodes is accepted exactly when every node is as documented and the list is a
    listing of a graph of targets. *)
Theorem C16_valid_iff_listing (l : list node32) :
  valid_behavior l = true <-> Forall documented_node l /\ exists rs : list (root N unit), lists l rs.
Proof. exact (valid_behavior_iff (M := unit) (flaws E) tt l). Qed.
(** Every post-order flattening of trees of documented nodes is accepted. *)
Theorem C16_flattening_valid (rs : list (root N unit)) : Forall documented_node (flattened rs) -> valid_behavior (flattened rs) = true.
Proof. intros D. exact (listing_valid (M := unit) (flaws E) _ rs D (flattened_lists rs)). Qed.
(** A list stands for one graph only: same targets, ranges and expressions. *)
Theorem C16_listing_unique (l : list node32) (rs rs' : list (root N unit)) : lists l rs -> lists l rs' ->
  map (fun r => (r_target _ r, r_lo _ r, r_hi _ r, r_expr _ r)) rs = map (fun r => (r_target _ r, r_lo _ r, r_hi _ r, r_expr _ r)) rs'.
Proof. exact (lists_unique l rs rs'). Qed.
(** More is accepted than the post-order traversals of the header: targets may come between
    the operands of another target. *)
Definition interleaved : list node32 := [ConstantNode (N := N) f0; ConstantNode (N := N) f1; TargetNode (N := N) kPinchOffset f0 f1; TargetNode (N := N) kLuminosity f0 f1].
Lemma postorder_no_target (e : expr N unit) : Forall (fun n : node32 => match n with TargetNode _ _ _ => False | _ => True end) (postorder e).
Proof. induction e; cbn [postorder]; repeat (apply Forall_app; split; auto); repeat constructor. Qed.
Theorem C16_post_order_only_refuted : valid_behavior interleaved = true /\ forall rs : list (root N unit), flattened rs <> interleaved.
Proof.
  split; [vm_compute; reflexivity|]. intros [|r rs]; [discriminate|]. cbn [flattened flat_map]. rewrite <- app_assoc. cbn [app]. unfold interleaved.
  pose proof (postorder_no_target (r_expr _ r)) as NT.
  assert (LN : forall v w : f32, postorder (r_expr _ r) <> [ConstantNode (N := N) v; ConstantNode (N := N) w]).
  { intros v w H. destruct (r_expr _ r); cbn [postorder] in H; try discriminate H;
      rewrite ?app_assoc in H;
      match type of H with ?a ++ [?n] = [?p; ?q] => change [p; q] with ([p] ++ [q]) in H; apply app_inj_tail in H; destruct H; discriminate end. }
  intros H. destruct (postorder (r_expr _ r)) as [|a [|b [|c p]]]; cbn [app] in H; try discriminate H.
  - injection H as H1 H2 H3. subst. eapply LN. reflexivity.
  - injection H as H1 H2 H3 H4. subst. inversion NT as [|? ? ? N1]; subst. inversion N1 as [|? ? ? N2]; subst. inversion N2 as [|? ? N3 ?]; subst. exact N3.
Qed.

(** *** C17 *)
(** A tip with valid behaviors can always be started with, for every positive finite size. *)
Theorem C17_starts (t : brush_tip N) (sz : f32) : forallb valid_behavior (behaviors t) = true -> is_finite sz = true -> flt f0 sz = true ->
  exists fuel m, start_stroke fuel t sz = Some m.
Proof. intros V F P. exact (start_succeeds (flaws E) t sz builds32 V F P). Qed.
(** For every sequence of inputs executing the nodes of all behaviors in order never
    underflows, leaves the stack empty, and gives every target the modifier its expression
    tree evaluates to. *)
Theorem C17_execution (fuel : nat) (t : brush_tip N) (sz : f32) (m : tip_modeler N) (cs : list (context N)) :
  forallb valid_behavior (behaviors t) = true -> start_stroke fuel t sz = Some m -> has_history cs ->
  (exists rs : list root32, lists (concat (behaviors t)) rs /\ Forall fresh_root rs) /\
  forall rs : list root32, lists (concat (behaviors t)) rs -> Forall fresh_root rs ->
    targets m = map (r_target _) rs /\
    exists rs' k, run_inputs (nodes m) cs (start_machine m) = Some k /\ stack k = [] /\
      modifiers k = map (r_modifier _) rs' /\ all_steps cs rs rs'.
Proof.
  intros V H HC. destruct (behaviors_documented (flaws E) _ V) as (D & X). split; [exact X|]. intros rs Ls Fr.
  exact (stroke_run (flaws E) reads32 fuel t sz m rs cs H D Ls Fr HC).
Qed.
(** The value of a tree is determined by the inputs. *)
Theorem C17_value_unique (cs : list (context N)) (rs rs1 rs2 : list root32) : all_steps cs rs rs1 -> all_steps cs rs rs2 -> rs1 = rs2.
Proof. exact (all_steps_fun cs rs rs1 rs2). Qed.

(** *** C18 *)
(** Every mode lands in [0, 1] for every finite float; NaN can come out only of an infinity or a NaN. *)
Theorem C18_range (o : out_of_range) (x : f32) : (forall z, o <> OtherOutOfRange z) -> is_finite x = true ->
  within f0 f1 (apply_out_of_range (N := N) o x).
Proof.
  intros Ho Fx.
  assert (K : forall y : f32, is_nan y = false -> unit_or_nan y -> within f0 f1 y).
  { intros y Ny [Q|[Fy R]]; [congruence|]. pose proof f1_finite as F1. split; (apply fle_spec; [try reflexivity; apply Ny|try reflexivity; apply Ny|]);
      rewrite (fX_finite y Fy); [change (fX f0) with 0|rewrite (fX_finite f1 F1), f1_R]; lra. }
  destruct o; [| | |destruct (Ho code eq_refl)]; apply K.
  - change (apply_out_of_range (N := N) kClamp x) with (fclamp x f0 f1). apply finite_not_nan. apply (fclamp_range x f0 f1); try reflexivity; try apply finite_not_nan; auto; try apply f1_finite. rewrite f0_R, f1_R. lra.
  - apply clamp_unit.
  - destruct (repeat_value E x Fx) as [Fr _]. apply finite_not_nan, Fr.
  - apply repeat_unit.
  - destruct (mirror_value E x Fx) as [Fr _]. apply finite_not_nan, Fr.
  - apply mirror_unit.
Qed.
Theorem C18_nonfinite (o : out_of_range) (x : f32) : (forall z, o <> OtherOutOfRange z) -> unit_or_nan (apply_out_of_range (N := N) o x).
Proof. intros Ho. destruct o; [apply clamp_unit|apply repeat_unit|apply mirror_unit|destruct (Ho code eq_refl)]. Qed.
(** Positions inside the range are kept. *)
Theorem C18_inside (o : out_of_range) (x : f32) : (forall z, o <> OtherOutOfRange z) -> fle f0 x = true -> fle x f1 = true ->
  (o = kRepeat -> flt x f1 = true) -> feq (apply_out_of_range (N := N) o x) x = true.
Proof.
  intros Ho A B C. destruct o; [|apply repeat_same; auto|apply mirror_same; auto|destruct (Ho code eq_refl)].
  rewrite clamp_same by assumption. apply feq_refl. apply (fle_not_nan _ _ A).
Qed.
(** Repeating is not half open: a tiny negative position gives 1. *)
Theorem C18_half_open_refuted : let x := fdy (-1) (-149) in flt x f0 = true /\ feq (apply_out_of_range (N := N) kRepeat x) f1 = true.
Proof. split; vm_compute; reflexivity. Qed.

(** *** C19 *)
Section C19.
Variables (t : brush_tip N) (x y : f32) (dir : option f32) (size : f32) (tms : list (target * f32)).
Local Notation s := (create_tip_state (N := N) x y dir t size tms).
(** For a valid tip and finite modifiers, however many and however large: *)
Theorem C19_offsets_in_range : valid_tip (N := N) t = true -> finite_tms tms ->
  within (fopp (quarter_turn (N := N))) (quarter_turn (N := N)) (ts_slant (N := N) s) /\
  within f0 f1 (ts_pinch (N := N) s) /\ within f0 f1 (ts_percent_radius (N := N) s) /\ within (fZ (-1)) f1 (ts_luminosity (N := N) s).
Proof. intros V F. exact (additive_ranges E t V x y dir size tms F). Qed.
Theorem C19_multipliers_in_range : valid_tip (N := N) t = true -> is_finite size = true -> fle f0 size = true ->
  in_or_nan f0 (fZ 2) (ts_saturation (N := N) s) /\ in_or_nan f0 (fZ 2) (ts_opacity (N := N) s) /\
  in_or_nan f0 (fmul (fmul size (scale_x (N := N) t)) (fZ 2)) (ts_width (N := N) s) /\
  in_or_nan f0 (fmul (fmul size (scale_y (N := N) t)) (fZ 2)) (ts_height (N := N) s).
Proof. intros V. exact (multiplicative_ranges E t V x y dir size tms). Qed.
(** NaN needs an infinite product times zero: it is excluded when no multiplier is zero, and
    when no multiplier is above 1. *)
Theorem C19_no_nan : valid_tip (N := N) t = true -> finite_tms tms ->
  (no_zero tms /\ feq (opacity_multiplier (N := N) t) f0 = false) \/ no_gain tms ->
  is_finite (fmul size (scale_x (N := N) t)) = true -> is_finite (fmul size (scale_y (N := N) t)) = true ->
  fle f0 (fmul size (scale_x (N := N) t)) = true -> fle f0 (fmul size (scale_y (N := N) t)) = true ->
  is_nan (ts_saturation (N := N) s) = false /\ is_nan (ts_opacity (N := N) s) = false /\
  is_nan (ts_width (N := N) s) = false /\ is_nan (ts_height (N := N) s) = false.
Proof. intros V F. exact (no_nan E t V x y dir size tms F). Qed.
End C19.
Definition plain_tip (bs : list (list node32)) : brush_tip N :=
  @Build_brush_tip N f1 f1 f1 f0 f0 f0 f1 f0 f0 bs.
Definition huge : f32 := fdy 1 127.
(** Otherwise finite modifiers can make the width NaN. *)
Theorem C19_overflow_refuted : let tms := [(kWidthMultiplier, huge); (kWidthMultiplier, huge); (kWidthMultiplier, f0)] in
  valid_tip (plain_tip []) = true /\ finite_tms tms /\
  is_nan (ts_width (N := N) (create_tip_state (N := N) f0 f0 None (plain_tip []) f1 tms)) = true.
Proof. split; [vm_compute; reflexivity|]. split; [repeat constructor|]. vm_compute. reflexivity. Qed.

(** *** C20 in floats: the order of behaviors can decide between 0 and NaN *)
Theorem C20_floats_refuted : exists tms tms' : list (target * f32), Permutation tms tms' /\ finite_tms tms /\
  is_nan (ts_width (N := N) (create_tip_state (N := N) f0 f0 None (plain_tip []) f1 tms)) = true /\
  feq (ts_width (N := N) (create_tip_state (N := N) f0 f0 None (plain_tip []) f1 tms')) f0 = true.
Proof.
  exists [(kWidthMultiplier, huge); (kWidthMultiplier, huge); (kWidthMultiplier, f0)], [(kWidthMultiplier, huge); (kWidthMultiplier, f0); (kWidthMultiplier, huge)].
  split; [apply perm_skip, perm_swap|]. split; [repeat constructor|]. split; vm_compute; reflexivity.
Qed.
End Props.

(** *** Exact arithmetic *)
Local Notation X := xnum.
Theorem C16_valid_iff_listing_exact (l : list (node X)) :
  valid_behavior l = true <-> Forall documented_node l /\ exists rs : list (root X unit), lists l rs.
Proof. exact (valid_behavior_iff (M := unit) xlaws tt l). Qed.
Theorem C17_starts_exact (t : brush_tip X) (sz : R) : forallb valid_behavior (behaviors t) = true -> 0 < sz ->
  exists fuel m, start_stroke fuel t (Fin sz) = Some m.
Proof.
  intros V P. apply (start_succeeds xlaws t (Fin sz) xbuilds V); [reflexivity|]. rewrite x0. cbn. destruct (Rlt_bool_spec 0 sz); [reflexivity|lra].
Qed.
Theorem C17_execution_exact (fuel : nat) (t : brush_tip X) (sz : ereal) (m : tip_modeler X) (cs : list (context X)) :
  forallb valid_behavior (behaviors t) = true -> start_stroke fuel t sz = Some m -> has_history cs ->
  (exists rs : list (root X (option ereal)), lists (concat (behaviors t)) rs /\ Forall fresh_root rs) /\
  forall rs : list (root X (option ereal)), lists (concat (behaviors t)) rs -> Forall fresh_root rs ->
    targets m = map (r_target _) rs /\
    exists rs' k, run_inputs (nodes m) cs (start_machine m) = Some k /\ stack k = [] /\
      modifiers k = map (r_modifier _) rs' /\ all_steps cs rs rs'.
Proof.
  intros V H HC. destruct (behaviors_documented xlaws _ V) as (D & W). split; [exact W|]. intros rs Ls Fr.
  exact (stroke_run xlaws xreads fuel t sz m rs cs H D Ls Fr HC).
Qed.

(** C20: one tip state *)
Theorem C20_order_of_modifiers (x y : ereal) (dir : option ereal) (t : brush_tip X) (size : ereal) (tms tms' : list (target * ereal)) :
  Permutation tms tms' -> create_tip_state (N := X) x y dir t size tms' = create_tip_state (N := X) x y dir t size tms.
Proof. intros P. apply create_perm; [repeat split|exact P]. Qed.
(** C20: a whole stroke.  Tips that differ only in the order of their behaviors give the
    same tip states after every update of every stroke. *)
Theorem C20_order_of_behaviors (fuel f f' : nat) (t t' : brush_tip X) (sz : ereal) (m m' : tip_modeler X)
    (us : list (input_state X * list (modeled_input X))) :
  same_shape t t' -> Permutation (behaviors t) (behaviors t') -> forallb valid_behavior (behaviors t) = true ->
  start_stroke f t sz = Some m -> start_stroke f' t' sz = Some m' -> outputs fuel m us = outputs fuel m' us.
Proof. intros Sh P V H H'. apply outputs_sim. exact (perm_started f f' t t' sz m m' Sh P V H H'). Qed.

(** *** C53: what each node means *)
Theorem C53_sources (i : rinput) (dir : option R) (size : R) (s : rstate) (src : source) : 0 < size -> exists r,
  get_source_value (N := X) (fin_input i) (option_map Fin dir) (Fin size) (fin_state s) src = fin_value r /\ source_means i dir size s src r.
Proof. exact (source_x i dir size s src). Qed.
Theorem C53_source_position (lo hi v : R) : lo <> hi -> exists r,
  inverse_lerp (N := X) (Fin lo) (Fin hi) (Fin v) = Fin r /\ (1 - r) * lo + r * hi = v.
Proof. exact (inverse_lerp_x lo hi v). Qed.
Theorem C53_out_of_range (o : out_of_range) (x : R) : (forall z, o <> OtherOutOfRange z) -> exists y,
  apply_out_of_range (N := X) o (Fin x) = Fin y /\ out_of_range_means o x y.
Proof. exact (out_of_range_x o x). Qed.
Theorem C53_binary (o : binary_op) (a b : R) : (forall z, o <> OtherBinaryOp z) -> exists r,
  binary_step (N := X) o (Some (Fin a)) (Some (Fin b)) = Some (Fin r) /\ binary_means o a b r.
Proof. exact (binary_x o a b). Qed.
Theorem C53_interpolation (i : interpolation) (p lo hi : R) : (forall z, i <> OtherInterpolation z) -> exists r,
  interp_step (N := X) i (Some (Fin p)) (Some (Fin lo)) (Some (Fin hi)) = fin_value r /\ interpolation_means i p lo hi r.
Proof. exact (interp_x i p lo hi). Qed.
(** Damping: the distance to the input decays exponentially with progress. *)
Theorem C53_damping (s : rstate) (i : rinput) (dir : option ereal) (size pt pe : R) (d : damping_source) (gap old x : R) :
  (forall z, d <> OtherDamping z) -> 0 < size -> 0 < gap -> exists y,
  damp_step (N := X) (@Build_context X (fin_state s) (fin_input i) dir (Fin size) (Some (@Build_metrics X (Fin pt) (Fin pe))))
    d (Fin gap) (Some (Fin old)) (Some (Fin x)) = Some (Fin y) /\
  match damp_progress s i size pt pe d with None => y = x | Some (p, u) => damps p (u * gap) old x y end.
Proof. exact (damp_step_x s i dir size pt pe d gap old x). Qed.
(** A damped value never overshoots, and for a constant input does not depend on how often it is sampled. *)
Theorem C53_damping_between (p gap old x y : R) : 0 < gap -> damps p gap old x y -> Rmin old x <= y <= Rmax old x.
Proof. exact (damps_between p gap old x y). Qed.
Theorem C53_damping_sampling (p q gap old x y z : R) : 0 < gap -> 0 <= p -> 0 <= q ->
  damps p gap old x y -> damps q gap y x z -> damps (p + q) gap old x z.
Proof. exact (damps_compose p q gap old x y z). Qed.
Theorem C53_direction (inputs : list rinput) (k : nat) : (k < length inputs)%nat -> exists d,
  travel_direction (N := X) (map fin_input inputs) k = Some (fin_value d) /\ direction_means inputs k d.
Proof. exact (direction_x inputs k). Qed.

(** *** C54: the tip state is the documented function of tip, brush size and modifiers *)
Theorem C54_tip_state (x y : R) (dir : option R) (p : rtip) (bs : list (list (node X))) (size : R) (tms : list (target * R)) :
  valid_tip (N := X) (fin_tip p bs) = true -> exists z,
  create_tip_state (N := X) (Fin x) (Fin y) (option_map Fin dir) (fin_tip p bs) (Fin size) (fin_tms tms) = fin_tip_state z /\
  tip_state_means x y dir p size tms z.
Proof. exact (tip_state_x x y dir p bs size tms). Qed.

Print Assumptions C16_valid_iff_listing.
Print Assumptions C16_flattening_valid.
Print Assumptions C16_listing_unique.
Print Assumptions C16_post_order_only_refuted.
Print Assumptions C17_starts.
Print Assumptions C17_execution.
Print Assumptions C17_value_unique.
Print Assumptions C18_range.
Print Assumptions C18_nonfinite.
Print Assumptions C18_inside.
Print Assumptions C18_half_open_refuted.
Print Assumptions C19_offsets_in_range.
Print Assumptions C19_multipliers_in_range.
Print Assumptions C19_no_nan.
Print Assumptions C19_overflow_refuted.
Print Assumptions C20_floats_refuted.
Print Assumptions C16_valid_iff_listing_exact.
Print Assumptions C17_starts_exact.
Print Assumptions C17_execution_exact.
Print Assumptions C20_order_of_modifiers.
Print Assumptions C20_order_of_behaviors.
Print Assumptions C53_sources.
Print Assumptions C53_source_position.
Print Assumptions C53_out_of_range.
Print Assumptions C53_binary.
Print Assumptions C53_interpolation.
Print Assumptions C53_damping.
Print Assumptions C53_damping_between.
Print Assumptions C53_damping_sampling.
Print Assumptions C53_direction.
Print Assumptions C54_tip_state.

(** *** Concrete cases meeting the hypotheses *)
Local Notation N0 := (fnum E0).
Local Notation src := (SourceNode (N := N0)). Local Notation cst := (ConstantNode (N := N0)).
(** width from pressure, damped over a second and eased; luminosity from speed scaled by tilt *)
Definition ex_nodes : list (node N0) :=
  [src kNormalizedPressure kClamp f0 f1; DampingNode (N := N0) kTimeInSeconds f1; ResponseNode (N := N0) (ESteps (N := N0) 4 2);
   TargetNode (N := N0) kWidthMultiplier half32 (fZ 2);
   src kSpeedInMultiplesOfBrushSizePerSecond kMirror f0 (fZ 10); src kTiltInRadians kClamp f0 f1; BinaryOpNode (N := N0) kProduct;
   TargetNode (N := N0) kLuminosity (fZ (-1)) f1].
Definition ex_tip : brush_tip N0 := plain_tip E0 [ex_nodes; [cst half32; TargetNode (N := N0) kPinchOffset f0 f1]].
Example ex_valid : valid_behavior ex_nodes = true /\ valid_tip ex_tip = true. Proof. split; vm_compute; reflexivity. Qed.
Example ex_started : match start_stroke 10 ex_tip (fZ 5) with Some m => Nat.eqb (length (nodes m)) 10 && Nat.eqb (length (cur_damped m)) 1 | None => false end = true.
Proof. vm_compute. reflexivity. Qed.
Definition ex_input (p t : f32) : modeled_input N0 := @Build_modeled_input N0 f1 f1 f1 f0 f0 f0 (fZ 3) t p q14 f1.
Definition ex_state : input_state N0 := @Build_input_state N0 kStylus None (fZ 4) (fZ 9) (fZ 4) (fZ 9) 1 1.
Definition ex_contexts : list (context N0) :=
  [@Build_context N0 ex_state (ex_input half32 f0) None (fZ 5) None;
   @Build_context N0 ex_state (ex_input f1 f1) None (fZ 5) (Some (@Build_metrics N0 (fZ 3) f0))].
Example ex_history : has_history ex_contexts. Proof. repeat constructor. discriminate. Qed.
(** the width multiplier moved away from its initial value *)
Example ex_run : match start_stroke 10 ex_tip (fZ 5) with
  | Some m => match run_inputs (nodes m) ex_contexts (start_machine m) with
              | Some k => match modifiers k with [w; _; p] => flt f0 w && negb (feq w f1) && feq p half32 | _ => false end
              | None => false end
  | None => false end = true.
Proof. vm_compute. reflexivity. Qed.
Example ex_modifiers : let tms := [(kSlantOffsetInRadians, fZ 7); (kWidthMultiplier, half32); (kLuminosity, fZ (-3))] in
  finite_tms tms /\ no_zero tms /\ is_finite (fZ 5) = true /\
  feq (ts_width (N := N0) (create_tip_state (N := N0) f0 f0 None ex_tip (fZ 5) tms)) (fdy 5 (-1)) = true.
Proof. split; [repeat constructor|]. split; [repeat constructor; intros; vm_compute; reflexivity|]. split; vm_compute; reflexivity. Qed.
(** a valid exact tip, and two orders of its behaviors *)
Definition ex_rtip : rtip := Build_rtip 1 (1/2) 1 0 0 0 1 0 0.
Definition ex_b1 : list (node X) := [ConstantNode (N := X) (Fin 1); TargetNode (N := X) kPinchOffset (Fin 0) (Fin 1)].
Definition ex_b2 : list (node X) := [ConstantNode (N := X) (Fin 2); TargetNode (N := X) kPinchOffset (Fin 0) (Fin (-1))].
Lemma ex_valid_exact : valid_tip (N := X) (fin_tip ex_rtip [ex_b1; ex_b2]) = true.
Proof.
  unfold valid_tip, fin_tip, ex_rtip, ex_b1, ex_b2, valid_behavior.
  rewrite ?x_quarter, ?x0, ?x1e, ?xZ. pose proof turn_pos.
  cbn [scale_x scale_y corner_rounding slant pinch rotation opacity_multiplier particle_gap_distance_scale particle_gap_duration behaviors p_scale_x p_scale_y p_rounding p_slant p_pinch p_rotation p_opacity p_gap_scale p_gap_duration forallb valid_from valid_node].
  unfold is_range_valid. cbn [X nfin nlt nle neqb nopp xopp xlt xle xeq is_valid_target]. unfold xle. cbn [xlt xeq].
  repeat match goal with |- context [Rlt_bool ?a ?b] => destruct (Rlt_bool_spec a b); try lra | |- context [Req_bool ?a ?b] => destruct (Req_bool_spec a b); try lra end; try reflexivity.
Qed.
Example ex_orders : same_shape (fin_tip ex_rtip [ex_b1; ex_b2]) (fin_tip ex_rtip [ex_b2; ex_b1]) /\ Permutation [ex_b1; ex_b2] [ex_b2; ex_b1].
Proof. split; [repeat split|apply perm_swap]. Qed.
