(** Property theorems about Stroke. *)
From Coq Require Import ZArith Reals List Bool Arith.
From Flocq Require Import IEEE754.BinarySingleNaN.
From Verif Require Import F32 BrushModel BrushSpec BrushProofs BatchModel StrokeModel StrokeSpec StrokeProofs.
Import ListNotations.
Local Open Scope nat_scope.

Section S.
(** Everything opaque: tips and their ==, geometry generation, mesh conversion. *)
Context {Tip Tex IM Col Mesh Group : Type}
  (tips_eqb : list Tip -> list Tip -> bool)
  (has_particles : list Tip -> bool)
  (build : IM -> list Tip -> bool -> f32 -> f32 -> list stroke_input -> Mesh)
  (from_groups : list Mesh -> option (list Group))
  (empty_group : Group).
Notation run := (stroke_run Tip Tex IM Col Mesh Group tips_eqb has_particles build from_groups empty_group).
Notation step := (stroke_step Tip Tex IM Col Mesh Group tips_eqb has_particles build from_groups empty_group).
Notation of_inputs := (stroke_of_inputs Tip Tex IM Col Mesh Group has_particles build from_groups empty_group).
Notation up_to_date := (up_to_date Tip Tex IM Col Mesh Group has_particles build from_groups empty_group).
Notation tracked_history := (tracked_history Tip Tex IM Col Mesh Group tips_eqb has_particles build from_groups empty_group).
Notation counted := (counted Tip Tex IM Col Group).
Notation legal_brush := (legal_brush Tip Tex IM Col).
Notation brush_of := (s_brush Tip Tex IM Col Group).
Notation inputs_of := (s_inputs Tip Tex IM Col Group).
Notation shape_of := (s_shape Tip Tex IM Col Group).

(** C13: after any history of setters the shape is the one a new stroke with the
    current brush and inputs gets, provided no SetBrush/SetBrushFamily kept size,
    epsilon and tips while changing the input model or the winding-texture flag. *)
Theorem C13_shape_follows_setters :
  (forall im t1 t2 w s e i, tips_eqb t1 t2 = true -> build im t1 w s e i = build im t2 w s e i) ->
  forall b i os, legal_brush b -> tracked_history (of_inputs b i) os ->
  up_to_date (run (of_inputs b i) os).
Proof.
  intros X b i os L T. apply run_ok; [exact X|exact L|reflexivity|exact T].
Qed.

(** C13: one render group per brush coat, after every history, tracked or not. *)
Theorem C13_one_group_per_coat :
  (forall ms gs, from_groups ms = Some gs -> length gs = length ms) ->
  forall b i os, counted (run (of_inputs b i) os).
Proof.
  intros X b i os. apply run_counted; [exact X|]. unfold counted. cbn. apply regen_length, X.
Qed.
Theorem C13_one_group_per_coat_from_shape :
  (forall ms gs, from_groups ms = Some gs -> length gs = length ms) ->
  forall b i g s os, stroke_of_shape Tip Tex IM Col Group b i g = Some s -> counted (run s os).
Proof.
  intros X b i g s os H. apply run_counted; [exact X|]. unfold stroke_of_shape in H.
  destruct (Nat.eqb_spec (length g) (length (get_coats Tip Tex IM Col b))) as [E|]; [|discriminate].
  injection H as <-. exact E.
Qed.

(** C13: SetBrushSize and SetBrushEpsilon succeed exactly on legal values; when they
    fail the stroke is unchanged. *)
Theorem C13_failed_setter_changes_nothing : forall s o,
  legal_brush (brush_of s) -> fst (step s o) = false -> snd (step s o) = s.
Proof. intros s o. apply failed_setter. Qed.
Theorem C13_setters_succeed_iff_legal : forall s v, legal_brush (brush_of s) ->
  (fst (step s (SSize _ _ _ _ v)) = true <-> legal_sizes v (b_epsilon (brush_of s))) /\
  (fst (step s (SEpsilon _ _ _ _ v)) = true <-> legal_sizes (b_size (brush_of s)) v).
Proof. intros s v. apply setter_fails_iff. Qed.

(** C13: SetBrushColor never touches the shape or the inputs. *)
Theorem C13_color_keeps_shape : forall s c,
  shape_of (snd (step s (SColor _ _ _ _ c))) = shape_of s /\
  inputs_of (snd (step s (SColor _ _ _ _ c))) = inputs_of s.
Proof. intros; split; reflexivity. Qed.

(** C13: SetInputs with the stroke's own inputs empties the stroke. *)
Theorem C13_set_own_inputs_empties : forall s,
  inputs_of (snd (step s (SInputs _ _ _ _ None))) = [] /\
  (forall l, inputs_of (snd (step s (SInputs _ _ _ _ (Some l)))) = l).
Proof. intros; split; reflexivity. Qed.
End S.
Print Assumptions C13_shape_follows_setters.
Print Assumptions C13_one_group_per_coat.
Print Assumptions C13_one_group_per_coat_from_shape.
Print Assumptions C13_failed_setter_changes_nothing.
Print Assumptions C13_setters_succeed_iff_legal.
Print Assumptions C13_color_keeps_shape.
Print Assumptions C13_set_own_inputs_empties.

(** An instance that keeps the arguments: meshes and groups record what they were
    built from.  Tips are numbers; tips above 10 emit particles. *)
Definition rec_mesh : Type := nat * list nat * bool * bool.
Definition rec_build (im : nat) (t : list nat) (w : bool) (s e : f32) (i : list stroke_input) : rec_mesh :=
  (im, t, w, feq s e).
Definition nat_tips_eqb (a b : list nat) : bool := if list_eq_dec Nat.eq_dec a b then true else false.
Definition particles (t : list nat) : bool := existsb (Nat.ltb 10) t.
Notation rstep := (stroke_step nat unit nat nat rec_mesh (option rec_mesh) nat_tips_eqb particles rec_build
                     (fun ms => Some (map Some ms)) None).
Notation rof := (stroke_of_inputs nat unit nat nat rec_mesh (option rec_mesh) particles rec_build
                   (fun ms => Some (map Some ms)) None).
Definition fam (im : nat) (tip : nat) (winding : bool) : family nat unit nat :=
  Build_family nat unit nat
    [Build_coat nat unit [tip] [Build_layer unit winding tt]] im.
Definition pt : stroke_input :=
  {| tool := 0%Z; px := f0; py := f0; etime := f0; unit_len := f0;
     pressure := kNo; tilt := kNo; orientation := kNo |}.

(** C13: the unrestricted claim is false: changing only the input model, or only the
    texture mapping of a particle brush, leaves a stale shape. *)
Theorem C13_stale_shape_refuted :
  let b := Build_brush (fam 0 11 false) 0 (fZ 5) f1 in
  let s := rof b [pt] in
  let up := up_to_date nat unit nat nat rec_mesh (option rec_mesh) particles rec_build
              (fun ms => Some (map Some ms)) None in
  up s /\ ~ up (snd (rstep s (SFamily _ _ _ _ (fam 1 11 false)))) /\
  ~ up (snd (rstep s (SFamily _ _ _ _ (fam 0 11 true)))).
Proof.
  cbv zeta. split; [reflexivity|]. split; intros H; vm_compute in H; discriminate H.
Qed.
Print Assumptions C13_stale_shape_refuted.

(** a history that meets the hypotheses, with several kinds of change *)
Example C13_tracked_example :
  let b := Build_brush (fam 0 1 false) 0 (fZ 5) f1 in
  tracked_history nat unit nat nat rec_mesh (option rec_mesh) nat_tips_eqb particles rec_build
    (fun ms => Some (map Some ms)) None (rof b [pt])
    [SFamily _ _ _ _ (fam 0 2 true); SSize _ _ _ _ (fZ 7); SColor _ _ _ _ 3; SSize _ _ _ _ fnan;
     SInputs _ _ _ _ (Some [pt]); SFamily _ _ _ _ (fam 0 2 false)].
Proof. cbn. repeat split; try (left; reflexivity); right; split; [reflexivity|repeat constructor]. Qed.
Example C13_legal_example :
  legal_brush nat unit nat nat (Build_brush (fam 0 1 false) 0 (fZ 5) f1).
Proof.
  assert (V : validate_size (fZ 5) = true /\ validate_epsilon f1 = true /\ validate_relative (fZ 5) f1 = true)
    by (vm_compute; auto).
  destruct V as (V1 & V2 & V3). apply valid_size_spec in V1. apply valid_epsilon_spec in V2.
  unfold legal_brush, legal_sizes. cbn [b_size b_epsilon].
  apply valid_relative_spec in V3; tauto.
Qed.
