(** Property theorems about InProgressStroke.  [reached os] is the object after the
    calls [os] on a new InProgressStroke, [accounted os] what these calls and their
    results amount to (IpsSpec.v, [book]).  The shape builders are arbitrary. *)
From Coq Require Import ZArith Reals List Bool Arith Lia.
From Flocq Require Import IEEE754.BinarySingleNaN.
From Verif Require Import F32 BatchModel BatchSpec BatchValid BatchProps DurationModel
  IpsModel IpsSpec IpsProofs.
Import ListNotations.
Local Open Scope nat_scope.

Section Props.
Variables Br B Reg : Type.
Variable coat_count : Br -> nat.
Variable start : Br -> nat -> B.
Variable extend : B -> list stroke_input -> list stroke_input -> f32 -> B * Reg.
Variable unfinished : B -> bool.
Variable reg_empty : Reg.
Variable reg_add : Reg -> Reg -> Reg.
Notation step := (ips_step Br B Reg coat_count start extend reg_empty reg_add).
Notation reached := (reached Br B Reg coat_count start extend reg_empty reg_add).
Notation accounted := (accounted Br B Reg coat_count start extend reg_empty reg_add).
Notation needs_update := (ips_needs_update Br B Reg coat_count unfinished).

(** C09: GetInputs is every accepted and processed real input since Start, then the last
    processed prediction; the counts are the lengths of the parts. *)
Theorem C09_inputs_reported : forall os, Forall good_args os ->
  let s := reached os in let m := accounted os in
  processed s = one_unit (real_done m ++ shown m) /\
  ips_input_count s = length (real_done m) + length (shown m) /\
  real_count s = length (real_done m) /\
  ((Z.of_nat (length (shown m)) < 2 ^ 64)%Z -> ips_predicted_count s = Z.of_nat (length (shown m))) /\
  i_brush s = brush_of m /\ finished s = ended m /\ elapsed s = clock m.
Proof. exact (whole_report Br B Reg coat_count start extend reg_empty reg_add). Qed.

(** C09: what GetInputs reports is a valid sequence. *)
Theorem C09_inputs_valid : forall os, Forall good_args os ->
  valid_sequence (real_done (accounted os) ++ shown (accounted os)).
Proof. intros os G. apply (I_vshown _ _ _ _ _ _ _ _ (reached_inv _ _ _ _ _ _ reg_empty reg_add os G)). Qed.

(** C10: no call aborts; a call either succeeds, or returns an error and changes
    nothing; EnqueueInputs succeeds exactly on a started, unfinished stroke when all
    real inputs followed by the new ones form a valid sequence, UpdateShape exactly on
    a started stroke when the time is not below 0 or the previous time. *)
Theorem C10_all_or_nothing : forall os o, Forall good_args os -> good_args o ->
  let (r, s') := step (reached os) o in
  r = ROk /\ must_succeed (accounted os) o \/
  r = RErr /\ s' = reached os /\ ~ must_succeed (accounted os) o.
Proof.
  intros os o G Go.
  pose proof (step_spec Br B Reg coat_count start extend reg_empty reg_add _ _ o
    (reached_inv Br B Reg coat_count start extend reg_empty reg_add os G) Go) as H.
  destruct (step (reached os) o). apply H.
Qed.

(** C10: between Starts the recorded time never decreases, as long as it is a number. *)
Theorem C10_time_advances : forall os o s', Forall good_args os -> good_args o -> is_reset o = false ->
  step (reached os) o = (ROk, s') ->
  is_nan (elapsed (reached os)) = false -> is_nan (elapsed s') = false ->
  fle (elapsed (reached os)) (elapsed s') = true.
Proof. exact (time_advances Br B Reg coat_count start extend reg_empty reg_add). Qed.

(** C11: updating a finished stroke that needs no update keeps its inputs exactly when
    it shows no prediction. *)
Theorem C11_dry_keeps_inputs_iff : forall os t s', Forall good_args os ->
  finished (reached os) = true -> needs_update (reached os) = false ->
  step (reached os) (IUpdate t) = (ROk, s') ->
  (processed s' = processed (reached os) <-> shown (accounted os) = []).
Proof. exact (dry_update Br B Reg coat_count start extend unfinished reg_empty reg_add). Qed.

(** C11: one successful update after finishing suffices: until the next Start or Clear
    the inputs never change again and contain no prediction. *)
Theorem C11_settled_after_one_update : forall os t os2 s1, Forall good_args (os ++ IUpdate t :: os2) ->
  finished (reached os) = true -> step (reached os) (IUpdate t) = (ROk, s1) ->
  forallb (fun o => negb (is_reset o)) os2 = true ->
  shown (accounted (os ++ IUpdate t :: os2)) = [] /\
  processed (reached (os ++ IUpdate t :: os2)) = processed s1.
Proof. exact (dry_for_good Br B Reg coat_count start extend reg_empty reg_add). Qed.

(** C12: every coat's builder has received exactly the successful updates. *)
Theorem C12_builders_follow_calls : forall os b i, Forall good_args os ->
  brush_of (accounted os) = Some b -> i < coat_count b ->
  nth_error (builders (reached os)) i =
  Some (fold_left (fun bd c => fst (extend bd (c_real c) (c_pred c) (c_time c)))
          (calls (accounted os)) (start b i)).
Proof. exact (builders_report Br B Reg coat_count start extend reg_empty reg_add). Qed.

(** C12: after UpdateShape the inputs given to the builders are those of GetInputs,
    except exactly when nothing was queued on an unfinished stroke showing a prediction. *)
Theorem C12_geometry_agrees_iff : forall os t s', Forall good_args os ->
  step (reached os) (IUpdate t) = (ROk, s') ->
  let m := accounted os in
  (one_unit (reflected (calls (accounted (os ++ [IUpdate t])))) = processed s' <->
   ~ (ended m = false /\ real_wait m = [] /\ pred_wait m = [] /\ shown m <> [])).
Proof. exact (geometry_agrees Br B Reg coat_count start extend reg_empty reg_add). Qed.
End Props.
Print Assumptions C09_inputs_reported.
Print Assumptions C09_inputs_valid.
Print Assumptions C10_all_or_nothing.
Print Assumptions C10_time_advances.
Print Assumptions C11_dry_keeps_inputs_iff.
Print Assumptions C11_settled_after_one_update.
Print Assumptions C12_builders_follow_calls.
Print Assumptions C12_geometry_agrees_iff.

(** A concrete instance: brushes are coat counts, a builder counts its calls. *)
Definition x_extend (b : nat) (_ _ : list stroke_input) (_ : f32) : nat * nat := (S b, b).
Definition x_run := ips_run nat nat nat (fun b => b) (fun _ i => i) x_extend 0 Nat.add (ips_init nat nat nat 0).
Definition x_needs := ips_needs_update nat nat nat (fun b => b) (fun _ => false).

Definition dry_history : list (ips_op nat) :=
  [IStart 2; IEnqueue [inp 0 0 0; inp 1 0 1] [inp 2 0 2; inp 3 0 3]; IUpdate (fZ 1); IFinish].
Lemma good_example : forall o, In o dry_history -> good_args o.
Proof.
  intros o [<-|[<-|[<-|[<-|[]]]]]; try exact Logic.I.
  split; apply validate_sequence_spec; vm_compute; reflexivity.
Qed.
Lemma dry_history_good : Forall good_args dry_history.
Proof. apply Forall_forall, good_example. Qed.

(** C11: the documented meaning of NeedsUpdate fails: this finished stroke reports that
    it needs no update, yet the next UpdateShape removes two inputs. *)
Theorem C11_dry_stroke_changes_refuted : exists os t,
  Forall good_args os /\
  finished (snd (x_run os)) = true /\ x_needs (snd (x_run os)) = false /\
  length (processed (snd (x_run os))) = 4 /\
  length (processed (snd (x_run (os ++ [IUpdate t])))) = 2 /\
  fst (x_run (os ++ [IUpdate t])) = [ROk; ROk; ROk; ROk; ROk].
Proof.
  exists dry_history, (fZ 2). split; [exact dry_history_good|].
  split; [vm_compute; reflexivity|]. split; [vm_compute; reflexivity|]. split; [vm_compute; reflexivity|].
  split; vm_compute; reflexivity.
Qed.
Print Assumptions C11_dry_stroke_changes_refuted.

(** C12: the exceptional case is reachable: a second update with nothing queued leaves
    the prediction in GetInputs although the builders were last given none. *)
Theorem C12_prediction_without_geometry_refuted : exists os,
  Forall good_args os /\ fst (x_run os) = [ROk; ROk; ROk; ROk] /\
  length (processed (snd (x_run os))) = 4 /\
  length (reflected (calls (books (blank None true) os (fst (x_run os))))) = 2.
Proof.
  exists [IStart 2; IEnqueue [inp 0 0 0; inp 1 0 1] [inp 2 0 2; inp 3 0 3]; IUpdate (fZ 1); IUpdate (fZ 2)].
  split.
  - apply Forall_forall. intros o [<-|[<-|[<-|[<-|[]]]]]; try exact Logic.I.
    split; apply validate_sequence_spec; vm_compute; reflexivity.
  - split; [vm_compute; reflexivity|]. split; vm_compute; reflexivity.
Qed.
Print Assumptions C12_prediction_without_geometry_refuted.

(** C10: a NaN time is accepted, and afterwards the time may go back. *)
Theorem C10_nan_time_goes_back_refuted : exists os,
  Forall good_args os /\ fst (x_run os) = [ROk; ROk; ROk; ROk] /\
  In (IUpdate (fZ 5)) os /\ fbits_eqb (elapsed (snd (x_run os))) (fZ 1) = true.
Proof.
  exists [IStart 1; IUpdate (fZ 5); IUpdate fnan; IUpdate (fZ 1)].
  split; [apply Forall_forall; intros o [<-|[<-|[<-|[<-|[]]]]]; exact Logic.I|]. split; [vm_compute; reflexivity|].
  split; [right; left; reflexivity|vm_compute; reflexivity].
Qed.
Print Assumptions C10_nan_time_goes_back_refuted.

(** Hypotheses of the theorems met by a history with rejected calls, a replaced
    prediction, and an update after finishing. *)
Definition mixed_history : list (ips_op nat) :=
  [IUpdate (fZ 0); IStart 2; IEnqueue [inp 0 0 0] [inp 9 9 9]; IEnqueue [inp 0 0 0] [];
   IEnqueue [inp 1 0 1] [inp 2 0 2]; IUpdate (fZ 1); IUpdate (fZ 0);
   IEnqueue [inp 5 0 2; inp 6 0 3] []; IFinish; IEnqueue [inp 7 0 4] []; IUpdate (fZ 3)].
Example mixed_history_good : Forall good_args mixed_history.
Proof.
  repeat (apply Forall_cons; [try exact Logic.I; split; apply validate_sequence_spec; vm_compute; reflexivity|]).
  apply Forall_nil.
Qed.
Example mixed_history_results : fst (x_run mixed_history) =
  [RErr; ROk; ROk; RErr; ROk; ROk; RErr; ROk; ROk; RErr; ROk].
Proof. vm_compute. reflexivity. Qed.
Example mixed_history_inputs :
  list_eqb input_bits_eqb (processed (snd (x_run mixed_history)))
    [inp 0 0 0; inp 1 0 1; inp 5 0 2; inp 6 0 3] = true /\
  builders (snd (x_run mixed_history)) = [2; 3].
Proof. split; vm_compute; reflexivity. Qed.
