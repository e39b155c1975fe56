(** Property theorems about StrokeInputBatch. *)
From Coq Require Import ZArith Reals List Bool Arith Lia.
From Flocq Require Import IEEE754.BinarySingleNaN.
From Verif Require Import F32 BatchModel BatchSpec BatchValid BatchProofs BatchHistory.
Import ListNotations.
Local Open Scope nat_scope.

(** C05: after every history of API calls on any number of batches that contains no
    Transform and erases only at the ends, every batch (not moved from) reads back as
    a valid sequence. *)
Theorem C05_batch_always_valid : forall n os,
  within_contract n empty_lists os -> gentle_history n empty_lists os ->
  forall i, i < n ->
  (exists rs s, lrun n empty_lists os rs s /\ s i = None) \/
  exists l, shows (snd (brun (binit n) os)) i l /\ valid_sequence l.
Proof. exact valid_history. Qed.
Print Assumptions C05_batch_always_valid.

(** Inputs used in the examples: position (x, y), time t, in integers. *)
Definition inp (x y t : Z) : stroke_input :=
  {| tool := 3%Z; px := fZ x; py := fZ y; etime := fZ t; unit_len := f1;
     pressure := f1; tilt := kNo; orientation := f0 |}.

(** C05, refutation of the unrestricted claim: erasing from the middle can make two
    equal inputs neighbours, although every call succeeded. *)
Definition C05_bad_history : list bop :=
  [BCreate 0 [inp 1 1 0; inp 2 2 0; inp 1 1 0]; BErase 0 1 1].
Theorem C05_inner_erase_refuted : exists n os l,
  within_contract n empty_lists os /\
  Forall (fun o => match o with BTransform _ _ => False | _ => True end) os /\
  fst (brun (binit n) os) = [ROk; ROk] /\
  b_iterate (snd (brun (binit n) os)) 0 = Some l /\ ~ valid_sequence l.
Proof.
  exists 1, C05_bad_history,
    (match b_iterate (snd (brun (binit 1) C05_bad_history)) 0 with Some l => l | None => [] end).
  split; [apply plain_contract; [repeat constructor|discriminate]|].
  split; [repeat constructor|].
  split; [vm_compute; reflexivity|]. split.
  - assert (E : match b_iterate (snd (brun (binit 1) C05_bad_history)) 0 with
                | Some _ => true | None => false end = true) by (vm_compute; reflexivity).
    destruct (b_iterate (snd (brun (binit 1) C05_bad_history)) 0); [reflexivity|discriminate E].
  - rewrite <- validate_sequence_spec. vm_compute. discriminate.
Qed.
Print Assumptions C05_inner_erase_refuted.

(** C05: the documentation excludes orientation 2 pi (half-open range), but an input
    with orientation Angle kFullTurn is accepted (and kFullTurn exceeds 2 pi). *)
Definition full_turn_input : stroke_input :=
  {| tool := 1%Z; px := f0; py := f0; etime := f0; unit_len := f0;
     pressure := kNo; tilt := kNo; orientation := kFullTurn |}.
Theorem C05_orientation_full_turn_accepted :
  fst (bstep (binit 1) (BAppend 0 full_turn_input)) = ROk.
Proof. vm_compute. reflexivity. Qed.
Print Assumptions C05_orientation_full_turn_accepted.

(** C06: for every history, the results of all calls and everything the const
    interface reports are those of the same history on plain lists. *)
Theorem C06_batch_is_a_list : forall n os, within_contract n empty_lists os ->
  exists rs s, lrun n empty_lists os rs s /\ fst (brun (binit n) os) = rs /\
    forall i l, i < n -> s i = Some l -> shows (snd (brun (binit n) os)) i l.
Proof. exact batch_is_list. Qed.
Print Assumptions C06_batch_is_a_list.

(** C06: the list semantics leaves no choice. *)
Theorem C06_list_semantics_deterministic : forall n s os rs1 s1 rs2 s2,
  lrun n s os rs1 s1 -> lrun n s os rs2 s2 -> rs1 = rs2 /\ s1 = s2.
Proof. exact lrun_det. Qed.
Print Assumptions C06_list_semantics_deterministic.

(** C06: a call which does not succeed changes nothing at all. *)
Theorem C06_error_changes_nothing : forall n os rs s o,
  within_contract n empty_lists os -> lrun n empty_lists os rs s -> call_ok n s o ->
  let w := snd (brun (binit n) os) in
  fst (bstep w o) <> ROk -> snd (bstep w o) = w.
Proof. exact error_changes_nothing. Qed.
Print Assumptions C06_error_changes_nothing.

(** C06: on a valid batch, a call succeeds exactly when the resulting list is valid. *)
Theorem C06_call_succeeds_iff_result_valid : forall n os rs s i l,
  within_contract n empty_lists os -> lrun n empty_lists os rs s ->
  i < n -> s i = Some l -> valid_sequence l ->
  let w := snd (brun (binit n) os) in
  let ok o := fst (bstep w o) = ROk in
  (forall x, ok (BAppend i x) <-> valid_sequence (l ++ [x])) /\
  (forall xs, ok (BAppendSpan i xs) <-> valid_sequence (l ++ xs)) /\
  (forall j lj, j < n -> j <> i -> s j = Some lj -> valid_sequence lj ->
     (ok (BAppendBatch i j) <-> valid_sequence (l ++ lj))) /\
  (forall k x, k < length l -> (ok (BSet i k x) <-> valid_sequence (replace k x l))) /\
  (forall xs, ok (BCreate i xs) <-> valid_sequence xs).
Proof. exact succeeds_iff_valid. Qed.
Print Assumptions C06_call_succeeds_iff_result_valid.

(** C07: a call changes nothing that another batch reports, whatever was copied
    before. *)
Theorem C07_copies_are_isolated : forall n os rs s o k l,
  within_contract n empty_lists os -> lrun n empty_lists os rs s -> call_ok n s o ->
  k < n -> s k = Some l -> ~ writes o k ->
  let w := snd (brun (binit n) os) in
  shows w k l /\ shows (snd (bstep w o)) k l.
Proof. exact frame. Qed.
Print Assumptions C07_copies_are_isolated.

(** C07: a moved-from batch keeps its old size, while reading it aborts. *)
Theorem C07_moved_from_size_is_stale :
  let w := snd (brun (binit 2) [BCreate 0 [inp 1 1 0]; BMove 1 0]) in
  m_size (bmeta w 0) = 1 /\ b_get w 0 0 = None.
Proof.
  split; [vm_compute; reflexivity|].
  assert (E : match b_get (snd (brun (binit 2) [BCreate 0 [inp 1 1 0]; BMove 1 0])) 0 0 with
              | None => true | Some _ => false end = true) by (vm_compute; reflexivity).
  destruct (b_get _ 0 0); [discriminate E|reflexivity].
Qed.
Print Assumptions C07_moved_from_size_is_stale.

(** C08: Transform changes positions only; it keeps a valid batch valid exactly when
    all new positions are finite and no two neighbours coincide. *)
Theorem C08_transform_moves_positions_only : forall n os rs s i l f,
  within_contract n empty_lists os -> lrun n empty_lists os rs s -> i < n -> s i = Some l ->
  let w := snd (brun (binit n) os) in
  fst (bstep w (BTransform i f)) = ROk /\
  shows w i l /\
  shows (snd (bstep w (BTransform i f))) i (map (move_position f) l) /\
  b_duration (snd (bstep w (BTransform i f))) i = b_duration w i /\
  (valid_sequence l ->
     (valid_sequence (map (move_position f) l) <->
      (forall x, In x l -> fin (fst (f (px x) (py x))) /\ fin (snd (f (px x) (py x)))) /\
      no_repeat (map (move_position f) l))).
Proof. exact transform_effect. Qed.
Print Assumptions C08_transform_moves_positions_only.

(** *** Non-vacuity *)
Definition input_bits_eqb (x y : stroke_input) : bool :=
  (tool x =? tool y)%Z && fbits_eqb (px x) (px y) && fbits_eqb (py x) (py y)
  && fbits_eqb (etime x) (etime y) && fbits_eqb (unit_len x) (unit_len y)
  && fbits_eqb (pressure x) (pressure y) && fbits_eqb (tilt x) (tilt y)
  && fbits_eqb (orientation x) (orientation y).
Fixpoint list_eqb {A} (eq : A -> A -> bool) (l r : list A) : bool :=
  match l, r with
  | [], [] => true
  | x :: l', y :: r' => eq x y && list_eqb eq l' r'
  | _, _ => false
  end.
Definition same_contents := list_eqb (fun a b =>
  match a, b with Some l, Some r => list_eqb input_bits_eqb l r | None, None => true | _, _ => false end).
Definition shift (dx dy : Z) := affine_apply f1 f0 (fZ dx) f0 f1 (fZ dy).
Definition C06_history : list bop :=
  [BAppend 0 (inp 0 0 0); BAppendSpan 0 [inp 1 0 1; inp 2 0 2]; BCopy 1 0; BSet 1 1 (inp 5 5 1);
   BAppend 0 (inp 2 0 2); BAppendBatch 2 0; BTransform 2 (shift 10 20); BErase 0 0 1;
   BDeepCopy 3 1; BErase 3 2 9; BClear 1].
Example C06_history_in_contract : within_contract 4 empty_lists C06_history.
Proof. apply plain_contract; [repeat constructor|discriminate]. Qed.
(** the fifth call fails: it repeats the last input *)
Example C06_history_results : fst (brun (binit 4) C06_history) =
  [ROk; ROk; ROk; ROk; RErr; ROk; ROk; ROk; ROk; ROk; ROk].
Proof. vm_compute. reflexivity. Qed.
Example C06_history_contents :
  same_contents (map (b_iterate (snd (brun (binit 4) C06_history))) [0; 1; 2; 3])
  [Some [inp 1 0 1; inp 2 0 2]; Some []; Some [inp 10 20 0; inp 11 20 1; inp 12 20 2];
   Some [inp 0 0 0; inp 5 5 1]] = true.
Proof. vm_compute. reflexivity. Qed.
(** a history meeting the hypotheses of C05, with an erase at each end *)
Definition C05_history : list bop :=
  [BCreate 0 [inp 0 0 0; inp 1 0 1; inp 2 0 2]; BErase 0 0 1; BErase 0 1 7; BCopy 1 0;
   BAppend 1 (inp 4 4 4)].
Example C05_history_in_contract : within_contract 2 empty_lists C05_history.
Proof. apply plain_contract; [repeat constructor|discriminate]. Qed.
Example C05_history_gentle : gentle_history 2 empty_lists C05_history.
Proof.
  assert (V : valid_sequence [inp 0 0 0; inp 1 0 1; inp 2 0 2])
    by (rewrite <- validate_sequence_spec; vm_compute; reflexivity).
  constructor; [exact I|]. intros r s L _. inversion L as [| | | | | | | | | | | | | |? ? ? ?| | | | |]; subst; [|contradiction].
  constructor; [intros l _; left; reflexivity|]. intros r s' L' _. inversion L'; subst; [|cbn in *; lia].
  match goal with H : upd _ _ _ _ = Some _ |- _ => cbn in H; injection H as <- end.
  constructor; [intros l; cbn; intros [= <-]; right; cbn; lia|]. intros ? ? _ _.
  constructor; [exact I|]. intros ? ? _ _. constructor; [exact I|]. intros ? ? _ _. constructor.
Qed.
(** appending a batch to itself can reach undefined behaviour *)
Example C06_self_append_undefined :
  fst (brun (binit 1) [BCreate 0 [inp 0 0 0; inp 1 0 0]; BAppendBatch 0 0]) = [ROk; RUB].
Proof. vm_compute. reflexivity. Qed.
(** a Transform which collapses two inputs makes the batch invalid *)
Example C08_collapse_invalid :
  validate_sequence (map (move_position (fun _ _ => (f0, f0))) [inp 0 0 0; inp 1 0 0]) = false /\
  validate_sequence [inp 0 0 0; inp 1 0 0] = true.
Proof. vm_compute. split; reflexivity. Qed.
