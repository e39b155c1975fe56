(** Reflection of the validation functions of StrokeInputBatch. *)
From Coq Require Import ZArith Reals List Bool Sorting.Sorted Lra Lia.
From Flocq Require Import Core IEEE754.BinarySingleNaN.
From Verif Require Import F32 F32Lemmas BatchModel BatchSpec.
Import ListNotations.
Open Scope R_scope.

Lemma kNo_R : val kNo = -1 /\ is_finite kNo = true.
Proof. apply fZ_exact. cbn; lia. Qed.

Lemma kQuarter_R : val kQuarterTurn = quarter_turn /\ is_finite kQuarterTurn = true.
Proof.
  destruct (fR_const kQuarterTurn false 13176795 (-23)) as [H1 H2]; [vm_compute; reflexivity|].
  split; [|exact H2]. rewrite H1. unfold F2R, quarter_turn. cbn. lra.
Qed.
Lemma kFull_R : val kFullTurn = full_turn /\ is_finite kFullTurn = true.
Proof.
  destruct (fR_const kFullTurn false 13176795 (-21)) as [H1 H2]; [vm_compute; reflexivity|].
  split; [|exact H2]. rewrite H1. unfold F2R, full_turn. cbn. lra.
Qed.

Lemma feq_num_eq a b : feq a b = true <-> num_eq a b.
Proof.
  split.
  - intros H. destruct (feq_not_nan _ _ H) as [Na Nb].
    destruct (is_finite a) eqn:Fa; destruct (is_finite b) eqn:Fb.
    + left. unfold fin. repeat split; try assumption.
      apply feq_spec in H; try assumption. rewrite !fX_finite in H by assumption. exact H.
    + exfalso. apply feq_spec in H; try assumption. rewrite (fX_finite a) in H by assumption.
      pose proof (fR_bounds a). destruct b as [|[]| |]; try discriminate; cbn [fX] in H; lra.
    + exfalso. apply feq_spec in H; try assumption. rewrite (fX_finite b) in H by assumption.
      pose proof (fR_bounds b). destruct a as [|[]| |]; try discriminate; cbn [fX] in H; lra.
    + right. destruct a as [|sa| |]; try discriminate; destruct b as [|sb| |]; try discriminate.
      exists sa. split; [reflexivity|]. destruct sa, sb; try reflexivity; discriminate.
  - intros [(Fa & Fb & H)|(s & -> & ->)].
    + apply feq_spec; try (apply finite_not_nan; assumption). rewrite !fX_finite by assumption. exact H.
    + destruct s; reflexivity.
Qed.

Lemma feq_absent v : feq v kNo = true <-> absent v.
Proof.
  rewrite feq_num_eq. unfold num_eq, absent. destruct kNo_R as [H1 H2]. split.
  - intros [(Fa & _ & H)|(s & _ & H)]; [rewrite H1 in H; auto|].
    rewrite H in H2. discriminate.
  - intros [F H]. left. rewrite H1. unfold fin. auto.
Qed.

Lemma has_absent v : fne v kNo = false <-> absent v.
Proof. unfold fne. fold (feq v kNo). rewrite negb_false_iff. apply feq_absent. Qed.

Lemma absent_dec v : absent v \/ ~ absent v.
Proof. rewrite <- has_absent. destruct (fne v kNo); [right|left]; congruence. Qed.

Lemma absent_eq v : absent v -> v = kNo.
Proof.
  intros H. apply feq_absent in H. destruct kNo_R as [H1 H2].
  apply feq_finite_inj in H; auto. rewrite H1. lra.
Qed.

Lemma opt_range hi v : fin hi -> 0 <= val hi ->
  (negb (fisfinite v) || (fne v kNo && negb (fge v f0 && fle v hi)) = false <->
   absent v \/ between 0 (val hi) v).
Proof.
  intros Fhi Hhi. unfold fisfinite, between, fin. rewrite orb_false_iff, negb_false_iff.
  destruct (fne v kNo) eqn:E.
  - assert (Na : ~ absent v) by (rewrite <- has_absent; congruence).
    rewrite andb_true_l, negb_false_iff, andb_true_iff. unfold fge. fold (fle f0 v).
    split.
    + intros (F & A & B). right. assert (N := finite_not_nan _ F).
      apply fle_spec in A; [|reflexivity|assumption]. apply fle_spec in B; [|assumption|apply finite_not_nan, Fhi].
      rewrite (fX_finite v) in * by assumption. rewrite fX_finite in B by assumption.
      rewrite fX_finite, f0_R in A by reflexivity. repeat split; assumption.
    + intros [A|(F & A & B)]; [contradiction|]. assert (N := finite_not_nan _ F).
      split; [exact F|]. split.
      * apply fle_spec; [reflexivity|assumption|]. rewrite !fX_finite, f0_R by (assumption || reflexivity). exact A.
      * apply fle_spec; [assumption|apply finite_not_nan, Fhi|]. rewrite !fX_finite by assumption. exact B.
  - cbn. apply has_absent in E. split; [auto|]. intros _. split; [apply E|reflexivity].
Qed.

Lemma validate_single_spec x : validate_single x = true <-> valid_input x.
Proof.
  unfold validate_single.
  destruct (negb (tool x =? 0)%Z && negb (tool x =? 1)%Z && negb (tool x =? 3)%Z && negb (tool x =? 2)%Z) eqn:E1.
  { split; [discriminate|]. intros [H _ _ _ _ _ _]. rewrite !andb_true_iff, !negb_true_iff, !Z.eqb_neq in E1. lia. }
  assert (T : tool x = 0%Z \/ tool x = 1%Z \/ tool x = 2%Z \/ tool x = 3%Z).
  { rewrite !andb_false_iff, !negb_false_iff, !Z.eqb_eq in E1. tauto. }
  destruct (negb (fisfinite (px x)) || negb (fisfinite (py x))) eqn:E2.
  { split; [discriminate|]. intros [_ [H1 H2] _ _ _ _ _]. unfold fisfinite, fin in *. rewrite H1, H2 in E2. discriminate. }
  rewrite orb_false_iff, !negb_false_iff in E2.
  destruct (negb (fisfinite (etime x)) || flt (etime x) f0) eqn:E3.
  { split; [discriminate|]. intros [_ _ [H1 H2] _ _ _ _]. unfold fisfinite, fin in *. rewrite H1 in E3. cbn [negb orb] in E3.
    apply flt_spec in E3; [|apply finite_not_nan, H1|reflexivity].
    rewrite !fX_finite, f0_R in E3 by (assumption || reflexivity). lra. }
  rewrite orb_false_iff, negb_false_iff in E3. destruct E3 as [E3a E3b].
  apply flt_false in E3b; [|apply finite_not_nan, E3a|reflexivity].
  rewrite !fX_finite, f0_R in E3b by (assumption || reflexivity).
  destruct (has_unit x && negb (fisfinite (unit_len x) && fgt (unit_len x) f0)) eqn:E4.
  { split; [discriminate|]. intros [_ _ _ [H1 H2] _ _ _]. unfold has_unit, fisfinite, fin in *.
    rewrite H1 in E4. rewrite andb_true_l, andb_true_iff, negb_true_iff in E4. destruct E4 as [A B].
    unfold fgt in B. apply flt_false in B; [|reflexivity|apply finite_not_nan, H1].
    rewrite !fX_finite, f0_R in B by (assumption || reflexivity).
    assert (feq (unit_len x) f0 = true).
    { apply feq_spec; [apply finite_not_nan, H1|reflexivity|].
      rewrite !fX_finite, f0_R by (assumption || reflexivity). lra. }
    unfold fne, kNoUnit in A. unfold feq in H. rewrite H in A. discriminate. }
  assert (U : fin (unit_len x) /\ 0 <= val (unit_len x)).
  { rewrite andb_false_iff in E4. destruct E4 as [A|A].
    - unfold has_unit, fne in A. rewrite negb_false_iff in A. apply feq_num_eq in A.
      destruct A as [(F & _ & V)|(s & _ & V)]; [|discriminate].
      split; [exact F|]. rewrite V. apply Rle_refl.
    - rewrite negb_false_iff, andb_true_iff in A. destruct A as [F V].
      split; [exact F|]. unfold fgt in V. apply flt_spec in V; [|reflexivity|apply finite_not_nan, F].
      rewrite !fX_finite, f0_R in V by (assumption || reflexivity). lra. }
  pose proof (opt_range f1 (pressure x) f1_finite ltac:(rewrite f1_R; lra)) as P5.
  rewrite f1_R in P5.
  destruct kQuarter_R as [Q1 Q2]. destruct kFull_R as [Q3 Q4].
  pose proof (opt_range kQuarterTurn (tilt x) Q2 ltac:(rewrite Q1; unfold quarter_turn; lra)) as P6.
  rewrite Q1 in P6.
  pose proof (opt_range kFullTurn (orientation x) Q4 ltac:(rewrite Q3; unfold full_turn; lra)) as P7.
  rewrite Q3 in P7.
  fold (has_pressure x) in P5. fold (has_tilt x) in P6. fold (has_orientation x) in P7.
  destruct (negb (fisfinite (pressure x)) || _).
  { split; [discriminate|]. intros [_ _ _ _ H _ _]. apply P5 in H. discriminate. }
  destruct (negb (fisfinite (tilt x)) || _).
  { split; [discriminate|]. intros [_ _ _ _ _ H _]. apply P6 in H. discriminate. }
  destruct (negb (fisfinite (orientation x)) || _).
  { split; [discriminate|]. intros [_ _ _ _ _ _ H]. apply P7 in H. discriminate. }
  split; [|reflexivity]. intros _. constructor; auto.
  - apply P5; reflexivity.
  - apply P6; reflexivity.
  - apply P7; reflexivity.
Qed.

(** What is needed of the operands of ValidateConsecutiveInputs: stored inputs
    have finite time and unit length even after a Transform. *)
Definition tame (x : stroke_input) : Prop :=
  fin (etime x) /\ fin (unit_len x).

Lemma valid_tame x : valid_input x -> tame x.
Proof. intros [_ _ [H _] [H' _] _ _ _]. split; assumption. Qed.

Lemma eqb_absent a b : Bool.eqb (fne a kNo) (fne b kNo) = true <-> (absent a <-> absent b).
Proof. rewrite eqb_true_iff, <- !has_absent. destruct (fne a kNo), (fne b kNo); intuition congruence. Qed.

Lemma validate_consecutive_spec a b : tame a -> tame b ->
  (validate_consecutive a b = true <-> may_follow a b).
Proof.
  intros [Ta Ua] [Tb Ub]. unfold validate_consecutive, may_follow, same_format, coincide.
  rewrite <- !feq_num_eq.
  destruct (negb (tool a =? tool b)%Z) eqn:E1.
  { rewrite negb_true_iff, Z.eqb_neq in E1. split; [discriminate|tauto]. }
  rewrite negb_false_iff, Z.eqb_eq in E1.
  destruct (feq (px a) (px b) && feq (py a) (py b) && feq (etime a) (etime b)) eqn:E2.
  { rewrite !andb_true_iff in E2. split; [discriminate|tauto]. }
  assert (D : ~ (feq (px a) (px b) = true /\ feq (py a) (py b) = true /\ feq (etime a) (etime b) = true)).
  { rewrite <- not_true_iff_false, !andb_true_iff in E2. tauto. }
  destruct (fgt (etime a) (etime b)) eqn:E3.
  { unfold fgt in E3. apply flt_spec in E3; try (apply finite_not_nan; assumption).
    rewrite !fX_finite in E3 by assumption. split; [discriminate|]. intros (_ & _ & H). lra. }
  unfold fgt in E3. apply flt_false in E3; try (apply finite_not_nan; assumption).
  rewrite !fX_finite in E3 by assumption.
  destruct (fne (unit_len a) (unit_len b)) eqn:E4.
  { split; [discriminate|]. intros ((_ & H & _) & _). unfold fne in E4. rewrite negb_true_iff in E4.
    assert (feq (unit_len a) (unit_len b) = true); [|unfold feq in *; congruence].
    apply feq_num_eq. left. auto. }
  unfold fne in E4. rewrite negb_false_iff in E4. apply feq_num_eq in E4.
  assert (V4 : val (unit_len a) = val (unit_len b)).
  { destruct E4 as [(_ & _ & H)|(s & H & H0)]; [exact H|rewrite H, H0; reflexivity]. }
  unfold has_pressure, has_tilt, has_orientation.
  pose proof (eqb_absent (pressure a) (pressure b)) as P5.
  pose proof (eqb_absent (tilt a) (tilt b)) as P6.
  pose proof (eqb_absent (orientation a) (orientation b)) as P7.
  destruct (Bool.eqb (fne (pressure a) kNo) _); cbn [negb].
  2: { split; [discriminate|]. intros ((_ & _ & H & _) & _). apply P5 in H. discriminate. }
  destruct (Bool.eqb (fne (tilt a) kNo) _); cbn [negb].
  2: { split; [discriminate|]. intros ((_ & _ & _ & H & _) & _). apply P6 in H. discriminate. }
  destruct (Bool.eqb (fne (orientation a) kNo) _); cbn [negb].
  2: { split; [discriminate|]. intros ((_ & _ & _ & _ & H) & _). apply P7 in H. discriminate. }
  split; [|reflexivity]. intros _. split; [|split; [exact D|exact E3]].
  split; [exact E1|]. split; [exact V4|]. split; [apply P5; reflexivity|].
  split; [apply P6; reflexivity|apply P7; reflexivity].
Qed.

(** *** valid_sequence, inductively *)
Lemma same_format_refl x : same_format x x.
Proof. unfold same_format. tauto. Qed.
Lemma same_format_sym x y : same_format x y -> same_format y x.
Proof. unfold same_format. intuition. Qed.
Lemma same_format_trans x y z : same_format x y -> same_format y z -> same_format x z.
Proof. unfold same_format. intuition congruence. Qed.

Lemma valid_nil : valid_sequence [].
Proof.
  split; [intros x []|]. split; [intros x y []|]. split; [constructor|].
  intros [|n] x y; discriminate.
Qed.

Lemma valid_cons_iff x y l :
  valid_sequence (x :: y :: l) <-> valid_input x /\ may_follow x y /\ valid_sequence (y :: l).
Proof.
  split.
  - intros (A & B & C & D). split; [apply A; left; reflexivity|]. split.
    + split; [apply B; [left|right; left]; reflexivity|]. split.
      * apply (D 0%nat); reflexivity.
      * inversion C; subst. rewrite Forall_forall in H2. apply H2. left; reflexivity.
    + split; [intros z Hz; apply A; right; exact Hz|].
      split; [intros z z' Hz Hz'; apply B; right; assumption|].
      split; [inversion C; assumption|]. intros n u v. apply (D (S n)).
  - intros (A & (B1 & B2 & B3) & (C1 & C2 & C3 & C4)).
    assert (F : forall z, In z (y :: l) -> same_format x z).
    { intros z Hz. eapply same_format_trans; [exact B1|]. apply C2; [left; reflexivity|exact Hz]. }
    split; [intros z [<-|Hz]; [exact A|apply C1, Hz]|].
    split.
    { intros z z' [<-|Hz] [<-|Hz'].
      - apply same_format_refl.
      - apply F, Hz'.
      - apply same_format_sym, F, Hz.
      - apply C2; assumption. }
    split.
    { constructor; [exact C3|]. apply Forall_forall. intros z [<-|Hz]; [exact B3|].
      inversion C3; subst. rewrite Forall_forall in H2. specialize (H2 _ Hz). lra. }
    intros [|n] u v; cbn [nth_error].
    + intros [= <-] [= <-]. exact B2.
    + apply C4.
Qed.

Lemma valid_single_iff x : valid_sequence [x] <-> valid_input x.
Proof.
  split; [intros (A & _); apply A; left; reflexivity|]. intros H.
  split; [intros z [<-|[]]; exact H|].
  split; [intros z z' [<-|[]] [<-|[]]; apply same_format_refl|].
  split; [constructor; constructor|]. intros [|[|n]] u v; cbn; discriminate.
Qed.

Lemma validate_rest_spec l : forall x, valid_input x ->
  (validate_rest x l = true <-> valid_sequence (x :: l)).
Proof.
  induction l as [|y l IH]; intros x Hx; cbn [validate_rest].
  - split; [intros _; apply valid_single_iff, Hx|reflexivity].
  - rewrite !andb_true_iff, valid_cons_iff, validate_single_spec. split.
    + intros ((Hy & Hc) & Hr). apply validate_consecutive_spec in Hc; try (apply valid_tame; assumption).
      split; [exact Hx|]. split; [exact Hc|]. apply IH; assumption.
    + intros (_ & Hc & Hv). assert (Hy : valid_input y) by (apply Hv; left; reflexivity).
      split; [split; [exact Hy|]|apply IH; assumption].
      apply validate_consecutive_spec; try (apply valid_tame; assumption). exact Hc.
Qed.

Lemma validate_sequence_spec l : validate_sequence l = true <-> valid_sequence l.
Proof.
  destruct l as [|x l]; cbn [validate_sequence].
  - split; [intros _; apply valid_nil|reflexivity].
  - rewrite andb_true_iff, validate_single_spec. split.
    + intros [Hx Hr]. apply validate_rest_spec; assumption.
    + intros Hv. assert (Hx : valid_input x) by (apply Hv; left; reflexivity).
      split; [exact Hx|apply validate_rest_spec; assumption].
Qed.
