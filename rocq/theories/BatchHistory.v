(** Consequences of the refinement for histories of calls. *)
From Coq Require Import ZArith Reals List Bool Arith Sorting.Sorted Lia Lra.
From Flocq Require Import Core IEEE754.BinarySingleNaN.
From Verif Require Import F32 F32Lemmas CowModel CowProofs BatchModel BatchSpec BatchValid BatchProofs.
Import ListNotations.
Local Open Scope nat_scope.

(** *** Validity of modified sequences *)
Lemma last_of_cons x y l : last_of (x :: y :: l) = last_of (y :: l).
Proof. unfold last_of. cbn [length]. replace (S (S (length l)) - 1) with (S (S (length l) - 1)) by lia. reflexivity. Qed.

Lemma valid_app_iff l r : valid_sequence (l ++ r) <->
  valid_sequence l /\ valid_sequence r /\
  (forall z x, last_of l = Some z -> hd_error r = Some x -> may_follow z x).
Proof.
  induction l as [|x l IH].
  - cbn [app]. split; [intros H|tauto]. split; [apply valid_nil|]. split; [exact H|]. cbn. discriminate.
  - destruct l as [|y l].
    + cbn [app]. rewrite valid_single_iff. destruct r as [|z r].
      * rewrite valid_single_iff. split; [intros H|tauto].
        split; [exact H|]. split; [apply valid_nil|discriminate].
      * rewrite valid_cons_iff. split.
        -- intros (A & B & C). split; [exact A|]. split; [exact C|]. intros z' x' [= <-] [= <-]. exact B.
        -- intros (A & B & C). split; [exact A|]. split; [apply C; reflexivity|exact B].
    + cbn [app] in *. rewrite !valid_cons_iff, IH, last_of_cons. tauto.
Qed.

Lemma may_append_iff l x : valid_sequence l ->
  (valid_input x /\ may_append l x <-> valid_sequence (l ++ [x])).
Proof.
  intros V. rewrite valid_app_iff, valid_single_iff. split.
  - intros [A B]. split; [exact V|]. split; [exact A|]. intros z y Hz [= <-]. apply B, Hz.
  - intros (_ & A & B). split; [exact A|]. intros z Hz. apply (B z x Hz eq_refl).
Qed.

Lemma may_append_span_iff l xs : valid_sequence l ->
  ((valid_sequence xs /\ forall x, hd_error xs = Some x -> may_append l x) <-> valid_sequence (l ++ xs)).
Proof.
  intros V. rewrite valid_app_iff. split.
  - intros [A B]. split; [exact V|]. split; [exact A|]. intros z x Hz Hx. exact (B x Hx z Hz).
  - intros (_ & A & B). split; [exact A|]. intros x Hx z Hz. exact (B z x Hz Hx).
Qed.

Lemma valid_with_unit u x : valid_input x -> fin u -> (val u = val (unit_len x)) -> valid_input (with_unit u x).
Proof.
  intros [A B C [D1 D2] E F G] Hu Hv. constructor; cbn; auto. split; [exact Hu|]. rewrite Hv. exact D2.
Qed.

Lemma same_format_unit u v x y : same_format x y -> val u = val v ->
  same_format (with_unit u x) (with_unit v y).
Proof. intros (A & B & C) H. unfold same_format, with_unit; cbn. tauto. Qed.

Lemma may_follow_unit u v x y : may_follow x y -> val u = val v ->
  may_follow (with_unit u x) (with_unit v y).
Proof.
  intros (A & B & C) H. split; [apply same_format_unit; assumption|]. split; [exact B|exact C].
Qed.

Lemma valid_map_unit u l : valid_sequence l -> fin u -> (forall x, In x l -> val u = val (unit_len x)) ->
  valid_sequence (map (with_unit u) l).
Proof.
  induction l as [|x [|y l] IH]; intros V Hu H; cbn [map].
  - exact V.
  - apply valid_single_iff. apply valid_single_iff in V. apply valid_with_unit; auto. apply H; left; reflexivity.
  - apply valid_cons_iff in V. destruct V as (A & B & C). apply valid_cons_iff. split; [|split].
    + apply valid_with_unit; auto. apply H; left; reflexivity.
    + apply may_follow_unit; auto.
    + apply (IH C Hu). intros z Hz. apply H. right; exact Hz.
Qed.

Lemma may_follow_conform_r z x u : may_follow z x -> val u = val (unit_len x) -> may_follow z (with_unit u x).
Proof.
  intros H E. rewrite <- (with_unit_same z). apply may_follow_unit; [exact H|].
  destruct H as ((_ & H & _) & _). congruence.
Qed.
Lemma may_follow_conform_l z x u : may_follow x z -> val u = val (unit_len x) -> may_follow (with_unit u x) z.
Proof.
  intros H E. rewrite <- (with_unit_same z). apply may_follow_unit; [exact H|].
  destruct H as ((_ & H & _) & _). congruence.
Qed.

(** The unit length taken from the first input of a valid sequence *)
Lemma unit_of_first l x : valid_sequence l -> l <> [] -> fin (unit_of l x) /\
  forall y, In y l -> val (unit_of l x) = val (unit_len y).
Proof.
  intros (A & B & _) N. destruct l as [|z l]; [congruence|]. cbn [unit_of]. split.
  - apply (A z); left; reflexivity.
  - intros y Hy. destruct (B z y) as (_ & H & _); [left; reflexivity|exact Hy|exact H].
Qed.

Lemma valid_append_conform l x : valid_sequence l -> valid_input x -> may_append l x ->
  valid_sequence (l ++ [conform l x]).
Proof.
  intros V Vx M. destruct l as [|y l].
  - cbn [app]. rewrite conform_nil. apply valid_single_iff, Vx.
  - destruct (last_of_some (y :: l)) as (z & Hz); [discriminate|].
    destruct (unit_of_first (y :: l) x V) as [F U]; [discriminate|].
    assert (Ez : val (unit_of (y :: l) x) = val (unit_len x)).
    { rewrite (U z (last_of_in _ _ Hz)). apply (M z Hz). }
    apply valid_app_iff. split; [exact V|]. split.
    + apply valid_single_iff, valid_with_unit; assumption.
    + intros z' x' Hz' [= <-]. apply may_follow_conform_r; [apply M, Hz'|exact Ez].
Qed.

Lemma valid_append_span_conform l xs : valid_sequence l -> valid_sequence xs ->
  (forall x, hd_error xs = Some x -> may_append l x) ->
  valid_sequence (l ++ map (conform (l ++ xs)) xs).
Proof.
  intros V Vx M. assert (VA : valid_sequence (l ++ xs)) by (apply may_append_span_iff; auto).
  destruct xs as [|x0 xs]; [cbn; rewrite app_nil_r; exact V|].
  assert (NN : l ++ x0 :: xs <> []) by (destruct l; discriminate).
  destruct (unit_of_first _ x0 VA NN) as [F U].
  assert (Em : map (conform (l ++ x0 :: xs)) (x0 :: xs) = map (with_unit (unit_of (l ++ x0 :: xs) x0)) (x0 :: xs)).
  { apply map_ext. intros y. unfold conform. destruct l; reflexivity. }
  rewrite Em. apply valid_app_iff. split; [exact V|]. split.
  - apply valid_map_unit; [exact Vx|exact F|]. intros y Hy. apply U. apply in_or_app; right; exact Hy.
  - intros z y Hz [= <-]. apply may_follow_conform_r; [apply (M x0 eq_refl z Hz)|].
    apply U. apply in_or_app; right; left; reflexivity.
Qed.

Lemma split_at {A} k (x : A) l : nth_error l k = Some x -> l = firstn k l ++ x :: skipn (S k) l.
Proof.
  revert k; induction l as [|y l IH]; intros [|k] H; cbn in *; try discriminate.
  - injection H as ->. reflexivity.
  - f_equal. apply IH, H.
Qed.

Lemma last_of_firstn k (l : list stroke_input) : k <= length l -> 0 < k ->
  last_of (firstn k l) = nth_error l (k - 1).
Proof.
  intros H1 H2. unfold last_of. rewrite firstn_length, Nat.min_l by lia.
  rewrite <- (firstn_skipn k l) at 2. rewrite nth_error_app1; [reflexivity|].
  rewrite firstn_length. lia.
Qed.

Lemma hd_skipn {A} k (l : list A) : hd_error (skipn k l) = nth_error l k.
Proof. revert l; induction k as [|k IH]; intros [|x l]; cbn; auto. Qed.

Lemma valid_firstn k l : valid_sequence l -> valid_sequence (firstn k l).
Proof. intros V. rewrite <- (firstn_skipn k l) in V. apply valid_app_iff in V. tauto. Qed.
Lemma valid_skipn k l : valid_sequence l -> valid_sequence (skipn k l).
Proof. intros V. rewrite <- (firstn_skipn k l) in V. apply valid_app_iff in V. tauto. Qed.

Lemma replace_iff l k x : valid_sequence l -> k < length l -> length l <> 1 ->
  (valid_input x /\ may_replace l k x <-> valid_sequence (replace k x l)).
Proof.
  intros V Hk H1. unfold replace.
  change (x :: skipn (S k) l) with ([x] ++ skipn (S k) l).
  rewrite valid_app_iff, valid_app_iff, valid_single_iff. unfold may_replace. cbn [app hd_error].
  assert (E1 : forall p, last_of (firstn k l) = Some p <-> 0 < k /\ nth_error l (k - 1) = Some p).
  { intros p. destruct k as [|k]; [cbn; split; [discriminate|lia]|].
    rewrite last_of_firstn by lia. split; [intros H; split; [lia|exact H]|tauto]. }
  rewrite hd_skipn. replace (k + 1) with (S k) by lia. split.
  - intros (Vx & [H|[A B]]); [lia|]. split; [apply valid_firstn, V|]. split.
    + split; [exact Vx|]. split; [apply valid_skipn, V|]. intros z y [= <-] Hy. apply B, Hy.
    + intros p y Hp [= <-]. apply E1 in Hp. apply A; tauto.
  - intros (_ & (Vx & _ & B) & A). split; [exact Vx|]. right. split.
    + intros p H0 Hp. apply A; [apply E1; auto|reflexivity].
    + intros y Hy. apply B; [reflexivity|exact Hy].
Qed.

Lemma valid_replace_conform l k x : valid_sequence l -> k < length l -> length l <> 1 ->
  valid_input x -> may_replace l k x -> valid_sequence (replace k (conform l x) l).
Proof.
  intros V Hk H1 Vx M.
  assert (NN : l <> []) by (intros ->; cbn in Hk; lia).
  destruct (unit_of_first l x V NN) as [F U].
  assert (Eu : val (unit_of l x) = val (unit_len x)).
  { destruct M as [M|[A B]]; [lia|]. destruct k as [|k].
    - destruct (nth_error l 1) as [y|] eqn:Ey; [|apply nth_error_None in Ey; lia].
      rewrite (U y (nth_error_In _ _ Ey)). symmetry. apply (B y Ey).
    - destruct (nth_error l k) as [y|] eqn:Ey; [|apply nth_error_None in Ey; lia].
      rewrite (U y (nth_error_In _ _ Ey)). apply (A y); [lia|]. replace (S k - 1) with k by lia. exact Ey. }
  apply replace_iff; auto. split; [apply valid_with_unit; assumption|].
  destruct M as [M|[A B]]; [lia|]. right. split.
  - intros p H0 Hp. apply may_follow_conform_r; [apply A; assumption|exact Eu].
  - intros y Hy. apply may_follow_conform_l; [apply B; assumption|exact Eu].
Qed.

(** *** Histories which keep every batch valid *)
Lemma all_valid_upd s i l : all_valid s -> valid_sequence l -> all_valid (upd s i (Some l)).
Proof.
  intros A V k lk. unfold upd. destruct (Nat.eqb k i); [intros [= <-]; exact V|apply A].
Qed.
Lemma all_valid_upd_none s i : all_valid s -> all_valid (upd s i None).
Proof. intros A k lk. unfold upd. destruct (Nat.eqb k i); [discriminate|apply A]. Qed.

Lemma lstep_valid n s o r s' : all_valid s -> gentle s o -> lstep n s o r s' -> all_valid s'.
Proof.
  intros A G L. destruct L; try exact A; try (apply all_valid_upd; [exact A|]).
  - apply valid_append_conform; eauto.
  - apply valid_append_span_conform; eauto.
  - apply valid_append_span_conform; eauto.
  - destruct (Nat.eqb_spec (length l) 1); [apply valid_single_iff; assumption|].
    apply valid_replace_conform; eauto.
  - cbn in G. destruct (G l H0) as [->|Hl].
    + cbn [firstn app skipn]. apply valid_skipn. eauto.
    + rewrite skipn_skipn', skipn_all2, app_nil_r by lia. apply valid_firstn. eauto.
  - apply valid_nil.
  - destruct G.
  - assert (W := valid_append_span_conform [] xs valid_nil H0). cbn [app] in W. apply W.
    intros x _ z. cbn. discriminate.
  - eauto.
  - eauto.
  - apply all_valid_upd_none, all_valid_upd; eauto.
Qed.

Lemma lrun_valid n s os rs s' : all_valid s -> gentle_history n s os -> lrun n s os rs s' -> all_valid s'.
Proof.
  intros A G L. induction L as [s|s o os r s' L H|s o os r s' rs s'' L H L' IH]; [exact A| |].
  - inversion G; subst. eapply lstep_valid; eauto.
  - inversion G as [|? ? ? G1 G2]; subst. apply IH; [eapply lstep_valid; eauto|eapply G2; eauto].
Qed.

Lemma empty_valid : all_valid empty_lists.
Proof. intros i l [= <-]. apply valid_nil. Qed.

(** *** Which batches a call writes *)
Lemma lstep_frame n s o r s' k : lstep n s o r s' -> ~ writes o k -> s' k = s k.
Proof.
  intros L W. destruct L; cbn in W; try reflexivity; unfold upd;
  repeat match goal with |- context [Nat.eqb ?a ?b] => destruct (Nat.eqb_spec a b) end; tauto.
Qed.

(** *** Contract of histories without moves *)
Lemma plain_keeps n s o r s' : plain n o -> (forall i, s i <> None) -> lstep n s o r s' -> forall i, s' i <> None.
Proof.
  intros P H L k. destruct L; try apply H; unfold upd; cbn in P; try tauto;
  repeat match goal with |- context [Nat.eqb ?a ?b] => destruct (Nat.eqb a b) end; try discriminate; apply H.
Qed.

Lemma plain_contract n os : Forall (plain n) os -> forall s, (forall i, s i <> None) -> within_contract n s os.
Proof.
  induction 1 as [|o os P _ IH]; intros s H; constructor.
  - destruct o; cbn in *; unfold usable; intuition eauto.
  - intros r s' L _. apply IH. eapply plain_keeps; eauto.
Qed.

(** *** Effect of Transform on validity *)
Lemma transform_valid_iff f l : valid_sequence l ->
  (valid_sequence (map (move_position f) l) <->
   (forall x, In x l -> fin (fst (f (px x) (py x))) /\ fin (snd (f (px x) (py x)))) /\
   no_repeat (map (move_position f) l)).
Proof.
  intros (A & B & C & D). split.
  - intros (A' & _ & _ & D'). split; [|exact D']. intros x Hx.
    apply (vi_pos _ (A' _ (in_map (move_position f) _ _ Hx))).
  - intros [P D']. split; [|split; [|split; [|exact D']]].
    + intros y Hy. apply in_map_iff in Hy. destruct Hy as (x & <- & Hx).
      destruct (A x Hx). constructor; cbn; auto.
    + intros y z Hy Hz. apply in_map_iff in Hy, Hz.
      destruct Hy as (x & <- & Hx), Hz as (x' & <- & Hx'). exact (B x x' Hx Hx').
    + clear -C. induction C as [|x l C IH F]; cbn [map]; constructor; [exact IH|].
      apply Forall_forall. intros y Hy. apply in_map_iff in Hy. destruct Hy as (x' & <- & Hx').
      rewrite Forall_forall in F. exact (F x' Hx').
Qed.

(** *** The list semantics is deterministic *)
Lemma lstep_det n s o r1 s1 r2 s2 : lstep n s o r1 s1 -> lstep n s o r2 s2 -> r1 = r2 /\ s1 = s2.
Proof.
  intros L1 L2. destruct L1; inversion L2; subst;
  repeat match goal with
  | A : ?s ?i = Some ?l, B : ?s ?i = Some ?l' |- _ =>
      assert_fails (constr_eq l l'); let E := fresh in
      assert (E : l = l') by congruence; first [subst l'|subst l|clear E; idtac]
  end;
  try (split; reflexivity); try tauto; try (exfalso; tauto); try lia;
  try (exfalso; match goal with H : ?a = ?a -> ?l = [] |- _ => specialize (H eq_refl); congruence end);
  try (exfalso; intuition congruence).
Qed.

Lemma lrun_det n s os rs1 s1 rs2 s2 : lrun n s os rs1 s1 -> lrun n s os rs2 s2 -> rs1 = rs2 /\ s1 = s2.
Proof.
  intros L1. revert rs2 s2.
  induction L1 as [s|s o os r s' L H|s o os r s' rs s'' L H L' IH]; intros rs2 s2 L2;
  inversion L2 as [|? ? ? r2 s2' M N|? ? ? r2 s2' rs2' ? M N M']; subst.
  - auto.
  - destruct (lstep_det _ _ _ _ _ _ _ L M) as [-> ->]. auto.
  - destruct (lstep_det _ _ _ _ _ _ _ L M) as [-> ->]. exfalso. intuition congruence.
  - destruct (lstep_det _ _ _ _ _ _ _ L M) as [-> ->]. exfalso. intuition congruence.
  - destruct (lstep_det _ _ _ _ _ _ _ L M) as [-> ->]. destruct (IH _ _ M') as [-> ->]. auto.
Qed.

Lemma reach n os rs s : within_contract n empty_lists os -> lrun n empty_lists os rs s ->
  fst (brun (binit n) os) = rs /\ Rel n (snd (brun (binit n) os)) s.
Proof.
  intros W L. destruct (brun_sim n os _ _ (init_rel n) W) as (s' & L' & R).
  destruct (lrun_det _ _ _ _ _ _ _ L' L) as [-> ->]. split; [reflexivity|exact R].
Qed.

Lemma rel_shows n w s i l : Rel n w s -> i < n -> s i = Some l -> shows w i l.
Proof. intros R Hi E. apply observers. apply (proj2 R); assumption. Qed.

Theorem batch_is_list n os : within_contract n empty_lists os ->
  exists rs s, lrun n empty_lists os rs s /\ fst (brun (binit n) os) = rs /\
    forall i l, i < n -> s i = Some l -> shows (snd (brun (binit n) os)) i l.
Proof.
  intros W. destruct (brun_sim n os _ _ (init_rel n) W) as (s & L & R).
  eexists _, s. split; [exact L|]. split; [reflexivity|]. intros i l. apply rel_shows with (1 := R).
Qed.

Theorem error_changes_nothing n os rs s o : within_contract n empty_lists os ->
  lrun n empty_lists os rs s -> call_ok n s o ->
  let w := snd (brun (binit n) os) in
  fst (bstep w o) <> ROk -> snd (bstep w o) = w.
Proof.
  intros W L C w H. destruct (reach _ _ _ _ W L) as [_ R].
  destruct (bstep_sim n w s o R C) as (r & s' & _ & E & _ & K). apply K. congruence.
Qed.

Theorem frame n os rs s o k l : within_contract n empty_lists os ->
  lrun n empty_lists os rs s -> call_ok n s o -> k < n -> s k = Some l -> ~ writes o k ->
  let w := snd (brun (binit n) os) in
  shows w k l /\ shows (snd (bstep w o)) k l.
Proof.
  intros W L C Hk E N w. destruct (reach _ _ _ _ W L) as [_ R].
  destruct (bstep_sim n w s o R C) as (r & s' & Ls & _ & R' & _).
  split; [exact (rel_shows _ _ _ _ _ R Hk E)|].
  apply rel_shows with (1 := R'); [exact Hk|]. rewrite (lstep_frame _ _ _ _ _ _ Ls N). exact E.
Qed.

Theorem valid_history n os : within_contract n empty_lists os -> gentle_history n empty_lists os ->
  forall i, i < n -> (exists rs s, lrun n empty_lists os rs s /\ s i = None) \/
  exists l, shows (snd (brun (binit n) os)) i l /\ valid_sequence l.
Proof.
  intros W G i Hi. destruct (brun_sim n os _ _ (init_rel n) W) as (s & L & R).
  destruct (s i) as [l|] eqn:E; [right|left; eauto].
  exists l. split; [exact (rel_shows _ _ _ _ _ R Hi E)|].
  exact (lrun_valid _ _ _ _ _ empty_valid G L i l E).
Qed.

Lemma replace_iff_all l k x : valid_sequence l -> k < length l ->
  (valid_input x /\ may_replace l k x <-> valid_sequence (replace k x l)).
Proof.
  intros V Hk. destruct (Nat.eq_dec (length l) 1) as [H1|H1]; [|apply replace_iff; assumption].
  destruct l as [|y [|z l]]; cbn in H1, Hk; try lia. assert (k = 0) by lia. subst k. cbn [replace firstn app skipn].
  unfold replace; cbn [firstn app skipn]. rewrite valid_single_iff.
  split; [tauto|]. intros H. split; [exact H|]. left; reflexivity.
Qed.

Ltac use_sim R C :=
  let r := fresh "r" in let s' := fresh "s'" in let Ls := fresh "Ls" in let Er := fresh "Er" in
  destruct (bstep_sim _ _ _ _ R C) as (r & s' & Ls & Er & _); rewrite Er; clear Er;
  inversion Ls; subst;
  repeat match goal with
  | A : ?s ?i = Some ?l, B : ?s ?i = Some ?l' |- _ =>
      assert_fails (constr_eq l l'); let E := fresh in
      assert (E : l = l') by congruence; first [subst l'|subst l|clear E; idtac]
  end.

Theorem succeeds_iff_valid n os rs s i l : within_contract n empty_lists os ->
  lrun n empty_lists os rs s -> i < n -> s i = Some l -> valid_sequence l ->
  let w := snd (brun (binit n) os) in
  let ok o := fst (bstep w o) = ROk in
  (forall x, ok (BAppend i x) <-> valid_sequence (l ++ [x])) /\
  (forall xs, ok (BAppendSpan i xs) <-> valid_sequence (l ++ xs)) /\
  (forall j lj, j < n -> j <> i -> s j = Some lj -> valid_sequence lj ->
     (ok (BAppendBatch i j) <-> valid_sequence (l ++ lj))) /\
  (forall k x, k < length l -> (ok (BSet i k x) <-> valid_sequence (replace k x l))) /\
  (forall xs, ok (BCreate i xs) <-> valid_sequence xs).
Proof.
  intros W L Hi E V w ok. destruct (reach _ _ _ _ W L) as [_ R]. fold w in R. subst ok.
  assert (U : usable n s i) by (split; [exact Hi|congruence]). cbv beta.
  split; [|split; [|split; [|split]]].
  - intros x. assert (C : call_ok n s (BAppend i x)) by exact U.
    rewrite <- (may_append_iff l x V). use_sim R C; split; intros; try reflexivity; try discriminate; tauto.
  - intros xs. assert (C : call_ok n s (BAppendSpan i xs)) by exact U.
    rewrite <- (may_append_span_iff l xs V). use_sim R C; split; intros; try reflexivity; try discriminate; tauto.
  - intros j lj Hj Hji Ej Vj. assert (C : call_ok n s (BAppendBatch i j)).
    { split; [exact U|]. split; [exact Hj|congruence]. }
    rewrite <- (may_append_span_iff l lj V). use_sim R C; split; intros; try reflexivity; try discriminate; tauto.
  - intros k x Hk. assert (C : call_ok n s (BSet i k x)) by exact U.
    rewrite <- (replace_iff_all l k x V Hk). use_sim R C; split; intros; try reflexivity; try discriminate; try tauto; lia.
  - intros xs. assert (C : call_ok n s (BCreate i xs)) by exact Hi.
    use_sim R C; split; intros; try reflexivity; try discriminate; tauto.
Qed.

Theorem transform_effect n os rs s i l f : within_contract n empty_lists os ->
  lrun n empty_lists os rs s -> i < n -> s i = Some l ->
  let w := snd (brun (binit n) os) in
  fst (bstep w (BTransform i f)) = ROk /\
  shows w i l /\
  shows (snd (bstep w (BTransform i f))) i (map (move_position f) l) /\
  b_duration (snd (bstep w (BTransform i f))) i = b_duration w i /\
  (valid_sequence l ->
     (valid_sequence (map (move_position f) l) <->
      (forall x, In x l -> fin (fst (f (px x) (py x))) /\ fin (snd (f (px x) (py x)))) /\
      no_repeat (map (move_position f) l))).
Proof.
  intros W L Hi E w. destruct (reach _ _ _ _ W L) as [_ R]. fold w in R.
  assert (C : call_ok n s (BTransform i f)) by (split; [exact Hi|congruence]).
  destruct (bstep_sim _ _ _ _ R C) as (r & s' & Ls & Er & R' & _).
  inversion Ls; subst. assert (l0 = l) by congruence. subst l0.
  assert (S1 : shows w i l) by exact (rel_shows _ _ _ _ _ R Hi E).
  assert (S2 : shows (snd (bstep w (BTransform i f))) i (map (move_position f) l)).
  { apply rel_shows with (1 := R'); [exact Hi|]. unfold upd. rewrite Nat.eqb_refl. reflexivity. }
  split; [congruence|]. split; [exact S1|]. split; [exact S2|]. split; [|apply transform_valid_iff].
  destruct S1 as (_ & _ & _ & -> & _), S2 as (_ & _ & _ & -> & _).
  unfold last_of. rewrite map_length, !nth_error_map.
  destruct (nth_error l 0); cbn; [|reflexivity]. destruct (nth_error l (length l - 1)); reflexivity.
Qed.
