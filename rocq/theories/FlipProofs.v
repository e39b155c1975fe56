(** The loop of the flip correction ends, and keeps its books right *)
From Coq Require Import ZArith Bool Arith Lia Permutation List.
From Verif Require Import NumModel GeomModel PartitionModel FlipModel.
Import ListNotations.

Section Proofs.
Context {N : num}.
Variable C : coding N.
Variable pos : Z -> vec N.
Variable ts : list tri.
Notation data := (FlipModel.data N).
Notation tri_at := (tri_at ts).
Notation adjacent := (adjacent ts).

(** ** Plain facts about the parts *)
Lemma is_in_iff j l : is_in j l = true <-> In j l.
Proof. unfold is_in. rewrite existsb_exists. split; [intros (x & I & E); apply Nat.eqb_eq in E; subst; exact I|intros I; exists j; split; [exact I|apply Nat.eqb_refl]]. Qed.
Lemma is_in_not j l : is_in j l = false <-> ~ In j l.
Proof. rewrite <- is_in_iff. destruct (is_in j l); intuition congruence. Qed.
Lemma insert_sorted_perm x l : Permutation (x :: l) (insert_sorted x l).
Proof. induction l as [|y l IH]; [apply Permutation_refl|]. cbn [insert_sorted]. destruct (x <=? y)%nat; [apply Permutation_refl|]. eapply Permutation_trans; [apply perm_swap|]. constructor. exact IH. Qed.
Lemma sorted_perm l : Permutation l (sorted l).
Proof. induction l as [|x l IH]; [constructor|]. cbn. eapply Permutation_trans; [constructor; exact IH|apply insert_sorted_perm]. Qed.
Lemma tris_of_in v j : In j (tris_of ts v) <-> (j < length ts)%nat /\ In v (corners (tri_at j)).
Proof.
  unfold tris_of. rewrite filter_In, in_seq, existsb_exists. split.
  - intros [H (x & I & E)]. apply Z.eqb_eq in E. subst x. split; [lia|exact I].
  - intros [H I]. split; [lia|]. exists v. split; [exact I|apply Z.eqb_refl].
Qed.
Lemma adjacent_in i j : In j (adjacent i) <-> j <> i /\ (j < length ts)%nat /\ exists v, In v (corners (tri_at i)) /\ In v (corners (tri_at j)).
Proof.
  unfold FlipModel.adjacent. rewrite filter_In, nodup_In, in_flat_map, negb_true_iff, Nat.eqb_neq. split.
  - intros [(v & I & J) Ne]. apply tris_of_in in J. split; [exact Ne|]. split; [apply J|]. exists v. split; [exact I|apply J].
  - intros (Ne & L & v & I & J). split; [|exact Ne]. exists v. split; [exact I|]. apply tris_of_in. split; assumption.
Qed.
Lemma adjacent_nodup i : NoDup (adjacent i).
Proof. apply NoDup_filter, NoDup_nodup. Qed.
Lemma touched_iff (mv : Z -> option (vec N)) t : touched mv t = true <-> exists v, In v (corners t) /\ mv v <> None.
Proof.
  unfold touched. rewrite existsb_exists. split; intros (v & I & H); exists v; (split; [exact I|]); destruct (mv v); congruence.
Qed.
Lemma untouched (d : data) mv t : touched mv t = false -> triangle_of (after d mv) t = triangle_of (qpos d) t.
Proof.
  intros H. assert (G : forall v, In v (corners t) -> after d mv v = qpos d v).
  { intros v I. unfold after. destruct (mv v) eqn:E; [|reflexivity]. exfalso. assert (touched mv t = true); [|congruence]. apply touched_iff. exists v. split; [exact I|congruence]. }
  destruct t as [[a b] c]. cbn. rewrite !G; cbn; auto.
Qed.

Lemma check_adjacent_spec (d : data) mv : forall l c c', check_adjacent ts d mv l c = Some c' ->
  mask c' = mask c /\
  (forall j, In j (flips c') <-> In j (flips c) \/ (In j l /\ touched mv (tri_at j) = true /\ negative (triangle_of (after d mv) (tri_at j)) = true /\ states d j = NotFlipped)) /\
  (forall j, In j (fixes c') <-> In j (fixes c) \/ (In j l /\ touched mv (tri_at j) = true /\ negative (triangle_of (after d mv) (tri_at j)) = false /\ states d j = Flipped)) /\
  (forall j, In j l -> touched mv (tri_at j) = true -> negative (triangle_of (after d mv) (tri_at j)) = true -> states d j <> Fixed) /\
  (NoDup l -> NoDup (flips c) -> (forall j, In j (flips c) -> ~ In j l) -> NoDup (flips c')).
Proof.
  induction l as [|k l IH]; intros c c' H; cbn [check_adjacent] in H.
  { injection H as <-. split; [reflexivity|]. split; [intros j; cbn; tauto|]. split; [intros j; cbn; tauto|]. split; [intros j []|]. intros _ X _. exact X. }
  assert (Skip : check_adjacent ts d mv l c = Some c' -> (touched mv (tri_at k) = false \/ (negative (triangle_of (after d mv) (tri_at k)) = true /\ states d k = Flipped) \/ (negative (triangle_of (after d mv) (tri_at k)) = false /\ states d k <> Flipped)) ->
    mask c' = mask c /\
    (forall j, In j (flips c') <-> In j (flips c) \/ (In j (k :: l) /\ touched mv (tri_at j) = true /\ negative (triangle_of (after d mv) (tri_at j)) = true /\ states d j = NotFlipped)) /\
    (forall j, In j (fixes c') <-> In j (fixes c) \/ (In j (k :: l) /\ touched mv (tri_at j) = true /\ negative (triangle_of (after d mv) (tri_at j)) = false /\ states d j = Flipped)) /\
    (forall j, In j (k :: l) -> touched mv (tri_at j) = true -> negative (triangle_of (after d mv) (tri_at j)) = true -> states d j <> Fixed) /\
    (NoDup (k :: l) -> NoDup (flips c) -> (forall j, In j (flips c) -> ~ In j (k :: l)) -> NoDup (flips c'))).
  { intros H0 W. destruct (IH c c' H0) as (M & F1 & F2 & F3 & F4). split; [exact M|]. split; [intros j; rewrite F1; cbn [In]; split; [tauto|intros [X|[[<- |X] Y]]; [tauto| |tauto]; exfalso; destruct Y as (Y1 & Y2 & Y3); destruct W as [W|[[W1 W2]|[W1 W2]]]; congruence]|].
    split; [intros j; rewrite F2; cbn [In]; split; [tauto|intros [X|[[<- |X] Y]]; [tauto| |tauto]; exfalso; destruct Y as (Y1 & Y2 & Y3); destruct W as [W|[[W1 W2]|[W1 W2]]]; congruence]|].
    split; [intros j [<- |I]; [|apply F3, I]; intros T Ng; destruct W as [W|[[W1 W2]|[W1 W2]]]; congruence|].
    intros D1 D2 D3. inversion D1; subst. apply F4; [assumption|exact D2|]. intros j J I. apply (D3 j J). right. exact I. }
  destruct (touched mv (tri_at k)) eqn:T; cbn [negb] in H; [|apply Skip; [exact H|left; reflexivity]].
  destruct (negative (triangle_of (after d mv) (tri_at k))) eqn:Ng.
  - destruct (states d k) eqn:St; [|apply Skip; [exact H|right; left; split; reflexivity]|discriminate].
    destruct (IH _ _ H) as (M & F1 & F2 & F3 & F4). cbn [mask flips fixes] in *. split; [exact M|]. split; [intros j; rewrite F1; cbn [In]; split; [intros [[<- |X]|X]; [right; repeat split; auto|tauto|tauto]|intros [X|[[<- |X] Y]]; tauto]|].
    split; [intros j; rewrite F2; cbn [In]; split; [tauto|intros [X|[[<- |X] Y]]; [tauto| |tauto]; exfalso; destruct Y as (Y1 & Y2 & Y3); congruence]|].
    split; [intros j [<- |I]; [congruence|apply F3, I]|]. intros D1 D2 D3. inversion D1; subst. apply F4; [assumption|constructor; [intros I; apply (D3 k I); left; reflexivity|exact D2]|]. intros j [<- |J] I; [contradiction|]. apply (D3 j J). right. exact I.
  - destruct (states d k) eqn:St; [apply Skip; [exact H|right; right; split; [reflexivity|congruence]]| |apply Skip; [exact H|right; right; split; [reflexivity|congruence]]].
    destruct (IH _ _ H) as (M & F1 & F2 & F3 & F4). cbn [mask flips fixes] in *. split; [exact M|]. split; [intros j; rewrite F1; cbn [In]; split; [tauto|intros [X|[[<- |X] Y]]; [tauto| |tauto]; exfalso; destruct Y as (Y1 & Y2 & Y3); congruence]|].
    split; [intros j; rewrite F2; cbn [In]; split; [intros [[<- |X]|X]; [right; repeat split; auto|tauto|tauto]|intros [X|[[<- |X] Y]]; tauto]|].
    split; [intros j [<- |I]; [congruence|apply F3, I]|]. intros D1 D2 D3. inversion D1; subst. apply F4; [assumption|exact D2|]. intros j J I. apply (D3 j J). right. exact I.
Qed.
Lemma search_spec (d : data) i already q va vb vc k : forall ms best c, search C ts d i already q va vb vc k ms best = Some c ->
  best = Some c \/ exists m, make_candidate C ts d i m already q va vb vc = Some c.
Proof.
  induction ms as [|m ms IH]; intros best c H; cbn [search] in H; [left; exact H|]. destruct (make_candidate C ts d i m already q va vb vc) as [c0|] eqn:E; [|apply IH, H].
  destruct ((length (fixes c0) =? k)%nat && match flips c0 with [] => true | _ => false end); [injection H as <-; right; exists m; exact E|]. destruct (IH _ _ H) as [X|X]; [|right; exact X].
  destruct best as [b|]; [|right; exists m; congruence]. destruct (better c0 b); [right; exists m; congruence|left; exact X].
Qed.
Definition good_candidate (d : data) (i : nat) (q : triangle N) (va vb vc : vec N) (c : candidate) : Prop :=
  let n := nudged_triangle C q va vb vc (mask c) in
  hits (mask c) (corrected_mask d (tri_at i)) = false /\ negative n = false /\
  (exists r, env_add None (OTriangle n) = Some r /\ rect_contains_rect (bounds C) r = true) /\
  check_adjacent ts d (moved (tri_at i) (mask c) n) (adjacent i) (Candidate (mask c) [] []) = Some c.
Lemma make_candidate_spec (d : data) i m q va vb vc c : make_candidate C ts d i m (corrected_mask d (tri_at i)) q va vb vc = Some c -> good_candidate d i q va vb vc c.
Proof.
  unfold make_candidate. destruct (hits m (corrected_mask d (tri_at i))) eqn:E1; [discriminate|]. destruct (negative (nudged_triangle C q va vb vc m)) eqn:E2; [discriminate|].
  destruct (env_add None (OTriangle (nudged_triangle C q va vb vc m))) as [r|] eqn:E3; [|discriminate]. destruct (rect_contains_rect (bounds C) r) eqn:E4; cbn [negb]; [|discriminate]. intros H.
  assert (mask c = m) by (apply check_adjacent_spec in H; apply H). subst m. unfold good_candidate. split; [exact E1|]. split; [exact E2|]. split; [exists r; split; assumption|exact H].
Qed.
Lemma round_spec (d : data) i d' : round C pos ts d i = inr d' ->
  (d' = d /\ states d i = Fixed) \/
  exists c, good_candidate d i (triangle_of (qpos d) (tri_at i)) (let '(a, b, e) := tri_at i in nudge_vector C pos d a) (let '(a, b, e) := tri_at i in nudge_vector C pos d b) (let '(a, b, e) := tri_at i in nudge_vector C pos d e) c /\
    d' = record C ts d i (triangle_of (qpos d) (tri_at i)) (let '(a, b, e) := tri_at i in nudge_vector C pos d a) (let '(a, b, e) := tri_at i in nudge_vector C pos d b) (let '(a, b, e) := tri_at i in nudge_vector C pos d e) c.
Proof.
  unfold round. intros H. assert (G : states d i <> Fixed -> (if (corrected_mask d (tri_at i) =? 63)%Z then inl tt else let n_flipped := length (filter (fun j => negb (j =? i)%nat && is_flipped (states d j)) (adjacent i)) in
        let q := triangle_of (qpos d) (tri_at i) in
        let '(a, b, c) := tri_at i in
        let va := nudge_vector C pos d a in let vb := nudge_vector C pos d b in let vc := nudge_vector C pos d c in
        match search C ts d i (corrected_mask d (tri_at i)) q va vb vc n_flipped masks None with
        | None => inl tt
        | Some best => inr (record C ts d i q va vb vc best)
        end) = inr d').
  { intros Ne. destruct (states d i); [exact H|exact H|congruence]. }
  destruct (states d i) eqn:St; [| |injection H as <-; left; split; reflexivity]; specialize (G ltac:(congruence)); clear H; right;
    (destruct (corrected_mask d (tri_at i) =? 63)%Z; [discriminate|]); cbv zeta in G; destruct (tri_at i) as [[a b] e] eqn:Et;
    (match type of G with context [match ?s with Some _ => _ | None => _ end] => destruct s as [c|] eqn:E; [|discriminate] end); injection G as <-; exists c; (split; [|reflexivity]);
    (apply search_spec in E; destruct E as [E|[m E]]; [discriminate|]); rewrite <- Et in E; apply make_candidate_spec in E; rewrite Et in E; exact E.
Qed.
(** ** The loop ends *)
Lemma nodup_app {A} (l k : list A) : NoDup l -> NoDup k -> (forall x, In x l -> ~ In x k) -> NoDup (l ++ k).
Proof.
  induction l as [|x l IH]; intros H1 H2 H3; [exact H2|]. inversion H1; subst. cbn [app]. constructor; [|apply IH; [assumption|exact H2|intros y I; apply H3; right; exact I]]. intros I. apply in_app_or in I. destruct I as [I|I]; [contradiction|]. apply (H3 x (or_introl eq_refl) I).
Qed.
Definition waiting (d : data) : list nat := filter (fun j => match states d j with NotFlipped => true | _ => false end) (seq 0 (length ts)).
Definition left_over (d : data) : nat := (length (queue d) + length (waiting d))%nat.
Lemma record_vertex_states use v p (d : data) : states (record_vertex use v p d) = states d /\ queue (record_vertex use v p d) = queue d.
Proof. destruct use; split; reflexivity. Qed.
Lemma record_parts (d : data) i q va vb vc c : let d' := record C ts d i q va vb vc c in
  queue d' = queue d ++ sorted (flips c) /\ (forall j, states d' j = if is_in j (flips c) then Flipped else if is_in j (fixes c) then Fixed else if (j =? i)%nat then Fixed else states d j).
Proof.
  cbv zeta. unfold record. destruct (tri_at i) as [[a b] e]. cbv zeta. cbn [queue states]. rewrite !(proj1 (record_vertex_states _ _ _ _)), !(proj2 (record_vertex_states _ _ _ _)). split; [reflexivity|]. intros j. reflexivity.
Qed.
Lemma round_measure (d : data) i d' : round C pos ts d i = inr d' -> (left_over d' <= left_over d)%nat.
Proof.
  intros H. apply round_spec in H. destruct H as [[-> _]|(c & (_ & _ & _ & G) & ->)]; [lia|]. pose proof (record_parts d i (triangle_of (qpos d) (tri_at i)) (let '(a, b, e) := tri_at i in nudge_vector C pos d a) (let '(a, b, e) := tri_at i in nudge_vector C pos d b) (let '(a, b, e) := tri_at i in nudge_vector C pos d e) c) as [Q S]. cbv zeta in Q, S.
  match goal with |- (left_over ?r <= _)%nat => set (d' := r) in * end. apply check_adjacent_spec in G. destruct G as (_ & F1 & _ & _ & ND). cbn [flips] in F1, ND.
  specialize (ND (adjacent_nodup i) (NoDup_nil _) (fun j X => match X with end)). unfold left_over. rewrite Q, app_length, <- (Permutation_length (sorted_perm (flips c))).
  assert (length (waiting d' ++ flips c) <= length (waiting d))%nat; [|rewrite app_length in *; lia]. apply NoDup_incl_length.
  - apply nodup_app; [apply NoDup_filter, seq_NoDup|exact ND|]. intros j J1 J2. unfold waiting in J1. apply filter_In in J1. destruct J1 as [_ J1]. rewrite S in J1. apply is_in_iff in J2. rewrite J2 in J1. discriminate.
  - intros j I. apply in_app_or in I. unfold waiting. apply filter_In. destruct I as [I|I].
    + unfold waiting in I. apply filter_In in I. destruct I as [I J]. split; [exact I|]. rewrite S in J. destruct (is_in j (flips c)); [discriminate|]. destruct (is_in j (fixes c)); [discriminate|]. destruct (j =? i)%nat; [discriminate|exact J].
    + apply F1 in I. destruct I as [[]|(I & _ & _ & St)]. apply adjacent_in in I. split; [apply in_seq; lia|]. rewrite St. reflexivity.
Qed.
Lemma loop_ends : forall fuel d, (left_over d <= fuel)%nat -> loop C pos ts fuel d <> None.
Proof.
  induction fuel as [|fuel IH]; intros d H; cbn [loop]; destruct (queue d) as [|i q] eqn:Q; try discriminate.
  - unfold left_over in H. rewrite Q in H. cbn in H. lia.
  - destruct (round C pos ts (pop d q) i) as [u|d'] eqn:R; [discriminate|]. apply IH. apply round_measure in R. unfold left_over in H, R |- *. rewrite Q in H. cbn [length] in H. change (queue (pop d q)) with q in R. change (waiting (pop d q)) with (waiting d) in R. lia.
Qed.
Lemma start_left_over : left_over (start_data C pos ts) = length ts.
Proof.
  unfold left_over, waiting, start_data. cbn [queue states]. rewrite <- (seq_length (length ts) 0) at 3. induction (seq 0 (length ts)) as [|i l IH]; [reflexivity|]. cbn [filter]. destruct (start_state C pos ts i) eqn:E; cbn [is_flipped length]; rewrite <- IH; [lia|reflexivity|].
  exfalso. unfold start_state in E. match type of E with context [if ?b then _ else _] => destruct b; discriminate end.
Qed.
Theorem corrections_end packed : corrections C pos ts packed (length ts) <> None.
Proof.
  unfold corrections. destruct packed; cbn [negb]; [|discriminate]. destruct (existsb _ ts); [discriminate|]. destruct (queue (start_data C pos ts)) eqn:Q; [discriminate|]. pose proof (loop_ends (length ts) (start_data C pos ts)) as L. rewrite start_left_over in L. specialize (L (Nat.le_refl _)). destruct (loop C pos ts (length ts) (start_data C pos ts)) as [[u|d]|]; [discriminate|discriminate|congruence].
Qed.
End Proofs.
