(** The save point holds everything that has changed *)
From Coq Require Import Arith Bool Lia Permutation List.
From Verif Require Import ExtruderGeometryModel ExtruderGeometrySpec ExtruderGeometryLists.
Import ListNotations.

Section Proofs.
Variables (core shade T J R : Type) (zero_vertex : core * shade) (zero_triangle : T) (fresh : nat -> nat -> R) (empty_disc : J).
Notation geometry := (geometry core shade T J R).
Notation side := (side core shade J R).
Notation step := (step zero_vertex zero_triangle fresh empty_disc).
Notation run := (run zero_vertex zero_triangle fresh empty_disc).

Definition below_info (a b : side_info) : Prop := index_count a <= index_count b /\ disc_count a <= disc_count b.
Definition below (a b : metadata) : Prop := vertex_count a <= vertex_count b /\ triangle_count a <= triangle_count b /\ below_info (left_info a) (left_info b) /\ below_info (right_info a) (right_info b).
Definition counts_of (g : geometry) : metadata := Metadata 0 (length (vertices g)) (length (triangles g)) (info_of (left g)) (info_of (right g)).
Record wf (g : geometry) : Prop := {
  wf_ids : length (ids g) = length (vertices g);
  wf_offsets : length (offsets g) = length (vertices g);
  wf_opposites : length (opposites g) = length (vertices g);
  wf_break : below (last_break g) (counts_of g) }.
Lemma below_trans a b c : below a b -> below b c -> below a c.
Proof. unfold below, below_info. lia. Qed.
Lemma below_refl a : below a a. Proof. unfold below, below_info. lia. Qed.
Ltac bl := unfold below, below_info, counts_of, info_of in *; cbn in *; rewrite ?app_length, ?resize_len in *; cbn in *; try lia.

Lemma set_vertex_some (g : geometry) i v u g' : set_vertex g i v u = Some g' -> exists old vs s, nth_error (vertices g) i = Some old /\ write i v (vertices g) = Some vs /\ i < length (ids g) /\
  g' = with_save (with_mesh g vs (triangles g)) s /\ s = (if u && is_active (save g) && (i <? n_mesh_vertices (save g)) then with_saved_vertices (save g) (emplace i old (saved_vertices (save g))) else save g).
Proof.
  unfold set_vertex. destruct (nth_error (vertices g) i) as [old|] eqn:E1; [|discriminate]. destruct (write i v (vertices g)) as [vs|] eqn:E2; [|discriminate]. destruct (nth_error (ids g) i) as [b|] eqn:E3; [|discriminate].
  intros E. injection E as <-. eexists old, vs, _. repeat split; try reflexivity. apply nth_error_Some. congruence.
Qed.
Lemma set_triangle_some (g : geometry) j t u g' : set_triangle g j t u = Some g' -> exists old ts, nth_error (triangles g) j = Some old /\ write j t (triangles g) = Some ts /\
  g' = with_save (with_mesh g (vertices g) ts) (if u then save_triangle (save g) j old else save g).
Proof. unfold set_triangle. destruct (nth_error (triangles g) j) as [old|] eqn:E1; [|discriminate]. destruct (write j t (triangles g)) as [vs|] eqn:E2; [|discriminate]. intros E. injection E as <-. eauto. Qed.

Definition cleared (g : geometry) (s : save_point core shade T J R) : geometry :=
  let b := last_break g in
  let l := cut_side empty_disc (left_info b) (left g) in
  let r := cut_side empty_disc (right_info b) (right g) in
  let vs := resize zero_vertex (vertex_count b) (vertices g) in
  let ts := resize zero_triangle (triangle_count b) (triangles g) in
  let l' := break_side fresh l (length ts) (length (indices r)) in
  let r' := break_side fresh r (length ts) (length (indices l')) in
  Geometry vs ts (resize true (vertex_count b) (ids g)) (resize 0 (vertex_count b) (offsets g)) (resize 0 (vertex_count b) (opposites g))
    l' r' b s (Nat.min (mutated_left g) (length (indices l))) (Nat.min (mutated_right g) (length (indices r))).
Lemma clear_some (g g' : geometry) : clear zero_vertex zero_triangle fresh empty_disc g = Some g' -> g' = g \/
  exists s, g' = cleared g s /\ (if is_active (save g) && negb (contains_all (save g)) && (triangle_count (last_break g) <=? n_mesh_triangles (save g)) then capture g = Some s else s = save g).
Proof.
  unfold clear. destruct (length (vertices g) =? vertex_count (last_break g)); [intros E; injection E as <-; auto|]. destruct (_ && _ && _).
  - destruct (capture g) as [s|]; [|discriminate]. intros E. injection E as <-. right. exists s. auto.
  - intros E. injection E as <-. right. exists (save g). auto.
Qed.

(** ** Lengths *)
Lemma wf_step (g : geometry) o g' : wf g -> step g o = Some g' -> wf g'.
Proof.
  intros [W1 W2 W3 W4] E. destruct o as [b v|t|i v|j t|k f t|i n|b d|b a n f x r|i d| | |]; cbn [ExtruderGeometryModel.step] in E.
  - injection E as <-. destruct b; split; bl.
  - injection E as <-. split; bl.
  - apply set_vertex_some in E. destruct E as (old & vs & s & E1 & E2 & _ & -> & _). apply write_some in E2. split; bl.
  - apply set_triangle_some in E. destruct E as (old & ts & E1 & E2 & ->). apply write_some in E2. split; bl.
  - unfold retriangulate in E.
    assert (K : forall n (g g' : geometry), retriangulate_from g k n f = Some g' -> vertices g' = vertices g /\ ids g' = ids g /\ offsets g' = offsets g /\ opposites g' = opposites g /\ left g' = left g /\ right g' = right g /\ last_break g' = last_break g /\ length (triangles g') = length (triangles g)).
    { clear. induction n as [|n IH]; intros g g' E; cbn in E; [injection E as <-; repeat split|]. destruct (nth_error (triangles g) (k + n)) as [old|]; [|discriminate].
      destruct (set_triangle _ _ _ false) as [g1|] eqn:S1; [|discriminate]. apply set_triangle_some in S1. destruct S1 as (old' & ts & A & B & ->). apply write_some in B. cbn in B. specialize (IH _ _ E). cbn in IH. intuition congruence. }
    destruct (retriangulate_from g k (length (triangles g) - k) f) as [g1|] eqn:E1; [|discriminate]. destruct (K _ _ _ E1) as (K1 & K2 & K3 & K4 & K5 & K6 & K7 & K8).
    destruct (k <=? length (triangles g1)) eqn:E2; [|discriminate]. apply Nat.leb_le in E2. injection E as <-. split; cbn; rewrite ?K1, ?K2, ?K3, ?K4, ?K7; try assumption.
    unfold counts_of. cbn. rewrite K5, K6. rewrite app_length, firstn_length. cbn [length]. rewrite skipn_length. bl.
  - unfold set_opposite in E. destruct (nth_error (opposites g) i) as [old|] eqn:E1; [|discriminate]. destruct (write i n (opposites g)) as [os|] eqn:E2; [|discriminate]. apply write_some in E2. destruct (old =? n); injection E as <-; split; bl.
  - injection E as <-. destruct b; split; bl.
  - injection E as <-. destruct b; split; bl.
  - unfold reshade in E. destruct (nth_error (vertices g) i) as [[c d']|]; [|discriminate]. destruct (write i (c, d) (vertices g)) as [vs|] eqn:E2; [|discriminate]. apply write_some in E2. injection E as <-. split; bl.
  - injection E as <-. split; bl.
  - apply clear_some in E. destruct E as [->|(s & -> & _)]; [split; assumption|]. split; bl.
  - injection E as <-. split; assumption.
Qed.

(** ** What is kept *)
Record side_kept (st : side_state core shade J R) (b : side_info) (now before : side) : Prop := {
  sk_n : n_indices st = length (indices before);
  sk_nd : n_discs st = length (discs before);
  sk_indices : kept (saved_indices st) (index_count b) (indices now) (indices before);
  sk_discs : kept (saved_discs st) (disc_count b) (discs now) (discs before);
  sk_rest : saved_adjacent_first st = adjacent_first before /\ saved_opposite_first st = opposite_first before /\ saved_buffer st = buffer before /\ saved_next_buffered st = next_buffered before /\ saved_rest st = rest before }.
Definition same_triangle (t : T) : T := t.
Definition same_nat (t : nat) : nat := t.
Record inv (g0 g : geometry) (b : metadata) : Prop := {
  i_active : is_active (save g) = true;
  i_nv : n_mesh_vertices (save g) = length (vertices g0);
  i_nt : n_mesh_triangles (save g) = length (triangles g0);
  i_ids : kept (saved_ids (save g)) (vertex_count b) (ids g) (ids g0);
  i_offsets : kept (saved_offsets (save g)) (vertex_count b) (offsets g) (offsets g0);
  i_v : covers _ _ fst (saved_vertices (save g)) (vertex_count b) (vertices g) (vertices g0);
  i_t : covers _ _ same_triangle (saved_triangles (save g)) (triangle_count b) (triangles g) (triangles g0);
  i_o : covers _ _ same_nat (saved_opposites (save g)) (vertex_count b) (opposites g) (opposites g0);
  i_l : side_kept (left_state (save g)) (left_info b) (left g) (left g0);
  i_r : side_kept (right_state (save g)) (right_info b) (right g) (right g0);
  i_break : saved_break (save g) = last_break g0;
  i_now : vertex_count b <= length (vertices g) /\ triangle_count b <= length (triangles g);
  i_before : vertex_count b <= length (vertices g0) /\ triangle_count b <= length (triangles g0);
  i_all : if contains_all (save g) then below b (last_break g) else b = counts_of g0 /\ (last_break g = last_break g0 \/ below (counts_of g0) (last_break g));
  i_low : below (last_break g0) b }.

Lemma side_start (s : side) : side_kept (set_side_state s) (info_of s) (trim_buffer zero_vertex s) s.
Proof. unfold trim_buffer. destruct (buffer s) as [|x [|y l]] eqn:E; split; cbn; try reflexivity; try apply kept_start; rewrite ?E; repeat split. Qed.
Lemma inv_start (g : geometry) : wf g -> inv g (set_save_point zero_vertex g) (counts_of g).
Proof.
  intros [W1 W2 W3 W4]. split; cbn; try reflexivity; try lia.
  - rewrite <- W1. apply kept_start.
  - rewrite <- W2. apply kept_start.
  - apply covers_start.
  - apply covers_start.
  - rewrite <- W3. apply covers_start.
  - apply side_start.
  - apply side_start.
  - auto.
  - exact W4.
Qed.
Lemma side_push st b (s s0 : side) i : side_kept st b s s0 -> side_kept st b (push_index s i) s0.
Proof. intros [A B C D E]. split; try assumption. apply kept_app, C. Qed.
Lemma side_disc st b (s s0 : side) d : side_kept st b s s0 -> side_kept st b (push_disc s d) s0.
Proof. intros [A B C D E]. split; try assumption. apply kept_app, D. Qed.
Lemma side_write st b (s s0 : side) x1 x2 x3 x4 x5 : side_kept st b s s0 -> side_kept st b (write_side s x1 x2 x3 x4 x5) s0.
Proof. intros [A B C D E]. split; assumption. Qed.
Lemma side_break st b (s s0 : side) n m : side_kept st b s s0 -> side_kept st b (break_side fresh s n m) s0.
Proof. intros [A B C D E]. split; assumption. Qed.
Lemma side_cut st b (s s0 : side) c : side_kept st b s s0 -> below_info b c -> side_kept st b (cut_side empty_disc c s) s0.
Proof. intros [A B C D E] (L1 & L2). split; try assumption; apply kept_cut; assumption. Qed.
Lemma side_capture st (s s0 : side) c st' : side_kept st (info_of s0) s s0 -> capture_side s c st = Some st' -> saved_indices st = [] -> saved_discs st = [] -> side_kept st' c s s0 /\ below_info c (info_of s0).
Proof.
  intros [A B C D E] H SI SD. unfold capture_side in H. destruct (index_count c <=? n_indices st) eqn:L; [|discriminate]. destruct (slice (index_count c) (n_indices st) (indices s)) as [is|] eqn:S1; [|discriminate]. destruct (slice (disc_count c) (n_discs st) (discs s)) as [ds|] eqn:S2; [|discriminate].
  injection H as <-. rewrite SI in *. rewrite SD in *. rewrite A in *. rewrite B in *. cbn in C, D. pose proof (kept_capture _ _ _ _ C S1) as K1. pose proof (kept_capture _ _ _ _ D S2) as K2. split.
  - split; cbn; try assumption; reflexivity.
  - split; [apply K1|apply K2].
Qed.
Lemma kept_all {A} s (now before : list A) : kept s (length before) now before -> s = [].
Proof. intros (-> & _). apply skipn_all. Qed.
Lemma capture_inv (g0 g : geometry) s : wf g0 -> inv g0 g (counts_of g0) -> capture g = Some s -> contains_all (save g) = false ->
  inv g0 (with_save g s) (last_break g) /\ below (last_break g) (counts_of g0).
Proof.
  intros W0 H E CA. destruct H as [A NV NT K1 K2 CV CT CO SL SR BR N0 N1 AL LO]. destruct W0 as [W1 W2 W3 W4]. cbn in K1, K2, CV, CT, CO, SL, SR. unfold capture in E. rewrite NV, NT in E.
  destruct ((vertex_count (last_break g) <=? length (vertices g0)) && (triangle_count (last_break g) <=? length (triangles g0))) eqn:L; [|discriminate]. apply andb_true_iff in L. destruct L as (L1 & L2). apply Nat.leb_le in L1. apply Nat.leb_le in L2.
  destruct (slice _ _ (ids g)) as [si|] eqn:E1; [|discriminate]. destruct (slice _ _ (offsets g)) as [so|] eqn:E2; [|discriminate]. destruct (emplace_from _ _ (triangles g) _) as [st|] eqn:E3; [|discriminate]. destruct (emplace_from _ _ (vertices g) _) as [sv|] eqn:E4; [|discriminate]. destruct (emplace_from _ _ (opposites g) _) as [sp|] eqn:E5; [|discriminate].
  destruct (capture_side (left g) _ _) as [ls|] eqn:E6; [|discriminate]. destruct (capture_side (right g) _ _) as [rs|] eqn:E7; [|discriminate]. injection E as <-.
  rewrite <- W1 in K1. rewrite <- W2 in K2. pose proof (kept_all _ _ _ K1) as S1. pose proof (kept_all _ _ _ K2) as S2. rewrite S1 in *. rewrite S2 in *.
  assert (S3 : saved_indices (left_state (save g)) = []) by apply (kept_all _ _ _ (sk_indices _ _ _ _ SL)). assert (S4 : saved_discs (left_state (save g)) = []) by apply (kept_all _ _ _ (sk_discs _ _ _ _ SL)).
  assert (S5 : saved_indices (right_state (save g)) = []) by apply (kept_all _ _ _ (sk_indices _ _ _ _ SR)). assert (S6 : saved_discs (right_state (save g)) = []) by apply (kept_all _ _ _ (sk_discs _ _ _ _ SR)).
  destruct (side_capture _ _ _ _ _ SL E6 S3 S4) as (SL' & BL). destruct (side_capture _ _ _ _ _ SR E7 S5 S6) as (SR' & BRR).
  rewrite <- W1 in E1. rewrite <- W2 in E2. 
  destruct (covers_from _ _ _ _ _ _ _ _ _ _ CT E3 ltac:(lia)) as (CT' & KT). destruct (covers_from _ _ _ _ _ _ _ _ _ _ CV E4 ltac:(lia)) as (CV' & KV). assert (LOP : vertex_count (last_break g) + (length (vertices g0) - vertex_count (last_break g)) <= length (opposites g0)) by lia. destruct (covers_from _ _ _ _ _ _ _ _ _ _ CO E5 LOP) as (CO' & KO).
  assert (BB : below (last_break g) (counts_of g0)) by (split; [exact L1|split; [exact L2|split; assumption]]). cbn in N0. split; [|exact BB]. split; cbn; try assumption; try lia.
  - apply (kept_capture _ _ _ _ K1 E1).
  - apply (kept_capture _ _ _ _ K2 E2).
  - apply (covers_lower _ _ _ _ _ _ _ _ CV'). intros k K K'. apply KV. lia.
  - apply (covers_lower _ _ _ _ _ _ _ _ CT'). intros k K K'. apply KT. lia.
  - apply (covers_lower _ _ _ _ _ _ _ _ CO'). intros k K K'. apply KO. lia.
  - apply below_refl.
  - rewrite CA in AL. destruct AL as (_ & AL). destruct AL as [->|AL]; [apply below_refl|]. apply (below_trans _ _ _ LO AL).
Qed.

Lemma inv_step (g0 g : geometry) b o g' : wf g0 -> wf g -> inv g0 g b -> step g o = Some g' -> exists b', inv g0 g' b'.
Proof.
  intros W0 W H E. pose proof H as H'. destruct H' as [A NV NT K1 K2 CV CT CO SL SR BR N0 N1 AL LO]. destruct o as [to v|t|i v|j t|k f t|i n|to d|to a n f x r|i d| | |]; cbn [ExtruderGeometryModel.step] in E.
  - injection E as <-. exists b. destruct to; split; cbn; rewrite ?app_length; try assumption; try lia; try (apply kept_app; assumption); try (apply covers_app; assumption); apply side_push; assumption.
  - injection E as <-. exists b. split; cbn; rewrite ?app_length; try assumption; try lia. apply covers_app; assumption.
  - apply set_vertex_some in E. destruct E as (old & vs & s & E1 & E2 & _ & -> & ->). apply write_some in E2. destruct E2 as (L & L' & _ & O). exists b. rewrite A. cbn [andb].
    destruct (Nat.ltb_spec i (n_mesh_vertices (save g))) as [I|I]; split; cbn; try assumption; try lia.
    + apply (covers_change _ _ _ _ _ (vertices g) _ _ i); [|intros _; apply emplace_keys; auto|exact O]. apply covers_emplace; [exact CV|lia|exact E1].
    + apply (covers_change _ _ _ _ _ (vertices g) _ _ i); [exact CV|intros; lia|exact O].
  - apply set_triangle_some in E. destruct E as (old & ts & E1 & E2 & ->). apply write_some in E2. destruct E2 as (L & L' & _ & O). exists b. unfold save_triangle. rewrite A. cbn [andb].
    destruct (Nat.ltb_spec j (n_mesh_triangles (save g))) as [I|I]; split; cbn; try assumption; try lia.
    + apply (covers_change _ _ _ _ _ (triangles g) _ _ j); [|intros _; apply emplace_keys; auto|exact O]. apply covers_emplace; [exact CT|lia|exact E1].
    + apply (covers_change _ _ _ _ _ (triangles g) _ _ j); [exact CT|intros; lia|exact O].
  - exists b. unfold retriangulate in E.
    assert (K : forall n (g g' : geometry), k + n <= length (triangles g) -> inv g0 g b -> retriangulate_from g k n f = Some g' ->
      inv g0 g' b /\ (forall j, In j (map fst (saved_triangles (save g))) -> In j (map fst (saved_triangles (save g')))) /\ (forall j, k <= j < k + n -> j < length (triangles g0) -> In j (map fst (saved_triangles (save g'))))).
    { clear - W0. induction n as [|n IH]; intros g g' LN H E; cbn in E; [injection E as <-; split; [exact H|split; [auto|intros; lia]]|].
      destruct (nth_error (triangles g) (k + n)) as [old|] eqn:E1; [|discriminate]. destruct (set_triangle _ _ _ false) as [g1|] eqn:S1; [|discriminate]. apply set_triangle_some in S1. destruct S1 as (old' & ts & A1 & A2 & ->). cbn in A1. apply write_some in A2. destruct A2 as (L & L' & _ & O). cbn in L, L', O.
      assert (H1 : inv g0 (with_save (with_mesh (with_save g (save_triangle (save g) (k + n) old)) (vertices g) ts) (save_triangle (save g) (k + n) old)) b).
      { destruct H as [A NV NT K1 K2 CV CT CO SL SR BR N0 N1 AL LO]. unfold save_triangle. rewrite A. cbn [andb]. destruct (Nat.ltb_spec (k + n) (n_mesh_triangles (save g))) as [I|I]; split; cbn; try assumption; try lia.
        - apply (covers_change _ _ _ _ _ (triangles g) _ _ (k + n)); [|intros _; apply emplace_keys; auto|exact O]. apply covers_emplace; [exact CT|lia|exact E1].
        - apply (covers_change _ _ _ _ _ (triangles g) _ _ (k + n)); [exact CT|intros; lia|exact O]. }
      assert (LN1 : k + n <= length ts) by lia. destruct (fun L => IH _ _ L H1 E) as (G1 & G2 & G3); [exact LN1|]. split; [exact G1|]. cbn [save with_save] in G2. 
      assert (KK : forall j, In j (map fst (saved_triangles (save g))) \/ (j = k + n /\ j < length (triangles g0)) -> In j (map fst (saved_triangles (save_triangle (save g) (k + n) old)))).
      { intros j J1. unfold save_triangle. rewrite (i_active _ _ _ H), (i_nt _ _ _ H). cbn [andb]. destruct (Nat.ltb_spec (k + n) (length (triangles g0))); cbn; [apply emplace_keys; tauto|]. destruct J1 as [J1|J1]; [exact J1|lia]. }
      split.
      - intros j J1. apply G2, KK. auto.
      - intros j J1 J2. destruct (Nat.eq_dec j (k + n)) as [->|NE]; [|apply G3; lia]. apply G2, KK. auto. }
    destruct (retriangulate_from g k (length (triangles g) - k) f) as [g1|] eqn:E1; [|discriminate]. destruct (k <=? length (triangles g1)) eqn:E2; [|discriminate]. apply Nat.leb_le in E2. injection E as <-.
    destruct (le_lt_dec k (length (triangles g))) as [KL|KL].
    + destruct (K (length (triangles g) - k) g g1 ltac:(lia) H E1) as (G1 & _ & G3).
      assert (LT : length (triangles g1) = length (triangles g)).
      { clear - E1. generalize dependent (length (triangles g) - k). intros n. revert g g1. induction n as [|n IH]; intros g g1 E; cbn in E; [injection E as <-; reflexivity|]. destruct (nth_error (triangles g) (k + n)); [|discriminate]. destruct (set_triangle _ _ _ false) as [g2|] eqn:S1; [|discriminate]. apply set_triangle_some in S1. destruct S1 as (old' & ts & A & B & ->). apply write_some in B. cbn in B. specialize (IH _ _ E). cbn in IH. lia. }
      destruct G1 as [A' NV' NT' K1' K2' CV' CT' CO' SL' SR' BR' N0' N1' AL' LO']. split; cbn; try assumption.
      * apply covers_insert; [exact CT'|]. intros j J1 J2. destruct (le_lt_dec (length (triangles g)) j) as [Q|Q]; [|apply G3; lia].
        destruct (in_dec Nat.eq_dec j (map fst (saved_triangles (save g1)))) as [Y|Y]; [exact Y|]. destruct (cov_rest _ _ _ _ _ _ _ CT' j J2 Y) as (_ & x & _ & X & _). exfalso. assert (j < length (triangles g1)) by (apply nth_error_Some; congruence). lia.
      * rewrite app_length, firstn_length. cbn [length]. rewrite skipn_length. lia.
    + exfalso. replace (length (triangles g) - k) with 0 in E1 by lia. cbn in E1. injection E1 as <-. lia.
  - exists b. unfold set_opposite in E. destruct (nth_error (opposites g) i) as [old|] eqn:E1; [|discriminate]. destruct (write i n (opposites g)) as [os|] eqn:E2; [|discriminate]. apply write_some in E2. destruct E2 as (L & L' & _ & O). destruct (old =? n); [injection E as <-; exact H|]. injection E as <-. rewrite A. cbn [andb]. pose proof (wf_opposites _ W0).
    destruct (Nat.ltb_spec i (n_mesh_vertices (save g))) as [I|I]; split; cbn; try assumption; try lia.
    + apply (covers_change _ _ _ _ _ (opposites g) _ _ i); [|intros _; apply emplace_keys; auto|exact O]. apply covers_emplace; [exact CO|lia|exact E1].
    + apply (covers_change _ _ _ _ _ (opposites g) _ _ i); [exact CO|intros; lia|exact O].
  - injection E as <-. exists b. destruct to; split; cbn; try assumption; apply side_disc; assumption.
  - injection E as <-. exists b. destruct to; split; cbn; try assumption; apply side_write; assumption.
  - exists b. unfold reshade in E. destruct (nth_error (vertices g) i) as [[c d']|] eqn:E1; [|discriminate]. destruct (write i (c, d) (vertices g)) as [vs|] eqn:E2; [|discriminate]. apply write_some in E2. destruct E2 as (L & L' & Q & O). injection E as <-. split; cbn; try assumption; try lia.
    apply (covers_same _ _ _ _ _ (vertices g)); [exact CV|]. intros m y Y. destruct (Nat.eq_dec m i) as [->|NE]; [exists (c, d); split; [exact Q|]; rewrite E1 in Y; injection Y as <-; reflexivity|]. exists y. rewrite O by exact NE. auto.
  - injection E as <-. exists b. split; cbn; try assumption; try (apply side_break; assumption).
    assert (LC : below b (counts_of g)).
    { destruct N0 as (N0 & N0'). pose proof (sk_indices _ _ _ _ SL) as (_ & _ & Q1 & _). pose proof (sk_discs _ _ _ _ SL) as (_ & _ & Q2 & _). pose proof (sk_indices _ _ _ _ SR) as (_ & _ & Q3 & _). pose proof (sk_discs _ _ _ _ SR) as (_ & _ & Q4 & _). bl. }
    destruct (contains_all (save g)); [bl|]. destruct AL as (-> & _). split; [reflexivity|right]. bl.
  - apply clear_some in E. destruct E as [->|(s & -> & E)]; [exists b; exact H|].
    assert (G : forall b', inv g0 (with_save g s) b' -> below b' (last_break g) -> exists b', inv g0 (cleared g s) b').
    { clear. intros b' [A NV NT K1 K2 CV CT CO SL SR BR N0 N1 AL LO] (B1 & B2 & B3 & B4). exists b'. cbn in *. split; cbn; rewrite ?resize_len; try assumption; try lia; try (apply kept_cut; assumption); try (apply covers_cut; assumption); apply side_break, side_cut; assumption. }
    rewrite A in E. cbn [andb] in E. destruct (contains_all (save g)) eqn:CA; cbn [negb andb] in E.
    + subst s. apply (G b); [destruct g; exact H|exact AL].
    + destruct AL as (-> & AL). destruct (Nat.leb_spec (triangle_count (last_break g)) (n_mesh_triangles (save g))) as [L|L].
      * destruct (capture_inv g0 g s W0 H E CA) as (I1 & I2). apply (G (last_break g)); [exact I1|apply below_refl].
      * subst s. apply (G (counts_of g0)); [destruct g; exact H|]. destruct AL as [AL|AL]; [|exact AL]. exfalso. rewrite NT, AL in L. pose proof (wf_break _ W0) as (_ & Q & _). cbn in Q. lia.
  - injection E as <-. exists b. split; assumption.
Qed.
Lemma inv_run (g0 : geometry) os : forall (g : geometry) b g', wf g0 -> wf g -> inv g0 g b -> run g os = Some g' -> wf g' /\ exists b', inv g0 g' b'.
Proof.
  induction os as [|o os IH]; intros g b g' W0 W H E; cbn in E; [injection E as <-; eauto|]. destruct (step g o) as [g1|] eqn:E1; [|discriminate]. destruct (inv_step g0 g b o g1 W0 W H E1) as (b1 & H1). apply (IH g1 b1 g' W0 (wf_step _ _ _ W E1) H1 E).
Qed.

(** ** Reverting *)
Lemma nth_error_ext {A} (l : list A) : forall l', (forall k, nth_error l k = nth_error l' k) -> l = l'.
Proof.
  induction l as [|x l IH]; intros [|y l'] H; [reflexivity|specialize (H 0); discriminate|specialize (H 0); discriminate|].
  f_equal; [specialize (H 0); cbn in H; congruence|]. apply IH. intros k. apply (H (S k)).
Qed.
Definition overlaid {A} (m : list (nat * A)) (l l' : list A) : Prop := length l' = length l /\ forall k, nth_error l' k = match lookup k m with Some x => Some x | None => nth_error l k end.
Lemma overlaid_cons {A} i (x : A) m l l1 l' : ~ In i (map fst m) -> write i x l = Some l1 -> overlaid m l1 l' -> overlaid ((i, x) :: m) l l'.
Proof.
  intros N W (L & O). apply write_some in W. destruct W as (W1 & W2 & W3 & W4). split; [lia|]. intros k. rewrite O. cbn. destruct (Nat.eqb_spec i k) as [<-|NE].
  - destruct (lookup i m) as [y|] eqn:E; [|exact W3]. exfalso. apply N. apply lookup_in in E. apply in_map_iff. exists (i, y). auto.
  - destruct (lookup k m); [reflexivity|]. apply W4. auto.
Qed.
Lemma overlaid_nil {A} (l : list A) : overlaid [] l l. Proof. split; [reflexivity|intros; reflexivity]. Qed.
Lemma all_vertices m : forall g : geometry, NoDup (map fst m) -> (forall k x, In (k, x) m -> k < length (vertices g)) -> length (ids g) = length (vertices g) ->
  exists vs, all (fun g k v => set_vertex g k v false) g m = Some (with_mesh g vs (triangles g)) /\ overlaid m (vertices g) vs.
Proof.
  induction m as [|[i x] m IH]; intros g N B L; cbn; [exists (vertices g); split; [destruct g; reflexivity|apply overlaid_nil]|].
  assert (I : i < length (vertices g)) by (apply (B i x); cbn; auto). inversion N as [|? ? N1 N2]; subst.
  unfold set_vertex. destruct (nth_error (vertices g) i) as [old|] eqn:E1; [|apply nth_error_None in E1; lia]. destruct (write_ok i x (vertices g) I) as (vs & E2). rewrite E2. destruct (nth_error (ids g) i) as [q|] eqn:E3; [|apply nth_error_None in E3; lia]. cbn [andb].
  destruct (IH (with_save (with_mesh g vs (triangles g)) (save g)) N2) as (vs' & A1 & A2).
  - apply write_some in E2. intros k y K. cbn. specialize (B k y). cbn in B. assert (k < length (vertices g)) by auto. lia.
  - apply write_some in E2. cbn. lia.
  - exists vs'. split; [exact A1|]. apply (overlaid_cons _ _ _ _ _ _ N1 E2). exact A2.
Qed.
Lemma all_triangles m : forall g : geometry, NoDup (map fst m) -> (forall k x, In (k, x) m -> k < length (triangles g)) ->
  exists ts, all (fun g k v => set_triangle g k v false) g m = Some (with_mesh g (vertices g) ts) /\ overlaid m (triangles g) ts.
Proof.
  induction m as [|[i x] m IH]; intros g N B; cbn; [exists (triangles g); split; [destruct g; reflexivity|apply overlaid_nil]|].
  assert (I : i < length (triangles g)) by (apply (B i x); cbn; auto). inversion N as [|? ? N1 N2]; subst.
  unfold set_triangle. destruct (nth_error (triangles g) i) as [old|] eqn:E1; [|apply nth_error_None in E1; lia]. destruct (write_ok i x (triangles g) I) as (vs & E2). rewrite E2.
  destruct (IH (with_save (with_mesh g (vertices g) vs) (save g)) N2) as (vs' & A1 & A2).
  - apply write_some in E2. intros k y K. cbn. specialize (B k y). cbn in B. assert (k < length (triangles g)) by auto. lia.
  - exists vs'. split; [exact A1|]. apply (overlaid_cons _ _ _ _ _ _ N1 E2). exact A2.
Qed.
Lemma write_same {A} i (x : A) l l1 : nth_error l i = Some x -> write i x l = Some l1 -> l1 = l.
Proof.
  intros H W. apply write_some in W. destruct W as (_ & L & W1 & W2). apply nth_error_ext. intros k. destruct (Nat.eq_dec k i) as [->|N]; [congruence|auto].
Qed.
Definition with_opposites (g : geometry) os : geometry := Geometry (vertices g) (triangles g) (ids g) (offsets g) os (left g) (right g) (last_break g) (save g) (mutated_left g) (mutated_right g).
Lemma all_opposites m : forall g : geometry, NoDup (map fst m) -> (forall k x, In (k, x) m -> k < length (opposites g)) ->
  exists os, all (fun g k v => set_opposite g k v false) g m = Some (with_opposites g os) /\ overlaid m (opposites g) os.
Proof.
  induction m as [|[i x] m IH]; intros g N B; cbn; [exists (opposites g); split; [destruct g; reflexivity|apply overlaid_nil]|].
  assert (I : i < length (opposites g)) by (apply (B i x); cbn; auto). inversion N as [|? ? N1 N2]; subst.
  unfold set_opposite. destruct (nth_error (opposites g) i) as [old|] eqn:E1; [|apply nth_error_None in E1; lia]. destruct (write_ok i x (opposites g) I) as (vs & E2). rewrite E2.
  destruct (Nat.eqb_spec old x) as [->|NE].
  - destruct (IH g N2) as (vs' & A1 & A2); [intros k y K; apply (B k y); cbn; auto|]. exists vs'. split; [exact A1|]. apply (overlaid_cons _ _ _ _ _ _ N1 E2). rewrite (write_same _ _ _ _ E1 E2). exact A2.
  - cbn [andb]. match goal with |- context [all _ ?G m] => destruct (IH G N2) as (vs' & A1 & A2) end.
    + apply write_some in E2. intros k y K. cbn. specialize (B k y). cbn in B. assert (k < length (opposites g)) by auto. lia.
    + exists vs'. split; [exact A1|]. apply (overlaid_cons _ _ _ _ _ _ N1 E2). exact A2.
Qed.
Lemma revert_side_ok st b (s s0 : side) n : side_kept st b s s0 -> revert_side empty_disc s n st = Some (s0, Nat.min n (index_count b)).
Proof.
  intros [A B C D (E1 & E2 & E3 & E4 & E5)]. unfold revert_side. rewrite A, B. destruct (kept_back _ _ _ _ 0 C) as (C1 & C2). destruct (kept_back _ _ _ _ empty_disc D) as (D1 & _). rewrite C1, D1, C2, E1, E2, E3, E4, E5. destruct s0; reflexivity.
Qed.
Lemma overlay_back {A B} (f : A -> B) m b now before l z : covers _ _ f m b now before -> b <= length now -> b <= length before -> overlaid m (resize z (length before) now) l -> map f l = map f before.
Proof.
  intros C B1 B2 (L & O). rewrite resize_len in L. apply nth_error_ext. intros k. rewrite !nth_error_map. destruct (le_lt_dec (length before) k) as [K|K].
  - destruct (nth_error l k) eqn:E1; [assert (k < length l) by (apply nth_error_Some; congruence); lia|]. destruct (nth_error before k) eqn:E2; [assert (k < length before) by (apply nth_error_Some; congruence); lia|]. reflexivity.
  - destruct (covers_back _ _ _ _ _ _ _ (covers_cut _ _ _ _ _ _ _ z (length before) C B2) (resize_len _ _ _) B2 k K) as (x & y & X & Y & E). rewrite O, X, Y. cbn. congruence.
Qed.
Lemma map_same_triangle l : map same_triangle l = l. Proof. apply map_id. Qed.
Lemma map_same_nat l : map same_nat l = l. Proof. apply map_id. Qed.

Theorem revert_ok (g0 g : geometry) b sv st so : wf g0 -> wf g -> inv g0 g b -> Permutation sv (saved_vertices (save g)) -> Permutation st (saved_triangles (save g)) -> Permutation so (saved_opposites (save g)) ->
  exists g', revert zero_vertex zero_triangle empty_disc g sv st so = Some g' /\ same_stroke g' g0 /\ is_active (save g') = false /\
    mutated_left g' = Nat.min (mutated_left g) (index_count (left_info b)) /\ mutated_right g' = Nat.min (mutated_right g) (index_count (right_info b)).
Proof.
  intros [W1 W2 W3 W4] [_ _ X3 _] H P1 P2 P3. destruct H as [A NV NT K1 K2 CV CT CO SL SR BR N0 N1 AL LO].
  apply (covers_permutation _ _ _ _ _ _ _ _ P1) in CV. apply (covers_permutation _ _ _ _ _ _ _ _ P2) in CT. apply (covers_permutation _ _ _ _ _ _ _ _ P3) in CO. clear P1 P2 P3.
  unfold revert. rewrite A, NV, NT. cbn [negb]. cbv zeta.
  set (g1 := Geometry _ _ _ _ _ _ _ _ _ _ _).
  assert (LB : forall {A B} (f : A -> B) m b now before k x, covers _ _ f m b now before -> In (k, x) m -> k < length before).
  { clear. intros A B f m b now before k x C I. destruct (cov_saved _ _ _ _ _ _ _ C k x I) as (y & Y & _). apply nth_error_Some. congruence. }
  destruct (all_vertices sv g1) as (vs & V1 & V2).
  { apply (cov_nodup _ _ _ _ _ _ _ CV). } { intros k x K. cbn. rewrite resize_len. apply (LB _ _ _ _ _ _ _ _ _ CV K). } { cbn. rewrite !resize_len. reflexivity. }
  rewrite V1. destruct (all_triangles st (with_mesh g1 vs (triangles g1))) as (ts & T1 & T2).
  { apply (cov_nodup _ _ _ _ _ _ _ CT). } { intros k x K. cbn. rewrite resize_len. apply (LB _ _ _ _ _ _ _ _ _ CT K). }
  rewrite T1. match goal with |- context [all _ ?G so] => destruct (all_opposites so G) as (os & O1 & O2) end.
  { apply (cov_nodup _ _ _ _ _ _ _ CO). } { intros k x K. cbn. rewrite resize_len. rewrite <- W3. apply (LB _ _ _ _ _ _ _ _ _ CO K). }
  rewrite O1. cbn [ids offsets opposites left right vertices triangles save mutated_left mutated_right with_mesh with_opposites g1].
  pose proof (proj1 (kept_back _ _ _ _ true K1)) as KI. rewrite W1 in KI. rewrite KI. pose proof (proj1 (kept_back _ _ _ _ 0 K2)) as KO. rewrite W2 in KO. rewrite KO.
  rewrite (revert_side_ok _ _ _ _ _ SL), (revert_side_ok _ _ _ _ _ SR). eexists. split; [reflexivity|]. split; [|cbn; auto].
  cbn in V2, T2, O2. rewrite <- W3 in O2. destruct N0, N1. split; cbn; try reflexivity.
  - eapply overlay_back; [exact CV| | |exact V2]; lia.
  - rewrite <- (map_same_triangle ts), <- (map_same_triangle (triangles g0)). eapply overlay_back; [exact CT| | |exact T2]; lia.
  - rewrite <- (map_same_nat os), <- (map_same_nat (opposites g0)). eapply overlay_back; [exact CO| | |exact O2]; lia.
  - exact BR.
Qed.

(** ** What can be reached *)
Lemma same_wf (g g' : geometry) : same_stroke g' g -> wf g -> wf g'.
Proof.
  intros [S1 S2 S3 S4 S5 S6 S7 S8] [W1 W2 W3 W4]. assert (L : length (vertices g') = length (vertices g)) by (rewrite <- (map_length fst (vertices g')), S1; apply map_length).
  split; rewrite ?S3, ?S4, ?S5, ?S8; try lia. unfold counts_of in *. rewrite L, S2, S6, S7. exact W4.
Qed.
Lemma revert_inactive (g : geometry) sv st so : is_active (save g) = false -> revert zero_vertex zero_triangle empty_disc g sv st so = Some g.
Proof. intros A. unfold revert. rewrite A. reflexivity. Qed.
Lemma wf_save (g : geometry) : wf g -> wf (set_save_point zero_vertex g).
Proof.
  intros [W1 W2 W3 W4]. split; cbn; try assumption. assert (T1 : forall s : side, info_of (trim_buffer zero_vertex s) = info_of s) by (intros s; unfold trim_buffer; destruct (buffer s) as [|x [|y l]]; reflexivity).
  unfold counts_of in *. cbn. rewrite !T1. exact W4.
Qed.
Lemma reachable_wf (g : geometry) : reachable zero_vertex zero_triangle fresh empty_disc g -> wf g /\ (is_active (save g) = true -> exists g0 b, wf g0 /\ inv g0 g b).
Proof.
  induction 1 as [r|g o g' H (W & IH) E|g H (W & IH)|g sv st so g' H (W & IH) P1 P2 P3 E].
  - split; [split; cbn; try reflexivity; bl|discriminate].
  - split; [apply (wf_step _ _ _ W E)|]. intros A. destruct (is_active (save g)) eqn:A0.
    + destruct (IH eq_refl) as (g0 & b & W0 & I0). exists g0. destruct (inv_step _ _ _ _ _ W0 W I0 E) as (b' & I'). eauto.
    + exfalso. assert (K : is_active (save g') = is_active (save g)); [|congruence]. clear - E A0. destruct o as [to v|t|i v|j t|k f t|i n|to d|to a n f x r|i d| | |]; cbn [ExtruderGeometryModel.step] in E.
      * injection E as <-. reflexivity.
      * injection E as <-. reflexivity.
      * apply set_vertex_some in E. destruct E as (? & ? & ? & _ & _ & _ & -> & ->). rewrite A0. destruct (_ && _ && _); exact A0.
      * apply set_triangle_some in E. destruct E as (? & ? & _ & _ & ->). unfold save_triangle. rewrite A0. exact A0.
      * unfold retriangulate in E. destruct (retriangulate_from g k (length (triangles g) - k) f) as [g1|] eqn:E1; [|discriminate]. destruct (k <=? length (triangles g1)); [|discriminate]. injection E as <-. cbn.
        generalize dependent (length (triangles g) - k). intros n. revert g g1 A0. induction n as [|n IH]; intros g g1 A0 E; cbn in E; [injection E as <-; reflexivity|]. destruct (nth_error (triangles g) (k + n)); [|discriminate]. destruct (set_triangle _ _ _ false) as [g2|] eqn:S1; [|discriminate]. apply set_triangle_some in S1. destruct S1 as (old' & ts & A & B & ->). unfold save_triangle in E. rewrite A0 in E. cbn [andb] in E. apply IH in E; [exact E|exact A0].
      * unfold set_opposite in E. destruct (nth_error (opposites g) i) as [old|] eqn:E1; [|discriminate]. destruct (write i n (opposites g)) as [os|] eqn:E2; [|discriminate]. rewrite A0 in E. destruct (old =? n); injection E as <-; reflexivity.
      * injection E as <-. destruct to; reflexivity.
      * injection E as <-. destruct to; reflexivity.
      * unfold reshade in E. destruct (nth_error (vertices g) i) as [[c d']|] eqn:E1; [|discriminate]. destruct (write i (c, d) (vertices g)) as [vs|] eqn:E2; [|discriminate]. injection E as <-. reflexivity.
      * injection E as <-. reflexivity.
      * apply clear_some in E. rewrite A0 in E. destruct E as [->|(s & -> & ->)]; reflexivity.
      * injection E as <-. reflexivity.
  - split; [apply wf_save, W|]. intros _. exists g, (counts_of g). split; [exact W|apply inv_start, W].
  - destruct (is_active (save g)) eqn:A.
    + destruct (IH eq_refl) as (g0 & b & W0 & I0). destruct (revert_ok _ _ _ _ _ _ W0 W I0 P1 P2 P3) as (g1 & R1 & R2 & R3 & _). rewrite R1 in E. injection E as <-. split; [apply (same_wf _ _ R2 W0)|congruence].
    + rewrite (revert_inactive _ _ _ _ A) in E. injection E as <-. split; [exact W|congruence].
Qed.

(** ** When clearing fails *)
Lemma clear_none (g0 g : geometry) b : wf g0 -> wf g -> inv g0 g b ->
  (clear zero_vertex zero_triangle fresh empty_disc g = None <->
    vertex_count (last_break g) < length (vertices g) /\ contains_all (save g) = false /\ triangle_count (last_break g) = length (triangles g0) /\ ~ below (last_break g) (counts_of g0)).
Proof.
  intros W0 W H. destruct H as [A NV NT K1 K2 CV CT CO SL SR BR N0 N1 AL LO]. pose proof (wf_break _ W) as (WB & _). cbn in WB. unfold clear. cbv zeta.
  destruct (Nat.eqb_spec (length (vertices g)) (vertex_count (last_break g))) as [E|E]; [split; [discriminate|lia]|]. rewrite A, NT. cbn [andb]. destruct (contains_all (save g)); cbn [negb andb]; [split; [discriminate|intros (_ & ? & _); discriminate]|].
  destruct AL as (-> & AL). assert (Q : last_break g = last_break g0 -> below (last_break g) (counts_of g0)) by (intros ->; apply W0).
  destruct (Nat.leb_spec (triangle_count (last_break g)) (length (triangles g0))) as [L|L]; [|split; [discriminate|lia]].
  assert (G : capture g = None <-> ~ below (last_break g) (counts_of g0)).
  { unfold capture. rewrite NV, NT. destruct (Nat.leb_spec (triangle_count (last_break g)) (length (triangles g0))) as [L1|L1]; [|lia]. rewrite andb_true_r. cbv zeta.
    destruct (Nat.leb_spec (vertex_count (last_break g)) (length (vertices g0))) as [L2|L2]; [|split; [intros _ (X & _); cbn in X; lia|reflexivity]].
    cbn in K1, K2, N0. destruct K1 as (_ & _ & K1 & _). destruct K2 as (_ & _ & K2 & _). pose proof (wf_opposites _ W) as WO.
    unfold slice at 1 2. destruct (Nat.leb_spec (length (vertices g0)) (length (ids g))) as [_|?]; [|lia]. destruct (Nat.leb_spec (length (vertices g0)) (length (offsets g))) as [_|?]; [|lia]. destruct (Nat.leb_spec (vertex_count (last_break g)) (length (vertices g0))) as [_|?]; [|lia]. cbn [andb].
    destruct (emplace_from_ok (length (triangles g0) - triangle_count (last_break g)) (triangle_count (last_break g)) (triangles g) (saved_triangles (save g))) as (? & ->); [lia|].
    destruct (emplace_from_ok (length (vertices g0) - vertex_count (last_break g)) (vertex_count (last_break g)) (vertices g) (saved_vertices (save g))) as (? & ->); [lia|].
    destruct (emplace_from_ok (length (vertices g0) - vertex_count (last_break g)) (vertex_count (last_break g)) (opposites g) (saved_opposites (save g))) as (? & ->); [lia|].
    assert (CS : forall st (s s0 : side) c, side_kept st (info_of s0) s s0 -> (exists st', capture_side s c st = Some st' /\ below_info c (info_of s0)) \/ (capture_side s c st = None /\ ~ below_info c (info_of s0))).
    { clear. intros st s s0 c [Q1 Q2 (_ & _ & I1 & _) (_ & _ & I2 & _) _]. cbn in I1, I2. unfold capture_side, slice, below_info. cbn. rewrite Q1, Q2. destruct (Nat.leb_spec (length (indices s0)) (length (indices s))) as [_|?]; [|lia]. destruct (Nat.leb_spec (length (discs s0)) (length (discs s))) as [_|?]; [|lia].
      destruct (Nat.leb_spec (index_count c) (length (indices s0))) as [?|?]; [|right; split; [reflexivity|lia]]. destruct (Nat.leb_spec (disc_count c) (length (discs s0))) as [?|?]; cbn [andb]; [left; eexists; split; [reflexivity|lia]|right; split; [reflexivity|lia]]. }
    destruct (CS _ _ _ (left_info (last_break g)) SL) as [(ls & -> & B1)|(-> & B1)]; [|split; [intros _ (_ & _ & X & _); auto|reflexivity]].
    destruct (CS _ _ _ (right_info (last_break g)) SR) as [(rs & -> & B2)|(-> & B2)]; [|split; [intros _ (_ & _ & _ & X); auto|reflexivity]].
    split; [discriminate|]. intros X. exfalso. apply X. repeat split; cbn; try lia; try apply B1; apply B2. }
  assert (TB : ~ below (last_break g) (counts_of g0) -> triangle_count (last_break g) = length (triangles g0)).
  { intros X. destruct AL as [AL|AL]; [exfalso; auto|]. destruct AL as (_ & AL & _). cbn in AL. lia. }
  destruct (capture g) as [s|]; split; intros X.
  - discriminate.
  - exfalso. destruct G as (_ & G). assert (Y : Some s = None) by (apply G; tauto). discriminate.
  - destruct G as (G & _). specialize (G eq_refl). split; [lia|]. split; [reflexivity|]. split; auto.
  - reflexivity.
Qed.
End Proofs.
