(** What the changes of the geometry mean for the two sides *)
From Coq Require Import Arith Bool Lia Permutation List.
From Verif Require Import ExtruderGeometryModel ExtruderGeometrySpec ExtruderGeometryLists ExtruderGeometryProofs TipExtruderModel.
Import ListNotations.

Section Sides.
Variables (core shade T J R : Type) (zero_vertex : core * shade) (zero_triangle : T) (fresh : nat -> nat -> R) (empty_disc : J).
Notation geometry := (geometry core shade T J R).
Notation step := (step zero_vertex zero_triangle fresh empty_disc).
Notation draw := (draw zero_vertex zero_triangle fresh empty_disc).
Notation li g := (indices (left g)).
Notation ri g := (indices (right g)).
Notation lc g := (index_count (left_info (last_break g))).
Notation rc g := (index_count (right_info (last_break g))).
Notation wf := (wf core shade T J R).
Notation inv := (inv core shade T J R).

(** the indices on the two sides number the vertices; those before the last break number the vertices before it *)
Definition numbered (g : geometry) : Prop := Permutation (li g ++ ri g) (seq 0 (length (vertices g))) /\ Permutation (firstn (lc g) (li g) ++ firstn (rc g) (ri g)) (seq 0 (vertex_count (last_break g))).
(** drawn on *)
Record drawn (g g' : geometry) : Prop := {
  dr_left : exists x, li g' = li g ++ x;
  dr_right : exists x, ri g' = ri g ++ x;
  dr_break : last_break g' = last_break g;
  dr_mutated : mutated_left g' = mutated_left g /\ mutated_right g' = mutated_right g;
  dr_wf : wf g';
  dr_numbered : numbered g';
  dr_inv : forall g0 b, wf g0 -> inv g0 g b -> exists b', inv g0 g' b' }.
Lemma drawn_refl (g : geometry) : wf g -> numbered g -> drawn g g.
Proof. intros W N. split; try assumption; eauto; try (exists []; rewrite app_nil_r; reflexivity). Qed.
Lemma drawn_trans (a b c : geometry) : drawn a b -> drawn b c -> drawn a c.
Proof.
  intros [(x & A1) (y & A2) A3 (A4 & A5) A6 A7 A8] [(x' & B1) (y' & B2) B3 (B4 & B5) B6 B7 B8]. split; try assumption.
  - exists (x ++ x'). rewrite B1, A1, app_assoc. reflexivity.
  - exists (y ++ y'). rewrite B2, A2, app_assoc. reflexivity.
  - congruence.
  - split; congruence.
  - intros g0 d W0 H. destruct (A8 g0 d W0 H) as (d' & H'). apply (B8 g0 d' W0 H').
Qed.
Lemma firstn_more {A} n (l x : list A) : n <= length l -> firstn n (l ++ x) = firstn n l.
Proof. intros H. rewrite firstn_app. replace (n - length l) with 0 by lia. cbn. apply app_nil_r. Qed.
Lemma drawn_step (g : geometry) o g' : wf g -> numbered g -> drawing o = true -> step g o = Some g' -> drawn g g'.
Proof.
  intros W N D E. pose proof (wf_step _ _ _ _ _ zero_vertex zero_triangle fresh empty_disc _ _ _ W E) as W'.
  assert (I : forall g0 b, wf g0 -> inv g0 g b -> exists b', inv g0 g' b') by (intros g0 b W0 H; apply (inv_step _ _ _ _ _ zero_vertex zero_triangle fresh empty_disc g0 g b o g' W0 W H E)).
  assert (B : li g' = li g /\ ri g' = ri g /\ last_break g' = last_break g /\ mutated_left g' = mutated_left g /\ mutated_right g' = mutated_right g /\ length (vertices g') = length (vertices g) \/ exists b v, o = AppendVertex b v).
  { clear I W'. destruct o as [to v|t|i v|j t|k f t|i n|to d|to a n f x r|i d| | |]; cbn [ExtruderGeometryModel.step] in E; try discriminate D.
    - right. eauto.
    - left. injection E as <-. repeat split.
    - left. apply set_vertex_some in E. destruct E as (old & vs & s & _ & E2 & _ & -> & _). apply write_some in E2. cbn. repeat split. apply E2.
    - left. apply set_triangle_some in E. destruct E as (? & ? & _ & _ & ->). repeat split.
    - left. unfold retriangulate in E. destruct (retriangulate_from g k (length (triangles g) - k) f) as [g1|] eqn:E1; [|discriminate]. destruct (k <=? length (triangles g1)); [|discriminate]. injection E as <-. cbn.
      generalize dependent (length (triangles g) - k). intros n. clear. revert g g1. induction n as [|n IH]; intros g g1 E; cbn in E; [injection E as <-; repeat split|]. destruct (nth_error (triangles g) (k + n)); [|discriminate]. destruct (set_triangle _ _ _ false) as [g2|] eqn:S1; [|discriminate]. apply set_triangle_some in S1. destruct S1 as (old' & ts & _ & _ & ->). specialize (IH _ _ E). exact IH.
    - left. unfold set_opposite in E. destruct (nth_error (opposites g) i) as [old|] eqn:E1; [|discriminate]. destruct (write i n (opposites g)) as [os|] eqn:E2; [|discriminate]. destruct (old =? n); injection E as <-; repeat split.
    - left. injection E as <-. destruct to; repeat split.
    - left. injection E as <-. destruct to; repeat split.
    - left. unfold reshade in E. destruct (nth_error (vertices g) i) as [[c d']|] eqn:E1; [|discriminate]. destruct (write i (c, d) (vertices g)) as [vs|] eqn:E2; [|discriminate]. injection E as <-. apply write_some in E2. cbn. repeat split. apply E2. }
  destruct B as [(B1 & B2 & B3 & B4 & B5 & B6)|(to & v & ->)].
  - split; try assumption; try (exists []; rewrite app_nil_r; assumption); [split; assumption|]. unfold numbered in *. rewrite B1, B2, B3, B6. exact N.
  - cbn in E. injection E as <-. destruct N as (N1 & N2). destruct (wf_break _ _ _ _ _ _ W) as (_ & _ & (WL & _) & (WR & _)). cbn in WL, WR. split; try assumption.
    + destruct to; cbn; [eauto|exists []; rewrite app_nil_r; reflexivity].
    + destruct to; cbn; [exists []; rewrite app_nil_r; reflexivity|eauto].
    + reflexivity.
    + split; reflexivity.
    + unfold numbered. destruct to; cbn; rewrite app_length; cbn; rewrite firstn_more by assumption; (split; [|exact N2]); rewrite seq_app; cbn.
      * rewrite <- app_assoc. apply Permutation_trans with ((li g ++ ri g) ++ [length (vertices g)]); [rewrite <- app_assoc; apply Permutation_app_head, Permutation_app_comm|]. apply Permutation_app_tail, N1.
      * rewrite app_assoc. apply Permutation_app_tail, N1.
Qed.
Lemma drawn_draw (allowed : op core shade T J R -> bool) (g : geometry) os g' : (forall o, allowed o = true -> drawing o = true) -> wf g -> numbered g -> draw allowed g os = Done g' -> drawn g g'.
Proof.
  intros AD. unfold TipExtruderModel.draw. destruct (forallb allowed os) eqn:D; [|discriminate]. revert g. induction os as [|o os IH]; intros g W N E; cbn in E.
  - injection E as <-. apply drawn_refl; assumption.
  - cbn in D. apply andb_true_iff in D. destruct D as (D1 & D2). destruct (step g o) as [g1|] eqn:E1; [|discriminate]. pose proof (drawn_step _ _ _ W N (AD _ D1) E1) as D. apply (drawn_trans _ g1); [exact D|]. apply (IH D2); [apply D|apply D|exact E].
Qed.
Lemma move_sides (g : geometry) os g' : draw moving g os = Done g' -> li g' = li g /\ ri g' = ri g.
Proof.
  unfold TipExtruderModel.draw. destruct (forallb moving os) eqn:D; [|discriminate]. revert g. induction os as [|o os IH]; intros g E; cbn in E; [injection E as <-; auto|].
  cbn in D. apply andb_true_iff in D. destruct D as (D1 & D2). destruct (step g o) as [g1|] eqn:E1; [|discriminate]. destruct (IH D2 _ E) as (A & B). rewrite A, B. destruct o; try discriminate D1. cbn in E1. apply set_vertex_some in E1. destruct E1 as (? & ? & ? & _ & _ & _ & -> & _). auto.
Qed.
Lemma shade_sides (g : geometry) os g' : draw shading g os = Done g' -> li g' = li g /\ ri g' = ri g.
Proof.
  unfold TipExtruderModel.draw. destruct (forallb shading os) eqn:D; [|discriminate]. revert g. induction os as [|o os IH]; intros g E; cbn in E; [injection E as <-; auto|].
  cbn in D. apply andb_true_iff in D. destruct D as (D1 & D2). destruct (step g o) as [g1|] eqn:E1; [|discriminate]. destruct (IH D2 _ E) as (A & B). rewrite A, B. destruct o; try discriminate D1. cbn in E1. unfold reshade in E1. destruct (nth_error (vertices g) i) as [[c d']|]; [|discriminate]. destruct (write i (c, d) (vertices g)); [|discriminate]. injection E1 as <-. auto.
Qed.
Lemma moving_drawing (o : op core shade T J R) : moving o = true -> drawing o = true. Proof. destruct o; cbn; congruence. Qed.
Lemma shading_drawing (o : op core shade T J R) : shading o = true -> drawing o = true. Proof. destruct o; cbn; congruence. Qed.
(** breaks *)
Lemma break_numbered (g : geometry) : numbered g -> numbered (add_break fresh g).
Proof. intros (N1 & _). split; [exact N1|]. cbn. rewrite !firstn_all. exact N1. Qed.
(** clearing *)
Lemma clear_sides (g g' : geometry) : wf g -> numbered g -> clear zero_vertex zero_triangle fresh empty_disc g = Some g' ->
  li g' = firstn (lc g) (li g) /\ ri g' = firstn (rc g) (ri g) /\ last_break g' = last_break g /\ numbered g' /\
  (lc g <= mutated_left g -> rc g <= mutated_right g -> lc g <= mutated_left g' /\ rc g <= mutated_right g') /\
  (mutated_left g' <= lc g /\ mutated_right g' <= rc g \/ li g' = li g /\ ri g' = ri g).
Proof.
  intros W N E. destruct (wf_break _ _ _ _ _ _ W) as (_ & _ & (WL & _) & (WR & _)). cbn in WL, WR. unfold clear in E. cbv zeta in E. destruct (Nat.eqb_spec (length (vertices g)) (vertex_count (last_break g))) as [L|L].
  - injection E as <-. destruct N as (N1 & N2). rewrite L in N1. pose proof (Permutation_length N1) as P1. pose proof (Permutation_length N2) as P2. rewrite !app_length, !firstn_length, seq_length in *.
    rewrite !firstn_all2 by lia. split; [reflexivity|]. split; [reflexivity|]. split; [reflexivity|]. split; [split; [rewrite L; exact N1|exact N2]|]. split; auto.
  - match type of E with context [match ?m with Some _ => _ | None => None end] => destruct m as [s|]; [|discriminate] end. injection E as <-. destruct N as (N1 & N2). cbn. rewrite !resize_self by lia. split; [reflexivity|]. split; [reflexivity|]. split; [reflexivity|]. split.
    + unfold numbered. cbn. rewrite resize_len, !resize_self by lia. rewrite !firstn_firstn, !Nat.min_id. auto.
    + rewrite !firstn_length. split; [lia|]. left. lia.
Qed.
Lemma save_sides (g : geometry) : li (set_save_point zero_vertex g) = li g /\ ri (set_save_point zero_vertex g) = ri g.
Proof. cbn. unfold trim_buffer. destruct (buffer (left g)) as [|? [|? ?]], (buffer (right g)) as [|? [|? ?]]; split; reflexivity. Qed.
Lemma save_numbered (g : geometry) : numbered g -> numbered (set_save_point zero_vertex g).
Proof. intros N. destruct (save_sides g) as (E1 & E2). unfold numbered. rewrite E1, E2. exact N. Qed.
Lemma same_numbered (g g' : geometry) : same_stroke g' g -> numbered g -> numbered g'.
Proof.
  intros [S1 S2 S3 S4 S5 S6 S7 S8] N. unfold numbered in *. assert (L : length (vertices g') = length (vertices g)) by (rewrite <- (map_length fst (vertices g')), S1; apply map_length).
  rewrite L, S6, S7, S8. exact N.
Qed.
Lemma number_in (g : geometry) i : numbered g -> In i (li g) \/ In i (ri g) -> i < length (vertices g).
Proof. intros (N & _) H. apply in_app_iff in H. apply (Permutation_in _ N) in H. apply in_seq in H. lia. Qed.
End Sides.
