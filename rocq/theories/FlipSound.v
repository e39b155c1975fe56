(** When the flip correction returns overrides, no triangle of the packed mesh is flipped *)
From Coq Require Import ZArith Bool Arith Lia List.
From Verif Require Import NumModel GeomModel PartitionModel FlipModel FlipProofs.
Import ListNotations.

Section Sound.
Context {N : num}.
Variable C : coding N.
Variable pos : Z -> vec N.
Variable ts : list tri.
Notation data := (FlipModel.data N).
Notation tri_at := (tri_at ts).
Notation adjacent := (adjacent ts).
Definition distinct (t : tri) : Prop := let '(a, b, c) := t in a <> b /\ a <> c /\ b <> c.
Definition used (v : Z) : Prop := exists t, In t ts /\ In v (corners t).
Hypothesis Distinct : forall t, In t ts -> distinct t.
(** [eqv]: equal for every purpose (floats: up to the sign of zero); [good]: positions that packing leaves alone *)
Variables (eqv : vec N -> vec N -> Prop) (good : vec N -> Prop).
Definition is_nudge (v : vec N) : Prop := exists s t, v = V (copysign (nmul N n1 (c_scale (cx C))) s) (copysign (nmul N n1 (c_scale (cy C))) t).
Hypothesis eqv_refl : forall p, eqv p p.
Hypothesis area_eqv : forall a b c a' b' c', eqv a a' -> eqv b b' -> eqv c c' -> negative (Tri a b c) = negative (Tri a' b' c').
Hypothesis eqv_sym_stable : forall q, good q -> eqv q (quantize_point C (padd q (V n0 n0))).
Hypothesis good_start : forall v, used v -> good (quantize_point C (pos v)).
Hypothesis good_step : forall qa qb qc va vb vc m r, good qa -> good qb -> good qc -> is_nudge va -> is_nudge vb -> is_nudge vc ->
  let n := nudged_triangle C (Tri qa qb qc) va vb vc m in
  env_add None (OTriangle n) = Some r -> rect_contains_rect (bounds C) r = true -> good (p0 n) /\ good (p1 n) /\ good (p2 n).

Lemma tri_at_in i : (i < length ts)%nat -> In (tri_at i) ts.
Proof. intros H. apply nth_In, H. Qed.
Lemma used_corner i v : (i < length ts)%nat -> In v (corners (tri_at i)) -> used v.
Proof. intros H I. exists (tri_at i). split; [apply tri_at_in, H|exact I]. Qed.

(** ** What recording a candidate does to positions and overrides *)
Lemma hits_lor m x y : hits m (Z.lor x y) = hits m x || hits m y.
Proof.
  unfold hits. rewrite Z.land_lor_distr_r. destruct (Z.land m x =? 0)%Z eqn:E1, (Z.land m y =? 0)%Z eqn:E2; cbn; rewrite ?Z.eqb_eq, ?Z.eqb_neq in *.
  - rewrite E1, E2. reflexivity.
  - apply negb_true_iff, Z.eqb_neq. rewrite Z.lor_eq_0_iff. tauto.
  - apply negb_true_iff, Z.eqb_neq. rewrite Z.lor_eq_0_iff. tauto.
  - apply negb_true_iff, Z.eqb_neq. rewrite Z.lor_eq_0_iff. tauto.
Qed.
Lemma not_corrected (d : data) m a b c : hits m (corrected_mask d (a, b, c)) = false ->
  (hits m (vertex_mask 0) = true -> is_corrected d a = false) /\ (hits m (vertex_mask 1) = true -> is_corrected d b = false) /\ (hits m (vertex_mask 2) = true -> is_corrected d c = false).
Proof.
  unfold corrected_mask. rewrite !hits_lor, !orb_false_iff. intros [[A B] D]. split; [|split]; intros H; match goal with |- ?x = false => destruct x; [congruence|reflexivity] end.
Qed.
Lemma corrected_in (d : data) v : is_corrected d v = true <-> In v (map fst (corrected d)).
Proof.
  unfold is_corrected. rewrite existsb_exists, in_map_iff. split; [intros (e & I & E); apply Z.eqb_eq in E; exists e; split; assumption|intros (e & E & I); exists e; split; [exact I|apply Z.eqb_eq, E]].
Qed.
Lemma corrected_not (d : data) v : is_corrected d v = false <-> ~ In v (map fst (corrected d)).
Proof. rewrite <- corrected_in. destruct (is_corrected d v); intuition congruence. Qed.

Lemma record_qpos (d : data) i q va vb vc c : distinct (tri_at i) -> forall v,
  qpos (record C ts d i q va vb vc c) v = after d (moved (tri_at i) (mask c) (nudged_triangle C q va vb vc (mask c))) v.
Proof.
  intros D v. unfold record, after, moved. destruct (tri_at i) as [[a b] e]. destruct D as (D1 & D2 & D3). cbv zeta. set (n := nudged_triangle C q va vb vc (mask c)). cbn [qpos].
  destruct (hits (mask c) (vertex_mask 0)), (hits (mask c) (vertex_mask 1)), (hits (mask c) (vertex_mask 2)); cbn [record_vertex qpos];
    destruct (Z.eqb_spec v a), (Z.eqb_spec v b), (Z.eqb_spec v e); subst; cbn [andb]; try congruence; reflexivity.
Qed.
Lemma insert_new_fresh v p (l : list (Z * vec N)) : ~ In v (map fst l) -> insert_new v p l = (v, p) :: l.
Proof.
  intros H. unfold insert_new. destruct (existsb (fun e => (fst e =? v)%Z) l) eqn:E; [|reflexivity]. exfalso. apply H. apply existsb_exists in E. destruct E as (x & I & E). apply Z.eqb_eq in E. subst v. apply in_map, I.
Qed.
Lemma record_corrected (d : data) i q va vb vc c : distinct (tri_at i) -> hits (mask c) (corrected_mask d (tri_at i)) = false -> NoDup (map fst (corrected d)) ->
  let d' := record C ts d i q va vb vc c in
  NoDup (map fst (corrected d')) /\ (forall v p, In (v, p) (corrected d') <-> moved (tri_at i) (mask c) (nudged_triangle C q va vb vc (mask c)) v = Some p \/ In (v, p) (corrected d)).
Proof.
  intros D H ND. cbv zeta. unfold record, moved. destruct (tri_at i) as [[a b] e]. destruct D as (D1 & D2 & D3). apply not_corrected in H. destruct H as (H0 & H1 & H2). cbv zeta. set (n := nudged_triangle C q va vb vc (mask c)). cbn [corrected].
  assert (R : forall use v p (d0 : data), (use = true -> ~ In v (map fst (corrected d0))) -> corrected (record_vertex use v p d0) = (if use then [(v, p)] else []) ++ corrected d0).
  { intros use v p d0 X. destruct use; [|reflexivity]. cbn [record_vertex corrected app]. apply insert_new_fresh, X. reflexivity. }
  assert (N0 : hits (mask c) (vertex_mask 0) = true -> ~ In a (map fst (corrected d))) by (intros X; apply corrected_not, H0, X).
  assert (N1 : hits (mask c) (vertex_mask 1) = true -> ~ In b (map fst (corrected d))) by (intros X; apply corrected_not, H1, X).
  assert (N2 : hits (mask c) (vertex_mask 2) = true -> ~ In e (map fst (corrected d))) by (intros X; apply corrected_not, H2, X).
  clear H0 H1 H2. set (h0 := hits (mask c) (vertex_mask 0)) in *. set (h1 := hits (mask c) (vertex_mask 1)) in *. set (h2 := hits (mask c) (vertex_mask 2)) in *.
  assert (E1 : corrected (record_vertex h0 a (p0 n) d) = (if h0 then [(a, p0 n)] else []) ++ corrected d) by (apply R, N0).
  assert (E2 : corrected (record_vertex h1 b (p1 n) (record_vertex h0 a (p0 n) d)) = (if h1 then [(b, p1 n)] else []) ++ (if h0 then [(a, p0 n)] else []) ++ corrected d).
  { rewrite R; rewrite E1; [reflexivity|]. intros X I. destruct h0; cbn [app map fst] in I; [destruct I as [I|I]; [congruence|]|]; exact (N1 X I). }
  assert (E3 : corrected (record_vertex h2 e (p2 n) (record_vertex h1 b (p1 n) (record_vertex h0 a (p0 n) d))) = (if h2 then [(e, p2 n)] else []) ++ (if h1 then [(b, p1 n)] else []) ++ (if h0 then [(a, p0 n)] else []) ++ corrected d).
  { rewrite R; rewrite E2; [reflexivity|]. intros X I. destruct h1, h0; cbn [app map fst In] in I; repeat (destruct I as [I|I]; [congruence|]); exact (N2 X I). }
  rewrite E3. split.
  - destruct h0, h1, h2; cbn [app map fst]; repeat constructor; cbn [In]; try (intros I; repeat (destruct I as [I|I]; [congruence|]); first [exact (N0 eq_refl I)|exact (N1 eq_refl I)|exact (N2 eq_refl I)]); auto.
  - intros v p. rewrite !in_app_iff. destruct h0, h1, h2; cbn [In andb]; destruct (Z.eqb_spec v a), (Z.eqb_spec v b), (Z.eqb_spec v e); subst; cbn [andb]; try congruence; split; intros H;
      repeat match goal with
      | H : _ \/ _ |- _ => destruct H as [H|H]
      | H : False |- _ => destruct H
      | H : (_, _) = (_, _) |- _ => injection H; clear H; intros; subst
      | H : Some _ = Some _ |- _ => injection H as <-
      | H : None = Some _ |- _ => discriminate H
      end; try congruence; auto 10.
Qed.

(** ** The invariant *)
Definition start_nudge (v : Z) : vec N :=
  V (copysign (nmul N n1 (c_scale (cx C))) (nsub N (vx (pos v)) (vx (quantize_point C (pos v)))))
    (copysign (nmul N n1 (c_scale (cy C))) (nsub N (vy (pos v)) (vy (quantize_point C (pos v))))).
(** [p] is the packed position of [v], moved by at most one step in x and in y *)
Definition one_step (v : Z) (p : vec N) : Prop := exists wx wy, (wx = n0 \/ wx = vx (start_nudge v)) /\ (wy = n0 \/ wy = vy (start_nudge v)) /\
  p = quantize_point C (padd (quantize_point C (pos v)) (V wx wy)).
Definition inv (Q : list nat) (d : data) : Prop :=
  (forall j, (j < length ts)%nat -> states d j <> Flipped -> negative (triangle_of (qpos d) (tri_at j)) = false) /\
  (forall j, (j < length ts)%nat -> states d j = Flipped -> In j Q) /\
  (forall j, In j Q -> (j < length ts)%nat) /\
  NoDup (map fst (corrected d)) /\
  (forall v p, In (v, p) (corrected d) -> qpos d v = p /\ used v /\ one_step v p) /\
  (forall v, ~ In v (map fst (corrected d)) -> qpos d v = quantize_point C (pos v)) /\
  (forall v, used v -> good (qpos d v)).
Lemma start_inv : inv (queue (start_data C pos ts)) (start_data C pos ts).
Proof.
  unfold start_data. cbn [queue]. split; [|split; [|split; [|split; [constructor|split; [intros v p []|split; [reflexivity|exact good_start]]]]]]; cbn [states qpos].
  - intros j _ H. unfold start_state in H. destruct (negative _) eqn:E in H; [congruence|exact E].
  - intros j L H. apply filter_In. split; [apply in_seq; lia|]. rewrite H. reflexivity.
  - intros j I. apply filter_In in I. destruct I as [I _]. apply in_seq in I. lia.
Qed.
Lemma moved_some t m (n : triangle N) v p : moved t m n v = Some p -> In v (corners t).
Proof.
  unfold moved. destruct t as [[a b] e]. destruct (Z.eqb_spec v a); [subst; intros; cbn; auto|]. destruct (Z.eqb_spec v b); [subst; intros; cbn; auto|]. destruct (Z.eqb_spec v e); [subst; intros; cbn; auto|]. cbn [andb]. discriminate.
Qed.
Lemma hits_vertex k m : hits m (vertex_mask k) = false -> match k with O => hits 32 m = false /\ hits 16 m = false | S O => hits 8 m = false /\ hits 4 m = false | _ => hits 2 m = false /\ hits 1 m = false end.
Proof.
  assert (G : forall a b, hits m (Z.lor a b) = false -> hits a m = false /\ hits b m = false).
  { intros a b. rewrite hits_lor, orb_false_iff. unfold hits. rewrite (Z.land_comm m a), (Z.land_comm m b). tauto. }
  intros H. destruct k as [|[|k]]; apply G; exact H.
Qed.
Lemma nudge_is d v : is_nudge (nudge_vector C pos d v).
Proof. eexists _, _. reflexivity. Qed.
Lemma nudge_start (d : data) v : qpos d v = quantize_point C (pos v) -> nudge_vector C pos d v = start_nudge v.
Proof. intros E. unfold nudge_vector, start_nudge. rewrite E. reflexivity. Qed.
Lemma nudged_step (d : data) v mx my m : qpos d v = quantize_point C (pos v) -> one_step v (nudged C (qpos d v) (nudge_vector C pos d v) mx my m).
Proof.
  intros E. rewrite (nudge_start d v E), E. exists (if hits mx m then vx (start_nudge v) else n0), (if hits my m then vy (start_nudge v) else n0). split; [destruct (hits mx m); auto|]. split; [destruct (hits my m); auto|]. reflexivity.
Qed.
Lemma round_inv (d : data) i q d' : inv (i :: q) d -> round C pos ts (pop d q) i = inr d' -> inv (queue d') d'.
Proof.
  intros (A & B & Qn & ND & Dv & Ev & Gv) H. apply round_spec in H. destruct H as [[-> Fx]|(c & G & ->)].
  { change (queue (pop d q)) with q. split; [exact A|]. split; [|split; [intros j I; apply Qn; right; exact I|split; [exact ND|split; [exact Dv|split; [exact Ev|exact Gv]]]]].
    intros j L S. destruct (B j L S) as [<- |I]; [|exact I]. cbn [pop states] in Fx. change (states (pop d q) i) with (states d i) in S. congruence. }
  assert (Li : (i < length ts)%nat) by (apply Qn; left; reflexivity). pose proof (Distinct _ (tri_at_in i Li)) as Di.
  set (d0 := pop d q) in *. set (va := let '(a, b, e) := tri_at i in nudge_vector C pos d0 a) in *. set (vb := let '(a, b, e) := tri_at i in nudge_vector C pos d0 b) in *. set (vc := let '(a, b, e) := tri_at i in nudge_vector C pos d0 e) in *. set (tq := triangle_of (qpos d0) (tri_at i)) in *.
  destruct G as (Hm & Ng & (r & Er & Cr) & Ck). set (n := nudged_triangle C tq va vb vc (mask c)) in *. set (mv := moved (tri_at i) (mask c) n) in *.
  pose proof (record_parts C ts d0 i tq va vb vc c) as [Eq Es]. cbv zeta in Eq, Es. pose proof (record_qpos d0 i tq va vb vc c Di) as Ep. fold n mv in Ep.
  destruct (record_corrected d0 i tq va vb vc c Di Hm ND) as [ND' Cor]. fold n mv in Cor. set (d' := record C ts d0 i tq va vb vc c) in *.
  apply check_adjacent_spec in Ck. destruct Ck as (_ & F1 & F2 & F3 & _). cbn [flips fixes] in F1, F2.
  assert (Gn : good (p0 n) /\ good (p1 n) /\ good (p2 n)).
  { unfold n. unfold tq, va, vb, vc in *. pose proof (used_corner i) as U. destruct (tri_at i) as [[a b] e] eqn:Et. cbn [triangle_of] in *. apply (good_step _ _ _ _ _ _ (mask c) r); try (apply Gv; apply U; [exact Li|cbn; auto]); try apply nudge_is; assumption. }
  assert (Ni1 : ~ In i (flips c)) by (intros X; apply F1 in X; destruct X as [[]|[X _]]; apply adjacent_in in X; destruct X; congruence).
  assert (Ni2 : ~ In i (fixes c)) by (intros X; apply F2 in X; destruct X as [[]|[X _]]; apply adjacent_in in X; destruct X; congruence).
  assert (Tri_new : forall j, triangle_of (qpos d') (tri_at j) = triangle_of (after d0 mv) (tri_at j)) by (intros j; destruct (tri_at j) as [[a b] e]; cbn; rewrite !Ep; reflexivity).
  assert (Own : negative (triangle_of (qpos d') (tri_at i)) = false).
  { rewrite Tri_new, <- Ng. assert (Gq : forall v, In v (corners (tri_at i)) -> good (qpos d0 v)) by (intros v I; apply Gv; apply (used_corner i); assumption).
    clear - Gq Di eqv_refl area_eqv eqv_sym_stable. unfold mv, n, moved, after, nudged_triangle, tq, va, vb, vc. clear mv n va vb vc tq.
    destruct (tri_at i) as [[a b] e] eqn:Et. destruct Di as (D1 & D2 & D3). cbn [triangle_of p0 p1 p2].
    apply area_eqv.
    - rewrite Z.eqb_refl. cbn [andb]. destruct (hits (mask c) (vertex_mask 0)) eqn:H0; [apply eqv_refl|].
      apply hits_vertex in H0. destruct H0 as [h1 h2]. destruct (Z.eqb_spec a b); [congruence|]. destruct (Z.eqb_spec a e); [congruence|]. cbn [andb]. unfold nudged. rewrite h1, h2. apply eqv_sym_stable. apply Gq. cbn; auto.
    - rewrite Z.eqb_refl. destruct (Z.eqb_spec b a); [congruence|]. cbn [andb]. destruct (hits (mask c) (vertex_mask 1)) eqn:H0; [apply eqv_refl|].
      apply hits_vertex in H0. destruct H0 as [h1 h2]. destruct (Z.eqb_spec b e); [congruence|]. cbn [andb]. unfold nudged. rewrite h1, h2. apply eqv_sym_stable. apply Gq. cbn; auto.
    - rewrite Z.eqb_refl. destruct (Z.eqb_spec e a); [congruence|]. destruct (Z.eqb_spec e b); [congruence|]. cbn [andb]. destruct (hits (mask c) (vertex_mask 2)) eqn:H0; [apply eqv_refl|].
      apply hits_vertex in H0. destruct H0 as [h1 h2]. unfold nudged. rewrite h1, h2. apply eqv_sym_stable. apply Gq. cbn; auto. }
  assert (Ev0 : forall v, is_corrected d0 v = false -> qpos d0 v = quantize_point C (pos v)) by (intros v X; apply Ev; apply (corrected_not d0), X).
  split; [|split; [|split; [|split; [exact ND'|split; [|split]]]]].
  - intros j L S. destruct (Nat.eq_dec j i) as [-> |Ne]; [exact Own|]. rewrite Tri_new. rewrite Es in S. destruct (is_in j (flips c)) eqn:I1; [congruence|]. apply is_in_not in I1.
    destruct (touched mv (tri_at j)) eqn:T.
    + assert (Aj : In j (adjacent i)). { apply adjacent_in. split; [exact Ne|]. split; [exact L|]. apply touched_iff in T. destruct T as (v & I & X). exists v. split; [|exact I]. destruct (mv v) as [p|] eqn:E; [|congruence]. apply moved_some in E. exact E. }
      destruct (negative (triangle_of (after d0 mv) (tri_at j))) eqn:Nj; [|reflexivity]. exfalso. destruct (states d0 j) eqn:Sj.
      * apply I1. apply F1. right. auto.
      * destruct (is_in j (fixes c)) eqn:I2; [|destruct (Nat.eqb_spec j i); congruence]. apply is_in_iff in I2. apply F2 in I2. destruct I2 as [[]|(_ & _ & X & _)]. congruence.
      * exact (F3 j Aj T Nj Sj).
    + rewrite (untouched d0 mv _ T). apply A; [exact L|]. change (states d j) with (states d0 j). destruct (is_in j (fixes c)) eqn:I2; [apply is_in_iff in I2; apply F2 in I2; destruct I2 as [[]|(_ & X & _)]; congruence|]. destruct (Nat.eqb_spec j i); [congruence|exact S].
  - intros j L S. rewrite Eq. apply in_or_app. rewrite Es in S. destruct (is_in j (flips c)) eqn:I1.
    + right. apply is_in_iff in I1. apply (Permutation.Permutation_in _ (sorted_perm (flips c)) I1).
    + left. destruct (is_in j (fixes c)); [discriminate|]. destruct (Nat.eqb_spec j i); [discriminate|]. destruct (B j L S) as [<- |I]; [congruence|exact I].
  - intros j I. rewrite Eq in I. apply in_app_or in I. destruct I as [I|I]; [apply Qn; right; exact I|]. apply (Permutation.Permutation_in _ (Permutation.Permutation_sym (sorted_perm (flips c)))) in I. apply F1 in I. destruct I as [[]|[I _]]. apply adjacent_in in I. apply I.
  - intros v p I. rewrite Ep. unfold after. apply Cor in I. destruct I as [I|I].
    + rewrite I. split; [reflexivity|]. split; [apply (used_corner i); [exact Li|]; unfold mv in I; apply moved_some in I; exact I|].
      unfold mv in I. unfold moved in I. unfold n, tq, va, vb, vc, nudged_triangle in I. destruct (tri_at i) as [[a b] e] eqn:Et. cbn [triangle_of p0 p1 p2] in I. apply not_corrected in Hm. destruct Hm as (M0 & M1 & M2).
      destruct (Z.eqb_spec v a) as [-> |Na]; cbn [andb] in I.
      * destruct (hits (mask c) (vertex_mask 0)) eqn:H0; [injection I as <-; apply (nudged_step d0), Ev0, M0; reflexivity|]. destruct Di as (D1 & D2 & D3). destruct (Z.eqb_spec a b); [congruence|]. destruct (Z.eqb_spec a e); [congruence|discriminate].
      * destruct (Z.eqb_spec v b) as [-> |Nb]; cbn [andb] in I.
        -- destruct (hits (mask c) (vertex_mask 1)) eqn:H0; [injection I as <-; apply (nudged_step d0), Ev0, M1; reflexivity|]. destruct Di as (D1 & D2 & D3). destruct (Z.eqb_spec b e); [congruence|discriminate].
        -- destruct (Z.eqb_spec v e) as [-> |Nc]; cbn [andb] in I; [|discriminate]. destruct (hits (mask c) (vertex_mask 2)) eqn:H0; [injection I as <-; apply (nudged_step d0), Ev0, M2; reflexivity|discriminate].
    + destruct (mv v) as [p'|] eqn:E; [|apply Dv, I]. exfalso.
      assert (X : In (v, p') (corrected d')) by (apply Cor; left; exact E). assert (Y : In (v, p) (corrected d')) by (apply Cor; right; exact I).
      assert (Z0 : is_corrected d0 v = false).
      { unfold mv, moved in E. destruct (tri_at i) as [[a b] e] eqn:Et. apply not_corrected in Hm. destruct Hm as (M0 & M1 & M2). destruct (Z.eqb_spec v a) as [-> |Na]; cbn [andb] in E.
        - destruct (hits (mask c) (vertex_mask 0)) eqn:H0; [apply M0; reflexivity|]. destruct Di as (D1 & D2 & D3). destruct (Z.eqb_spec a b); [congruence|]. destruct (Z.eqb_spec a e); [congruence|discriminate].
        - destruct (Z.eqb_spec v b) as [-> |Nb]; cbn [andb] in E.
          + destruct (hits (mask c) (vertex_mask 1)) eqn:H0; [apply M1; reflexivity|]. destruct Di as (D1 & D2 & D3). destruct (Z.eqb_spec b e); [congruence|discriminate].
          + destruct (Z.eqb_spec v e) as [-> |Nc]; cbn [andb] in E; [|discriminate]. destruct (hits (mask c) (vertex_mask 2)) eqn:H0; [apply M2; reflexivity|discriminate]. }
      apply corrected_not in Z0. apply Z0. apply (in_map fst) in I. exact I.
  - intros v Nv. rewrite Ep. unfold after. destruct (mv v) as [p|] eqn:E.
    + exfalso. apply Nv. assert (X : In (v, p) (corrected d')) by (apply Cor; left; exact E). apply (in_map fst) in X. exact X.
    + apply Ev. intros X. apply Nv. apply in_map_iff in X. destruct X as ([w p] & Ew & X). cbn in Ew. subst w. assert (Y : In (v, p) (corrected d')) by (apply Cor; right; exact X). apply (in_map fst) in Y. exact Y.
  - intros v U. rewrite Ep. unfold after. destruct (mv v) as [p|] eqn:E; [|apply Gv, U]. unfold mv, moved in E. destruct Gn as (G0 & G1 & G2). destruct (tri_at i) as [[a b] e] eqn:Et.
    repeat match type of E with context [if ?b then _ else _] => destruct b end; try discriminate; injection E as <-; assumption.
Qed.
Lemma loop_inv : forall fuel d d', inv (queue d) d -> loop C pos ts fuel d = Some (inr d') -> inv [] d'.
Proof.
  induction fuel as [|fuel IH]; intros d d' I H; cbn [loop] in H; destruct (queue d) as [|i q] eqn:Q; try discriminate; try (injection H as <-; exact I).
  destruct (round C pos ts (pop d q) i) as [u|d1] eqn:R; [discriminate|]. apply (IH d1); [|exact H]. eapply round_inv; [exact I|exact R].
Qed.
(** ** The theorem *)
Definition override (l : list (Z * vec N)) (v : Z) : option (vec N) := option_map snd (find (fun e => (fst e =? v)%Z) l).
(** where the packed mesh has vertex [v] *)
Definition packed_at (l : list (Z * vec N)) (v : Z) : vec N := quantize_point C (match override l v with Some p => p | None => pos v end).
Lemma override_some l v p : NoDup (map fst l) -> In (v, p) l -> override l v = Some p.
Proof.
  unfold override. induction l as [|[w x] l IH]; intros ND I; [destruct I|]. cbn [find fst map] in *. inversion ND; subst. destruct (Z.eqb_spec w v) as [-> |Ne].
  - destruct I as [I|I]; [injection I as <-; reflexivity|]. exfalso. apply (in_map fst) in I. contradiction.
  - destruct I as [I|I]; [congruence|]. apply IH; assumption.
Qed.
Lemma override_none l v : ~ In v (map fst l) -> override l v = None.
Proof.
  unfold override. induction l as [|[w x] l IH]; intros H; [reflexivity|]. cbn [find fst map In] in *. destruct (Z.eqb_spec w v) as [-> |Ne]; [tauto|]. apply IH. tauto.
Qed.
Hypothesis settled : forall q, good q -> eqv (quantize_point C q) q.
Theorem corrections_sound packed l : corrections C pos ts packed (length ts) = Some l -> l <> [] ->
  NoDup (map fst l) /\ (forall v p, In (v, p) l -> used v /\ one_step v p /\ good p) /\
  (forall t, In t ts -> negative (triangle_of pos t) = false /\ negative (triangle_of (packed_at l) t) = false).
Proof.
  unfold corrections. destruct packed; cbn [negb]; [|intros H; injection H as <-; congruence]. destruct (existsb _ ts) eqn:Ex; [intros H; injection H as <-; congruence|].
  destruct (queue (start_data C pos ts)) as [|i0 q0] eqn:Q; [intros H; injection H as <-; congruence|]. destruct (loop C pos ts (length ts) (start_data C pos ts)) as [[u|d]|] eqn:L; [intros H; injection H as <-; congruence| |discriminate].
  intros H _. injection H as <-. assert (I : inv [] d) by (apply (loop_inv _ _ _ start_inv L)). destruct I as (A & B & _ & ND & Dv & Ev & Gv).
  split; [exact ND|]. split; [intros v p X; destruct (Dv v p X) as (E & U & O); split; [exact U|]; split; [exact O|rewrite <- E; apply Gv, U]|]. intros t It. split.
  - destruct (negative (triangle_of pos t)) eqn:Ng; [|reflexivity]. rewrite <- Ex. symmetry. apply existsb_exists. exists t. split; assumption.
  - destruct (In_nth _ _ (0, 0, 0)%Z It) as (j & Lj & Ej). assert (NF : states d j <> Flipped) by (intros X; exact (B j Lj X)). specialize (A j Lj NF). change (nth j ts (0, 0, 0)%Z) with (tri_at j) in Ej. rewrite Ej in A. rewrite <- A.
    assert (G : forall v, In v (corners t) -> eqv (packed_at (corrected d) v) (qpos d v)).
    { intros v Iv. assert (U : used v) by (exists t; split; assumption). unfold packed_at. destruct (in_dec Z.eq_dec v (map fst (corrected d))) as [X|X].
      - apply in_map_iff in X. destruct X as ([w p] & Ew & X). cbn in Ew. subst w. rewrite (override_some _ _ _ ND X). destruct (Dv v p X) as (E & _). rewrite <- E. apply settled, Gv, U.
      - rewrite (override_none _ _ X), (Ev v X). apply eqv_refl. }
    destruct t as [[a b] e]. cbn [triangle_of]. apply area_eqv; apply G; cbn; auto.
Qed.
End Sound.
