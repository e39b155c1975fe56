(** A disc is inside all arcs and segments of a convex arrangement if and only if it is within the hull. *)
From Coq Require Import ZArith Reals Lra Lia Psatz Bool List.
From Flocq Require Import Core.
From Verif Require Import NumModel EasingExact BehaviorMeaning BehaviorExact GeomModel AffineModel GeomSpec GeomReal GeomExact AffineProofs CircleModel CircleSpec CircleProofs RoundedModel RoundedSpec RoundedProofs.
Import ListNotations.
Local Open Scope R_scope.

Definition arcs_of (bs : list ball) (a : nat -> R) : list (arc N) := map (fun i => xarc (at_ bs i) (a i) (a (S i))) (seq 0 (length bs)).
Definition next (n i : nat) : nat := Nat.modulo (S i) n.
Definition prev (n i : nat) : nat := match i with O => Nat.pred n | S i => i end.
Lemma next_lt n i : (0 < n)%nat -> (next n i < n)%nat. Proof. intros H. apply Nat.mod_upper_bound. lia. Qed.
Lemma next_prev n i : (i < n)%nat -> (prev n i < n)%nat /\ next n (prev n i) = i.
Proof.
  intros H. unfold next, prev. destruct i as [|i]; [|split; [lia|apply Nat.mod_small; lia]]. destruct n as [|n]; [lia|]. cbn [Nat.pred]. split; [lia|]. apply Nat.mod_same. lia.
Qed.
Lemma locate n (a : nat -> R) x : (0 < n)%nat -> a 0%nat <= x <= a n -> exists i, (i < n)%nat /\ a i <= x <= a (S i).
Proof.
  induction n as [|n IH]; [lia|]. intros _ [L U]. destruct n as [|n]; [exists 0%nat; split; [lia|lra]|]. destruct (Rle_dec x (a (S n))) as [Q|Q].
  - destruct IH as (i & I & B); [lia|lra|]. exists i. split; [lia|exact B].
  - exists (S n). split; [lia|lra].
Qed.
Lemma argmax n (w : nat -> R) : (0 < n)%nat -> exists k, (k < n)%nat /\ forall j, (j < n)%nat -> w j <= w k.
Proof.
  induction n as [|n IH]; [lia|]. intros _. destruct n as [|n].
  - exists 0%nat. split; [lia|]. intros j J. replace j with 0%nat by lia. lra.
  - destruct IH as (k & K & M); [lia|]. destruct (Rle_dec (w (S n)) (w k)) as [Q|Q].
    + exists k. split; [lia|]. intros j J. destruct (Nat.eq_dec j (S n)) as [->|D]; [exact Q|apply M; lia].
    + exists (S n). split; [lia|]. intros j J. destruct (Nat.eq_dec j (S n)) as [->|D]; [lra|]. specialize (M j ltac:(lia)). lra.
Qed.
Lemma joining_x b x y b' x' y' : joining (xarc b x y) (xarc b' x' y') = sg (rim (fst b) (snd b) (toward y)) (rim (fst b') (snd b') (toward x')).
Proof.
  unfold joining, sg, rim, xarc, circ, padd, vscale, pv. cbn [a_circle a_to a_from center radius vx vy px py nadd nmul N xadd xmul]. f_equal; f_equal; f_equal; ring.
Qed.
Lemma reach_inner b u p : inner p u - reach b u = inner (minus p (fst b)) u - snd b.
Proof. unfold reach, inner, minus. cbn. ring. Qed.

Section Convex.
Variable bs : list ball.
Variable a : nat -> R.
Hypothesis CV : convex bs a.
(** no arc is skipped *)
Hypothesis arcs_kept : forall i, (i < length bs)%nat -> tol < Rabs (sin (a (S i) - a i)).
(** neighbouring discs are not within each other *)
Definition apart : Prop := forall i, (i < length bs)%nat ->
  ~ within (disc (fst (at_ bs i)) (snd (at_ bs i))) (disc (fst (at_ bs (next (length bs) i))) (snd (at_ bs (next (length bs) i)))) /\
  ~ within (disc (fst (at_ bs (next (length bs) i))) (snd (at_ bs (next (length bs) i)))) (disc (fst (at_ bs i)) (snd (at_ bs i))).
Hypothesis AP : apart.
Notation n := (length bs).
Notation ball_at := (at_ bs).
Lemma n_pos : (0 < n)%nat. Proof. destruct CV. lia. Qed.
Lemma at_in i : (i < n)%nat -> In (ball_at i) bs. Proof. intros H. apply nth_In. exact H. Qed.
Lemma at_radius i : (i < n)%nat -> 0 <= snd (ball_at i). Proof. intros H. destruct CV. auto using at_in. Qed.
Lemma increasing i j : (i <= j)%nat -> (j <= n)%nat -> a i <= a j.
Proof. intros I. induction I as [|j I IH]; intros J; [lra|]. pose proof (convex_order _ _ CV j ltac:(lia)). specialize (IH ltac:(lia)). lra. Qed.
Lemma arc_range i : (i < n)%nat -> a i < a (S i) < a i + 2 * PI.
Proof.
  intros I. pose proof (convex_order _ _ CV i I) as O. split; [exact O|]. pose proof (convex_turn _ _ CV) as T. pose proof (convex_many _ _ CV) as M.
  destruct (Nat.eq_dec i 0) as [->|Z].
  - pose proof (convex_order _ _ CV 1%nat ltac:(lia)). pose proof (increasing 2 n ltac:(lia) ltac:(lia)). lra.
  - pose proof (convex_order _ _ CV 0%nat ltac:(lia)). pose proof (increasing 1 i ltac:(lia) ltac:(lia)). pose proof (increasing (S i) n ltac:(lia) ltac:(lia)). lra.
Qed.
Lemma toward_next i : (i < n)%nat -> toward (a (next n i)) = toward (a (S i)).
Proof.
  intros I. unfold next. destruct (Nat.eq_dec (S i) n) as [E|E].
  - rewrite E, Nat.mod_same by lia. rewrite (convex_turn _ _ CV). rewrite <- (toward_turns (a 0%nat) 1). f_equal. ring.
  - rewrite Nat.mod_small by lia. reflexivity.
Qed.
Lemma reach_next i : (i < n)%nat -> reach (ball_at i) (toward (a (S i))) = reach (ball_at (next n i)) (toward (a (S i))).
Proof.
  intros I. pose proof (next_lt n i n_pos) as J. apply Rle_antisym.
  - rewrite <- toward_next by exact I. apply (convex_farthest _ _ CV); [exact J| |apply at_in; exact I]. pose proof (arc_range _ J). lra.
  - apply (convex_farthest _ _ CV); [exact I| |apply at_in; exact J]. pose proof (arc_range _ I). lra.
Qed.
Lemma inner_sum c u e : inner c (toward (u + e)) = cos e * inner c (toward u) + sin e * inner c (perp (toward u)).
Proof. unfold inner, toward, perp. cbn. rewrite cos_plus, sin_plus. ring. Qed.
Lemma ahead_next i : (i < n)%nat -> 0 < inner (minus (fst (ball_at (next n i))) (fst (ball_at i))) (perp (toward (a (S i)))).
Proof.
  intros I. pose proof (next_lt n i n_pos) as J. pose proof (reach_next i I) as E. set (j := next n i) in *. set (u := a (S i)) in *. set (w := minus (fst (ball_at j)) (fst (ball_at i))).
  assert (WU : inner w (toward u) = snd (ball_at i) - snd (ball_at j)) by (unfold reach in E; unfold w, inner, minus in *; cbn in *; lra).
  assert (GE : 0 <= inner w (perp (toward u))).
  { destruct (Rle_dec 0 (snd (ball_at j) - snd (ball_at i))) as [D|D].
    - set (e := Rmin 1 (a (S i) - a i)). pose proof (arc_range i I) as AR. assert (Ee : 0 < e <= 1 /\ e <= a (S i) - a i). { unfold e. split; [split; [apply Rmin_glb_lt; lra|apply Rmin_l]|apply Rmin_r]. }
      pose proof (convex_farthest _ _ CV i (u + - e) (ball_at j) I ltac:(unfold u; lra) (at_in j J)) as F. unfold reach in F.
      assert (G : inner w (toward (u + - e)) <= snd (ball_at i) - snd (ball_at j)). { unfold w. replace (inner (minus (fst (ball_at j)) (fst (ball_at i))) (toward (u + - e))) with (inner (fst (ball_at j)) (toward (u + - e)) - inner (fst (ball_at i)) (toward (u + - e))) by (unfold inner, minus; cbn; ring). lra. }
      rewrite inner_sum, WU, cos_neg, sin_neg in G. pose proof PI2_1. assert (0 < sin e) by (apply sin_gt_0; lra). pose proof (COS_bound e). nra.
    - set (e := Rmin 1 (a (S j) - a j)). pose proof (arc_range j J) as AR. assert (Ee : 0 < e <= 1 /\ e <= a (S j) - a j). { unfold e. split; [split; [apply Rmin_glb_lt; lra|apply Rmin_l]|apply Rmin_r]. }
      pose proof (convex_farthest _ _ CV j (a j + e) (ball_at i) J ltac:(lra) (at_in i I)) as F. unfold reach in F.
      assert (G : snd (ball_at i) - snd (ball_at j) <= inner w (toward (a j + e))). { unfold w. replace (inner (minus (fst (ball_at j)) (fst (ball_at i))) (toward (a j + e))) with (inner (fst (ball_at j)) (toward (a j + e)) - inner (fst (ball_at i)) (toward (a j + e))) by (unfold inner, minus; cbn; ring). lra. }
      rewrite inner_sum in G. unfold j in G at 2 3. rewrite toward_next in G by exact I. fold u in G. rewrite WU in G. pose proof PI2_1. assert (0 < sin e) by (apply sin_gt_0; lra). pose proof (COS_bound e). nra. }
  destruct (Rle_lt_or_eq_dec _ _ GE) as [H|H]; [exact H|]. exfalso. destruct (AP i I) as [A B]. fold j in A, B. rewrite within_disc in A, B by (apply at_radius; assumption). rewrite (len_sym (fst (ball_at i))) in A. fold w in A, B.
  assert (LL : len w * len w = inner w (toward u) * inner w (toward u) + inner w (perp (toward u)) * inner w (perp (toward u))).
  { rewrite len_sq. pose proof (toward_unit u) as U. unfold unit in U. transitivity (inner w w * (px (toward u) * px (toward u) + py (toward u) * py (toward u))); [rewrite U; ring|unfold inner, perp; cbn [px py]; ring]. }
  rewrite <- H, WU in LL. pose proof (len_pos w). nra.
Qed.
Definition seg_at (i : nat) : segment N := sg (rim (fst (ball_at i)) (snd (ball_at i)) (toward (a (S i)))) (rim (fst (ball_at (next n i))) (snd (ball_at (next n i))) (toward (a (S i)))).
Lemma contains_all p s : polygon_contains (arcs_of bs a) (circ p s) = true <-> forall i, (i < n)%nat ->
  exceeds (arc_distance (xarc (ball_at i) (a i) (a (S i))) (pv p)) (Fin (- s) : T N) = false /\ exceeds (segment_distance (seg_at i) (pv p)) (Fin (- s) : T N) = false.
Proof.
  unfold polygon_contains. assert (L : length (arcs_of bs a) = n) by (unfold arcs_of; rewrite map_length, seq_length; reflexivity). rewrite forallb_forall, L.
  assert (NT : forall i, (i < n)%nat -> nth_error (arcs_of bs a) i = Some (xarc (ball_at i) (a i) (a (S i)))).
  { intros i I. unfold arcs_of. rewrite nth_error_map. rewrite (nth_error_nth' (seq 0 n) 0%nat) by (rewrite seq_length; exact I). rewrite seq_nth by exact I. reflexivity. }
  assert (Q : forall i, (i < n)%nat -> get_segment (arcs_of bs a) i = Some (seg_at i)).
  { intros i I. unfold get_segment. rewrite L. fold (next n i). rewrite (NT i I), (NT _ (next_lt n i n_pos)), joining_x, (toward_next i I). reflexivity. }
  split.
  - intros H i I. specialize (H i ltac:(apply in_seq; lia)). rewrite NT, Q in H by exact I. apply negb_true_iff, orb_false_iff in H. exact H.
  - intros H i I. apply in_seq in I. rewrite NT, Q by lia. apply negb_true_iff, orb_false_iff. apply H. lia.
Qed.
Lemma exceeds_x x y : exceeds (N := N) (Some (Fin x : T N)) (Fin y : T N) = false <-> x <= y.
Proof. cbn [exceeds]. apply lt_xf. Qed.

Theorem hull_iff p s : 0 <= s -> polygon_contains (arcs_of bs a) (circ p s) = true <-> within (disc p s) (hull bs).
Proof.
  intros S0. rewrite contains_all. pose proof PI_RGT_0 as PP. split.
  - intros OK q D u U.
    assert (QU : inner q u <= inner p u + s). { pose proof (proj2 (supports_disc p s u (inner p u + s) S0 U) eq_refl) as [B _]. apply B, D. }
    (* the direction as an angle *)
    destruct (polar (a 0%nat) u) as (x & X & EU & _). assert (Lu : len u = 1) by (unfold len; unfold unit, inner in *; rewrite U; apply sqrt_1). rewrite Lu, !Rmult_1_l in EU. change (P (cos x) (sin x)) with (toward x) in EU.
    destruct (locate n a x n_pos) as (i & I & XI). { rewrite (convex_turn _ _ CV). lra. }
    exists (ball_at i). split; [apply at_in; exact I|]. apply Rle_trans with (1 := QU). clear q D QU. rewrite EU. clear u U EU Lu.
    (* how far the disc exceeds disc j in direction y *)
    set (G := fun j y => inner (minus p (fst (ball_at j))) (toward y) - snd (ball_at j) + s).
    assert (Gr : forall j y, G j y = inner p (toward y) + s - reach (ball_at j) (toward y)). { intros j y. unfold G. rewrite <- reach_inner. ring. }
    assert (GN : forall k, (k < n)%nat -> G (next n k) (a (next n k)) = G k (a (S k))). { intros k K. rewrite !Gr, (toward_next k K), (reach_next k K). reflexivity. }
    assert (GP : forall k, (k < n)%nat -> exists k', (k' < n)%nat /\ G k (a k) = G k' (a (S k'))). { intros k K. destruct (next_prev n k K) as [A B]. exists (prev n k). split; [exact A|]. rewrite <- GN by exact A. rewrite B. reflexivity. }
    (* either the disc does not exceed disc j, or its angle is outside the arc *)
    assert (IN : forall j, (j < n)%nat -> (forall y, G j y <= 0) \/ exists m beta, 0 < m /\ a (S j) < beta < a j + 2 * PI /\ (forall y, inner (minus p (fst (ball_at j))) (toward y) = m * cos (beta - y)) /\ (forall y, inner (minus p (fst (ball_at j))) (perp (toward y)) = m * sin (beta - y))).
    { intros j J. destruct (polar (a j) (minus p (fst (ball_at j)))) as (beta & B & E & Z). pose proof (proj1 (OK j J)) as AO. rewrite (surjective_pairing (ball_at j)) in AO.
      rewrite (arc_x _ _ _ _ beta) in AO; [|apply arc_range; exact J|apply arcs_kept; exact J|exact B|exact E|exact Z]. pose proof (len_pos (minus p (fst (ball_at j)))) as MP.
      assert (IM : forall y, inner (minus p (fst (ball_at j))) (toward y) = len (minus p (fst (ball_at j))) * cos (beta - y)) by (intros y; rewrite E at 1; apply inner_toward2).
      destruct (Rle_bool_spec beta (a (S j))) as [Q|Q].
      - left. intros y. apply exceeds_x in AO. unfold G. rewrite IM. pose proof (COS_bound (beta - y)). nra.
      - right. exists (len (minus p (fst (ball_at j)))), beta. split; [|split; [lra|split; [exact IM|]]].
        + destruct (Rle_lt_or_eq_dec _ _ MP) as [H|H]; [exact H|]. rewrite Z in Q by (symmetry; exact H). pose proof (arc_range j J). lra.
        + intros y. rewrite E at 1. unfold inner, perp, toward. cbn. rewrite sin_minus. ring. }
    apply Rnot_lt_le. intros BAD. assert (GI : 0 < G i x) by (rewrite Gr; lra).
    assert (VP : exists k, (k < n)%nat /\ 0 < G k (a (S k))).
    { destruct (IN i I) as [H|(m & beta & M & B & IM & _)]; [specialize (H x); lra|].
      destruct (cos_ends (beta - a (S i)) (beta - a i) (beta - x)) as [C|C]; [lra|lra|lra| |].
      - exists i. split; [exact I|]. unfold G in *. rewrite IM in *. nra.
      - destruct (GP i I) as (k & K & E). exists k. split; [exact K|]. rewrite <- E. unfold G in *. rewrite IM in *. nra. }
    destruct (argmax n (fun k => G k (a (S k))) n_pos) as (k & K & MX). cbv beta in MX.
    assert (WK : 0 < G k (a (S k))). { destruct VP as (k' & K' & H). specialize (MX k' K'). lra. }
    pose proof (next_lt n k n_pos) as J. set (j := next n k) in *.
    assert (L1 : 0 <= inner (minus p (fst (ball_at k))) (perp (toward (a (S k))))).
    { apply Rnot_lt_le. intros NG. destruct (IN k K) as [H|(m & beta & M & B & IM & IS)]; [specialize (H (a (S k))); lra|]. rewrite IS in NG. pose proof (arc_range k K) as AR.
      assert (PI < beta - a (S k)). { apply Rnot_le_lt. intros Q. assert (0 <= sin (beta - a (S k))) by (apply sin_ge_0; lra). nra. }
      assert (C : cos (beta - a (S k)) < cos (beta - a k)) by (apply cos_increasing_1; lra).
      destruct (GP k K) as (k' & K' & E). specialize (MX k' K'). rewrite <- E in MX. unfold G in MX. rewrite !IM in MX. nra. }
    assert (L2 : 0 <= inner (minus (fst (ball_at j)) p) (perp (toward (a (S k))))).
    { replace (inner (minus (fst (ball_at j)) p) (perp (toward (a (S k))))) with (- inner (minus p (fst (ball_at j))) (perp (toward (a (S k))))) by (unfold inner, minus; cbn; ring).
      apply Rnot_lt_le. intros NG. pose proof (GN k K) as GK. fold j in GK. destruct (IN j J) as [H|(m & beta & M & B & IM & IS)]; [specialize (H (a j)); lra|]. rewrite <- (toward_next k K) in NG. fold j in NG. rewrite IS in NG. pose proof (arc_range j J) as AR.
      assert (beta - a j < PI). { apply Rnot_le_lt. intros Q. destruct (Req_dec (beta - a j) PI) as [E|E]; [rewrite E, sin_PI in NG; lra|]. assert (sin (beta - a j) < 0) by (apply sin_sign_neg; lra). nra. }
      assert (C : cos (beta - a j) < cos (beta - a (S j))) by (apply cos_decreasing_1; lra).
      specialize (MX j J). rewrite <- GK in MX. unfold G in MX. rewrite !IM in MX. nra. }
    pose proof (proj2 (OK k K)) as SO. unfold seg_at in SO. fold j in SO. rewrite segment_x in SO; [|apply toward_unit|apply (reach_next k K)|apply (ahead_next k K)].
    rewrite !Rle_bool_true in SO by assumption. cbn [andb] in SO. apply exceeds_x in SO. rewrite Gr in WK. unfold reach in WK. lra.
  - intros W i I.
    assert (T : forall y, a i <= y <= a (S i) -> inner p (toward y) + s <= reach (ball_at i) (toward y)).
    { intros y Y. destruct (W (rim p s (toward y)) (rim_disc p s _ (toward_unit y)) (toward y) (toward_unit y)) as (b & Bi & L). pose proof (convex_farthest _ _ CV i y b I Y Bi) as F.
      replace (inner (rim p s (toward y)) (toward y)) with (inner p (toward y) + s) in L; [lra|]. pose proof (toward_unit y) as U. unfold unit in U. transitivity (inner p (toward y) + s * (px (toward y) * px (toward y) + py (toward y) * py (toward y))); [rewrite U; ring|unfold inner, rim; cbn [px py]; ring]. }
    split.
    + destruct (polar (a i) (minus p (fst (ball_at i)))) as (beta & B & E & Z). rewrite (surjective_pairing (ball_at i)). rewrite (arc_x _ _ _ _ beta); [|apply arc_range; exact I|apply arcs_kept; exact I|exact B|exact E|exact Z].
      destruct (Rle_bool_spec beta (a (S i))) as [Q|Q]; [|reflexivity]. apply exceeds_x. specialize (T beta ltac:(lra)). assert (G : inner p (toward beta) - reach (ball_at i) (toward beta) <= - s) by lra. rewrite reach_inner in G. rewrite E in G at 1. rewrite inner_toward2 in G. replace (beta - beta) with 0 in G by ring. rewrite cos_0 in G. lra.
    + unfold seg_at. rewrite segment_x; [|apply toward_unit|apply (reach_next i I)|apply (ahead_next i I)]. destruct (_ && _); [|reflexivity]. apply exceeds_x. pose proof (arc_range i I). specialize (T (a (S i)) ltac:(lra)). unfold reach in T. lra.
Qed.
End Convex.
