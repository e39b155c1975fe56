(** C72: closing and trimming a hand-drawn polyline *)
From Coq Require Import ZArith Reals Lra Lia Psatz Permutation Bool Arith List.
From Flocq Require Import Core IEEE754.BinarySingleNaN.
From Verif Require Import F32 F32Lemmas F32Round NumModel EasingExact EasingBezier GeomModel GeomSpec GeomReal GeomExact AlgorithmsModel AlgorithmsSpec DistanceModel DistanceProofs RTreeModel RTreeProofs PolylineModel PolylineSpec PolylineProofs PolylineExact.
Import ListNotations.
Local Open Scope R_scope.

(** ** Without rounding *)
(** Whatever the polyline (no two neighbors of its points alike), the parameters and the contents
    of the memory, the result is the one of PolylineSpec. *)
Theorem C72_exact ps sort J jb w m r u : (2 <= length ps)%nat -> (Z.of_nat (length ps) <= 2 ^ 32)%Z -> (forall i, (i < sides ps)%nat -> corner ps i <> corner ps (S i)) ->
  (forall f l, Permutation l (sort f l)) -> 0 <= m ->
  exists out, process_polyline J jb sort (map pv ps) (Params (Fin w : T N) (Fin m : T N) (Fin r : T N) (Fin u : T N)) = Some (map pv out) /\ processed ps w m r u out.
Proof. intros L2 LM Ap Sp Hm. exact (process_exact ps L2 LM Ap sort Sp J jb w m r u Hm). Qed.
Print Assumptions C72_exact.

(** *** What that means *)
(** 3.1: with no crossing and nothing to join to, nothing changes *)
Theorem C72_unchanged ps w m r u out : (forall c, ~ first_crossing ps c) -> (forall c d, ~ can_join_first ps w m r u c d) -> (forall c d, ~ can_join_last ps w m r u c d) ->
  processed ps w m r u out -> out = ps.
Proof.
  intros A B C (x & y & c & d & Hx & Hy & Hc & Hd & ->). destruct x as [x|]; [elim (A _ Hx)|]. destruct c as [c|]; [destruct Hc as (? & Hc & _); elim (B _ _ Hc)|]. destruct d as [d|]; [destruct Hd as (? & Hd & _); elim (C _ _ Hd)|]. reflexivity.
Qed.
Print Assumptions C72_unchanged.

Lemma dist_triangle a b c : dist a c <= dist a b + dist b c.
Proof.
  unfold dist. assert (P1 := sqrt_pos (dist2 a b)). assert (P2 := sqrt_pos (dist2 b c)). assert (P3 := sqrt_pos (dist2 a c)).
  assert (S1 := sqrt_sqrt (dist2 a b) (dist2_pos _ _)). assert (S2 := sqrt_sqrt (dist2 b c) (dist2_pos _ _)). assert (S3 := sqrt_sqrt (dist2 a c) (dist2_pos _ _)).
  set (x := sqrt (dist2 a b)) in *. set (y := sqrt (dist2 b c)) in *. set (z := sqrt (dist2 a c)) in *. clearbody x y z. unfold dist2 in *.
  set (u1 := px a - px b) in *. set (u2 := py a - py b) in *. set (v1 := px b - px c) in *. set (v2 := py b - py c) in *.
  replace (px a - px c) with (u1 + v1) in S3 by (unfold u1, v1; ring). replace (py a - py c) with (u2 + v2) in S3 by (unfold u2, v2; ring). clearbody u1 u2 v1 v2.
  assert (CS : (u1 * v1 + u2 * v2) * (u1 * v1 + u2 * v2) <= (x * y) * (x * y)). { replace ((x * y) * (x * y)) with ((x * x) * (y * y)) by ring. rewrite S1, S2. pose proof (Rle_0_sqr (u1 * v2 - u2 * v1)) as Q. unfold Rsqr in Q. nra. }
  assert (D : u1 * v1 + u2 * v2 <= x * y) by (assert (0 <= x * y) by nra; nra).
  assert (z * z <= (x + y) * (x + y)) by nra. nra.
Qed.
Lemma path_straight l a z : path_length (a :: l) >= dist a (last l z) \/ l = [].
Proof.
  revert a. induction l as [|b l IH]; intros a; [right; reflexivity|]. left. change (path_length (a :: b :: l)) with (dist a b + path_length (b :: l)). destruct (IH b) as [H| ->].
  - destruct l as [|c l]; [cbn [last]; pose proof (length_pos [b]); lra|]. change (last (b :: c :: l) z) with (last (c :: l) z). pose proof (dist_triangle a b (last (c :: l) z)). lra.
  - cbn. lra.
Qed.
Lemma ahead_straight ps c : (fst c < sides ps)%nat -> dist (corner ps 0) (place ps c) <= ahead ps c.
Proof.
  intros Hc. unfold ahead. assert (L : (fst c < length ps)%nat) by (unfold sides in Hc; lia). assert (P : dist (corner ps 0) (corner ps (fst c)) <= path_length (firstn (S (fst c)) ps)).
  { destruct ps as [|a l]; [cbn in L; lia|]. change (corner (a :: l) 0) with a. cbn [firstn]. destruct (path_straight (firstn (fst c) l) a (P 0 0)) as [H|H].
    - destruct (fst c) as [|k] eqn:E. { cbn. replace (corner (a :: l) 0) with a by reflexivity. unfold dist, dist2. replace (_ + _) with 0 by ring. rewrite sqrt_0. lra. }
      replace (corner (a :: l) (S k)) with (last (firstn (S k) l) (P 0 0)); [lra|]. unfold corner. cbn [nth]. cbn [length] in L. clear -L. revert l L. induction k as [|k IH]; intros [|b l] L; try (cbn in L; lia); [reflexivity|]. cbn [length] in L. change (firstn (S (S k)) (b :: l)) with (b :: firstn (S k) l). cbn [nth]. rewrite <- IH by lia. destruct l; [cbn in L; lia|reflexivity].
    - assert (fst c = 0%nat) as ->. { apply (f_equal (@length pt)) in H. rewrite firstn_length in H. cbn [length] in *. lia. } cbn. unfold corner. cbn. unfold dist, dist2. replace (_ + _) with 0 by ring. rewrite sqrt_0. lra. }
  pose proof (dist_triangle (corner ps 0) (corner ps (fst c)) (place ps c)). lra.
Qed.
Lemma behind_straight ps c : (fst c < sides ps)%nat -> dist (corner ps (sides ps)) (place ps c) <= behind ps c.
Proof.
  intros Hc. unfold behind. assert (L : (S (fst c) < length ps)%nat) by (unfold sides in Hc; lia).
  assert (P : dist (corner ps (S (fst c))) (corner ps (sides ps)) <= path_length (skipn (S (fst c)) ps)).
  { assert (E : exists l, skipn (S (fst c)) ps = corner ps (S (fst c)) :: l /\ corner ps (sides ps) = last (corner ps (S (fst c)) :: l) (P 0 0)).
    { unfold corner, sides. clear Hc. revert L. generalize (S (fst c)). intros k L. revert k L. induction ps as [|a l IH]; intros k L; [cbn in L; lia|]. destruct k as [|k].
      - exists l. split; [reflexivity|]. cbn [length]. replace (S (length l) - 1)%nat with (length l) by lia. change (nth 0 (a :: l) (P 0 0)) with a. clear. revert a. induction l as [|b l IH]; intros a; [reflexivity|]. change (nth (length l) (b :: l) (P 0 0) = last (b :: l) (P 0 0)). apply IH.
      - cbn [length] in L. destruct (IH k ltac:(lia)) as (t & E1 & E2). exists t. split; [exact E1|]. cbn [length]. replace (S (length l) - 1)%nat with (S (length l - 1)) by lia. exact E2. }
    destruct E as (l & -> & ->). destruct (path_straight l (corner ps (S (fst c))) (P 0 0)) as [H| ->].
    - destruct l as [|b l]; [cbn; unfold dist, dist2; replace (_ + _) with 0 by ring; rewrite sqrt_0; lra|]. change (last (corner ps (S (fst c)) :: b :: l) (P 0 0)) with (last (b :: l) (P 0 0)). lra.
    - cbn. unfold dist, dist2. replace (_ + _) with 0 by ring. rewrite sqrt_0. lra. }
  pose proof (dist_triangle (place ps c) (corner ps (S (fst c))) (corner ps (sides ps))) as T. replace (dist (corner ps (sides ps)) (place ps c)) with (dist (place ps c) (corner ps (sides ps))); [lra|]. unfold dist, dist2. f_equal. ring.
Qed.
(** the header: a connection ratio has no effect unless it is greater than 1 *)
Lemma join_first_ratio ps w m r r' u c d : r <= 1 -> r' <= 1 -> can_join_first ps w m r u c d -> can_join_first ps w m r' u c d.
Proof.
  intros R1 R2 (A & B & C & D & _ & F). repeat split; try assumption; try apply A; try apply B. destruct B as (_ & E & _). pose proof (ahead_straight ps c ltac:(lia)) as H. rewrite <- E in H. assert (0 <= d) by (rewrite E; apply sqrt_pos). nra.
Qed.
Lemma join_last_ratio ps w m r r' u c d : r <= 1 -> r' <= 1 -> can_join_last ps w m r u c d -> can_join_last ps w m r' u c d.
Proof.
  intros R1 R2 (A & B & C & D & _ & F). repeat split; try assumption; try apply A; try apply B. destruct B as (_ & E & _). pose proof (behind_straight ps c ltac:(lia)) as H. rewrite <- E in H. assert (0 <= d) by (rewrite E; apply sqrt_pos). nra.
Qed.
Lemma best_alike can can' c : (forall c d, can c d <-> can' c d) -> some_if_any (best can) c -> some_if_any (best can') c.
Proof.
  intros H. assert (Q : forall c, best can c <-> best can' c). { intros e. split; intros (d & A & B); exists d; (split; [apply H; exact A|intros c' d' C; apply (B c'); apply H; exact C]). }
  destruct c as [c|]; cbn; [apply Q|]. intros A c B. apply (A c). apply Q. exact B.
Qed.
Theorem C72_ratio_no_effect ps w m r r' u out : r <= 1 -> r' <= 1 -> (processed ps w m r u out <-> processed ps w m r' u out).
Proof.
  intros R1 R2. assert (Q : forall r r', r <= 1 -> r' <= 1 -> processed ps w m r u out -> processed ps w m r' u out); [|split; apply Q; assumption]. clear r r' R1 R2.
  intros r r' R1 R2 (x & y & c & d & Hx & Hy & Hc & Hd & E). exists x, y, c, d. repeat split; try assumption; [apply (best_alike _ _ _) with (2 := Hc)|apply (best_alike _ _ _) with (2 := Hd)]; intros e k; split.
  - apply join_first_ratio; assumption.
  - apply join_first_ratio; assumption.
  - apply join_last_ratio; assumption.
  - apply join_last_ratio; assumption.
Qed.
Print Assumptions C72_ratio_no_effect.

(** Every point of the result is on the polyline, and no two neighbors in it are alike. *)
Lemma side_corner ps i : (2 <= length ps)%nat -> (i < length ps)%nat -> exists j, (j < sides ps)%nat /\ side ps j (corner ps i).
Proof.
  intros L H. unfold sides. destruct (Nat.eq_dec i (length ps - 1)) as [E|E].
  - exists (i - 1)%nat. split; [lia|]. exists 1. split; [lra|]. replace (S (i - 1)) with i by lia. destruct (corner ps i) as [x y], (corner ps (i - 1)) as [x' y']. unfold mix. cbn. f_equal; ring.
  - exists i. split; [lia|]. exists 0. split; [lra|]. destruct (corner ps i) as [x y], (corner ps (S i)) as [x' y']. unfold mix. cbn. f_equal; ring.
Qed.
Definition neighbors_differ (l : list pt) : Prop := forall i, (S i < length l)%nat -> corner l i <> corner l (S i).
Definition on_path (ps : list pt) (p : pt) : Prop := exists j, (j < sides ps)%nat /\ side ps j p.
Lemma run_differ ps a b : neighbors_differ ps -> neighbors_differ (firstn b (skipn a ps)).
Proof.
  intros H i L. rewrite firstn_length, skipn_length in L. unfold corner in *. assert (Q : forall j, (j < b)%nat -> nth j (firstn b (skipn a ps)) (P 0 0) = nth (a + j) ps (P 0 0)).
  { intros j Hj. rewrite <- nth_skipn'. generalize (skipn a ps). intros l. clear L H. revert l j Hj. induction b as [|b IH]; intros l j Hj; [lia|]. destruct l as [|h l]; [reflexivity|]. destruct j; [reflexivity|]. cbn. apply IH; lia. }
  rewrite !Q by lia. replace (a + S i)%nat with (S (a + i)) by lia. apply (H (a + i)%nat). lia.
Qed.
Lemma extend_differ p l : neighbors_differ l -> neighbors_differ (extend p l).
Proof.
  intros H. unfold extend. destruct (pt_dec p (hd (P 0 0) l)) as [E|E]; [exact H|]. intros [|i] L; cbn [length] in L; [destruct l; [cbn in L; lia|exact E]|]. apply (H i). lia.
Qed.
Lemma extend_end_differ p l : neighbors_differ l -> neighbors_differ (extend_end l p).
Proof.
  intros H. unfold extend_end. destruct (pt_dec p (last l (P 0 0))) as [E|E]; [exact H|]. intros i L. rewrite app_length in L. cbn in L. unfold corner in *. destruct (Nat.eq_dec (S i) (length l)) as [Q|Q].
  - rewrite (app_nth2 l _ _ (n := S i)) by lia. rewrite Q, Nat.sub_diag. cbn. rewrite app_nth1 by lia. intros K. apply E. rewrite <- K. clear -Q. destruct l as [|h l]; [discriminate|]. injection Q as ->. revert h. induction l as [|b l IH]; intros h; [reflexivity|]. change (nth (length l) (b :: l) (P 0 0) = last (b :: l) (P 0 0)). apply IH.
  - rewrite !app_nth1 by lia. apply (H i). lia.
Qed.
Lemma extend_in p l z : In z (extend p l) -> z = p \/ In z l.
Proof. unfold extend. destruct (pt_dec _ _); [tauto|]. intros [<-|H]; auto. Qed.
Lemma extend_end_in p l z : In z (extend_end l p) -> z = p \/ In z l.
Proof. unfold extend_end. destruct (pt_dec _ _); [tauto|]. intros H. apply in_app_or in H. destruct H as [H|[<-|[]]]; auto. Qed.
Theorem C72_on_path ps w m r u out : (2 <= length ps)%nat -> neighbors_differ ps -> processed ps w m r u out -> neighbors_differ out /\ forall p, In p out -> on_path ps p.
Proof.
  intros L ND (x & y & c & d & Hx & Hy & Hc & Hd & ->).
  assert (In_ps : forall p, In p ps -> on_path ps p). { intros p I. apply In_nth with (d := P 0 0) in I. destruct I as (i & Li & <-). apply side_corner; assumption. }
  assert (PX : forall z, x = Some z -> on_path ps (place ps z)). { intros z ->. destruct Hx as [(T & j & Hj & S) _]. exists j. split; [lia|exact S]. }
  assert (PY : forall z, y = Some z -> on_path ps (place ps z)). { intros z ->. destruct Hy as [(j & Hj & F1 & F2 & _) _]. exists (fst z). split; [lia|]. exists (snd z). split; [exact F1|reflexivity]. }
  assert (PC : forall z, c = Some z -> on_path ps (place ps z)). { intros z ->. destruct Hc as (e & (A & (B & _) & _) & _). exists (fst z). split; [lia|]. exists (snd z). split; [exact B|reflexivity]. }
  assert (PD : forall z, d = Some z -> on_path ps (place ps z)). { intros z ->. destruct Hd as (e & (A & (B & _) & _) & _). exists (fst z). split; [lia|]. exists (snd z). split; [exact B|reflexivity]. }
  assert (Er : forall a b z, earlier a b = Some z -> a = Some z \/ b = Some z). { intros [a|] [b|] z; cbn; auto. destruct (lt_dec _ _); [auto|]. destruct (Nat.eq_dec _ _); [|auto]. destruct (Rlt_dec _ _); auto. }
  assert (Lr : forall a b z, later a b = Some z -> a = Some z \/ b = Some z). { intros [a|] [b|] z; cbn; auto. destruct (lt_dec _ _); [auto|]. destruct (Nat.eq_dec _ _); [|auto]. destruct (Rlt_dec _ _); auto. }
  assert (Q : forall a b s f, (forall z, s = Some z -> on_path ps (place ps z)) -> (forall z, f = Some z -> on_path ps (place ps z)) ->
    let run := firstn (b - a) (skipn a ps) in let run := match s with Some p => extend (place ps p) run | None => run end in let out := match f with Some p => extend_end run (place ps p) | None => run end in
    neighbors_differ out /\ forall p, In p out -> on_path ps p).
  { intros a b s f Hs Hf. cbv zeta. set (run := firstn (b - a) (skipn a ps)). assert (R1 : neighbors_differ run) by (apply run_differ; exact ND). assert (R2 : forall p, In p run -> on_path ps p). { intros p I. apply In_ps. unfold run in I. rewrite <- (firstn_skipn a ps). apply in_or_app. right. rewrite <- (firstn_skipn (b - a) (skipn a ps)). apply in_or_app. left. exact I. }
    set (run1 := match s with Some p => _ | None => run end). assert (S1 : neighbors_differ run1 /\ forall p, In p run1 -> on_path ps p). { unfold run1. destruct s as [z|]; [|auto]. split; [apply extend_differ; exact R1|]. intros p I. apply extend_in in I. destruct I as [-> |I]; auto. }
    destruct S1 as [S1 S2]. destruct f as [z|]; [|auto]. split; [apply extend_end_differ; exact S1|]. intros p I. apply extend_end_in in I. destruct I as [-> |I]; auto. }
  assert (W : forall o1 o2 : option (nat * R), (forall z, o1 = Some z -> on_path ps (place ps z)) -> (forall z, o2 = Some z -> on_path ps (place ps z)) -> forall z, earlier o1 o2 = Some z \/ later o1 o2 = Some z -> on_path ps (place ps z)).
  { intros o1 o2 H1 H2 z [H|H]; [apply Er in H|apply Lr in H]; destruct H; auto. }
  pose proof (Q (match c with Some _ => 0%nat | None => match earlier x d with Some p => S (fst p) | None => 0%nat end end)
                (match d with Some _ => length ps | None => match later y c with Some p => S (fst p) | None => 0%nat end end)
                (match c with Some _ => c | None => earlier x d end) (match d with Some _ => d | None => later y c end)) as G.
  assert (G1 : forall z, match c with Some _ => c | None => earlier x d end = Some z -> on_path ps (place ps z)) by (intros z E; destruct c; [apply PC, E|apply (W _ _ PX PD z); left; exact E]).
  assert (G2 : forall z, match d with Some _ => d | None => later y c end = Some z -> on_path ps (place ps z)) by (intros z E; destruct d; [apply PD, E|apply (W _ _ PY PC z); right; exact E]).
  specialize (G G1 G2). clear - G ND In_ps. unfold cut. destruct x as [x|], c as [c|], d as [d|]; try exact G. split; [exact ND|exact In_ps].
Qed.
Print Assumptions C72_on_path.

(** ** The last crossing *)
Definition on_earlier (ps : list pt) (c : nat * R) : Prop := 0 <= snd c <= 1 /\ exists j, (S j < fst c < sides ps)%nat /\ side ps j (place ps c).
(** If no two sides have more than a point in common, it is the last place that is on an earlier side. *)
Theorem C72_last_crossing ps c : (forall i j p q, (S i < j < sides ps)%nat -> side ps i p -> side ps j p -> side ps i q -> side ps j q -> p = q) ->
  (forall i, (i < sides ps)%nat -> corner ps i <> corner ps (S i)) ->
  (last_crossing ps c <-> on_earlier ps c /\ forall d, on_earlier ps d -> no_later d c).
Proof.
  intros U ND. assert (E : forall c, enters_earlier ps c <-> on_earlier ps c).
  { intros [k t]. split.
    - intros (j & Hj & T & S & _). split; [exact T|]. exists j. split; [exact Hj|exact S].
    - intros (T & j & Hj & Sj). cbn [fst snd] in *. exists j. cbn [fst snd]. split; [exact Hj|]. split; [exact T|]. split; [exact Sj|]. intros t' T' S'.
      assert (Q : place ps (k, t) = mix t' (corner ps k) (corner ps (S k))). { apply (U j k); [exact Hj|exact Sj| |exact S'|]; eexists; (split; [|reflexivity]); assumption. }
      specialize (ND k ltac:(lia)). unfold place, mix in Q. cbn [fst snd] in Q. injection Q as Q1 Q2. destruct (Rle_dec t t') as [L|L]; [exact L|]. elim ND. destruct (corner ps k) as [x y], (corner ps (S k)) as [x' y']. cbn in *. f_equal; nra. }
  unfold last_crossing. rewrite E. split; intros [A B]; (split; [exact A|]); intros d Hd; apply B; apply E; exact Hd.
Qed.
Print Assumptions C72_last_crossing.
(** If two sides overlap, it need not be: here the last side goes on along the first one. *)
Definition overlapping : list pt := [P 0 0; P 4 0; P 4 1; P 6 1; P 6 0; P 1 0].
Theorem C72_last_crossing_refuted : exists c d, last_crossing overlapping c /\ on_earlier overlapping d /\ ~ no_later d c.
Proof.
  exists (4%nat, 2 / 5), (4%nat, 1). assert (On : forall t, 0 <= t <= 1 -> (exists j, (S j < 4 < 5)%nat /\ side overlapping j (place overlapping (4%nat, t))) -> 2 / 5 <= t).
  { intros t T (j & Hj & s & Hs & Q). unfold place, mix in Q. cbn in Q. injection Q as Q1 Q2. destruct j as [|[|[|]]]; [| | |lia]; cbn in Q1, Q2; lra. }
  assert (F : first_at (corner overlapping 4) (corner overlapping 5) (side overlapping 0) (2 / 5)).
  { split; [lra|]. split; [exists 1; split; [lra|unfold mix; cbn; f_equal; lra]|]. intros s Hs S. apply (On s Hs). exists 0%nat. split; [lia|exact S]. }
  split; [|split].
  - split; [exists 0%nat; split; [cbn; lia|exact F]|]. intros [k t] (j & Hj & T & S & M). cbn [fst snd] in *. unfold sides in Hj. cbn in Hj. destruct (Nat.eq_dec k 4) as [->|NE]; [|left; cbn; lia]. right. split; [reflexivity|]. cbn [fst snd].
    destruct (Rle_dec t (2 / 5)) as [L|L]; [exact L|]. exfalso.
    assert (C : j = 0%nat \/ j = 1%nat \/ j = 2%nat) by lia. destruct C as [->|[->| ->]].
    + assert (t <= 2 / 5); [|lra]. apply M; [lra|]. exists 1. split; [lra|]. unfold mix. cbn. f_equal; lra.
    + assert (t <= 2 / 5); [|lra]. apply M; [lra|]. exists 0. split; [lra|]. unfold mix. cbn. f_equal; lra.
    + destruct S as (s & Hs & Q). unfold mix in Q. cbn in Q. injection Q as Q1 Q2. cbn [snd]. lra.
  - split; [cbn; lra|]. exists 0%nat. split; [cbn; lia|]. exists (1 / 4). split; [lra|]. unfold place, mix. cbn. f_equal; lra.
  - intros [H|[_ H]]; cbn in H; [lia|lra].
Qed.
Print Assumptions C72_last_crossing_refuted.

(** ** With floats *)
Section Floats.
Variable E : elem.
Notation F := (fnum E).
Local Open Scope nat_scope.
Lemma inf_far : nle F (nInf F) n1 = false. Proof. vm_compute. reflexivity. Qed.
Lemma finite_below (m : f32) : is_finite m = true -> nle F (nInf F) (m : T F) = false.
Proof. intros H. cbn [nle nInf F]. apply not_true_is_false. intros Q. apply fle_spec in Q; [|reflexivity|apply finite_not_nan; exact H]. rewrite (fX_finite _ H) in Q. pose proof (fR_bounds m). unfold fX, finf in Q. lra. Qed.

(** What comes out, if anything: the points as given, or a run of them with at most one point
    before it and at most one after it, either of them on a side. *)
Theorem C72_shape (J : nat -> cross F) jb sort (points : list (vec F)) (q : params F) out : is_finite (max_dist q : f32) = true -> process_polyline J jb sort points q = Some out ->
  out = points \/ exists a b pre post, a < b <= length points /\ out = pre ++ firstn (b - a) (skipn a points) ++ post /\ length pre <= 1 /\ length post <= 1 /\
    forall p, In p pre \/ In p post -> exists i x y t, nth_error points i = Some x /\ nth_error points (S i) = Some y /\ p = seg_lerp (Seg x y) t.
Proof.
  intros H O. apply (process_shape inf_far) in O; [|apply finite_below; exact H]. destruct O as [O|(a & b & pre & post & A & B & C & D & G)]; [left; exact O|right]. exists a, b, pre, post. repeat split; try assumption; try apply A.
  intros p Hp. destruct (G p Hp) as (bd & t & I & ->). apply In_nth_error in I. destruct I as [i I]. rewrite bundles_nth in I. destruct (nth_error points i) as [x|] eqn:X; [|discriminate]. destruct (nth_error points (S i)) as [y|] eqn:Y; [|discriminate]. injection I as <-. exists i, x, y, t. auto.
Qed.
(** Uninitialized memory does not show. *)
Theorem C72_memory (J J' : nat -> cross F) jb jb' sort (points : list (vec F)) (q : params F) : is_finite (max_dist q : f32) = true -> process_polyline J jb sort points q = process_polyline J' jb' sort points q.
Proof. intros H. apply (junk_free inf_far). apply finite_below. exact H. Qed.

(** A result is reached. *)
Notation isnum := (fun x : T F => is_nan (x : f32) = false).
Lemma index_exact k : (Z.of_nat k <= 2 ^ 24)%Z -> float_index (N := F) k = k.
Proof.
  intros H. unfold float_index. change (ntrunc F (nZ (Z.of_nat k))) with (ftoZ (fZ (Z.of_nat k))). destruct (fZ_exact (Z.of_nat k)) as [R1 _]; [lia|]. pose proof (ftoZ_spec (fZ (Z.of_nat k))) as S. rewrite R1 in S.
  assert (0 <= IZR (Z.of_nat k))%R by (apply IZR_le; lia). specialize (S H0). destruct S as [S1 S2]. apply le_IZR in S1. rewrite <- plus_IZR in S2. apply lt_IZR in S2. lia.
Qed.
Lemma pos_inf (w : f32) : is_nan w = false -> is_finite w = false -> (0 <= fX w)%R -> w = B754_infinity false.
Proof. pose proof big_pos. destruct w as [|[]| |]; cbn [fX is_nan is_finite]; intros A B C; try discriminate; [lra|reflexivity]. Qed.
Lemma add_inf (z h : f32) : is_finite z = true -> is_nan h = false -> is_nan (fsub z h) = false /\ is_nan (fadd z h) = false.
Proof.
  intros A B. destruct (is_finite h) eqn:Q; [split; [apply fsub_X|apply fadd_X]; assumption|]. destruct h as [|[]| |]; try discriminate; destruct z as [[]|[]| |]; try discriminate; split; reflexivity.
Qed.
Lemma bundles_index (l : list (vec F)) b i : In b (bundles i l) -> i <= b_index b < i + length l.
Proof. revert i. induction l as [|a [|c l] IH]; intros i H; cbn in H; try contradiction. destruct H as [<-|H]; [cbn; lia|]. apply IH in H. cbn [length] in *. lia. Qed.
Theorem C72_total (J : nat -> cross F) jb sort (points : list (vec F)) (q : params F) : (forall f l, Permutation l (sort f l)) -> 2 <= length points -> (Z.of_nat (length points) <= 2 ^ 24)%Z ->
  (forall p, In p points -> is_finite (vx p : f32) = true /\ is_finite (vy p : f32) = true) ->
  (forall i a b, nth_error points i = Some a -> nth_error points (S i) = Some b -> seg_project (Seg a b) a <> None) ->
  is_finite (max_dist q : f32) = true -> (0 <= fR (max_dist q))%R ->
  exists out, process_polyline J jb sort points q = Some out.
Proof.
  intros Sp L2 L24 Fin Pr Fm Pm. set (segs := bundles 0 points).
  assert (Sb : forall b, In b segs -> In (s_start (b_seg b)) points /\ In (s_end (b_seg b)) points).
  { intros b I. apply In_nth_error in I. destruct I as [i I]. unfold segs in I. rewrite bundles_nth in I. destruct (nth_error points i) as [x|] eqn:X; [|discriminate]. destruct (nth_error points (S i)) as [y|] eqn:Y; [|discriminate]. injection I as <-. cbn. split; eapply nth_error_In; eassumption. }
  assert (Hb : forall b, In b segs -> nums F isnum (seg_bounds b)).
  { intros b I. destruct (Sb b I) as [A B]. apply Fin in A, B. destruct A as [A1 A2], B as [B1 B2]. apply finite_not_nan in A1, A2, B1, B2. unfold seg_bounds, rect_from_two, nums. cbn [x_min y_min x_max y_max]. unfold nmin, nmax. repeat split; match goal with |- context [if ?c then _ else _] => destruct c end; assumption. }
  assert (SL : length segs = length points - 1) by apply bundles_length.
  destruct (query_exact F isnum fX (fun a b Ha Hb => flt_spec a b Ha Hb) seg_bounds 16 ltac:(lia) sort Sp segs) as (nodes & T1 & T2).
  { intros Q. rewrite Q in SL. cbn in SL. lia. } { rewrite SL. lia. } { exact Hb. }
  apply (process_total inf_far J jb nodes points (nums F isnum)).
  - intros S v s query Hq. destruct (T2 query Hq) as (order & _ & Hv). destruct (Hv S v s) as (s' & K & _). exists s'. exact K.
  - exact Hb.
  - apply finite_below. exact Fm.
  - intros p Ip. destruct (Fin p Ip) as [Fx Fy]. unfold rect_from_center. set (w := nmul F (max_dist q) n2). destruct (fZ_exact 2) as [R2 F2]; [lia|].
    destruct (fmul_X (max_dist q) (fZ 2) Fm F2) as [W1 W2]. change (fmul (max_dist q) (fZ 2)) with w in W1, W2.
    assert (W0 : (0 <= fX w)%R). { rewrite W1, R2. pose proof big_pos. assert (0 <= rnd (fR (max_dist q) * 2))%R by (apply rnd_pos; lra). unfold clampX, Rmax, Rmin. destruct (Rle_dec _ _); destruct (Rle_dec _ _); lra. }
    assert (L : nle F n0 w = true). { cbn [nle F]. apply fle_spec; [reflexivity|exact W2|]. replace (fX (n0 : T F)) with 0%R; [exact W0|]. symmetry. change (fX f0 = 0%R). rewrite fX_finite by reflexivity. apply f0_R. }
    rewrite L. cbn [andb]. eexists. split; [reflexivity|]. set (h := ndiv F w n2).
    assert (Hh : forall p : f32, is_finite p = true -> is_nan (fsub p h) = false /\ is_nan (fadd p h) = false).
    { intros z Fz. destruct (is_finite (w : f32)) eqn:Fw.
      - destruct (fdiv_X w (fZ 2) Fw F2) as [H1 H2]; [rewrite R2; lra|]. change (fdiv w (fZ 2)) with h in H1, H2. destruct (is_finite (h : f32)) eqn:Fh; [split; [apply fsub_X|apply fadd_X]; assumption|].
        apply add_inf; assumption.
      - assert (Wi : (w : f32) = B754_infinity false) by (apply pos_inf; assumption).
        assert (Hi : (h : f32) = B754_infinity false). { unfold h. rewrite Wi. vm_compute. reflexivity. } rewrite Hi. apply add_inf; [exact Fz|reflexivity]. }
    unfold nums. cbn [x_min y_min x_max y_max]. repeat split; apply Hh; assumption.
  - intros b I. apply index_exact. apply bundles_index in I. lia.
  - intros b p I _. apply In_nth_error in I. destruct I as [i I]. unfold segs in I. rewrite bundles_nth in I. destruct (nth_error points i) as [x|] eqn:X; [|discriminate]. destruct (nth_error points (S i)) as [y|] eqn:Y; [|discriminate]. injection I as <-. cbn [b_seg]. specialize (Pr i x y X Y). revert Pr. unfold seg_project. destruct (veq _ _); [auto|]. cbv zeta. destruct (nle F _ n0); [auto|]. discriminate.
  - exact L2.
  - exact T1.
Qed.
End Floats.
Print Assumptions C72_shape.
Print Assumptions C72_memory.
Print Assumptions C72_total.

(** ** Where it goes wrong *)
Section Wrong.
Variable E : elem.
(** for points on a horizontal or vertical line this is the distance *)
Definition axis_elem : elem := {| e_exp := e_exp E; e_sin := e_sin E; e_cos := e_cos E; e_tan := e_tan E; e_atan := e_atan E; e_atan2 := e_atan2 E; e_hypot := fun x y => fadd (fabs x) (fabs y); e_fmod := e_fmod E |}.
Notation F := (fnum axis_elem).
Local Open Scope nat_scope.
Definition fv (x y : Z) : vec F := V (fZ x : T F) (fZ y : T F).
Definition fq (w m r u : Z) : params F := Params (fZ w : T F) (fZ m : T F) (fZ r : T F) (fZ u : T F).
Definition insert (f : nat -> nat -> bool) (x : nat) : list nat -> list nat := fix go l := match l with [] => [x] | y :: r => if f x y then x :: l else y :: go r end.
Definition isort (f : nat -> nat -> bool) : list nat -> list nat := fix go l := match l with [] => [] | x :: r => insert f x (go r) end.
Lemma insert_perm f x l : Permutation (x :: l) (insert f x l).
Proof. induction l as [|y l IH]; cbn; [apply Permutation_refl|]. destruct (f x y); [apply Permutation_refl|]. eapply Permutation_trans; [apply perm_swap|]. apply perm_skip, IH. Qed.
Lemma isort_perm f l : Permutation l (isort f l).
Proof. induction l as [|x l IH]; cbn; [constructor|]. eapply Permutation_trans; [apply perm_skip, IH|apply insert_perm]. Qed.
Definition zero_cross (k : nat) : cross F := Cross k (fZ 0 : T F) (fZ 0 : T F).
Definition zero_bundle : bundle F := Bundle (Seg (fv 0 0) (fv 0 0)) 0 (fZ 0 : T F).
Definition same_points (o : option (list (vec F))) (l : list (Z * Z)) : bool :=
  match o with Some k => (length k =? length l) && forallb (fun ab => veq (fst ab) (fv (fst (snd ab)) (snd (snd ab)))) (combine k l) | None => false end.
Definition run_z (l : list (Z * Z)) q := process_polyline (fun _ => zero_cross 0) zero_bundle isort (map (fun p => fv (fst p) (snd p)) l) q.

(** trimmed at the crossing (2, 0) *)
Example C72_trim_example : same_points (run_z [(0, 0); (4, 0); (4, 4); (2, 4); (2, -4)]%Z (fq 1 0 2 2)) [(2, 0); (4, 0); (4, 4); (2, 4); (2, 0)]%Z = true.
Proof. vm_compute. reflexivity. Qed.
(** an almost closed square: both ends are joined *)
Example C72_join_example : same_points (run_z [(0, 0); (8, 0); (8, 8); (0, 8); (0, 1)]%Z (fq 1 2 2 2)) [(0, 1); (0, 0); (8, 0); (8, 8); (0, 8); (0, 1); (0, 0)]%Z = true.
Proof. vm_compute. reflexivity. Qed.
(** neither crossing nor near its ends *)
Example C72_unchanged_example : same_points (run_z [(0, 0); (8, 0); (8, 8); (0, 8); (0, 4)]%Z (fq 1 2 2 2)) [(0, 0); (8, 0); (8, 8); (0, 8); (0, 4)]%Z = true.
Proof. vm_compute. reflexivity. Qed.

(** No points, or one: there is no result. *)
Theorem C72_too_few_refuted J jb sort (p : vec F) q : process_polyline J jb sort [] q = None /\ process_polyline J jb sort [p] q = None.
Proof. split; reflexivity. Qed.
(** A point given twice in a row, near an end: there is no result. *)
Theorem C72_repeated_refuted : match run_z [(0, 0); (4, 0); (0, 1); (0, 1)]%Z (fq 1 2 2 2) with None => true | Some _ => false end = true.
Proof. vm_compute. reflexivity. Qed.
(** With no bound on the distance the result depends on uninitialized memory. *)
Theorem C72_unbounded_refuted : exists (points : list (vec F)) q J J', max_dist q = (finf : T F) /\ match process_polyline J zero_bundle isort points q with None => true | Some _ => false end = true /\ process_polyline J' zero_bundle isort points q <> None.
Proof.
  exists [fv 0 0; fv 8 0], (Params (fZ 1 : T F) (finf : T F) (fZ 2 : T F) (fZ 2 : T F)), (fun _ => zero_cross 7), (fun _ => zero_cross 0).
  split; [reflexivity|]. split; [vm_compute; reflexivity|]. match goal with |- ?x <> None => assert (K : match x with Some _ => true | None => false end = true) by (vm_compute; reflexivity) end. intros Q. rewrite Q in K. discriminate.
Qed.
(** The number of a side is passed on as a float, which may be a different number. *)
Theorem C72_index_refuted : exists k, (Z.of_nat k < 2 ^ 31)%Z /\ float_index (N := F) k <> k.
Proof.
  exists (Z.to_nat 16777219). rewrite Z2Nat.id by lia. split; [lia|]. unfold float_index. rewrite Z2Nat.id by lia. replace (ntrunc F (nZ 16777219)) with 16777220%Z by (vm_compute; reflexivity). intros Q. apply Z2Nat.inj in Q; lia.
Qed.
(** The header calls the distance a maximum and the ratios exclusive; it is the other way
    around: here the distance 2 is not accepted, and a ratio of exactly 31 is. *)
Theorem C72_bounds_refuted : same_points (run_z [(0, 0); (8, 0); (8, 8); (0, 8); (0, 2)]%Z (fq 1 2 2 2)) [(0, 0); (8, 0); (8, 8); (0, 8); (0, 2)]%Z = true /\
  same_points (run_z [(0, 0); (8, 0); (8, 8); (0, 8); (0, 1)]%Z (fq 1 2 31 2)) [(0, 1); (0, 0); (8, 0); (8, 8); (0, 8); (0, 1); (0, 0)]%Z = true.
Proof. split; vm_compute; reflexivity. Qed.
(** A closed polyline whose ends are joined gets no additional points. *)
Theorem C72_additional_point_refuted : same_points (run_z [(0, 0); (8, 0); (8, 8); (0, 8); (0, 0)]%Z (fq 1 2 2 0)) [(0, 0); (8, 0); (8, 8); (0, 8); (0, 0)]%Z = true.
Proof. vm_compute. reflexivity. Qed.
(** With rounding the two new ends of a trimmed loop need not meet: the polyline crosses itself
    in (2, 0) only, but the result starts in (2, 0) and ends in (2, -2^-23). *)
Theorem C72_loop_refuted : match run_z [(0, 0); (4, 0); (4, 4); (2, 4); (2, -2)]%Z (fq 1 0 2 2) with
  | Some (p :: l) => veq p (fv 2 0) = true /\ veq (last l p) (V (fZ 2 : T F) (fdy (-1) (-23) : T F)) = true /\ veq p (last l p) = false | _ => False end.
Proof. vm_compute. repeat split. Qed.
End Wrong.
Print Assumptions C72_loop_refuted.
Print Assumptions C72_too_few_refuted.
Print Assumptions C72_repeated_refuted.
Print Assumptions C72_unbounded_refuted.
Print Assumptions C72_index_refuted.
Print Assumptions C72_bounds_refuted.
Print Assumptions C72_additional_point_refuted.

(** the hypotheses of the theorems are met *)
Definition crossing_line : list pt := [P 0 0; P 4 0; P 4 4; P 2 4; P 2 (-2)].
Example C72_exact_example : (2 <= length crossing_line)%nat /\ (Z.of_nat (length crossing_line) <= 2 ^ 32)%Z /\ (forall i, (i < sides crossing_line)%nat -> corner crossing_line i <> corner crossing_line (S i)) /\
  crosses_later crossing_line (0%nat, 1 / 2) /\ enters_earlier crossing_line (3%nat, 2 / 3).
Proof.
  split; [cbn; lia|]. split; [cbn; lia|]. split; [|split].
  - intros i H. unfold sides in H. cbn in H. unfold corner. destruct i as [|[|[|[|]]]]; [| | | |lia]; cbn; intros Q; injection Q; lra.
  - split; [cbn; lra|]. exists 3%nat. split; [cbn; lia|]. exists (2 / 3). split; [lra|]. unfold place, mix. cbn. f_equal; lra.
  - exists 0%nat. split; [cbn; lia|]. split; [cbn; lra|]. split; [exists (1 / 2); split; [lra|]; unfold mix; cbn; f_equal; lra|]. intros t T (s & Hs & Q). unfold mix in Q. cbn in Q. injection Q as Q1 Q2. cbn [snd]. lra.
Qed.
Example C72_total_example (E : elem) : let points := map (fun p => fv E (fst p) (snd p)) [(0, 0); (4, 0); (4, 4); (2, 4); (2, -2)]%Z in
  (forall p, In p points -> is_finite (vx p : f32) = true /\ is_finite (vy p : f32) = true) /\
  (forall i a b, nth_error points i = Some a -> nth_error points (S i) = Some b -> seg_project (Seg a b) a <> None) /\ is_finite (max_dist (fq E 1 2 2 2) : f32) = true /\ 0 <= fR (max_dist (fq E 1 2 2 2) : f32).
Proof.
  cbv zeta. split; [|split; [|split]].
  - intros p H. cbn [map In fst snd] in H. repeat (destruct H as [<-|H]; [split; vm_compute; reflexivity|]). destruct H.
  - intros i a b A B. destruct i as [|[|[|[|[|i]]]]]; cbn [map nth_error fst snd] in A, B; try discriminate; try (injection A as <-; injection B as <-; match goal with |- ?x <> None => assert (K : match x with Some _ => true | None => false end = true) by (vm_compute; reflexivity) end; intros Q; rewrite Q in K; discriminate).
  - vm_compute. reflexivity.
  - destruct (fZ_exact 2) as [R2 _]; [lia|]. cbn [max_dist fq]. rewrite R2. lra.
Qed.
