(** C78: the outline of a cap is split into left and right. *)
From Coq Require Import ZArith Reals Lra Lia Bool Arith FinFun List.
From Flocq Require Import Core.Raux.
From Verif Require Import NumModel EasingExact GeomModel GeomSpec GeomReal GeomExact CircleModel CircleSpec TipShapeModel TipCapModel TipCapSpec TipCapProofs.
Import ListNotations.
Local Open Scope nat_scope.

Section Split.
Context {N : num}.
Variables forward center : vec N.
Notation side := (is_right forward center).
(** In either arithmetic: no point is lost or made, what was there before stays, and the left points followed by the right ones backwards are the same outline, perhaps begun elsewhere. *)
Theorem C78_split old new rights : exists l r, move_new_right_points forward center (length new) (old ++ new) rights = (old ++ l, rights ++ r) /\
  turned_round new (l ++ rev r) /\ length r = length (filter side new).
Proof.
  destruct (move_spec forward center old new rights) as (a & b & E & M & _). rewrite M. eexists _, _. split; [reflexivity|]. split.
  - exists a, b. split; [exact E|]. rewrite rev_involutive. apply firstn_skipn.
  - rewrite rev_length, skipn_length. pose proof (tally_le side new) as L. unfold tally in *. assert (length (b ++ a) = length new) by (rewrite E, !app_length; lia). lia.
Qed.
(** Every point goes to its side exactly if the points of each side follow one another around the outline. *)
Theorem C78_sides old new rights l r : move_new_right_points forward center (length new) (old ++ new) rights = (old ++ l, rights ++ r) ->
  (sorted_sides side l r <-> two_runs side new).
Proof.
  destruct (move_spec forward center old new rights) as (a & b & E & M & Hb & Ha). rewrite M. intros Q. apply pair_equal_spec in Q. destruct Q as [Q1 Q2]. apply app_inv_head in Q1, Q2. subst l r. set (k := length new - tally side new) in *.
  assert (W : firstn k (b ++ a) ++ skipn k (b ++ a) = b ++ a) by apply firstn_skipn. split.
  - intros [L R]. exists (firstn k (b ++ a)), (skipn k (b ++ a)). split; [exists a, b; auto|]. split; [exact L|]. intros p I. apply R. rewrite <- in_rev. exact I.
  - intros T. assert (G : exists x y, b ++ a = x ++ y /\ all_ side false x /\ all_ side true y).
    { apply two_runs_runs in T. rewrite E in T. apply runs_rotate in T. destruct (Nat.eq_dec (tally side new) 0) as [Z|Z].
      - exists (b ++ a), []. rewrite app_nil_r. split; [reflexivity|]. rewrite tally_none in Z. split; [|intros ? []]. intros p I. apply Z. rewrite E. apply in_or_app. apply in_app_or in I. tauto.
      - destruct (Ha Z) as (l & r & -> & Nr & Tl & Hr). rewrite tally_none in Tl. destruct Hb as [-> |(p & b' & -> & Sp)]; [exists l, r; auto|].
        destruct (rev r) as [|q r'] eqn:Er; [apply (f_equal (@rev _)) in Er; rewrite rev_involutive in Er; contradiction|]. apply (f_equal (@rev _)) in Er. rewrite rev_involutive in Er. cbn in Er. subst r.
        assert (X : (p :: b') ++ l ++ rev r' ++ [q] = p :: (b' ++ l ++ rev r') ++ [q]) by (cbn; rewrite !app_assoc; reflexivity). rewrite X in *. apply runs_ends; [exact T|exact Sp|]. apply Hr, in_or_app. right. left. reflexivity. }
    destruct G as (x & y & Exy & X & Y). assert (K : k = length x).
    { assert (P : tally side (b ++ a) = tally side new) by (rewrite E, !tally_app; lia). rewrite Exy, tally_app in P. rewrite (proj2 (tally_none side x) X), (proj2 (tally_all side y) Y) in P. unfold k. apply (f_equal (@length _)) in Exy. rewrite E. rewrite !app_length in *. rewrite E in P. lia. }
    rewrite K, Exy. rewrite firstn_app, Nat.sub_diag, firstn_all, firstn_O, app_nil_r, skipn_app, Nat.sub_diag, skipn_all. cbn [skipn app]. split; [exact X|]. intros p I. apply Y. rewrite in_rev. exact I.
Qed.
(** The end cap: the outline is cut in two where its last point that is not on the right is. *)
Theorem C78_endcap old new rights : exists l r, split_endcap forward center (length new) (old ++ new) rights = (old ++ l, rights ++ r) /\ new = l ++ rev r /\
  (forall p, In p r -> side p = true) /\ (sorted_sides side l r <-> exists a b, new = a ++ b /\ sorted_sides side a b).
Proof.
  unfold split_endcap. destruct (split_parts old new) as [-> ->]. destruct (take_right_spec side (rev new) rights) as (a & b & E & -> & A & B). exists (rev b), a. split; [reflexivity|].
  assert (En : new = rev b ++ rev a) by (rewrite <- rev_app_distr, <- E, rev_involutive; reflexivity). split; [exact En|]. split; [exact A|]. split.
  - intros [L R]. exists (rev b), (rev a). split; [exact En|]. split; [exact L|]. intros p I. apply R. rewrite in_rev. exact I.
  - intros (x & y & Exy & X & Y). split; [|exact A]. rewrite En in Exy. apply app_eq_app in Exy. destruct Exy as (m & [[Eb ->]|[-> _]]); [|intros p I; apply X, in_or_app; left; exact I].
    destruct B as [-> |(p & b' & -> & Sp)]; [intros p []|]. cbn [rev] in *. destruct (rev m) as [|q m'] eqn:Em.
    + apply (f_equal (@rev _)) in Em. rewrite rev_involutive in Em. cbn in Em. subst m. rewrite app_nil_r in Eb. rewrite Eb. exact X.
    + apply (f_equal (@rev _)) in Em. rewrite rev_involutive in Em. cbn in Em. subst m. rewrite app_assoc in Eb. apply app_inj_tail in Eb. destruct Eb as [_ ->]. rewrite Y in Sp; [discriminate|]. apply in_or_app. left. apply in_or_app. right. left. reflexivity.
Qed.
End Split.
(** In exact arithmetic: every convex outline is split correctly, whatever the direction and the center are. *)
Theorem C78_convex f o old new rights : clockwise new -> exists l r,
  move_new_right_points (N := N) (pv f) (pv o) (length new) (old ++ map pv new) rights = (old ++ map pv l, rights ++ map pv r) /\
  turned_round new (l ++ rev r) /\ (forall p, In p l -> ~ to_the_right f o p) /\ (forall p, In p r -> to_the_right f o p).
Proof.
  intros C. pose proof (C78_split (pv f) (pv o) old (map pv new) rights) as (l & r & M & (a & b & E & T) & _). pose proof M as S. apply C78_sides in S. rewrite map_length in M.
  apply map_eq_app in E. destruct E as (a' & b' & -> & <- & <-). rewrite <- map_app in T. symmetry in T. apply map_eq_app in T. destruct T as (l' & r' & T & <- & R). apply (f_equal (@rev _)) in R. rewrite rev_involutive, <- map_rev in R. subst r.
  exists l', (rev r'). split; [exact M|]. rewrite rev_involutive. split; [exists a', b'; auto|]. destruct (proj2 S) as [S1 S2]; [apply two_runs_runs, convex_runs, C|]. split; intros p I.
  - intros K. apply right_x in K. rewrite S1 in K by (apply in_map; exact I). discriminate K.
  - apply right_x, S2. apply in_map. exact I.
Qed.

(** ** The circles a cap goes around *)
Section Walk.
Context {N : num}.
Variable s : shape N.
Notation n := (length (s_circles s)).
Lemma next_before i : i < n -> before n i (next_cw s i) /\ next_cw s i < n.
Proof. intros H. unfold before. destruct i as [|i]; cbn [next_cw]; lia. Qed.
Lemma walk_down i : forall stop fuel, stop <= i -> i - stop <= fuel -> walk_cw s fuel i stop = Some (rev (seq stop (S (i - stop)))).
Proof.
  intros stop fuel. revert i. induction fuel as [|fuel IH]; intros i L F.
  - assert (i = stop) as -> by lia. cbn [walk_cw]. rewrite Nat.eqb_refl, Nat.sub_diag. reflexivity.
  - cbn [walk_cw]. destruct (Nat.eqb_spec i stop) as [-> |Ne]; [rewrite Nat.sub_diag; reflexivity|]. destruct i as [|i]; [lia|]. cbn [next_cw]. rewrite IH by lia.
    replace (S i - stop) with (S (i - stop)) by lia. rewrite (seq_S (S (i - stop))), rev_app_distr. cbn [rev app]. do 2 f_equal. lia.
Qed.
Lemma walk_zero i : forall fuel stop, i < stop < n -> i + 1 + (n - 1 - stop) <= fuel -> walk_cw s fuel i stop = Some (rev (seq 0 (S i)) ++ rev (seq stop (n - stop))).
Proof.
  induction i as [|i IH]; intros fuel stop B F.
  - destruct fuel as [|fuel]; [lia|]. cbn [walk_cw]. destruct (Nat.eqb_spec 0 stop) as [|Ne]; [lia|]. cbn [next_cw]. rewrite walk_down by lia. replace (S (Nat.pred n - stop)) with (n - stop) by lia. reflexivity.
  - destruct fuel as [|fuel]; [lia|]. cbn [walk_cw]. destruct (Nat.eqb_spec (S i) stop) as [|Ne]; [lia|]. cbn [next_cw]. rewrite IH by lia. rewrite (seq_S (S i)), rev_app_distr. reflexivity.
Qed.
Lemma around_down : forall k a, a + k <= n -> around n (rev (seq a k)).
Proof.
  induction k as [|k IH]; intros a H; [exact I|]. rewrite seq_S, rev_app_distr. cbn [rev app]. destruct k as [|k]; [exact I|]. specialize (IH a ltac:(lia)). rewrite seq_S, rev_app_distr in *. cbn [rev app] in *. split; [left; lia|exact IH].
Qed.
Lemma around_app l : forall i j m, around n (l ++ [i]) -> before n i j -> around n (j :: m) -> around n ((l ++ [i]) ++ j :: m).
Proof.
  induction l as [|x l IH]; intros i j m A B C; [split; assumption|]. cbn [app] in *. specialize (IH i j m). destruct l as [|y l]; cbn [app] in *; [destruct A as [A1 A2]; split; [exact A1|apply IH; auto]|destruct A as [A1 A2]; split; [exact A1|apply IH; auto]].
Qed.
Lemma nodup_app {A} (l m : list A) : NoDup l -> NoDup m -> (forall k, In k l -> ~ In k m) -> NoDup (l ++ m).
Proof. intros L M H. induction L as [|x l Nx L IH]; [exact M|]. cbn. constructor; [rewrite in_app_iff; intros [I|I]; [auto|apply (H x); [left; reflexivity|exact I]]|]. apply IH. intros k I. apply H. right. exact I. Qed.
(** From any circle to any other the loop ends, visits no circle twice and goes clockwise, one by one. *)
Theorem C78_walk i stop : i < n -> stop < n -> exists l, walk_cw s n i stop = Some l /\ NoDup l /\ hd_error l = Some i /\ last l 0 = stop /\ around n l /\ forall k, In k l -> k < n.
Proof.
  intros Hi Hs. destruct (Nat.le_gt_cases stop i) as [L|L].
  - rewrite walk_down by lia. eexists. split; [reflexivity|]. split; [apply NoDup_rev, seq_NoDup|]. split; [rewrite seq_S, rev_app_distr; cbn; f_equal; lia|]. split; [cbn [seq rev]; apply last_last|]. split; [apply around_down; lia|]. intros k I. rewrite <- in_rev, in_seq in I. lia.
  - rewrite walk_zero by lia. eexists. split; [reflexivity|]. split.
    { apply nodup_app; [apply NoDup_rev, seq_NoDup|apply NoDup_rev, seq_NoDup|]. intros k I J. rewrite <- in_rev, in_seq in I, J. lia. }
    split; [rewrite seq_S, rev_app_distr; cbn; f_equal; lia|]. replace (n - stop) with (S (n - 1 - stop)) by lia. split; [cbn [seq rev]; rewrite !app_assoc; apply last_last|]. split.
    + replace (rev (seq 0 (S i))) with (rev (seq 1 i) ++ [0]) by reflexivity. rewrite seq_S, rev_app_distr. cbn [rev app]. apply around_app.
      * apply (around_down (S i) 0). lia.
      * right. lia.
      * pose proof (around_down (S (n - 1 - stop)) stop ltac:(lia)) as A. rewrite seq_S, rev_app_distr in A. exact A.
    + intros k I. apply in_app_or in I. rewrite <- !in_rev, !in_seq in I. lia.
Qed.
Lemma rounds_down i : forall m, rounds_cw s (S i + m) i = rev (seq 0 (S i)) ++ rounds_cw s m (n - 1).
Proof. induction i as [|i IH]; intros m; [cbn; replace (Nat.pred n) with (n - 1) by lia; reflexivity|]. change (rounds_cw s (S (S i) + m) (S i)) with (S i :: rounds_cw s (S i + m) i). rewrite IH. rewrite (seq_S (S i)), rev_app_distr. reflexivity. Qed.
(** The whole outline: the circles that are turned around, all but the first and the last of the list, are all circles once each, clockwise, with the neighbors of the ends beside them. *)
Theorem C78_whole : 2 <= n -> exists a l b, whole_circles s = a :: l ++ [b] /\ NoDup l /\ (forall k, In k l <-> k < n) /\ around n (whole_circles s).
Proof.
  intros Hn. assert (E : whole_circles s = [1; 0] ++ rev (seq 0 n)).
  { unfold whole_circles. assert (C : next_ccw s 0 = 1) by (unfold next_ccw; destruct (Nat.leb_spec n 1); [lia|reflexivity]). rewrite C. rewrite (Nat.add_comm n 2), (rounds_down 1 n). f_equal.
    assert (G : forall m, m = S (n - 1) + 0 -> rounds_cw s m (n - 1) = rev (seq 0 m)) by (intros m ->; rewrite rounds_down, Nat.add_0_r; cbn [rounds_cw]; apply app_nil_r). apply G. lia. }
  assert (S0 : seq 0 n = 0 :: seq 1 (n - 1)) by (replace n with (S (n - 1)) at 1 by lia; reflexivity).
  exists 1, (0 :: rev (seq 1 (n - 1))), 0. rewrite E, S0. split; [reflexivity|]. split; [constructor; [rewrite <- in_rev, in_seq; lia|apply NoDup_rev, seq_NoDup]|]. split.
  - intros k. cbn [In]. rewrite <- in_rev, in_seq. lia.
  - cbn [rev app]. split; [left; lia|]. change (around n ([0] ++ rev (seq 1 (n - 1)) ++ [0])). change (rev (seq 1 (n - 1)) ++ [0]) with (rev (0 :: seq 1 (n - 1))). rewrite <- S0.
    replace n with (S (n - 1)) at 2 by lia. rewrite seq_S, rev_app_distr. cbn [rev app]. split; [right; lia|].
    pose proof (around_down n 0 ltac:(lia)) as A. replace n with (S (n - 1)) in A at 2 by lia. rewrite seq_S, rev_app_distr in A. exact A.
Qed.
End Walk.

(** ** The rearmost circles *)
(** In exact arithmetic: no circle is farther back, and of those as far back none is farther left, or right. *)
Local Open Scope R_scope.
Theorem C78_rear f o l rad : l <> [] -> exists i j a b, rear_indices (N := N) (Shape (pv o) (map (fun c => Circle (pv c) (rad c)) l)) (pv f) = Some (i, j) /\ nth_error l i = Some a /\ nth_error l j = Some b /\
  forall c, In c l -> inner f a <= inner f c /\ inner f b <= inner f c /\ (inner f c = inner f a -> cross f c <= cross f a /\ cross f b <= cross f c).
Proof.
  destruct l as [|c0 l]; [congruence|]. intros _. unfold rear_indices. cbn [s_circles map s_center CircleModel.center]. rewrite sub_x, dot_x, det_x.
  set (D := fun c => dot2 f (sub c o)). set (T := fun c => det2 f (sub c o)). fold (D c0). fold (T c0).
  assert (G : forall r k i j a b n, n = length k -> nth_error k i = Some a -> nth_error k j = Some b -> (forall c, In c k -> D a <= D c /\ (D c = D a -> T b <= T c <= T a)) -> D b = D a ->
    exists i' j' a' b' n', fold_left (rear_step (N := N) (pv f) (pv o)) (map (fun c => Circle (pv c) (rad c)) r) (n, (i, j, Fin (D a), Fin (T a), Fin (T b))) = (n', (i', j', Fin (D a'), Fin (T a'), Fin (T b'))) /\
      nth_error (k ++ r) i' = Some a' /\ nth_error (k ++ r) j' = Some b' /\ (forall c, In c (k ++ r) -> D a' <= D c /\ (D c = D a' -> T b' <= T c <= T a')) /\ D b' = D a').
  { induction r as [|c r IH]; intros k i j a b n Hn Ha Hb H Hd.
    - exists i, j, a, b, n. rewrite app_nil_r. auto.
    - cbn [map fold_left]. unfold rear_step at 2. cbn [CircleModel.center]. rewrite sub_x, dot_x, det_x. fold (D c). fold (T c).
      assert (L : forall m x, nth_error k m = Some x -> nth_error (k ++ [c]) m = Some x). { intros m x M. rewrite nth_error_app1; [exact M|]. apply nth_error_Some. congruence. }
      assert (C : nth_error (k ++ [c]) n = Some c) by (rewrite nth_error_app2, Hn, Nat.sub_diag by lia; reflexivity).
      assert (Sn : S n = length (k ++ [c])) by (rewrite app_length, Hn; cbn; lia).
      assert (Ha' : In a k) by (eapply nth_error_In; exact Ha). assert (Hb' : In b k) by (eapply nth_error_In; exact Hb).
      assert (K : forall a b, (forall x, In x k -> D a <= D x /\ (D x = D a -> T b <= T x <= T a)) -> D a <= D c /\ (D c = D a -> T b <= T c <= T a) -> forall x, In x (k ++ [c]) -> D a <= D x /\ (D x = D a -> T b <= T x <= T a)).
      { intros a1 b1 K1 K2 x I. apply in_app_or in I. destruct I as [I|[<-|[]]]; auto. }
      replace (k ++ c :: r) with ((k ++ [c]) ++ r) by (rewrite <- app_assoc; reflexivity).
      destruct (H a Ha') as [_ Ta]. specialize (Ta eq_refl).
      destruct (nlt N (Fin (D c)) (Fin (D a))) eqn:Q1; [apply lt_x in Q1|apply lt_xf in Q1; destruct (neqb N (Fin (D c)) (Fin (D a))) eqn:Q2; [apply eq_x in Q2; destruct (nlt N (Fin (T a)) (Fin (T c))) eqn:Q3; [apply lt_x in Q3|apply lt_xf in Q3; destruct (nlt N (Fin (T c)) (Fin (T b))) eqn:Q4; [apply lt_x in Q4|apply lt_xf in Q4]]|apply eq_xf in Q2]].
      + apply (IH (k ++ [c]) n n c c (S n)); auto. apply K; [|lra]. intros x I. destruct (H x I). split; lra.
      + rewrite <- Q2. apply (IH (k ++ [c]) n j c b (S n)); auto; [|lra]. apply K; [|lra]. intros x I. destruct (H x I) as [H1 H2]. split; [lra|]. intros. specialize (H2 ltac:(lra)). lra.
      + apply (IH (k ++ [c]) i n a c (S n)); auto. apply K; [|lra]. intros x I. destruct (H x I) as [H1 H2]. split; [lra|]. intros. specialize (H2 ltac:(lra)). lra.
      + apply (IH (k ++ [c]) i j a b (S n)); auto; try (apply K; [exact H|lra]).
      + apply (IH (k ++ [c]) i j a b (S n)); auto; try (apply K; [exact H|]; split; [lra|contradiction]). }
  destruct (G l [c0] 0%nat 0%nat c0 c0 1%nat) as (i & j & a & b & n & E & A & B & H & Hd); try reflexivity.
  { intros c [<-|[]]. lra. }
  exists i, j, a, b. split; [exact (f_equal (fun z => let '(_, (x, y, _, _, _)) := z in Some (x, y)) E)|]. split; [exact A|]. split; [exact B|]. intros c I. destruct (H c I) as [H1 H2]. unfold D, T, dot2, det2, sub in *. unfold inner, cross. cbn [px py] in *.
  split; [lra|]. split; [lra|]. intros Q. specialize (H2 ltac:(lra)). lra.
Qed.

(** ** The hypotheses are met *)
Definition square : list pt := [P (-1) (-1); P (-1) 1; P 1 1; P 1 (-1)].
Example square_clockwise : clockwise square.
Proof.
  unfold clockwise, square. intros l0 a l1 b l2 c l3 E. 
  destruct l0 as [|? [|? [|? [|? l0]]]]; destruct l1 as [|? [|? [|? l1]]]; destruct l2 as [|? [|? l2]]; cbn in E; try discriminate E; injection E; intros; subst; try (unfold cross, minus; cbn; lra).
  all: match goal with H : [] = _ ++ _ |- _ => destruct l0; discriminate H | H : _ = _ |- _ => apply (f_equal (@length _)) in H; cbn in H; repeat (rewrite ?app_length in H; cbn in H); lia end.
Qed.
Example square_split : exists l r, move_new_right_points (N := N) (pv (P 1 0)) (pv (P 0 0)) 4 (map pv square) [] = (map pv l, map pv r) /\
  turned_round square (l ++ rev r) /\ In (P 1 1) l /\ In (P 1 (-1)) r.
Proof.
  destruct (C78_convex (P 1 0) (P 0 0) [] square [] square_clockwise) as (l & r & M & T & L & R). exists l, r. split; [exact M|]. split; [exact T|].
  destruct T as (a & b & E & T). assert (I : forall p, In p square -> In p l \/ In p r).
  { intros p I. rewrite E in I. apply in_app_or in I. assert (K : In p (l ++ rev r)) by (rewrite T; apply in_or_app; tauto). apply in_app_or in K. rewrite <- in_rev in K. exact K. }
  split.
  - destruct (I (P 1 1)) as [K|K]; [right; right; left; reflexivity|exact K|]. apply R in K. unfold to_the_right, cross, minus in K. cbn in K. lra.
  - destruct (I (P 1 (-1))) as [K|K]; [right; right; right; left; reflexivity| |exact K]. apply L in K. elim K. unfold to_the_right, cross, minus. cbn. lra.
Qed.
(** An end cap whose outline begins on the right keeps that point on the left. *)
Theorem C78_endcap_refuted : exists f o new l r, clockwise new /\ split_endcap (N := N) (pv f) (pv o) 4 (map pv new) [] = (map pv l, map pv r) /\ exists p, In p l /\ to_the_right f o p.
Proof.
  assert (R : forall p, is_right (N := N) (pv (P 1 0)) (pv (P 0 0)) (pv p) = Rlt_bool (cross (P 1 0) (minus p (P 0 0))) 0) by (intros p; unfold is_right; rewrite sub_x, det_x, x0; reflexivity).
  exists (P 1 0), (P 0 0), square, [P (-1) (-1); P (-1) 1; P 1 1], [P 1 (-1)]. split; [exact square_clockwise|]. split.
  - unfold split_endcap. cbn [length map square Nat.sub skipn rev app firstn take_right]. rewrite !R. unfold cross, minus. cbn [px py]. rewrite Rlt_bool_true by lra. rewrite Rlt_bool_false by lra. reflexivity.
  - exists (P (-1) (-1)). split; [left; reflexivity|]. unfold to_the_right, cross, minus. cbn. lra.
Qed.
Example C78_walk_example : exists s : shape N, (2 <= length (s_circles s))%nat.
Proof. exists (Shape (pv (P 0 0)) [Circle (pv (P 0 0)) (Fin 1); Circle (pv (P 3 0)) (Fin 1)]). cbn. lia. Qed.
Print Assumptions C78_split.
Print Assumptions C78_sides.
Print Assumptions C78_endcap.
Print Assumptions C78_convex.
Print Assumptions C78_walk.
Print Assumptions C78_whole.
Print Assumptions C78_rear.
Print Assumptions C78_endcap_refuted.
