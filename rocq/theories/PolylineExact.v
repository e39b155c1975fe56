(** Closing and trimming a polyline in exact arithmetic. *)
From Coq Require Import ZArith Reals Lra Lia Psatz Permutation Bool Arith List.
From Flocq Require Import Core.
From Verif Require Import NumModel EasingExact GeomModel GeomSpec GeomReal GeomExact GeomMeet GeomOps AlgorithmsModel AlgorithmsSpec AlgorithmsProofs DistanceModel DistanceSpec DistanceProofs RTreeModel RTreeSpec RTreeProofs PolylineModel PolylineSpec PolylineProofs.
Import ListNotations.
Local Open Scope R_scope.
Notation N := xnum.

(** ** Looking for the best *)
Section Best.
Context {A S : Type}.
Variable step : S -> A -> S.
Variable score : A -> option R.
Variable upd : S -> A -> S.
Variable val : S -> T N.
Variable ok : A -> Prop.
Hypothesis step_spec : forall s a, ok a -> val s <> Nan -> step s a = match score a with Some x => if nlt N (Fin x) (val s) then upd s a else s | None => s end.
Hypothesis val_upd : forall s a x, score a = Some x -> val (upd s a) = Fin x.
Lemma fold_best l s0 : (forall a, In a l -> ok a) -> val s0 = Inf false ->
  let s' := fold_left step l s0 in
  (s' = s0 /\ forall a, In a l -> score a = None) \/
  (exists a x s1, In a l /\ score a = Some x /\ s' = upd s1 a /\ forall a' x', In a' l -> score a' = Some x' -> x <= x').
Proof.
  intros Hok H0. induction l as [|b l IH] using rev_ind; [left; split; [reflexivity|intros a []]|]. cbv zeta in *. rewrite fold_left_app. cbn [fold_left].
  specialize (IH (fun a Ha => Hok a (in_or_app _ _ _ (or_introl Ha)))). specialize (Hok b ltac:(apply in_or_app; right; left; reflexivity)).
  destruct IH as [[E F]|(a & x & s1 & I1 & Sa & E & F)].
  - rewrite E. rewrite step_spec by (try exact Hok; rewrite H0; discriminate). destruct (score b) as [y|] eqn:Sb.
    + rewrite H0. replace (nlt N (Fin y) (Inf false)) with true by reflexivity. right. exists b, y, s0. split; [apply in_or_app; right; left; reflexivity|]. split; [exact Sb|]. split; [reflexivity|].
      intros a' x' Ia Sa. apply in_app_or in Ia. destruct Ia as [Ia|[<-|[]]]; [rewrite (F _ Ia) in Sa; discriminate|]. rewrite Sb in Sa. injection Sa as <-. lra.
    + left. split; [reflexivity|]. intros a Ia. apply in_app_or in Ia. destruct Ia as [Ia|[<-|[]]]; auto.
  - rewrite E. assert (Vu : val (upd s1 a) = Fin x) by (apply val_upd; exact Sa). rewrite step_spec by (try exact Hok; rewrite Vu; discriminate). right. destruct (score b) as [y|] eqn:Sb.
    + rewrite Vu. destruct (nlt N (Fin y) (Fin x)) eqn:L; [apply lt_x in L|apply lt_xf in L].
      * exists b, y, (upd s1 a). split; [apply in_or_app; right; left; reflexivity|]. split; [exact Sb|]. split; [reflexivity|].
        intros a' x' Ia Sa'. apply in_app_or in Ia. destruct Ia as [Ia|[<-|[]]]; [specialize (F _ _ Ia Sa'); lra|]. rewrite Sb in Sa'. injection Sa' as <-. lra.
      * exists a, x, s1. split; [apply in_or_app; left; exact I1|]. split; [exact Sa|]. split; [reflexivity|].
        intros a' x' Ia Sa'. apply in_app_or in Ia. destruct Ia as [Ia|[<-|[]]]; [exact (F _ _ Ia Sa')|]. rewrite Sb in Sa'. injection Sa' as <-. exact L.
    + exists a, x, s1. split; [apply in_or_app; left; exact I1|]. split; [exact Sa|]. split; [reflexivity|].
      intros a' x' Ia Sa'. apply in_app_or in Ia. destruct Ia as [Ia|[<-|[]]]; [exact (F _ _ Ia Sa')|]. congruence.
Qed.
End Best.
Lemma visits_fold {A S} (v : S -> A -> S * bool) l s s' : (forall s a, snd (v s a) = true) -> visits v l s s' -> s' = fold_left (fun s a => fst (v s a)) l s.
Proof.
  intros H. induction 1 as [s|a l s s1 s2 E V IH|a l s s1 E]; [reflexivity| |].
  - cbn. rewrite E. exact IH.
  - specialize (H s a). rewrite E in H. discriminate.
Qed.

(** ** Boxes *)
Definition is_fin (x : T N) : Prop := exists r, x = Fin r.
Definition fin_val (x : T N) : R := match x with Fin r => r | _ => 0 end.
Lemma fin_lt a b : is_fin a -> is_fin b -> (nlt N a b = true <-> fin_val a < fin_val b).
Proof. intros [x ->] [y ->]. apply lt_x. Qed.
Lemma two_x a b : rect_from_two (pv a) (pv b) = bx (Rmin (px a) (px b)) (Rmin (py a) (py b)) (Rmax (px a) (px b)) (Rmax (py a) (py b)).
Proof. unfold rect_from_two. cbn [pv vx vy]. rewrite !min_x, !max_x. reflexivity. Qed.
Lemma two_has a b p : seg_set a b p -> box_set (Rmin (px a) (px b)) (Rmin (py a) (py b)) (Rmax (px a) (px b)) (Rmax (py a) (py b)) p.
Proof.
  intros (t & Ht & ->). unfold box_set, mix. cbn [px py]. unfold Rmin, Rmax. destruct (Rle_dec (px a) (px b)), (Rle_dec (py a) (py b)); split; nra.
Qed.
Lemma minmax a b : Rmin a b <= Rmax a b. Proof. unfold Rmin, Rmax. destruct (Rle_dec a b); lra. Qed.
Lemma segs_meet_boxes a b c d : meet (seg_set a b) (seg_set c d) -> int_rects (rect_from_two (pv a) (pv b)) (rect_from_two (pv c) (pv d)) = true.
Proof. intros (p & Hp & Hq). rewrite !two_x. apply boxes; try apply minmax. exists p. split; apply two_has; assumption. Qed.
Lemma near_box a b p q m : seg_set a b q -> dist p q <= m ->
  int_rects (rect_from_two (pv a) (pv b)) (bx (px p - m * 2 / 2) (py p - m * 2 / 2) (px p + m * 2 / 2) (py p + m * 2 / 2)) = true.
Proof.
  intros Hq D. assert (M : 0 <= m) by (pose proof (sqrt_pos (dist2 p q)); unfold dist in D; lra). rewrite two_x. apply boxes; try apply minmax; try lra. exists q. split; [apply two_has; exact Hq|].
  assert (Q : dist2 p q <= m * m). { unfold dist in D. rewrite <- (sqrt_sqrt (dist2 p q)) by apply dist2_pos. pose proof (sqrt_pos (dist2 p q)). nra. }
  unfold dist2 in Q. unfold box_set. replace (m * 2 / 2) with m by field. assert (K : forall x, x * x <= m * m -> - m <= x <= m) by (intros; split; nra).
  pose proof (Rle_0_sqr (px p - px q)). pose proof (Rle_0_sqr (py p - py q)). unfold Rsqr in *. pose proof (K (px p - px q) ltac:(lra)). pose proof (K (py p - py q) ltac:(lra)). lra.
Qed.

Section Exact.
Variable ps : list pt.
Notation sides := (sides ps). Notation corner := (corner ps). Notation side := (side ps). Notation place := (place ps).
Notation points := (map pv ps).
Notation segs := (bundles 0 points).
Hypothesis len2 : (2 <= length ps)%nat.
Hypothesis len_max : (Z.of_nat (length ps) <= 2 ^ 32)%Z.
Hypothesis apart_corners : forall i, (i < sides)%nat -> corner i <> corner (S i).
Variable sort : (nat -> nat -> bool) -> list nat -> list nat.
Hypothesis sort_perm : forall f l, Permutation l (sort f l).
Variable J : nat -> cross N.
Variable jb : bundle N.

Definition bd (i : nat) : bundle N := Bundle (sg (corner i) (corner (S i))) i (Fin (dist (corner i) (corner (S i))) : T N).
Lemma points_nth i : (i < length ps)%nat -> nth_error points i = Some (pv (corner i)).
Proof. intros H. rewrite nth_error_map. unfold PolylineSpec.corner. rewrite (nth_error_nth' ps (P 0 0) H). reflexivity. Qed.
Lemma segs_nth i : (i < sides)%nat -> nth_error segs i = Some (bd i).
Proof. intros H. unfold PolylineSpec.sides in H. rewrite bundles_nth, !points_nth by lia. reflexivity. Qed.
Lemma segs_len : length segs = sides. Proof. rewrite bundles_length, map_length. reflexivity. Qed.
Lemma segs_in b : In b segs <-> exists i, (i < sides)%nat /\ b = bd i.
Proof.
  split.
  - intros H. apply In_nth_error in H. destruct H as [i Hi]. assert (L : (i < length segs)%nat) by (apply nth_error_Some; congruence). rewrite segs_len in L. exists i. split; [exact L|]. rewrite segs_nth in Hi by exact L. congruence.
  - intros (i & L & ->). eapply nth_error_In. apply segs_nth. exact L.
Qed.
Definition all_fin (r : rect N) : Prop := nums N is_fin r.
Lemma bx_fin a b c d : all_fin (bx a b c d). Proof. repeat split; eexists; reflexivity. Qed.
Lemma bounds_bd i : seg_bounds (bd i) = rect_from_two (pv (corner i)) (pv (corner (S i))). Proof. reflexivity. Qed.
(** every visitor of the tree that goes on is called on the elements whose box meets the query *)
Lemma tree : exists nodes, init_tree 16 sort seg_bounds segs = Some nodes /\
  forall query, all_fin query -> exists order, (forall i, In (bd i) order <-> (i < sides)%nat /\ int_rects (seg_bounds (bd i)) query = true) /\
    (forall b, In b order -> exists i, (i < sides)%nat /\ b = bd i) /\
    forall S (v : S -> bundle N -> S * bool) s, (forall s a, snd (v s a) = true) -> visit seg_bounds v nodes segs query s = Some (fold_left (fun s a => fst (v s a)) order s).
Proof.
  destruct (query_exact N is_fin fin_val fin_lt seg_bounds 16 ltac:(lia) sort sort_perm segs) as (nodes & H1 & H2).
  - intros Q. apply (f_equal (@length _)) in Q. rewrite segs_len in Q. unfold PolylineSpec.sides in Q. cbn in Q. lia.
  - rewrite segs_len. unfold PolylineSpec.sides. lia.
  - intros b Hb. apply segs_in in Hb. destruct Hb as (i & _ & ->). rewrite bounds_bd, two_x. apply bx_fin.
  - exists nodes. split; [exact H1|]. intros query Hq. destruct (H2 query Hq) as (order & Po & Hv). exists order.
    assert (Io : forall b, In b order <-> In b segs /\ int_rects (seg_bounds b) query = true).
    { intros b. pose proof (filter_In (fun a => int_rects (seg_bounds a) query) b segs) as FI. cbv beta in FI. rewrite <- FI. split; apply Permutation_in; [exact Po|apply Permutation_sym; exact Po]. }
    split; [|split].
    + intros i. rewrite Io, segs_in. split; [|intros [A B]; split; [exists i; auto|exact B]]. intros [(j & Hj & E) B]. split; [|exact B]. apply (f_equal (@b_index _)) in E. cbn in E. subst j. exact Hj.
    + intros b Hb. apply Io in Hb. destruct Hb as [Hb _]. apply segs_in. exact Hb.
    + intros S v s Ht. destruct (Hv S v s) as (s' & -> & Vs). apply visits_fold in Vs; [|exact Ht]. subst s'. reflexivity.
Qed.

(** ** Lengths *)
Lemma dist_sym a b : dist a b = dist b a. Proof. unfold dist. rewrite dist2_sym. reflexivity. Qed.
Lemma dist_mix t a b : 0 <= t <= 1 -> dist a (mix t a b) = t * dist a b.
Proof.
  intros H. unfold dist. replace (dist2 a (mix t a b)) with (t * t * dist2 a b) by (unfold dist2, mix; cbn; ring). rewrite sqrt_mult; [|nra|apply dist2_pos]. rewrite sqrt_square by lra. reflexivity.
Qed.
Lemma dist_mix_end t a b : 0 <= t <= 1 -> dist (mix t a b) b = (1 - t) * dist a b.
Proof. intros H. rewrite mix_swap, dist_sym, dist_mix by lra. rewrite dist_sym. reflexivity. Qed.
Definition lengths (l : list (bundle N)) : list (T N) := map (@b_length N) l.
Lemma fold_lengths (l : list (bundle N)) ds t : lengths l = map (fun d => Fin d : T N) ds -> fold_left (fun t b => nadd N t (b_length b)) l (Fin t : T N) = Fin (fold_left Rplus ds t).
Proof.
  revert ds t. induction l as [|b l IH]; intros ds t H; destruct ds as [|d ds]; try discriminate; [reflexivity|]. cbn in H. injection H as H1 H2. cbn [fold_left]. rewrite H1. cbn [nadd N xnum xadd]. apply IH. exact H2.
Qed.
Lemma fold_plus ds t : fold_left Rplus ds t = t + fold_left Rplus ds 0.
Proof. revert t. induction ds as [|d ds IH]; intros t; cbn; [ring|]. rewrite IH, (IH (0 + d)). ring. Qed.
Fixpoint gaps (l : list pt) : list R := match l with a :: (b :: _) as r => dist a b :: gaps r | _ => [] end.
Lemma gaps_sum l : fold_left Rplus (gaps l) 0 = path_length l.
Proof. induction l as [|a l IH]; [reflexivity|]. destruct l as [|b l]; [reflexivity|]. change (fold_left Rplus (gaps (b :: l)) (0 + dist a b) = dist a b + path_length (b :: l)). rewrite fold_plus, IH. ring. Qed.
Lemma lengths_segs k : lengths (bundles k points) = map (fun d => Fin d : T N) (gaps ps).
Proof.
  clear. revert k. induction ps as [|a l IH]; intros k; [reflexivity|]. destruct l as [|b l]; [reflexivity|]. change (bundles k (map pv (a :: b :: l))) with (Bundle (Seg (pv a) (pv b)) k (dist_points (pv a) (pv b)) :: bundles (S k) (map pv (b :: l))).
  change (Fin (dist a b) :: lengths (bundles (S k) (map pv (b :: l))) = Fin (dist a b) :: map (fun d => Fin d : T N) (gaps (b :: l))). rewrite IH. reflexivity.
Qed.
Lemma gaps_firstn i (l : list pt) : (i < length l)%nat -> gaps (firstn (S i) l) = firstn i (gaps l).
Proof.
  revert i. induction l as [|a l IH]; intros i H; [cbn in H; lia|]. destruct i as [|i]; [destruct l; reflexivity|]. destruct l as [|b l]; [cbn in H; lia|]. cbn [length] in H. specialize (IH i ltac:(cbn; lia)).
  change (firstn (S (S i)) (a :: b :: l)) with (a :: firstn (S i) (b :: l)). change (firstn (S i) (gaps (a :: b :: l))) with (dist a b :: firstn i (gaps (b :: l))). rewrite <- IH. reflexivity.
Qed.
Lemma gaps_skipn i (l : list pt) : gaps (skipn i l) = skipn i (gaps l).
Proof.
  revert l. induction i as [|i IH]; intros l; [reflexivity|]. destruct l as [|a l]; [reflexivity|]. cbn [skipn]. rewrite IH. destruct l as [|b l]; [cbn; destruct i; reflexivity|]. reflexivity.
Qed.
Lemma walk_ahead i t : (i < sides)%nat -> 0 <= t <= 1 -> walk_distance segs i (Fin t : T N) false = Some (Fin (ahead ps (i, t))).
Proof.
  intros Hi Ht. unfold walk_distance. rewrite segs_nth by exact Hi. cbn [bd b_length]. cbn [nmul N xnum xmul].
  rewrite (fold_lengths _ (firstn i (gaps ps))) by (unfold lengths; rewrite <- firstn_map; fold (lengths segs); rewrite lengths_segs, firstn_map; reflexivity).
  do 2 f_equal. rewrite fold_plus. unfold ahead. cbn [fst]. rewrite <- gaps_sum, gaps_firstn by (unfold PolylineSpec.sides in Hi; lia). unfold PolylineSpec.place. cbn [fst snd]. rewrite dist_mix by exact Ht. ring.
Qed.
Lemma walk_behind i t : (i < sides)%nat -> 0 <= t <= 1 -> walk_distance segs i (Fin t : T N) true = Some (Fin (behind ps (i, t))).
Proof.
  intros Hi Ht. unfold walk_distance. rewrite segs_nth by exact Hi. cbn [bd b_length]. rewrite x1e. cbn [nmul nsub N xnum xmul]. rewrite xsub_fin. cbn [xmul].
  rewrite (fold_lengths _ (skipn (S i) (gaps ps))) by (unfold lengths; rewrite <- skipn_map; fold (lengths segs); rewrite lengths_segs, skipn_map; reflexivity).
  do 2 f_equal. rewrite fold_plus. unfold behind. cbn [fst]. rewrite <- gaps_sum, gaps_skipn. unfold PolylineSpec.place. cbn [fst snd]. rewrite dist_mix_end by exact Ht. ring.
Qed.

(** ** The loops over the sides *)
Section Nodes.
Variable nodes : list (node N).
Hypothesis TR : forall query, all_fin query -> exists order, (forall i, In (bd i) order <-> (i < sides)%nat /\ int_rects (seg_bounds (bd i)) query = true) /\
    (forall b, In b order -> exists i, (i < sides)%nat /\ b = bd i) /\
    forall S (v : S -> bundle N -> S * bool) s, (forall s a, snd (v s a) = true) -> visit seg_bounds v nodes segs query s = Some (fold_left (fun s a => fst (v s a)) order s).
Definition ratio (i j : nat) : option (T N * T N) := segment_ratio (sg (corner i) (corner (S i))) (sg (corner j) (corner (S j))).
Lemma ratio_fin i j r : ratio i j = Some r -> exists t s, r = (Fin t : T N, Fin s : T N) /\ first_at (corner i) (corner (S i)) (side j) t /\ first_at (corner j) (corner (S j)) (side i) s.
Proof.
  intros E. pose proof (ratio_spec (corner i) (corner (S i)) (corner j) (corner (S j))) as R. unfold ratio in E. rewrite E in R. destruct r as [a b]. destruct R as (t & s & -> & -> & A & B). exists t, s. auto.
Qed.
Lemma ratio_none i j : ratio i j = None -> ~ meet (side i) (side j).
Proof. intros E. pose proof (ratio_spec (corner i) (corner (S i)) (corner j) (corner (S j))) as R. unfold ratio in E. rewrite E in R. exact R. Qed.
Lemma ratio_box i j r : ratio i j = Some r -> int_rects (seg_bounds (bd j)) (seg_bounds (bd i)) = true.
Proof.
  intros E. apply ratio_fin in E. destruct E as (t & s & _ & A & _). rewrite !bounds_bd. apply segs_meet_boxes. apply first_in in A. destruct A as (p & Hp & Hq). exists p. split; assumption.
Qed.
Definition first_score (i : nat) (b : bundle N) : option R :=
  if Nat.ltb (S i) (b_index b) then match segment_ratio (b_seg (bd i)) (b_seg b) with Some (Fin t, _) => Some t | _ => None end else None.
Lemma first_score_bd i j : first_score i (bd j) = if Nat.ltb (S i) j then match ratio i j with Some (Fin t, _) => Some t | _ => None end else None.
Proof. reflexivity. Qed.
Lemma first_step i s0 : (i < sides)%nat -> fst (snd s0) = (Inf false : T N) -> exists s', visit seg_bounds (first_visitor (bd i)) nodes segs (seg_bounds (bd i)) s0 = Some s' /\
  ((s' = s0 /\ forall j, (S i < j < sides)%nat -> ratio i j = None) \/
   exists j t s, (S i < j < sides)%nat /\ ratio i j = Some (Fin t : T N, Fin s : T N) /\ s' = (bd j, (Fin t : T N, Fin s : T N)) /\
     forall j' t' x, (S i < j' < sides)%nat -> ratio i j' = Some (Fin t' : T N, x) -> t <= t').
Proof.
  intros Hi H0. destruct (TR (seg_bounds (bd i))) as (order & O1 & O2 & O3). { rewrite bounds_bd, two_x. apply bx_fin. }
  rewrite O3 by reflexivity. eexists. split; [reflexivity|].
  pose proof (fold_best (fun s a => fst (first_visitor (bd i) s a)) (first_score i) (fun s b => (b, match segment_ratio (b_seg (bd i)) (b_seg b) with Some r => r | None => snd s end)) (fun s => fst (snd s)) (fun b => exists j, (j < sides)%nat /\ b = bd j)) as FB.
  destruct (FB ltac:(
    intros s a (j & Hj & ->) _; unfold first_visitor; cbn [fst]; rewrite first_score_bd; cbn [bd b_index b_seg];
    fold (ratio i j); destruct (Nat.ltb (S i) j); [|reflexivity]; destruct (ratio i j) as [r|] eqn:Er; [|reflexivity];
    apply ratio_fin in Er; destruct Er as (t & u & -> & _); reflexivity)
    ltac:(intros s a x; unfold first_score; cbn [fst snd]; destruct (Nat.ltb _ _); [|discriminate]; destruct (segment_ratio (b_seg (bd i)) (b_seg a)) as [[[]]|]; try discriminate; intros E; injection E as <-; reflexivity)
    order s0 O2 H0) as [[E F]|(a & x & s1 & Ia & Sa & E & F)].
  - left. split; [exact E|]. intros j Hj. destruct (ratio i j) as [r|] eqn:Er; [|reflexivity]. pose proof (ratio_box _ _ _ Er) as B. pose proof (F (bd j) (proj2 (O1 j) (conj (proj2 Hj) B))) as Q. rewrite first_score_bd in Q.
    destruct (Nat.ltb_spec (S i) j); [|lia]. pose proof Er as Er'. apply ratio_fin in Er'. destruct Er' as (t & s & -> & _). rewrite Er in Q. discriminate.
  - right. destruct (O2 a Ia) as (j & Hj & ->). rewrite first_score_bd in Sa. destruct (Nat.ltb_spec (S i) j) as [Lj|Lj]; [|discriminate]. destruct (ratio i j) as [r|] eqn:Er; [|discriminate]. pose proof Er as Er'. apply ratio_fin in Er'. destruct Er' as (t & s & -> & _).
    injection Sa as <-. exists j, t, s. split; [lia|]. split; [exact Er|]. split; [cbv zeta in E; rewrite E; cbn [bd b_seg]; fold (ratio i j); rewrite Er; reflexivity|].
    intros j' t' y Hj' Er'. apply (F (bd j')); [apply O1; split; [lia|exact (ratio_box _ _ _ Er')]|]. rewrite first_score_bd. destruct (Nat.ltb_spec (S i) j'); [|lia]. rewrite Er'. reflexivity.
Qed.
Lemma first_loop_exact n : forall a s0, (a + n <= sides)%nat -> fst (snd s0) = (Inf false : T N) ->
  (first_loop nodes segs (seq a n) s0 = Some None /\ forall i j, (a <= i < a + n)%nat -> (S i < j < sides)%nat -> ratio i j = None) \/
  exists i j t s, (a <= i < a + n)%nat /\ (S i < j < sides)%nat /\ ratio i j = Some (Fin t : T N, Fin s : T N) /\
    first_loop nodes segs (seq a n) s0 = Some (Some (i, bd i, (bd j, (Fin t : T N, Fin s : T N)))) /\
    (forall i' j', (a <= i' < i)%nat -> (S i' < j' < sides)%nat -> ratio i' j' = None) /\
    (forall j' t' x, (S i < j' < sides)%nat -> ratio i j' = Some (Fin t' : T N, x) -> t <= t').
Proof.
  induction n as [|n IH]; intros a s0 Ha H0; [left; split; [reflexivity|intros; lia]|]. cbn [seq first_loop]. rewrite segs_nth by lia.
  destruct (first_step a s0) as (s' & -> & [[-> F]|(j & t & s & Hj & Er & -> & F)]); [lia|exact H0| |].
  - rewrite H0. replace (nle N (Inf false) n1) with false by (rewrite x1e; reflexivity). destruct (IH (S a) s0) as [[E G]|(i & j & t & s & Hi & Hj & Er & E & G1 & G2)]; [lia|exact H0| |].
    + left. split; [exact E|]. intros i j Hi Hj. destruct (Nat.eq_dec i a) as [->|]; [apply F; exact Hj|apply G; lia].
    + right. exists i, j, t, s. split; [lia|]. split; [exact Hj|]. split; [exact Er|]. split; [exact E|]. split; [|exact G2]. intros i' j' Hi' Hj'. destruct (Nat.eq_dec i' a) as [->|]; [apply F; exact Hj'|apply G1; lia].
  - right. exists a, j, t, s. cbn [fst snd]. pose proof (ratio_fin _ _ _ Er) as (t' & s' & E & (T1 & _) & _). assert (t' = t) as -> by (apply (f_equal fst) in E; cbn in E; congruence). rewrite x1e, (proj2 (le_x t 1)) by lra.
    split; [lia|]. split; [exact Hj|]. split; [exact Er|]. split; [reflexivity|]. split; [intros; lia|exact F].
Qed.
Definition last_score (f i : nat) (b : bundle N) : option R :=
  if Nat.ltb (S (b_index b)) i && Nat.leb f (b_index b) then match segment_ratio (b_seg (bd i)) (b_seg b) with Some (Fin t, _) => Some (- t) | _ => None end else None.
Lemma last_step f i : (i < sides)%nat -> exists s', visit seg_bounds (last_visitor f (bd i)) nodes segs (seg_bounds (bd i)) (Inf true : T N) = Some s' /\
  ((s' = Inf true /\ forall j, (S j < i)%nat -> (f <= j)%nat -> ratio i j = None) \/
   exists j t s, (S j < i)%nat /\ (f <= j)%nat /\ ratio i j = Some (Fin t : T N, Fin s : T N) /\ s' = Fin t /\
     forall j' t' x, (S j' < i)%nat -> (f <= j')%nat -> ratio i j' = Some (Fin t' : T N, x) -> t' <= t).
Proof.
  intros Hi. destruct (TR (seg_bounds (bd i))) as (order & O1 & O2 & O3). { rewrite bounds_bd, two_x. apply bx_fin. }
  rewrite O3 by reflexivity. eexists. split; [reflexivity|].
  assert (LS : forall j, last_score f i (bd j) = if Nat.ltb (S j) i && Nat.leb f j then match ratio i j with Some (Fin t, _) => Some (- t) | _ => None end else None) by reflexivity.
  pose proof (fold_best (fun s a => fst (last_visitor f (bd i) s a)) (last_score f i) (fun s b => match segment_ratio (b_seg (bd i)) (b_seg b) with Some r => fst r | None => s end) (fun s => nopp N s) (fun b => exists j, (j < sides)%nat /\ b = bd j)) as FB.
  destruct (FB ltac:(
    intros s a (j & Hj & ->) Hs; unfold last_visitor; cbn [fst]; rewrite LS; cbn [bd b_index b_seg];
    fold (ratio i j); destruct (Nat.ltb (S j) i && Nat.leb f j); [|reflexivity]; destruct (ratio i j) as [r|] eqn:Er; [|reflexivity];
    apply ratio_fin in Er; destruct Er as (t & u & -> & _); cbn [fst];
    replace (nlt N s (Fin t)) with (nlt N (Fin (- t)) (nopp N s)); [reflexivity|];
    destruct s as [y|[]|]; cbn; try reflexivity; destruct (Rlt_bool_spec (- t) (- y)), (Rlt_bool_spec y t); try reflexivity; lra)
    ltac:(intros s a x; unfold last_score; cbn [fst snd]; destruct (_ && _)%bool; [|discriminate]; destruct (segment_ratio (b_seg (bd i)) (b_seg a)) as [[[]]|]; try discriminate; intros E; injection E as <-; reflexivity)
    order (Inf true : T N) O2 eq_refl) as [[E F]|(a & x & s1 & Ia & Sa & E & F)].
  - left. split; [exact E|]. intros j Hj Fj. destruct (ratio i j) as [r|] eqn:Er; [|reflexivity]. pose proof (ratio_box _ _ _ Er) as B. assert (Js : (j < sides)%nat) by lia. pose proof (F (bd j) (proj2 (O1 j) (conj Js B))) as Q. rewrite LS in Q.
    destruct (Nat.ltb_spec (S j) i); [|lia]. destruct (Nat.leb_spec f j); [|lia]. pose proof Er as Er'. apply ratio_fin in Er'. destruct Er' as (t & s & -> & _). rewrite Er in Q. discriminate.
  - right. destruct (O2 a Ia) as (j & Hj & ->). rewrite LS in Sa. destruct (Nat.ltb_spec (S j) i) as [Lj|Lj]; [|discriminate]. destruct (Nat.leb_spec f j) as [Fj|Fj]; [|discriminate]. cbn [andb] in Sa. destruct (ratio i j) as [r|] eqn:Er; [|discriminate]. pose proof Er as Er'. apply ratio_fin in Er'. destruct Er' as (t & s & -> & _).
    injection Sa as <-. exists j, t, s. split; [exact Lj|]. split; [exact Fj|]. split; [exact Er|]. split; [cbv zeta in E; rewrite E; cbn [bd b_seg]; fold (ratio i j); rewrite Er; reflexivity|].
    intros j' t' y Hj' Fj' Er'. apply Ropp_le_cancel. apply (F (bd j')); [apply O1; split; [lia|exact (ratio_box _ _ _ Er')]|]. rewrite LS. destruct (Nat.ltb_spec (S j') i); [|lia]. destruct (Nat.leb_spec f j'); [|lia]. cbn [andb]. rewrite Er'. reflexivity.
Qed.
Lemma last_loop_exact f n : forall a, (a + n <= sides)%nat ->
  (last_loop nodes f segs (rev (seq a n)) (Inf true : T N) = Some None /\ forall i j, (a <= i < a + n)%nat -> (S j < i)%nat -> (f <= j)%nat -> ratio i j = None) \/
  exists i j t s, (a <= i < a + n)%nat /\ (S j < i)%nat /\ (f <= j)%nat /\ ratio i j = Some (Fin t : T N, Fin s : T N) /\
    last_loop nodes f segs (rev (seq a n)) (Inf true : T N) = Some (Some (i, bd i, Fin t : T N)) /\
    (forall i' j', (i < i' < a + n)%nat -> (S j' < i')%nat -> (f <= j')%nat -> ratio i' j' = None) /\
    (forall j' t' x, (S j' < i)%nat -> (f <= j')%nat -> ratio i j' = Some (Fin t' : T N, x) -> t' <= t).
Proof.
  induction n as [|n IH]; intros a Ha; [left; split; [reflexivity|intros; lia]|]. rewrite seq_S, rev_app_distr. cbn [rev app last_loop]. rewrite segs_nth by lia.
  destruct (last_step f (a + n)) as (s' & -> & [[-> F]|(j & t & s & Hj & Fj & Er & -> & F)]); [lia| |].
  - replace (nle N n0 (Inf true)) with false by (rewrite x0; reflexivity). destruct (IH a) as [[E G]|(i & j & t & s & Hi & Hj & Fj & Er & E & G1 & G2)]; [lia| |].
    + left. split; [exact E|]. intros i j Hi Hj Fj. destruct (Nat.eq_dec i (a + n)) as [->|]; [apply F; assumption|apply G; lia].
    + right. exists i, j, t, s. split; [lia|]. split; [exact Hj|]. split; [exact Fj|]. split; [exact Er|]. split; [exact E|]. split; [|exact G2]. intros i' j' Hi' Hj' Fj'. destruct (Nat.eq_dec i' (a + n)) as [->|]; [apply F; assumption|apply G1; lia].
  - right. exists (a + n)%nat, j, t, s. pose proof (ratio_fin _ _ _ Er) as (t' & s' & E & (T1 & _) & _). assert (t' = t) as -> by (apply (f_equal fst) in E; cbn in E; congruence). rewrite x0, (proj2 (le_x 0 t)) by lra.
    split; [lia|]. split; [exact Hj|]. split; [exact Fj|]. split; [exact Er|]. split; [reflexivity|]. split; [intros; lia|exact F].
Qed.

(** ** The crossings *)
Lemma lerp_place i t : seg_lerp (b_seg (bd i)) (Fin t : T N) = pv (place (i, t)).
Proof. cbn [bd b_seg]. rewrite lerp_x. f_equal. apply pt_eq; cbn; ring. Qed.
Lemma meet_sym (S U : shape) : meet S U -> meet U S. Proof. intros (p & A & B). exists p. auto. Qed.
Lemma ratio_some i j : meet (side i) (side j) -> exists t s, ratio i j = Some (Fin t : T N, Fin s : T N) /\ first_at (corner i) (corner (S i)) (side j) t.
Proof.
  intros H. destruct (ratio i j) as [r|] eqn:E; [|elim (ratio_none _ _ E H)]. pose proof E as E'. apply ratio_fin in E'. destruct E' as (t & s & -> & A & _). exists t, s. auto.
Qed.
Lemma first_unique a b (U : shape) t t' : first_at a b U t -> first_at a b U t' -> t = t'.
Proof. intros (A & B & C) (A' & B' & C'). specialize (C _ A' B'). specialize (C' _ A B). lra. Qed.
Lemma crosses_meet c j : 0 <= snd c <= 1 -> side j (place c) -> meet (side (fst c)) (side j).
Proof. intros H S. exists (place c). split; [|exact S]. exists (snd c). split; [exact H|reflexivity]. Qed.
Lemma find_intersections_exact d : d_segs d = segs -> exists x y,
  some_if_any (first_crossing ps) x /\ some_if_any (last_crossing ps) y /\
  find_intersections jb nodes d = Some (match x, y with
    | Some (i, t), Some (k, r) => PData segs (Cross i (Fin t : T N) (Fin (ahead ps (i, t)) : T N)) (Cross k (Fin r : T N) (Fin (behind ps (k, r)) : T N)) (pv (place (i, t))) (pv (place (k, r))) (d_connect_first d) (d_connect_last d) true
    | _, _ => d end) /\
  match x, y with
  | Some (i, t), Some (k, r) => (S i < k < sides)%nat
  | None, None => True
  | _, _ => False
  end.
Proof.
  intros Es. unfold find_intersections. cbv zeta. rewrite Es, segs_len. destruct (first_loop_exact (sides - 2) 0 (jb, (Inf false : T N, n0))) as [[E G]|(i & j & t & s & Hi & Hj & Er & E & G1 & G2)]; [lia|reflexivity| |].
  - cbn [nInf N xnum]. change (nInf N) with (Inf false : T N). rewrite E. exists None, None. split; [|split; [|auto]].
    + intros [i t] [[Ht (j & Hj & Hs)] _]. cbn [fst snd] in *. destruct (ratio_some i j) as (a & b & Q & _); [exact (crosses_meet (i, t) j Ht Hs)|]. rewrite G in Q by lia. discriminate.
    + intros [k r] [(j & Hj & F) _]. cbn [fst snd] in *. apply first_in in F. destruct (ratio_some j k) as (a & b & Q & _); [apply meet_sym; exact F|]. rewrite G in Q by lia. discriminate.
  - change (nInf N) with (Inf false : T N). rewrite E. pose proof (ratio_fin _ _ _ Er) as (t' & s' & Q & F1 & F2). assert (t' = t /\ s' = s) as [-> ->]. { split; [apply (f_equal fst) in Q|apply (f_equal snd) in Q]; cbn in Q; congruence. } clear Q.
    rewrite walk_ahead by (try lia; apply F1). rewrite walk_behind by (try (cbn; lia); apply F2). cbn [bd b_index].
    assert (FC : first_crossing ps (i, t)).
    { split; [split; [apply F1|]; exists j; split; [exact Hj|apply F1]|]. intros [i' t'] [Ht' (j' & Hj' & Hs')]. cbn [fst snd] in *. destruct (ratio_some i' j') as (a & b & Q & F); [exact (crosses_meet (i', t') j' Ht' Hs')|].
      unfold no_later. cbn [fst snd]. destruct (Nat.lt_trichotomy i i') as [L|[<-|L]]; [left; exact L| |rewrite G1 in Q by lia; discriminate]. right. split; [reflexivity|]. specialize (G2 _ _ _ Hj' Q). destruct F as (_ & _ & F). specialize (F t' Ht' Hs'). lra. }
    change (nopp N (Inf false)) with (Inf true : T N).
    destruct (last_loop_exact i (sides - j) j) as [[L _]|(k & j0 & r & u & Hk & Hj0 & Fj0 & Erk & L & K1 & K2)]; [lia| |].
    { exfalso. destruct (last_loop_exact i (sides - j) j) as [[_ K]|(k & j0 & r & u & _ & _ & _ & _ & L' & _)]; [lia| |rewrite L in L'; discriminate].
      destruct (ratio_some j i) as (a & b & Q & _); [apply meet_sym; eapply first_in; exact F1|]. rewrite K in Q by lia. discriminate. }
    rewrite L. pose proof (ratio_fin _ _ _ Erk) as (t' & s' & Q & R1 & _). assert (t' = r) as -> by (apply (f_equal fst) in Q; cbn in Q; congruence). clear Q.
    rewrite walk_behind by (try lia; apply R1). exists (Some (i, t)), (Some (k, r)). split; [exact FC|]. split.
    + split; [exists j0; split; [cbn [fst]; lia|exact R1]|]. intros [k' r'] (j' & Hj' & F'). cbn [fst snd] in *. pose proof (first_in _ _ _ _ F') as M. destruct (ratio_some k' j' M) as (a & b & Q & F). pose proof (first_unique _ _ _ _ _ F F') as ->.
      assert (Ij : (i <= j')%nat). { destruct (le_lt_dec i j') as [A|A]; [exact A|]. destruct (ratio_some j' k') as (a & b' & Q' & _); [apply meet_sym; exact M|]. rewrite G1 in Q' by lia. discriminate. }
      unfold no_later. cbn [fst snd]. destruct (Nat.lt_trichotomy k' k) as [A|[->|A]]; [left; exact A| |rewrite K1 in Q by lia; discriminate]. right. split; [reflexivity|]. exact (K2 _ _ _ (proj1 Hj') Ij Q).
    + split; [|lia]. do 2 f_equal; [apply (lerp_place i t)|apply (lerp_place k r)].
Qed.

(** ** The connections *)
Lemma nearest_exact p k : (k < sides)%nat -> exists t dd pr, dist_point_segment (pv p) (b_seg (bd k)) = Fin dd /\ seg_project (b_seg (bd k)) (pv p) = Some pr /\ nclamp pr n0 n1 = Fin t /\ nearest ps p (k, t) dd.
Proof.
  intros Hk. pose proof (apart_corners k Hk) as NE. cbn [bd b_seg]. destruct (project_x (corner k) (corner (S k)) p NE) as [Q EP]. destruct (point_segment_apart p (corner k) (corner (S k))) as (dd & ED & (D0 & (p' & q & -> & Hq & Dq) & D)).
  set (pr := dot2 (sub p (corner k)) (sub (corner (S k)) (corner k)) / dot2 (sub (corner (S k)) (corner k)) (sub (corner (S k)) (corner k))) in *.
  set (t := Rmax 0 (Rmin 1 pr)). exists t, dd, (Fin pr). split; [exact ED|]. split; [exact EP|].
  assert (Ht : 0 <= t <= 1). { unfold t, Rmax, Rmin. destruct (Rle_dec 1 pr), (Rle_dec 0 _); lra. }
  split. { unfold nclamp. rewrite x0, x1e. destruct (nlt N (Fin pr) (Fin 0)) eqn:A; [apply lt_x in A|apply lt_xf in A; destruct (nlt N (Fin 1) (Fin pr)) eqn:B; [apply lt_x in B|apply lt_xf in B]]; f_equal; unfold t, Rmax, Rmin; destruct (Rle_dec 1 pr); destruct (Rle_dec 0 _); lra. }
  assert (MN : forall t', 0 <= t' <= 1 -> dist2 p (mix t (corner k) (corner (S k))) <= dist2 p (mix t' (corner k) (corner (S k)))).
  { intros t' Ht'. pose proof (along p (corner k) (corner (S k)) t NE) as A1. pose proof (along p (corner k) (corner (S k)) t' NE) as A2. cbv zeta in A1, A2. fold pr in A1, A2. rewrite A1, A2. assert ((t - pr) * (t - pr) <= (t' - pr) * (t' - pr)); [|nra].
    unfold t, Rmax, Rmin. destruct (Rle_dec 1 pr); [destruct (Rle_dec 0 1); [|lra]; nra|]. destruct (Rle_dec 0 pr); [|nra]. pose proof (Rle_0_sqr (t' - pr)) as S. unfold Rsqr in S. replace ((pr - pr) * (pr - pr)) with 0 by ring. exact S. }
  split; [exact Ht|]. cbn [fst snd]. unfold PolylineSpec.place. cbn [fst snd].
  assert (E : dd = dist p (mix t (corner k) (corner (S k)))).
  { assert (dd * dd = dist2 p (mix t (corner k) (corner (S k)))). { apply Rle_antisym; [apply D; [reflexivity|exists t; auto]|]. rewrite Dq. destruct Hq as (t' & Ht' & ->). apply MN. exact Ht'. } unfold dist. rewrite <- H. rewrite sqrt_square by exact D0. reflexivity. }
  split; [exact E|]. intros t' Ht'. rewrite E. apply sqrt_le_1_alt. apply MN. exact Ht'.
Qed.
Lemma nearest_unique p k t dd t' dd' : (k < sides)%nat -> nearest ps p (k, t) dd -> nearest ps p (k, t') dd' -> t = t' /\ dd = dd'.
Proof.
  intros Hk (T1 & E1 & M1) (T2 & E2 & M2). cbn [fst snd] in *. pose proof (apart_corners k Hk) as NE. destruct (project_x (corner k) (corner (S k)) p NE) as [Q _].
  pose proof (M1 t' T2) as L1. pose proof (M2 t T1) as L2. rewrite <- E2 in L1. rewrite <- E1 in L2. assert (dd = dd') as Ed by lra. split; [|exact Ed].
  pose proof (M1 ((t + t') / 2) ltac:(lra)) as L3. rewrite Ed, E2 in L3. unfold PolylineSpec.place, dist in L3. cbn [fst snd] in L3. apply sqrt_le_0 in L3; try apply dist2_pos.
  assert (S12 : dist2 p (mix t (corner k) (corner (S k))) = dist2 p (mix t' (corner k) (corner (S k)))). { rewrite E1, E2 in Ed. unfold PolylineSpec.place, dist in Ed. cbn [fst snd] in Ed. apply sqrt_inj in Ed; [exact Ed|apply dist2_pos|apply dist2_pos]. }
  pose proof (along p (corner k) (corner (S k)) t NE) as A1. pose proof (along p (corner k) (corner (S k)) t' NE) as A2. pose proof (along p (corner k) (corner (S k)) ((t + t') / 2) NE) as A3. cbv zeta in A1, A2, A3. rewrite A2, A3 in L3. rewrite A1, A2 in S12.
  set (D := dot2 (sub (corner (S k)) (corner k)) (sub (corner (S k)) (corner k))) in *. set (z := dot2 _ _ / D) in *. clearbody D z.
  assert (B1 : (t - z) * (t - z) = (t' - z) * (t' - z)). { apply Rmult_eq_reg_l with D; lra. }
  assert (B2 : (t' - z) * (t' - z) <= ((t + t') / 2 - z) * ((t + t') / 2 - z)). { apply Rmult_le_reg_l with D; lra. }
  assert (B3 : (t - t') * (t - t') <= 0) by nra. nra.
Qed.
Lemma nearest_pos p c dd : nearest ps p c dd -> 0 <= dd. Proof. intros (_ & -> & _). apply sqrt_pos. Qed.
Variables w m r u : R.
Hypothesis m_pos : 0 <= m.
Definition q : params N := Params (Fin w : T N) (Fin m : T N) (Fin r : T N) (Fin u : T N).
Lemma quotient_x a dd z : 0 <= a -> 0 <= dd -> nlt N (ndiv N (Fin a) (Fin dd)) (Fin z) = true <-> a < z * dd.
Proof.
  intros Ha Hd. destruct (Req_dec dd 0) as [->|NZ].
  - rewrite Rmult_0_r. cbn [ndiv N xnum xdiv]. unfold Req_bool. rewrite Rcompare_Eq by reflexivity. destruct (Rcompare_spec a 0) as [L|E|L]; [lra| |].
    + split; [discriminate|lra].
    + rewrite Rlt_bool_false by lra. split; [discriminate|lra].
  - cbn [ndiv N xnum]. rewrite xdiv_fin by exact NZ. rewrite lt_x. assert (0 < dd) by lra. replace a with (a / dd * dd) at 2 by (field; lra). split; intros K; [apply Rmult_lt_compat_r; lra|apply Rmult_lt_reg_r with dd; lra].
Qed.
Lemma float_index_x k : float_index (N := N) k = k.
Proof. unfold float_index. rewrite xZ. cbn [ntrunc N xnum]. rewrite Ztrunc_IZR. apply Nat2Z.id. Qed.
Section Find.
Variable d : pdata N.
Hypothesis Es : d_segs d = segs.
Variable p : pt.
Variable ok : nat -> bool.
Variable bw : bool.
Variable wlk : nat * R -> R.
Variable tw : option R.
Hypothesis HW : forall k t, (k < sides)%nat -> 0 <= t <= 1 -> walk_distance segs k (Fin t : T N) bw = Some (Fin (wlk (k, t))) /\ 0 <= wlk (k, t).
Hypothesis HT : match tw with Some z => d_has d = true /\ (if bw then c_walk (d_last d) else c_walk (d_first d)) = Fin z /\ 0 <= z | None => d_has d = false end.
Definition can (c : nat * R) (dd : R) : Prop :=
  ok (fst c) = true /\ (fst c < sides)%nat /\ nearest ps p c dd /\ dd < m /\ w <= wlk c /\ r * dd <= wlk c /\ forall z, tw = Some z -> u * dd <= z.
Lemma connectable_x k t dd : (k < sides)%nat -> 0 <= t <= 1 -> 0 <= dd -> exists b, is_connectable q d k (Fin t : T N) (Fin dd : T N) bw = Some b /\
  (b = true <-> w <= wlk (k, t) /\ r * dd <= wlk (k, t) /\ forall z, tw = Some z -> u * dd <= z).
Proof.
  intros Hk Ht Hd. unfold is_connectable. rewrite Es, float_index_x. destruct (HW k t Hk Ht) as [-> W0]. cbn [q min_walk min_ratio min_trim].
  destruct (nlt N (Fin (wlk (k, t))) (Fin w)) eqn:A; [apply lt_x in A; cbn [orb]; exists false; split; [reflexivity|split; [discriminate|lra]]|apply lt_xf in A; cbn [orb]].
  pose proof (quotient_x (wlk (k, t)) dd r W0 Hd) as Q1. destruct (nlt N (ndiv N _ _) (Fin r)) eqn:B; [exists false; split; [reflexivity|split; [discriminate|]]|].
  { intros (_ & R1 & _). apply proj1 in Q1. specialize (Q1 eq_refl). lra. }
  assert (R1 : r * dd <= wlk (k, t)). { destruct (Rle_dec (r * dd) (wlk (k, t))) as [L|L]; [exact L|]. assert (false = true) by (apply Q1; lra). discriminate. }
  destruct tw as [z|].
  - destruct HT as (-> & -> & Hz). eexists. split; [reflexivity|]. pose proof (quotient_x z dd u Hz Hd) as Q2. destruct (nlt N (ndiv N (Fin z) _) (Fin u)); cbn [negb].
    + split; [discriminate|]. intros (_ & _ & K). specialize (K z eq_refl). apply proj1 in Q2. specialize (Q2 eq_refl). lra.
    + split; [intros _|reflexivity]. split; [lra|]. split; [exact R1|]. intros z' E. injection E as <-. destruct (Rle_dec (u * dd) z) as [L|L]; [exact L|]. assert (false = true) by (apply Q2; lra). discriminate.
  - rewrite HT. exists true. split; [reflexivity|]. split; [intros _|reflexivity]. split; [lra|]. split; [exact R1|]. discriminate.
Qed.
Definition c_score (b : bundle N) : option R :=
  match dist_point_segment (pv p) (b_seg b), seg_project (b_seg b) (pv p) with
  | Fin dd, Some pr => if nlt N (Fin dd) (Fin m) && ok (b_index b) && match is_connectable q d (b_index b) (nclamp pr n0 n1) (Fin dd : T N) bw with Some b => b | None => false end then Some dd else None
  | _, _ => None
  end.
Lemma c_score_can k dd : (k < sides)%nat -> (c_score (bd k) = Some dd <-> exists t, can (k, t) dd).
Proof.
  intros Hk. destruct (nearest_exact p k Hk) as (t & dk & pr & E1 & E2 & E3 & Nr). unfold c_score. rewrite E1, E2, E3. cbn [b_index bd]. destruct (connectable_x k t dk Hk (proj1 Nr) (nearest_pos _ _ _ Nr)) as (b & -> & Hb).
  destruct (nlt N (Fin dk) (Fin m)) eqn:A; [apply lt_x in A|apply lt_xf in A]; cbn [andb].
  2: { split; [discriminate|]. intros (t' & _ & _ & N' & L & _). destruct (nearest_unique p k _ _ _ _ Hk Nr N') as [_ <-]. lra. }
  destruct (ok k) eqn:Ok; cbn [andb]. 2: { split; [discriminate|]. intros (t' & Q & _). cbn in Q. congruence. }
  destruct b.
  - split; [intros E; injection E as <-; exists t|].
    + split; [exact Ok|]. split; [exact Hk|]. split; [exact Nr|]. split; [exact A|]. apply Hb. reflexivity.
    + intros (t' & _ & _ & N' & _). destruct (nearest_unique p k _ _ _ _ Hk Nr N') as [_ <-]. reflexivity.
  - split; [discriminate|]. intros (t' & _ & _ & N' & _ & K). destruct (nearest_unique p k _ _ _ _ Hk Nr N') as [<- <-]. apply Hb in K. discriminate.
Qed.
Definition c_upd (s : option (cross N * T N)) (b : bundle N) : option (cross N * T N) :=
  Some (Cross (b_index b) (match seg_project (b_seg b) (pv p) with Some pr => nclamp pr n0 n1 | None => n0 end) (match s with Some (c, _) => c_walk c | None => n0 end), dist_point_segment (pv p) (b_seg b)).
Lemma find_connection_exact c0 : exists c l, find_connection nodes q d (pv p) ok bw c0 = Some (c, l) /\
  ((l = Inf false /\ forall c' dd, ~ can c' dd) \/
   exists k t dd, c_index c = k /\ c_frac c = Fin t /\ l = Fin dd /\ can (k, t) dd /\ forall c' dd', can c' dd' -> dd <= dd').
Proof.
  unfold find_connection. rewrite Es. cbn [q max_dist]. rewrite n2_x. change (nmul N (Fin m) (Fin 2)) with (Fin (m * 2) : T N). rewrite from_center_x. rewrite !Rle_bool_true by lra. cbn [andb].
  destruct (TR (bx (px p - m * 2 / 2) (py p - m * 2 / 2) (px p + m * 2 / 2) (py p + m * 2 / 2))) as (order & O1 & O2 & O3); [apply bx_fin|]. rewrite O3 by reflexivity.
  pose proof (fold_best (fun s a => fst (connect_visitor q d (pv p) ok bw s a)) c_score c_upd (fun s => match s with Some (_, l) => l | None => Nan : T N end) (fun b => exists j, (j < sides)%nat /\ b = bd j)) as FB.
  assert (StS : forall s a, (exists j, (j < sides)%nat /\ a = bd j) -> match s with Some (_, l) => l | None => Nan : T N end <> Nan ->
     fst (connect_visitor q d (pv p) ok bw s a) = match c_score a with Some x => if nlt N (Fin x) (match s with Some (_, l) => l | None => Nan : T N end) then c_upd s a else s | None => s end).
  { intros [[c l]|] a (k & Hk & ->) Hs; [|congruence]. unfold connect_visitor. cbn [fst]. cbv zeta. destruct (nearest_exact p k Hk) as (t & dk & pr & E1 & E2 & E3 & Nr). unfold c_score, c_upd. rewrite E1, E2. cbn [b_index bd q max_dist]. rewrite E3.
    destruct (connectable_x k t dk Hk (proj1 Nr) (nearest_pos _ _ _ Nr)) as (b & -> & _). destruct (nlt N (Fin dk) (Fin m)); cbn [andb]; [|reflexivity]. destruct (ok k); cbn [andb]; [|rewrite andb_false_r; reflexivity]. rewrite andb_true_r.
    destruct b; destruct (nlt N (Fin dk) l); reflexivity. }
  assert (VU : forall s a x, c_score a = Some x -> match c_upd s a with Some (_, l) => l | None => Nan : T N end = Fin x).
  { intros s a x. unfold c_score, c_upd. destruct (dist_point_segment (pv p) (b_seg a)); try discriminate. destruct (seg_project _ _); [|discriminate]. destruct (_ && _)%bool; [|discriminate]. intros E. congruence. }
  assert (CanIn : forall c' dd, can c' dd -> In (bd (fst c')) order /\ c_score (bd (fst c')) = Some dd).
  { intros [k t] dd C. pose proof C as (Ck & Hk & Nr & Lt & _). cbn [fst] in *. split; [|apply c_score_can; [exact Hk|exists t; exact C]]. apply O1. split; [exact Hk|]. rewrite bounds_bd.
    apply (near_box (corner k) (corner (S k)) p (place (k, t)) m); [exists t; split; [apply Nr|reflexivity]|]. destruct Nr as (_ & <- & _). lra. }
  destruct (FB StS VU order (Some (c0, Inf false : T N)) O2 eq_refl) as [[E F]|(a & x & s1 & Ia & Sa & E & F)]; cbv zeta in E; change (nInf N) with (Inf false : T N); rewrite E.
  - exists c0, (Inf false). split; [reflexivity|]. left. split; [reflexivity|]. intros c' dd C. destruct (CanIn _ _ C) as [C1 C2]. rewrite (F _ C1) in C2. discriminate.
  - destruct (O2 a Ia) as (k & Hk & ->). unfold c_upd. do 2 eexists. split; [reflexivity|]. right. pose proof Sa as Sa'. apply c_score_can in Sa'; [|exact Hk]. destruct Sa' as (t & C).
    destruct (nearest_exact p k Hk) as (t' & dk & pr & E1 & E2 & E3 & Nr). pose proof C as (_ & _ & Nr' & _). destruct (nearest_unique p k _ _ _ _ Hk Nr Nr') as [-> ->].
    exists k, t, x. cbn [c_index c_frac bd b_index]. cbn [bd b_seg] in E1, E2 |- *. rewrite E1, E2. split; [reflexivity|]. split; [exact E3|]. split; [reflexivity|]. split; [exact C|]. intros c' dd' C'. destruct (CanIn _ _ C') as [C1 C2]. exact (F _ _ C1 C2).
Qed.
End Find.
Lemma no_later_antisym (c e : nat * R) : no_later c e -> no_later e c -> c = e.
Proof. destruct c as [i t], e as [k s]. intros [A|[A B]] [C|[C D]]; cbn [fst snd] in *; try lia. subst k. f_equal. lra. Qed.
Lemma first_crossing_unique c e : first_crossing ps c -> first_crossing ps e -> c = e.
Proof. intros [A B] [C D]. apply no_later_antisym; auto. Qed.
Lemma last_crossing_unique c e : last_crossing ps c -> last_crossing ps e -> c = e.
Proof. intros [A B] [C D]. apply no_later_antisym; auto. Qed.
Lemma length_pos l : 0 <= path_length l.
Proof. induction l as [|a [|b l] IH]; try (cbn; lra). change (path_length (a :: b :: l)) with (dist a b + path_length (b :: l)). pose proof (sqrt_pos (dist2 a b)). unfold dist. lra. Qed.
Lemma ahead_pos c : 0 <= ahead ps c.
Proof. unfold ahead. pose proof (length_pos (firstn (S (fst c)) ps)). pose proof (sqrt_pos (dist2 (corner (fst c)) (place c))). unfold dist. lra. Qed.
Lemma behind_pos c : 0 <= behind ps c.
Proof. unfold behind. pose proof (length_pos (skipn (S (fst c)) ps)). pose proof (sqrt_pos (dist2 (place c) (corner (S (fst c))))). unfold dist. lra. Qed.
(** what the two searches of the connections find *)
Definition joins (can : nat * R -> R -> Prop) (o : option (nat * R)) (c : cross N) (best_d : T N) : Prop :=
  match o with
  | None => best_d = Inf false /\ forall c' dd, ~ can c' dd
  | Some (k, t) => c_index c = k /\ c_frac c = Fin t /\ exists dd, best_d = Fin dd /\ can (k, t) dd /\ forall c' dd', can c' dd' -> dd <= dd'
  end.
Lemma joins_best can o c b : joins can o c b -> some_if_any (best can) o.
Proof. destruct o as [[k t]|]; cbn. - intros (_ & _ & dd & _ & C & M). exists dd. auto. - intros [_ H] a (dd & C & _). exact (H _ _ C). Qed.
Definition with_first (d : pdata N) (z : vec N) (b : bool) : pdata N := PData (d_segs d) (d_first d) (d_last d) z (d_new_last d) b (d_connect_last d) (d_has d).
Definition with_last (d : pdata N) (z : vec N) (b : bool) : pdata N := PData (d_segs d) (d_first d) (d_last d) (d_new_first d) z (d_connect_first d) b (d_has d).
Lemma some_inj {X} (a b : X) : Some a = Some b -> a = b. Proof. congruence. Qed.
Lemma last_nth_bd {X} (l : list X) c b e : nth_error (c :: l) (length l) = Some e -> last (c :: l) b = e.
Proof. revert c. induction l as [|h l IH]; intros c E; [exact (some_inj _ _ E)|]. change (last (h :: l) b = e). apply IH. exact E. Qed.
Lemma segs_cons : exists l, segs = bd 0 :: l /\ last l (bd 0) = bd (sides - 1).
Proof.
  assert (S0 : (0 < sides)%nat) by (unfold PolylineSpec.sides; lia). pose proof (segs_nth 0 S0) as E0. pose proof segs_len as L. pose proof (segs_nth (sides - 1) ltac:(lia)) as El. set (z := segs) in *. clearbody z. destruct z as [|b l]; [discriminate|]. assert (b = bd 0) as -> by (apply some_inj; exact E0). exists l. split; [reflexivity|].
  cbn [length] in L. destruct l as [|c l]; [cbn in L; replace (sides - 1)%nat with 0%nat by lia; reflexivity|].
  apply last_nth_bd. rewrite <- El. replace (sides - 1)%nat with (S (length l)) by (cbn [length] in L; lia). reflexivity.
Qed.
Lemma find_first d x : d_segs d = segs -> some_if_any (first_crossing ps) x ->
  match x with Some c => d_has d = true /\ c_walk (d_first d) = Fin (ahead ps c) | None => d_has d = false end ->
  exists o c b, joins (can_join_first ps w m r u) o c b /\ connect_first_point J nodes q d = Some (match o with Some e => with_first d (pv (place e)) true | None => d end, c).
Proof.
  intros Es Hx Hd. unfold connect_first_point. rewrite Es. destruct segs_cons as (rest & E & _). rewrite E. rewrite <- E. change (s_start (b_seg (bd 0))) with (pv (corner 0)).
  set (tw := match x with Some c => Some (ahead ps c) | None => None end).
  destruct (find_connection_exact d Es (corner 0) (Nat.ltb 1) false (ahead ps) tw) with (c0 := J 2%nat) as (c & b & -> & H).
  { intros k t Hk Ht. split; [apply walk_ahead; assumption|apply ahead_pos]. }
  { unfold tw. destruct x as [c|]; [|exact Hd]. destruct Hd as [A B]. split; [exact A|]. split; [exact B|]. apply ahead_pos. }
  assert (EQ : forall c dd, can (corner 0) (Nat.ltb 1) (ahead ps) tw c dd <-> can_join_first ps w m r u c dd).
  { intros c' dd. unfold can, can_join_first. rewrite Nat.ltb_lt. assert (K : (forall z, tw = Some z -> u * dd <= z) <-> forall y, first_crossing ps y -> u * dd <= ahead ps y); [|tauto].
    unfold tw. destruct x as [e|]; cbn in Hx.
    - split; [intros K y Fy; rewrite <- (first_crossing_unique _ _ Hx Fy); apply K; reflexivity|intros K z Ez; injection Ez as <-; apply K; exact Hx].
    - split; [intros _ y Fy; elim (Hx _ Fy)|discriminate]. }
  destruct H as [[-> H]|(k & t & dd & E1 & E2 & -> & C & M)].
  - exists None, c, (Inf false : T N). split; [split; [reflexivity|]; intros c' dd C; apply EQ in C; exact (H _ _ C)|]. reflexivity.
  - exists (Some (k, t)), c, (Fin dd : T N). split; [cbn; split; [exact E1|split; [exact E2|exists dd; split; [reflexivity|]; split; [apply EQ; exact C|]; intros; apply (M c'); apply EQ; assumption]]|].
    cbn [q max_dist]. destruct C as (_ & Hk & _ & Lt & _). cbn [fst] in Hk. replace (nle N (Fin dd) (Fin m)) with true by (symmetry; apply le_x; lra). unfold lerp_at. rewrite E1, segs_nth by exact Hk. rewrite E2, lerp_place. unfold with_first. rewrite Es. reflexivity.
Qed.
Lemma find_last d y : d_segs d = segs -> some_if_any (last_crossing ps) y ->
  match y with Some c => d_has d = true /\ c_walk (d_last d) = Fin (behind ps c) | None => d_has d = false end ->
  exists o c b, joins (can_join_last ps w m r u) o c b /\ connect_last_point J nodes q d = Some (match o with Some e => with_last d (pv (place e)) true | None => d end, c).
Proof.
  intros Es Hx Hd. unfold connect_last_point. rewrite Es. destruct segs_cons as (rest & E & El). rewrite E. rewrite <- E. rewrite El. replace (s_end (b_seg (bd (sides - 1)))) with (pv (corner sides)) by (cbn; do 2 f_equal; unfold PolylineSpec.sides; lia).
  rewrite segs_len. set (tw := match y with Some c => Some (behind ps c) | None => None end).
  destruct (find_connection_exact d Es (corner sides) (fun i => Nat.ltb (i + 2) sides) true (behind ps) tw) with (c0 := J 3%nat) as (c & b & -> & H).
  { intros k t Hk Ht. split; [apply walk_behind; assumption|apply behind_pos]. }
  { unfold tw. destruct y as [c|]; [|exact Hd]. destruct Hd as [A B]. split; [exact A|]. split; [exact B|]. apply behind_pos. }
  assert (EQ : forall c dd, can (corner sides) (fun i => Nat.ltb (i + 2) sides) (behind ps) tw c dd <-> can_join_last ps w m r u c dd).
  { intros c' dd. unfold can, can_join_last. rewrite Nat.ltb_lt. assert (K : (forall z, tw = Some z -> u * dd <= z) <-> forall y, last_crossing ps y -> u * dd <= behind ps y).
    { unfold tw. destruct y as [e|]; cbn in Hx.
      - split; [intros K y Fy; rewrite <- (last_crossing_unique _ _ Hx Fy); apply K; reflexivity|intros K z Ez; injection Ez as <-; apply K; exact Hx].
      - split; [intros _ y Fy; elim (Hx _ Fy)|discriminate]. }
    assert (K2 : (fst c' + 2 < sides)%nat -> (fst c' < sides)%nat) by lia. tauto. }
  destruct H as [[-> H]|(k & t & dd & E1 & E2 & -> & C & M)].
  - exists None, c, (Inf false : T N). split; [split; [reflexivity|]; intros c' dd C; apply EQ in C; exact (H _ _ C)|]. reflexivity.
  - exists (Some (k, t)), c, (Fin dd : T N). split; [cbn; split; [exact E1|split; [exact E2|exists dd; split; [reflexivity|]; split; [apply EQ; exact C|]; intros; apply (M c'); apply EQ; assumption]]|].
    cbn [q max_dist]. destruct C as (_ & Hk & _ & Lt & _). cbn [fst] in Hk. replace (nle N (Fin dd) (Fin m)) with true by (symmetry; apply le_x; lra). unfold lerp_at. rewrite E1, segs_nth by exact Hk. rewrite E2, lerp_place. unfold with_last. rewrite Es. reflexivity.
Qed.
Lemma last_map_pv (l : list pt) h h' : l <> [] -> last (map pv l) h = pv (last l h').
Proof. induction l as [|a [|b l] IH]; intros NE; [congruence|reflexivity|]. change (last (map pv (b :: l)) h = pv (last (b :: l) h')). apply IH. discriminate. Qed.
Lemma nth_skipn' {X} (l : list X) a i z : nth i (skipn a l) z = nth (a + i) l z.
Proof. revert l. induction a as [|a IH]; intros [|h l]; try reflexivity; [destruct i; reflexivity|]. apply IH. Qed.
Lemma new_polyline_exact d a b s f : d_has d = true -> (if d_connect_first d then 0%nat else S (c_index (d_first d))) = a -> (if d_connect_last d then length ps else S (c_index (d_last d))) = b ->
  d_new_first d = pv s -> d_new_last d = pv f -> (a < b <= length ps)%nat ->
  new_polyline d points = Some (map pv (extend_end (extend s (firstn (b - a) (skipn a ps))) f)).
Proof.
  intros Eh Ea Eb Ef El L. unfold new_polyline. rewrite map_length, Eh, Ea, Eb, Ef, El. cbn [negb]. cbv zeta. destruct (Nat.ltb_spec (b + 2) a); [lia|]. rewrite points_nth by lia. unfold run_of. rewrite map_length. destruct (Nat.leb_spec b (length ps)); [|lia].
  rewrite skipn_map, firstn_map. set (run := firstn (b - a) (skipn a ps)). assert (R : exists t, run = corner a :: t).
  { unfold run. destruct (b - a)%nat eqn:Eba; [lia|]. destruct (skipn a ps) as [|h t] eqn:Es. { apply (f_equal (@length pt)) in Es. rewrite skipn_length in Es. cbn in Es. lia. } cbn. exists (firstn n t). f_equal. unfold PolylineSpec.corner. replace h with (nth 0 (skipn a ps) (P 0 0)) by (rewrite Es; reflexivity). rewrite nth_skipn'. f_equal. lia. }
  destruct R as (t & R). 
  assert (E1 : (if negb (veq (pv s) (pv (corner a))) then [pv s] else []) ++ map pv run = map pv (extend s run)).
  { unfold extend. rewrite R. cbn [hd]. destruct (pt_dec s (corner a)) as [E|E]; [rewrite (proj2 (veq_x _ _) E)|rewrite (proj2 (veq_xf _ _) E)]; reflexivity. }
  rewrite E1. assert (NE : extend s run <> []) by (unfold extend; rewrite R; destruct (pt_dec _ _); discriminate). set (l := extend s run) in *. clearbody l. destruct l as [|h l]; [congruence|]. cbn [map]. f_equal. change (pv h :: map pv l) with (map pv (h :: l)).
  rewrite (last_map_pv (h :: l) (pv h) (P 0 0)) by discriminate. unfold extend_end. destruct (pt_dec f (last (h :: l) (P 0 0))) as [E|E]; [rewrite (proj2 (veq_x _ _) E)|rewrite (proj2 (veq_xf _ _) E)]; cbn [negb]; [rewrite app_nil_r; reflexivity|rewrite map_app; reflexivity].
Qed.
Ltac sm := unfold better_last, better_first, with_last, with_first; cbn [d_connect_first d_connect_last d_has d_last d_first c_index c_frac negb orb d_segs d_new_first d_new_last cut later earlier fst snd].
Lemma find_connections_exact d x y : some_if_any (first_crossing ps) x -> some_if_any (last_crossing ps) y -> d_connect_first d = false -> d_connect_last d = false -> d_segs d = segs ->
  match x, y with
  | Some (i, t), Some (k, s) => d = PData segs (Cross i (Fin t : T N) (Fin (ahead ps (i, t)) : T N)) (Cross k (Fin s : T N) (Fin (behind ps (k, s)) : T N)) (pv (place (i, t))) (pv (place (k, s))) (d_connect_first d) (d_connect_last d) true /\ (S i < k < sides)%nat
  | None, None => d_has d = false
  | _, _ => False
  end ->
  exists c e d', some_if_any (best (can_join_first ps w m r u)) c /\ some_if_any (best (can_join_last ps w m r u)) e /\
    find_connections J nodes q d = Some d' /\ new_polyline d' points = Some (map pv (cut ps x y c e)).
Proof.
  intros Hx Hy F1 F2 Es Hd. unfold find_connections.
  destruct (find_first d x Es Hx) as (c & cc & bc & JC & ->).
  { destruct x as [[i t]|], y as [[k s]|]; try contradiction; [|exact Hd]. destruct Hd as [-> _]. split; reflexivity. }
  set (d1 := match c with Some _ => _ | None => d end).
  assert (Q : d_segs d1 = segs /\ d_has d1 = d_has d /\ d_last d1 = d_last d) by (unfold d1; destruct c; cbn; auto). destruct Q as (Q1 & Q2 & Q3).
  destruct (find_last d1 y Q1 Hy) as (e & ce & be & JE & ->).
  { rewrite Q2, Q3. destruct x as [[i t]|], y as [[k s]|]; try contradiction; [|exact Hd]. destruct Hd as [-> _]. split; reflexivity. }
  exists c, e. eexists. split; [exact (joins_best _ _ _ _ JC)|]. split; [exact (joins_best _ _ _ _ JE)|]. split; [reflexivity|]. clear Q1 Q2 Q3.
  assert (BC : match c with Some (k, t) => c_index cc = k /\ c_frac cc = Fin t /\ (1 < k < sides)%nat | None => True end). { destruct c as [[k t]|]; [|exact I]. destruct JC as (A & B & dd & _ & C & _). split; [exact A|]. split; [exact B|]. apply C. }
  assert (BE : match e with Some (k, t) => c_index ce = k /\ c_frac ce = Fin t /\ (k + 2 < sides)%nat | None => True end). { destruct e as [[k t]|]; [|exact I]. destruct JE as (A & B & dd & _ & C & _). split; [exact A|]. split; [exact B|]. apply C. }
  assert (LS : length ps = S sides) by (unfold PolylineSpec.sides; lia).
  destruct x as [[i t]|], y as [[k s]|]; try contradiction.
  - destruct Hd as [Ed Hik]. rewrite F1, F2 in Ed. unfold d1. clear d1. rewrite Ed. destruct c as [[kc tc]|], e as [[ke te]|].
    + sm. apply new_polyline_exact; try reflexivity; cbn; lia.
    + destruct BC as (BC1 & BC2 & BC). destruct cc as [cc1 cc2 cc3]. cbn [c_index c_frac] in BC1, BC2. subst cc1 cc2. unfold better_last, better_first, with_first. cbn [d_connect_first d_connect_last d_has d_last d_first c_index c_frac negb orb d_segs d_new_first d_new_last].
      cbn [cut later earlier fst snd]. destruct (Nat.ltb_spec k kc); [destruct (lt_dec k kc); [|lia]|destruct (lt_dec k kc); [lia|]].
      * apply new_polyline_exact; try reflexivity. cbn. lia.
      * destruct (Nat.eqb_spec kc k) as [->|NE]; [destruct (Nat.eq_dec k k); [|lia]|destruct (Nat.eq_dec kc k); [lia|]].
        -- cbn [andb]. destruct (nlt N (Fin s) (Fin tc)) eqn:L; [apply lt_x in L|apply lt_xf in L]; (destruct (Rlt_dec s tc); [|]; try lra); apply new_polyline_exact; try reflexivity; cbn; lia.
        -- cbn [andb]. apply new_polyline_exact; try reflexivity; cbn; lia.
    + destruct BE as (BE1 & BE2 & BE). destruct ce as [ce1 ce2 ce3]. cbn [c_index c_frac] in BE1, BE2. subst ce1 ce2. unfold better_last, better_first, with_last. cbn [d_connect_first d_connect_last d_has d_last d_first c_index c_frac negb orb d_segs d_new_first d_new_last].
      cbn [cut later earlier fst snd]. destruct (Nat.ltb_spec ke i); [destruct (lt_dec ke i); [|lia]|destruct (lt_dec ke i); [lia|]].
      * apply new_polyline_exact; try reflexivity. cbn. lia.
      * destruct (Nat.eqb_spec ke i) as [->|NE]; [destruct (Nat.eq_dec i i); [|lia]|destruct (Nat.eq_dec ke i); [lia|]].
        -- cbn [andb]. destruct (nlt N (Fin te) (Fin t)) eqn:L; [apply lt_x in L|apply lt_xf in L]; (destruct (Rlt_dec te t); [|]; try lra); apply new_polyline_exact; try reflexivity; cbn; lia.
        -- cbn [andb]. apply new_polyline_exact; try reflexivity; cbn; lia.
    + sm. apply new_polyline_exact; try reflexivity; cbn; lia.
  - destruct c as [[kc tc]|], e as [[ke te]|]; unfold d1; clear d1; unfold better_last, better_first, with_last, with_first; cbn [d_connect_first d_connect_last d_has d_last d_first c_index c_frac negb orb d_segs d_new_first d_new_last]; rewrite ?F1, ?F2, ?Hd; cbn [negb orb d_connect_first d_connect_last d_has d_last d_first c_index c_frac d_segs d_new_first d_new_last].
    + apply new_polyline_exact; try reflexivity; cbn; lia.
    + destruct BC as (BC1 & BC2 & BC). destruct cc as [cc1 cc2 cc3]. cbn [c_index c_frac] in BC1, BC2. subst cc1 cc2. apply new_polyline_exact; cbn [d_connect_first d_connect_last d_has d_last d_first c_index c_frac d_segs d_new_first d_new_last]; rewrite ?F1, ?F2; try reflexivity; cbn; lia.
    + destruct BE as (BE1 & BE2 & BE). destruct ce as [ce1 ce2 ce3]. cbn [c_index c_frac] in BE1, BE2. subst ce1 ce2. apply new_polyline_exact; cbn [d_connect_first d_connect_last d_has d_last d_first c_index c_frac d_segs d_new_first d_new_last]; rewrite ?F1, ?F2; try reflexivity; cbn; lia.
    + unfold new_polyline. cbn [d_has]. rewrite Hd, F1, F2. reflexivity.
Qed.
End Nodes.
Theorem process_exact w m r u : 0 <= m -> exists out, process_polyline J jb sort points (q w m r u) = Some (map pv out) /\ processed ps w m r u out.
Proof.
  intros Hm. unfold process_polyline, create_data. destruct tree as (nodes & EN & TR). set (d0 := PData segs (J 0%nat) (J 1%nat) _ _ false false false).
  replace (match points with [] => None | _ :: _ => Some d0 end) with (Some d0) by (destruct ps; [cbn in len2; lia|reflexivity]). change (d_segs d0) with segs. rewrite EN.
  destruct (find_intersections_exact nodes TR d0 eq_refl) as (x & y & Hx & Hy & -> & K).
  set (d1 := match x with Some _ => _ | None => d0 end).
  destruct (find_connections_exact nodes TR w m r u Hm d1 x y Hx Hy) as (c & e & d' & Hc & He & -> & E).
  1-4: unfold d1; destruct x as [[i t]|], y as [[k s]|]; try contradiction; try reflexivity. { split; [reflexivity|exact K]. }
  exists (cut ps x y c e). split; [exact E|]. exists x, y, c, e. auto.
Qed.
End Exact.
