(** C82: searches along the outline of a stroke in progress. *)
From Coq Require Import ZArith Bool Arith Reals Lra Lia List.
From Verif Require Import NumModel EasingExact BehaviorMeaning BehaviorExact GeomModel GeomSpec GeomReal GeomExact CircleSpec CircleProofs LegacyModel LegacySpec LegacyProps OutlineSearchModel OutlineSearchSpec.
Import ListNotations.
Local Open Scope R_scope.
Notation N := xnum.

(** ** The outline *)
Lemma u32_id z : (0 <= z < 2 ^ 32)%Z -> u32 z = Z.to_nat z. Proof. intros H. unfold u32. rewrite Z.mod_small by exact H. reflexivity. Qed.
(** the vertices of an outline in the order they are visited *)
Definition visits (o : outline) (l : list nat) : Prop := outline_size o = length l /\ forall i, (i < length l)%nat -> outline_at o i = nth_error l i.
Lemma nth_part {A} (l : list A) f n i : (i < n)%nat -> nth_error (part l f n) i = nth_error l (f + i).
Proof.
  intros H. unfold part. revert n l i H. induction f as [|f IH]; intros n l i H.
  - cbn [skipn Nat.add]. revert l i H. induction n as [|n IH]; intros l i H; [lia|]. destruct l as [|x l]; [destruct i; reflexivity|]. destruct i as [|i]; [reflexivity|]. cbn [firstn nth_error]. apply IH. lia.
  - destruct l as [|x l]; [cbn [skipn]; rewrite firstn_nil; destruct i; reflexivity|]. cbn [skipn Nat.add nth_error]. apply IH. exact H.
Qed.
Lemma part_length {A} (l : list A) f n : (f + n <= length l)%nat -> length (part l f n) = n.
Proof. intros H. unfold part. rewrite firstn_length, skipn_length. lia. Qed.
Lemma nth_rev {A} (l : list A) i : (i < length l)%nat -> nth_error (rev l) i = nth_error l (length l - S i).
Proof.
  intros H. destruct l as [|d l0] eqn:D; [cbn in H; lia|]. rewrite <- D in *. rewrite (nth_error_nth' (rev l) d) by (rewrite rev_length; exact H). rewrite rev_nth by exact H. symmetry. apply nth_error_nth'. lia.
Qed.

(** An outline goes backwards down its first side and then forwards up the other *)
Theorem C82_outline s sf sn e ef en : (sf + sn <= length s)%nat -> (ef + en <= length e)%nat -> (Z.of_nat (length s) + Z.of_nat (length e) < 2 ^ 32)%Z ->
  visits (Outline s sf sn e ef en) (rev (part s sf sn) ++ part e ef en).
Proof.
  intros HS HE HB. assert (LS := part_length s sf sn HS). assert (LE := part_length e ef en HE). split.
  - unfold outline_size. cbn [o_starting_n o_ending_n]. rewrite u32_id by lia. rewrite app_length, rev_length, LS, LE. lia.
  - intros i Hi. rewrite app_length, rev_length, LS, LE in Hi. unfold outline_at. cbn [o_starting o_starting_first o_starting_n o_ending o_ending_first o_ending_n]. destruct (Nat.ltb_spec i sn) as [L|L].
    + rewrite nth_error_app1 by (rewrite rev_length, LS; exact L). rewrite nth_rev by (rewrite LS; exact L). rewrite LS, nth_part by lia. f_equal. rewrite u32_id by lia. lia.
    + rewrite nth_error_app2 by (rewrite rev_length, LS; exact L). rewrite rev_length, LS, nth_part by lia. f_equal. rewrite u32_id by lia. lia.
Qed.
(** The outline of a stroke: from the end of one side, or where its retriangulation started, back to the start of the partition, and, if it connects the sides,
    from there to the end of the other *)
Theorem C82_construct (s e : side) : let last (x : side) := match side_retriangulation x with Some i => i | None => (length (side_indices x) - 1)%nat end in
  (side_adjacent_first s <= last s < length (side_indices s))%nat -> (side_opposite_first s <= last e < length (side_indices e))%nat ->
  (Z.of_nat (length (side_indices s)) + Z.of_nat (length (side_indices e)) < 2 ^ 32)%Z ->
  visits (construct_outline s e) (rev (part (side_indices s) (side_adjacent_first s) (last s - side_adjacent_first s + 1)) ++
    if side_connects s then part (side_indices e) (side_opposite_first s) (last e - side_opposite_first s + 1) else []).
Proof.
  intros last HS HE HB. assert (LO : forall x, (last x < length (side_indices x))%nat -> (Z.of_nat (length (side_indices x)) < 2 ^ 32)%Z -> last_outline_offset x = last x).
  { intros x L B. unfold last_outline_offset, last in *. destruct (side_retriangulation x); [reflexivity|]. rewrite u32_id by lia. lia. }
  unfold construct_outline. rewrite (LO s), (LO e) by lia. assert (C : forall a b, (b <= a)%nat -> (Z.of_nat a < 2 ^ 32 - 1)%Z -> u32 (Z.of_nat a - Z.of_nat b + 1) = (a - b + 1)%nat). { intros a b L B. rewrite u32_id by lia. lia. }
  rewrite !C by lia. destruct (side_connects s).
  - apply C82_outline; lia.
  - replace (@nil nat) with (part (side_indices e) (side_opposite_first s) 0) by reflexivity. apply C82_outline; lia.
Qed.

(** ** The search for an intersection *)
Lemma step_length l : forall i p q, step l i p q -> length_to l (S i) = length_to l i + far p q.
Proof.
  induction l as [|x l IH]; intros i p q [A B]; [destruct i; discriminate|]. destruct l as [|y l]; [destruct i as [|[|]]; cbn in *; discriminate|]. destruct i as [|i].
  - cbn in A, B. injection A as <-. injection B as <-. cbn. destruct l; ring.
  - assert (E := IH i p q (conj A B)). change (length_to (x :: y :: l) (S (S i))) with (far x y + length_to (y :: l) (S i)). change (length_to (x :: y :: l) (S i)) with (far x y + length_to (y :: l) i). rewrite E. ring.
Qed.
Lemma length_cap l : forall i, (length l - 1 <= i)%nat -> length_to l i = length_to l (length l - 1).
Proof.
  induction l as [|x l IH]; intros i H; [destruct i; reflexivity|]. destruct l as [|y l].
  - destruct i; reflexivity.
  - destruct i as [|i]; [cbn [length] in H; lia|]. cbn [length] in *. replace (S (S (length l)) - 1)%nat with (S (length l)) by lia. change (length_to (x :: y :: l) (S i)) with (far x y + length_to (y :: l) i). change (length_to (x :: y :: l) (S (length l))) with (far x y + length_to (y :: l) (length l)). rewrite (IH i) by lia. rewrite (IH (length l)) by lia. reflexivity.
Qed.
Lemma far_pos p q : 0 <= far p q. Proof. apply sqrt_pos. Qed.
Lemma far_same p : far p p = 0. Proof. unfold far, inner, minus. cbn. replace (_ + _) with 0 by ring. apply sqrt_0. Qed.
Lemma far_mix t p q : 0 <= t -> far p (mix t p q) = t * far p q.
Proof. intros T. unfold far. replace (inner (minus (mix t p q) p) (minus (mix t p q) p)) with (t * t * inner (minus q p) (minus q p)) by (unfold inner, minus, mix; cbn; ring). rewrite sqrt_mult_alt by nra. rewrite sqrt_square by exact T. reflexivity. Qed.
Lemma far_sym p q : far p q = far q p. Proof. unfold far. f_equal. unfold inner, minus. cbn. ring. Qed.
Lemma nth_step {A} (l : list A) i x : nth_error l i = Some x -> (i < length l)%nat. Proof. intros H. apply nth_error_Some. rewrite H. discriminate. Qed.

(** what is asked of the intersection of two segments: the first common point along the first *)
Definition finds_first (hit : segment N -> segment N -> option (T N * T N)) : Prop := forall p q a b,
  match hit (sg p q) (sg a b) with
  | Some (t, u) => exists t' u', t = Fin t' /\ u = Fin u' /\ first_at p q a b t' u'
  | None => ~ meet (seg_set p q) (seg_set a b)
  end.
Definition shown (r : option (nat * nat * R * R * pt)) (rest : R) : @result N :=
  Result (option_map (fun f => match f with (i, j, t, u, x) => Found (pv x) i j (Fin t : T N) (Fin u : T N) end) r) (Fin rest : T N).
Definition region (k : option (pt * pt * pt)) : shape := match k with Some (a, b, c) => tri_set a b c | None => fun _ => True end.
Definition region_x (k : option (pt * pt * pt)) : option (triangle N) := option_map (fun x => match x with (a, b, c) => tr a b c end) k.

Section Search.
Variable hit : segment N -> segment N -> option (T N * T N).
Hypothesis first : finds_first hit.
Variable pos : nat -> pt.
Variable o : outline.
Variable l : list nat.
Hypothesis O : visits o l.
Variables a b : pt.
Variable k : option (pt * pt * pt).
Variable B : R.
Notation ps := (map pos l).
Notation S0 := (seg_set a b).
Notation K := (region k).

Lemma all_same n p : nth_error ps n = Some p -> S n = length ps -> clear ps S0 n -> S0 p -> forall q, In q ps -> q = p.
Proof.
  intros E L C SP. assert (D : forall m j q, (m = n - j)%nat -> (j <= n)%nat -> nth_error ps j = Some q -> q = p).
  { induction m as [|m IH]; intros j q M J Q. { replace j with n in Q by lia. congruence. }
    destruct (nth_error ps (S j)) as [q'|] eqn:Q'; [|apply nth_error_None in Q'; lia]. assert (q' = p) by (apply (IH (S j)); [lia|lia|exact Q']). subst q'. destruct (Req_dec (px q) (px p)) as [X|X]; [destruct (Req_dec (py q) (py p)) as [Y|Y]|].
    - destruct q, p. cbn in *. congruence.
    - exfalso. apply (C j q p ltac:(lia) (conj Q Q')); [congruence|]. exists p. split; [|exact SP]. exists 1. split; [lra|]. destruct p. unfold mix. cbn. f_equal; ring.
    - exfalso. apply (C j q p ltac:(lia) (conj Q Q')); [congruence|]. exists p. split; [|exact SP]. exists 1. split; [lra|]. destruct p. unfold mix. cbn. f_equal; ring. }
  intros q I. apply In_nth_error in I. destruct I as (j & J). apply (D (n - j)%nat j q eq_refl); [|exact J]. apply nth_step in J. lia.
Qed.
Lemma same_length p : (forall q, In q ps -> q = p) -> forall i, length_to ps i = 0.
Proof.
  generalize ps. intros L. induction L as [|x L IH]; intros H i; [destruct i; reflexivity|]. destruct i as [|i]; [reflexivity|]. destruct L as [|y L]; [reflexivity|]. change (length_to (x :: y :: L) (S i)) with (far x y + length_to (y :: L) i). rewrite IH by (intros q I; apply H; right; exact I). rewrite (H x), (H y) by (cbn; tauto). rewrite far_same. ring.
Qed.
Lemma first_mix p q t u : first_at p q a b t u -> S0 (mix t p q). Proof. intros (T & U & E & _). exists u. split; [exact U|exact E]. Qed.
Lemma point_segment_meets p : ~ meet (seg_set p p) S0 -> ~ S0 p. Proof. intros M I. apply M. exists p. split; [exists 0; split; [lra|destruct p; unfold mix; cbn; f_equal; ring]|exact I]. Qed.

Lemma clear_end : clear ps S0 (length ps - 1) -> clear ps S0 (length ps).
Proof. intros C j p q J [X Y] D. apply (C j p q); [|split; assumption|exact D]. apply nth_step in Y. lia. Qed.
Lemma inside_end : inside ps K (length ps - 1) -> inside ps K (length ps).
Proof. intros C j p q J [X Y] D. apply (C j p q); [|split; assumption|exact D]. apply nth_step in Y. lia. Qed.

(** the end of the search *)
Lemma last_spent x : x <= 0 -> last_index (fun i => pv (pos i)) hit o (sg a b) (Fin x) = Some (shown None 0).
Proof. intros X. unfold last_index. rewrite x0. replace (nlt N (Fin 0) (Fin x)) with false by (symmetry; apply lt_xf; exact X). rewrite andb_false_r. rewrite max_x, Rmax_left by exact X. reflexivity. Qed.
Lemma last_x : clear ps S0 (length ps - 1) -> inside ps K (length ps - 1) ->
  exists r rest, last_index (fun i => pv (pos i)) hit o (sg a b) (Fin (B - length_to ps (length ps - 1))) = Some (shown r rest) /\ along ps a b K B r rest.
Proof.
  intros C I. destruct (Rle_lt_dec B (length_to ps (length ps - 1))) as [L|L].
  - exists None, 0. split; [apply last_spent; lra|]. apply (AlongExhausted _ _ _ _ _ (length ps - 1)%nat); [|exact C|exact I|exact L]. destruct ps; [right; reflexivity|left; cbn; lia].
  - unfold last_index. rewrite x0. replace (nlt N (Fin 0) (Fin _)) with true by (symmetry; apply lt_x; lra). rewrite andb_true_r. rewrite max_x, Rmax_right by lra. destruct O as [SZ AT]. rewrite SZ. assert (LP : length ps = length l) by apply map_length. destruct (Nat.ltb_spec 0 (length l)) as [P0|P0].
    + rewrite AT by lia. destruct (nth_error l (length l - 1)) as [v|] eqn:V; [|apply nth_error_None in V; lia]. assert (W : nth_error ps (length l - 1) = Some (pos v)) by (apply map_nth_error; exact V). assert (NE : ps <> []) by (intros E0; rewrite E0 in LP; cbn in LP; lia).
      generalize (first (pos v) (pos v) a b). change (Seg (pv (pos v)) (pv (pos v))) with (sg (pos v) (pos v)). destruct (hit (sg (pos v) (pos v)) (sg a b)) as [[t u]|].
      * intros (t' & u' & -> & -> & F). assert (SV : S0 (pos v)). { generalize (first_mix _ _ _ _ F). replace (mix t' (pos v) (pos v)) with (pos v); [tauto|]. destruct (pos v). unfold mix. cbn. f_equal; ring. }
        assert (A : forall q, In q ps -> q = pos v) by (apply (all_same (length l - 1)); [exact W|lia|rewrite <- LP; exact C|exact SV]). exists (Some ((length l - 1)%nat, (length l - 1)%nat, t', u', P 0 0)), B. split.
        { unfold shown. cbn [option_map]. rewrite (same_length _ A), Rminus_0_r. reflexivity. }
        { rewrite <- LP. apply (AlongSingle _ _ _ _ _ (pos v)); [exact NE|exact A| |exact F]. rewrite (same_length _ A) in L. exact L. }
      * intros M. exists None, (B - length_to ps (length ps)). split; [unfold shown; cbn [option_map]; rewrite (length_cap ps (length ps)) by lia; reflexivity|]. apply AlongEnds; [apply clear_end; exact C|apply inside_end; exact I|rewrite (length_cap ps (length ps)) by lia; exact L|].
        intros p A _ SP. apply (point_segment_meets _ M). rewrite (A (pos v)); [exact SP|]. apply (nth_error_In _ _ W).
    + exists None, (B - length_to ps (length ps)). split; [unfold shown; cbn [option_map]; rewrite (length_cap ps (length ps)) by lia; reflexivity|]. apply AlongEnds; [apply clear_end; exact C|apply inside_end; exact I|rewrite (length_cap ps (length ps)) by lia; exact L|].
      intros p A NE. exfalso. apply NE. apply length_zero_iff_nil. lia.
Qed.
Lemma search_x : forall n i, (1 <= i)%nat -> (n = length l - i)%nat -> (i <= length l \/ i = 1)%nat -> clear ps S0 (i - 1) -> inside ps K (i - 1) ->
  exists r rest, search_from (fun i => pv (pos i)) hit o (sg a b) (region_x k) n i (Fin (B - length_to ps (i - 1))) = Some (shown r rest) /\ along ps a b K B r rest.
Proof.
  assert (LP : length ps = length l) by apply map_length. induction n as [|n IH]; intros i I1 E BI C I.
  - cbn [search_from]. destruct BI as [BI| ->].
    + replace (i - 1)%nat with (length ps - 1)%nat in * by lia. apply last_x; assumption.
    + assert (length_to ps (1 - 1) = length_to ps (length ps - 1)) as -> by (f_equal; lia). apply last_x; [replace (length ps - 1)%nat with (1 - 1)%nat by lia; exact C|replace (length ps - 1)%nat with (1 - 1)%nat by lia; exact I].
  - cbn [search_from]. rewrite x0. destruct (nlt N (Fin 0) (Fin (B - length_to ps (i - 1)))) eqn:L.
    2:{ apply lt_xf in L. exists None, 0. split; [apply last_spent; exact L|]. apply (AlongExhausted _ _ _ _ _ (i - 1)%nat); [left; lia|exact C|exact I|lra]. }
    apply lt_x in L. destruct O as [SZ AT]. rewrite !AT by lia. destruct (nth_error l (i - 1)) as [v|] eqn:V; [|apply nth_error_None in V; lia]. destruct (nth_error l i) as [w|] eqn:W; [|apply nth_error_None in W; lia].
    assert (ST : step ps (i - 1) (pos v) (pos w)). { split; [apply map_nth_error; exact V|]. replace (S (i - 1)) with i by lia. apply map_nth_error; exact W. }
    cbn [s_start s_end]. assert (NX : forall (Q : pos v <> pos w -> ~ meet (seg_set (pos v) (pos w)) S0), clear ps S0 (S i - 1)).
    { intros Q j p q J [X Y] D. destruct (Nat.eq_dec j (i - 1)) as [->|J']; [|apply (C j p q ltac:(lia) (conj X Y) D)]. destruct ST as [X' Y']. assert (p = pos v) by congruence. assert (q = pos w) by congruence. subst p q. apply Q, D. }
    assert (NI : forall (Q : pos v <> pos w -> K (pos w)), inside ps K (S i - 1)).
    { intros Q j p q J [X Y] D. destruct (Nat.eq_dec j (i - 1)) as [->|J']; [|apply (I j p q ltac:(lia) (conj X Y) D)]. destruct ST as [X' Y']. assert (p = pos v) by congruence. assert (q = pos w) by congruence. subst p q. apply Q, D. }
    assert (LE := step_length ps _ _ _ ST). replace (S (i - 1)) with i in LE by lia.
    destruct (veq (pv (pos v)) (pv (pos w))) eqn:VE.
    + apply veq_x in VE. destruct (IH (S i)) as (r & rest & X & Y); [lia|lia|lia|apply NX; intros D; contradiction|apply NI; intros D; contradiction|]. exists r, rest. split; [|exact Y]. rewrite <- X. f_equal. f_equal. replace (S i - 1)%nat with i by lia. rewrite LE, VE, far_same. ring.
    + apply veq_xf in VE. generalize (first (pos v) (pos w) a b). change (Seg (pv (pos v)) (pv (pos w))) with (sg (pos v) (pos w)). destruct (hit (sg (pos v) (pos w)) (sg a b)) as [[t u]|].
      * intros (t' & u' & -> & -> & F). exists (Some ((i - 1)%nat, S (i - 1), t', u', mix t' (pos v) (pos w))), (Rmax 0 (B - (length_to ps (i - 1) + t' * far (pos v) (pos w)))). split.
        { rewrite lerp_x. unfold shown. cbn [option_map]. unfold distance_between. rewrite sub_x. unfold magnitude, pv at 2 3. cbn [vx vy]. set (m := P _ _). assert (M : m = mix t' (pos v) (pos w)) by (unfold m, mix; f_equal; ring). rewrite M. clearbody m. f_equal.
          f_equal; [f_equal; f_equal; lia|]. cbn [vx vy pv]. change (nhypot N (Fin (px (sub (pos v) (mix t' (pos v) (pos w))))) (Fin (py (sub (pos v) (mix t' (pos v) (pos w)))))) with (Fin (far (mix t' (pos v) (pos w)) (pos v))). change (nsub N (Fin (B - length_to ps (i - 1))) (Fin (far (mix t' (pos v) (pos w)) (pos v)))) with (Fin (B - length_to ps (i - 1) - far (mix t' (pos v) (pos w)) (pos v))). rewrite max_x. f_equal. f_equal. rewrite far_sym, far_mix by apply F. ring. }
        { apply AlongMeets; [exact ST|exact VE|exact C|exact I|lra|exact F]. }
      * intros M. assert (TC : (match region_x k with Some x => negb (tri_contains x (pv (pos w))) | None => false end = true /\ ~ K (pos w)) \/ (match region_x k with Some x => negb (tri_contains x (pv (pos w))) | None => false end = false /\ K (pos w))).
        { unfold region_x, region. destruct k as [[[x y] z]|]; cbn [option_map]; [|right; split; [reflexivity|exact Logic.I]]. destruct (tri_contains (tr x y z) (pv (pos w))) eqn:T; [right; split; [reflexivity|apply triangle_contains; exact T]|left; split; [reflexivity|]]. intros D. apply triangle_contains in D. congruence. }
        destruct TC as [[-> OUT]|[-> IN]].
        { exists None, 0. split; [apply last_spent; lra|]. apply (AlongLeaves _ _ _ _ _ (i - 1)%nat (pos v) (pos w)); [exact ST|exact VE| |exact I|lra|exact OUT]. replace (S (i - 1)) with (S i - 1)%nat by lia. apply NX. intros _. exact M. }
        { destruct (IH (S i)) as (r & rest & X & Y); [lia|lia|lia|apply NX; intros _; exact M|apply NI; intros _; exact IN|]. exists r, rest. split; [|exact Y]. rewrite <- X. f_equal. replace (S i - 1)%nat with i by lia. rewrite LE. unfold seg_length, seg_vector. cbn [s_start s_end]. unfold sg. cbn [s_start s_end]. rewrite sub_x. change (magnitude (pv (sub (pos w) (pos v)))) with (Fin (far (pos v) (pos w)) : T N). change (nsub N (Fin (B - length_to ps (i - 1))) (Fin (far (pos v) (pos w)))) with (Fin (B - length_to ps (i - 1) - far (pos v) (pos w))). f_equal. ring. }
Qed.
(** The search finds the first part of the outline that meets the segment, if the outline before it is shorter than the budget and all its later points are within
    the triangle; the rest of the budget is what the way to there along the outline leaves *)
Theorem C82_find : exists r rest, find_intersection (fun i => pv (pos i)) hit o (sg a b) (region_x k) (Fin B) = Some (shown r rest) /\ along ps a b K B r rest.
Proof.
  destruct (search_x (length l - 1) 1) as (r & rest & X & Y); [lia|lia|lia|intros j p q J; lia|intros j p q J; lia|]. exists r, rest. split; [|exact Y]. rewrite <- X. unfold find_intersection. rewrite (proj1 O). f_equal. f_equal. assert (length_to ps 0 = 0) as Z0 by (destruct ps; reflexivity). change (1 - 1)%nat with 0%nat. rewrite Z0. ring.
Qed.
End Search.

(** the cases of [along] exclude each other: what is found is determined *)
Lemma first_unique p q a b t u t' u' : a <> b -> first_at p q a b t u -> first_at p q a b t' u' -> t = t' /\ u = u'.
Proof.
  intros D (T & U & E & M) (T' & U' & E' & M'). assert (t = t'). { apply Rle_antisym; [apply M|apply M']; try assumption; [exists u'; split; assumption|exists u; split; assumption]. } subst t'. split; [reflexivity|].
  rewrite E in E'. unfold mix in E'. injection E' as X Y. destruct (Req_dec u u') as [Q|Q]; [exact Q|]. exfalso. apply D. destruct a as [ax ay], b as [bx by_]. cbn in *. f_equal; nra.
Qed.

Lemma length_mono l i : length_to l i <= length_to l (S i).
Proof.
  destruct (nth_error l (S i)) as [q|] eqn:Q.
  - destruct (nth_error l i) as [p|] eqn:P0; [|apply nth_error_None in P0; apply nth_step in Q; lia]. rewrite (step_length l i p q (conj P0 Q)). pose proof (far_pos p q). lra.
  - apply nth_error_None in Q. rewrite (length_cap l i), (length_cap l (S i)) by lia. lra.
Qed.
Lemma length_le l i j : (i <= j)%nat -> length_to l i <= length_to l j.
Proof. intros H. induction H as [|j H IH]; [lra|]. pose proof (length_mono l j). lra. Qed.
Lemma length_all_same l p : (forall q, In q l -> q = p) -> forall i, length_to l i = 0.
Proof.
  induction l as [|x L IH]; intros H i; [destruct i; reflexivity|]. destruct i as [|i]; [reflexivity|]. destruct L as [|y L]; [reflexivity|]. change (length_to (x :: y :: L) (S i)) with (far x y + length_to (y :: L) i). rewrite IH by (intros q I; apply H; right; exact I). rewrite (H x), (H y) by (cbn; tauto). rewrite far_same. ring.
Qed.
(** The cases exclude each other: what is found and what is left of the budget is determined *)
Theorem C82_unique l a b (k : shape) budget r rest r' rest' : a <> b -> along l a b k budget r rest -> along l a b k budget r' rest' -> r = r' /\ rest = rest'.
Proof.
  intros AB H H'. assert (HIT : forall p q t u, first_at p q a b t u -> meet (seg_set p q) (seg_set a b)). { intros p q t u (T & U & E & _). exists (mix t p q). split; [exists t; auto|exists u; auto]. }
  assert (INS : forall i p q, step l i p q -> In p l /\ In q l) by (intros i p q [X Y]; split; eapply nth_error_In; eassumption).
  assert (IDX : forall i p q, step l i p q -> (i < length l)%nat) by (intros i p q [X _]; apply nth_step in X; exact X).
  assert (M_S : forall i p q, step l i p q -> p <> q -> (exists x, forall q, In q l -> q = x) -> False). { intros i p q ST NE (x & X). apply NE. destruct (INS _ _ _ ST). rewrite (X p), (X q) by assumption. reflexivity. }
  assert (M_L : forall i j p q t u p' q', step l i p q -> p <> q -> inside l k i -> first_at p q a b t u -> step l j p' q' -> p' <> q' -> clear l (seg_set a b) (S j) -> ~ k q' -> False).
  { intros i j p q t u p' q' ST NE IN F ST' NE' CL' OUT. destruct (le_lt_dec i j) as [L|L]; [apply (CL' i p q ltac:(lia) ST NE); eapply HIT; exact F|]. apply OUT. apply (IN j p' q' L ST' NE'). }
  assert (M_X : forall i j p q t u, step l i p q -> p <> q -> first_at p q a b t u -> length_to l i < budget -> clear l (seg_set a b) j -> budget <= length_to l j -> False).
  { intros i j p q t u ST NE F B CL LJ. destruct (le_lt_dec j i) as [L|L]; [pose proof (length_le l j i L); lra|]. apply (CL i p q L ST NE). eapply HIT; exact F. }
  assert (M_E : forall i p q t u, step l i p q -> p <> q -> first_at p q a b t u -> clear l (seg_set a b) (length l) -> False). { intros i p q t u ST NE F CL. apply (CL i p q (IDX _ _ _ ST) ST NE). eapply HIT; exact F. }
  assert (S_E : forall p t u, l <> [] -> (forall q, In q l -> q = p) -> first_at p p a b t u -> (forall p, (forall q, In q l -> q = p) -> l <> [] -> ~ seg_set a b p) -> False). { intros p t u NE A (T & U & E & _) X. apply (X p A NE). exists u. rewrite mix_same in E. auto. }
  assert (X_E : forall i, budget <= length_to l i -> length_to l (length l) < budget -> False). { intros i A B. destruct (le_lt_dec i (length l)) as [L|L]; [pose proof (length_le l i (length l) L); lra|]. rewrite (length_cap l i), <- (length_cap l (length l)) in A by lia. lra. }
  assert (X_S : forall i p, budget <= length_to l i -> (forall q, In q l -> q = p) -> 0 < budget -> False). { intros i p A B C. rewrite (length_all_same l p B) in A. lra. }
  assert (L_E : forall i p q, step l i p q -> p <> q -> ~ k q -> inside l k (length l) -> False). { intros i p q ST NE OUT IN. apply OUT. apply (IN i p q (IDX _ _ _ ST) ST NE). }
  destruct H as [i p q t u ST NE CL IN B F|p t u NN AL B F|i p q ST NE CL IN B OUT|i D CL IN B|CL IN B NO]; destruct H' as [i' p' q' t' u' ST' NE' CL' IN' B' F'|p' t' u' NN' AL' B' F'|i' p' q' ST' NE' CL' IN' B' OUT'|i' D' CL' IN' B'|CL' IN' B' NO'];
    try (exfalso; solve [exact (M_L i i' p q t u p' q' ST NE IN F ST' NE' CL' OUT')|exact (M_L i' i p' q' t' u' p q ST' NE' IN' F' ST NE CL OUT)|exact (M_S i p q ST NE (ex_intro _ p' AL'))|exact (M_S i' p' q' ST' NE' (ex_intro _ p AL))|exact (M_X i i' p q t u ST NE F B CL' B')|exact (M_X i' i p' q' t' u' ST' NE' F' B' CL B)|eapply M_E; eauto|eapply S_E; eauto|eapply X_E; eauto|eapply X_S; eauto|eapply L_E; eauto]); try (split; reflexivity).
  - assert (i = i'). { destruct (lt_eq_lt_dec i i') as [[L|L]|L]; [exfalso|exact L|exfalso]; [apply (CL' i p q L ST NE)|apply (CL i' p' q' L ST' NE')]; eapply HIT; eassumption. }
    subst i'. destruct ST as [X Y], ST' as [X' Y']. assert (p = p') by congruence. assert (q = q') by congruence. subst p' q'. destruct (first_unique p q a b t u t' u' AB F F') as [-> ->]. split; reflexivity.
  - assert (p = p'). { destruct l as [|x l0]; [contradiction|]. rewrite <- (AL x), <- (AL' x) by (left; reflexivity). reflexivity. } subst p'. destruct (first_unique p p a b t u t' u' AB F F') as [-> ->]. split; reflexivity.
Qed.

(** ** Fans *)
Lemma area_x c p q : nlt N (signed_area (Tri (pv c) (pv p) (pv q))) n0 = true <-> cross (minus p c) (minus q c) < 0.
Proof.
  unfold signed_area. cbn [p0 p1 p2]. rewrite !sub_x, det_x, half_x, x0. change (nmul N (Fin (/ 2)) (Fin (det2 (sub p c) (sub q p)))) with (Fin (/ 2 * det2 (sub p c) (sub q p))). rewrite lt_x. replace (det2 (sub p c) (sub q p)) with (cross (minus p c) (minus q c)) by (unfold det2, sub, cross, minus; cbn; ring). lra.
Qed.
Lemma cross_anti c p q : cross (minus q c) (minus p c) = - cross (minus p c) (minus q c). Proof. unfold cross. cbn. ring. Qed.
Lemma cross_none left c p : ~ clockwise left c p p. Proof. assert (cross (minus p c) (minus p c) = 0) by (unfold cross; ring). unfold clockwise. destruct left; lra. Qed.
Definition fan_edge (left : bool) (p q : pt) : segment N := if left then sg q p else sg p q.
Lemma fan_from_x (left : bool) c : forall (before : list pt) last,
  match fan_from left (pv c) (pv last) (map pv before) with
  | Some s => exists p q, last_clockwise left c (rev before ++ [last]) p q /\ s = fan_edge left p q
  | None => forall i p q, step (rev before ++ [last]) i p q -> ~ clockwise left c p q
  end.
Proof.
  induction before as [|x before IH]; intros last; cbn [map fan_from].
  - intros i p q [_ H]. destruct i as [|[|]]; discriminate.
  - assert (ADD : forall i p q, step (rev (x :: before) ++ [last]) i p q -> step (rev before ++ [x]) i p q \/ (i = length before /\ p = x /\ q = last)).
    { intros i p q [X Y]. cbn [rev] in X, Y. assert (IL := nth_step _ _ _ Y). rewrite !app_length, rev_length in IL. cbn [length] in IL. destruct (Nat.eq_dec i (length before)) as [->|D].
      - right. rewrite nth_error_app1 in X by (rewrite app_length, rev_length; cbn; lia). rewrite nth_error_app2 in X by (rewrite rev_length; lia). rewrite rev_length, Nat.sub_diag in X. rewrite nth_error_app2 in Y by (rewrite app_length, rev_length; cbn; lia). rewrite app_length, rev_length in Y. cbn [length] in Y. replace (S (length before) - (length before + 1))%nat with 0%nat in Y by lia. cbn in X, Y. split; [reflexivity|]. split; congruence.
      - left. split; [rewrite nth_error_app1 in X by (rewrite app_length, rev_length; cbn; lia); exact X|rewrite nth_error_app1 in Y by (rewrite app_length, rev_length; cbn; lia); exact Y]. }
    assert (KEEP : forall i p q, step (rev before ++ [x]) i p q -> step (rev (x :: before) ++ [last]) i p q).
    { intros i p q [X Y]. split; cbn [rev]; rewrite nth_error_app1; try assumption; eapply nth_step; eassumption. }
    assert (NEW : step (rev (x :: before) ++ [last]) (length before) x last).
    { split; cbn [rev]; [rewrite nth_error_app1 by (rewrite app_length, rev_length; cbn; lia); rewrite nth_error_app2 by (rewrite rev_length; lia); rewrite rev_length, Nat.sub_diag; reflexivity|]. rewrite nth_error_app2 by (rewrite app_length, rev_length; cbn; lia). rewrite app_length, rev_length. cbn [length]. replace (S (length before) - (length before + 1))%nat with 0%nat by lia. reflexivity. }
    assert (GO : ~ clockwise left c x last ->
      match fan_from left (pv c) (pv x) (map pv before) with
      | Some s => exists p q, last_clockwise left c (rev (x :: before) ++ [last]) p q /\ s = fan_edge left p q
      | None => forall i p q, step (rev (x :: before) ++ [last]) i p q -> ~ clockwise left c p q
      end).
    { intros NC. specialize (IH x). destruct (fan_from left (pv c) (pv x) (map pv before)) as [s|].
      - destruct IH as (p & q & (i & ST & CW & LAST) & E). exists p, q. split; [|exact E]. exists i. split; [apply KEEP; exact ST|]. split; [exact CW|]. intros j p' q' J ST'. destruct (ADD _ _ _ ST') as [S'|(_ & -> & ->)]; [apply (LAST j); assumption|exact NC].
      - intros i p q ST. destruct (ADD _ _ _ ST) as [S'|(_ & -> & ->)]; [apply (IH i); exact S'|exact NC]. }
    destruct (veq (pv x) (pv last)) eqn:V.
    + apply veq_x in V. subst x. apply GO. apply cross_none.
    + apply veq_xf in V. destruct left.
      * destruct (nlt N (signed_area (Tri (pv c) (pv last) (pv x))) n0) eqn:A.
        { apply area_x in A. exists x, last. split; [|reflexivity]. exists (length before). split; [exact NEW|]. split; [unfold clockwise; rewrite cross_anti in A; lra|]. intros j p q J [_ Y]. apply nth_step in Y. rewrite app_length, rev_length in Y. cbn in Y. lia. }
        { apply GO. intros D. unfold clockwise in D. assert (cross (minus last c) (minus x c) < 0) by (rewrite cross_anti; lra). apply area_x in H. congruence. }
      * destruct (nlt N (signed_area (Tri (pv c) (pv x) (pv last))) n0) eqn:A.
        { apply area_x in A. exists x, last. split; [|reflexivity]. exists (length before). split; [exact NEW|]. split; [exact A|]. intros j p q J [_ Y]. apply nth_step in Y. rewrite app_length, rev_length in Y. cbn in Y. lia. }
        { apply GO. intros D. apply area_x in D. congruence. }
Qed.
(** The result is the last part of the outline that makes a clockwise triangle with the center, if there is one *)
Theorem C82_fan (pos : nat -> pt) (left : bool) c (l : list nat) :
  match fan_segment (fun i => pv (pos i)) left (pv c) l with
  | Some s => exists p q, last_clockwise left c (map pos l) p q /\ s = fan_edge left p q
  | None => forall i p q, step (map pos l) i p q -> ~ clockwise left c p q
  end.
Proof.
  unfold fan_segment. rewrite <- (map_map pos pv), <- map_rev. destruct (rev (map pos l)) as [|last before] eqn:R.
  - assert (map pos l = []) as -> by (rewrite <- (rev_involutive (map pos l)), R; reflexivity). cbn. intros i p q [X _]. destruct i; discriminate.
  - cbn [map]. assert (map pos l = rev before ++ [last]) as -> by (rewrite <- (rev_involutive (map pos l)), R; reflexivity). apply fan_from_x.
Qed.

(** what the searches for clockwise triangles return for the line through [L] *)
Definition is_last (left : bool) (c : pt) (L : list pt) (r : option (segment N)) : Prop :=
  match r with
  | Some s => exists p q, last_clockwise left c L p q /\ s = fan_edge left p q
  | None => forall i p q, step L i p q -> ~ clockwise left c p q
  end.
Definition orelse {A} (x y : option A) : option A := match x with Some a => Some a | None => y end.
Lemma step_app1 A B i p q : step A i p q -> step (A ++ B) i p q.
Proof. intros [X Y]. split; rewrite nth_error_app1; try assumption; eapply nth_step; eassumption. Qed.
Lemma step_app2 A B i p q : step B i p q -> step (A ++ B) (length A + i) p q.
Proof. intros [X Y]. split; rewrite nth_error_app2 by lia; [replace (length A + i - length A)%nat with i by lia; exact X|replace (S (length A + i) - length A)%nat with (S i) by lia; exact Y]. Qed.
Lemma step_split A a b B i p q : step ((A ++ [a]) ++ b :: B) i p q -> step (A ++ [a]) i p q \/ (i = length A /\ p = a /\ q = b) \/ exists j, i = (S (length A) + j)%nat /\ step (b :: B) j p q.
Proof.
  intros [X Y]. destruct (lt_eq_lt_dec i (length A)) as [[L|L]|L].
  - left. split; [rewrite nth_error_app1 in X by (rewrite app_length; cbn; lia); exact X|rewrite nth_error_app1 in Y by (rewrite app_length; cbn; lia); exact Y].
  - right. left. subst i. rewrite nth_error_app1 in X by (rewrite app_length; cbn; lia). rewrite nth_error_app2 in X by lia. rewrite Nat.sub_diag in X. rewrite nth_error_app2 in Y by (rewrite app_length; cbn; lia). rewrite app_length in Y. cbn [length] in Y. replace (S (length A) - (length A + 1))%nat with 0%nat in Y by lia. cbn in X, Y. repeat split; congruence.
  - right. right. exists (i - S (length A))%nat. split; [lia|]. rewrite nth_error_app2 in X by (rewrite app_length; cbn; lia). rewrite nth_error_app2 in Y by (rewrite app_length; cbn; lia). rewrite app_length in X, Y. cbn [length] in X, Y. split; [rewrite <- X; f_equal; lia|rewrite <- Y; f_equal; lia].
Qed.
Lemma is_last_join left c A a b B rA rM rB : is_last left c (A ++ [a]) rA -> is_last left c [a; b] rM -> is_last left c (b :: B) rB -> is_last left c ((A ++ [a]) ++ b :: B) (orelse rB (orelse rM rA)).
Proof.
  intros HA HM HB. assert (MID : step ((A ++ [a]) ++ b :: B) (length A) a b). { split; [rewrite nth_error_app1 by (rewrite app_length; cbn; lia); rewrite nth_error_app2 by lia; rewrite Nat.sub_diag; reflexivity|]. rewrite nth_error_app2 by (rewrite app_length; cbn; lia). rewrite app_length. cbn [length]. replace (S (length A) - (length A + 1))%nat with 0%nat by lia. reflexivity. }
  destruct rB as [s|]; cbn [orelse].
  { destruct HB as (p & q & (i & ST & CW & LAST) & E). exists p, q. split; [|exact E]. exists (length (A ++ [a]) + i)%nat. split; [apply step_app2; exact ST|]. split; [exact CW|]. rewrite app_length. cbn [length]. intros j p' q' J ST'. destruct (step_split _ _ _ _ _ _ _ ST') as [[_ Y]|[(-> & _ & _)|(j' & -> & ST2)]]; [apply nth_step in Y; rewrite app_length in Y; cbn in Y; lia|lia|apply (LAST j'); [lia|exact ST2]]. }
  cbn in HB. destruct rM as [s|]; cbn [orelse].
  { destruct HM as (p & q & (i & ST & CW & LAST) & E). assert (i = 0%nat) by (destruct ST as [_ Y]; apply nth_step in Y; cbn in Y; lia). subst i. destruct ST as [X Y]. cbn in X, Y. injection X as <-. injection Y as <-. exists a, b. split; [|exact E]. exists (length A). split; [exact MID|]. split; [exact CW|]. intros j p' q' J ST'. destruct (step_split _ _ _ _ _ _ _ ST') as [[_ Y]|[(-> & _ & _)|(j' & -> & ST2)]]; [apply nth_step in Y; rewrite app_length in Y; cbn in Y; lia|lia|apply (HB j'); exact ST2]. }
  assert (NM : ~ clockwise left c a b) by (apply (HM 0%nat); split; reflexivity). destruct rA as [s|].
  { destruct HA as (p & q & (i & ST & CW & LAST) & E). exists p, q. split; [|exact E]. exists i. split; [apply step_app1; exact ST|]. split; [exact CW|]. intros j p' q' J ST'. destruct (step_split _ _ _ _ _ _ _ ST') as [S1|[(-> & -> & ->)|(j' & -> & ST2)]]; [apply (LAST j); assumption|exact NM|apply (HB j'); exact ST2]. }
  intros i p q ST. destruct (step_split _ _ _ _ _ _ _ ST) as [S1|[(_ & -> & ->)|(j & _ & S2)]]; [apply (HA i); exact S1|exact NM|apply (HB j); exact S2].
Qed.
Lemma is_last_short left c L : (length L <= 1)%nat -> is_last left c L None. Proof. intros H i p q [_ Y]. apply nth_step in Y. lia. Qed.

Lemma hidden_app ds d i : hidden (ds ++ [d]) i = hidden ds i || ((fst d <? i)%nat && (i <? snd d)%nat).
Proof. unfold hidden. rewrite existsb_app. cbn. rewrite orb_false_r. reflexivity. Qed.
Lemma in_order_app : forall ds d from, in_order from (ds ++ [d]) -> in_order from ds /\ (fst d < snd d)%nat /\ (from <= fst d)%nat /\ forall e, In e ds -> (snd e <= fst d)%nat.
Proof.
  induction ds as [|e ds IH]; intros d from H; cbn in *.
  - split; [exact I|]. split; [lia|]. split; [lia|]. contradiction.
  - destruct H as [H1 H2]. destruct (IH d _ H2) as (A & B & C & D). split; [split; assumption|]. split; [exact B|]. split; [lia|]. intros x [<-|X]; [exact C|apply D; exact X].
Qed.
Lemma hidden_after ds i m : (forall e, In e ds -> (snd e <= m)%nat) -> (m <= i)%nat -> hidden ds i = false.
Proof. intros H L. unfold hidden. apply not_true_iff_false. intros E. apply existsb_exists in E. destruct E as (e & IE & X). apply andb_true_iff in X. destruct X as [_ X]. apply Nat.ltb_lt in X. specialize (H e IE). lia. Qed.
Lemma visible_split ds f k m : (f <= S k)%nat -> (k <= m)%nat -> visible ds f m = visible ds f k ++ visible ds (S k) m.
Proof. intros A B. unfold visible. rewrite <- filter_app. f_equal. replace (m + 1 - f)%nat with ((k + 1 - f) + (m + 1 - S k))%nat by lia. rewrite seq_app. f_equal. f_equal. lia. Qed.
Lemma visible_ext ds ds' f m : (forall i, (f <= i <= m)%nat -> hidden ds i = hidden ds' i) -> visible ds f m = visible ds' f m.
Proof. intros H. unfold visible. apply filter_ext_in. intros i I. apply in_seq in I. rewrite H by lia. reflexivity. Qed.
Lemma visible_all ds f m : (forall i, (f <= i <= m)%nat -> hidden ds i = false) -> visible ds f m = seq f (m + 1 - f).
Proof.
  intros H. unfold visible. assert (G : forall n f', (forall i, (f' <= i < f' + n)%nat -> hidden ds i = false) -> filter (fun i => negb (hidden ds i)) (seq f' n) = seq f' n).
  { induction n as [|n IH]; intros f' A; [reflexivity|]. cbn. rewrite A by lia. cbn. f_equal. apply IH. intros i B. apply A. lia. }
  apply G. intros i B. apply H. lia.
Qed.
Lemma visible_none ds f m : (forall i, (f <= i <= m)%nat -> hidden ds i = true) -> visible ds f m = [].
Proof.
  intros H. unfold visible. assert (G : forall n f', (forall i, (f' <= i < f' + n)%nat -> hidden ds i = true) -> filter (fun i => negb (hidden ds i)) (seq f' n) = []).
  { induction n as [|n IH]; intros f' A; [reflexivity|]. cbn. rewrite A by lia. cbn. apply IH. intros i B. apply A. lia. }
  apply G. intros i B. apply H. lia.
Qed.
Lemma visible_empty ds f m : (m < f)%nat -> visible ds f m = []. Proof. intros H. apply visible_none. lia. Qed.

Section Multi.
Variable pos : nat -> pt.
Variable s : side.
Variable c : pt.
Variables first last : nat.
Notation idx := (side_indices s).
Notation left := (side_left s).
(** the point at an offset *)
Definition point_at (i : nat) : pt := pos (nth i idx 0%nat).
Notation fan := (fan_segment (fun i => pv (pos i)) left (pv c)).

Lemma between_x f l : (f <= l)%nat -> (l < length idx)%nat -> map pos (between idx f l) = map point_at (seq f (l + 1 - f)).
Proof.
  intros A B. unfold between. apply nth_ext with (d := pos 0%nat) (d' := point_at 0); [rewrite !map_length, seq_length, firstn_length, skipn_length; lia|]. intros n Hn. rewrite map_length, firstn_length, skipn_length in Hn. rewrite (map_nth pos _ 0%nat). rewrite (map_nth point_at _ 0%nat). rewrite seq_nth by lia. unfold point_at. f_equal. generalize (nth_part idx f (l - f + 1) n ltac:(lia)). unfold part. intros E. apply nth_error_nth with (d := 0%nat). rewrite E. apply nth_error_nth'. lia.
Qed.
Lemma fan_between f l : (f <= l)%nat -> (l < length idx)%nat -> is_last left c (map point_at (seq f (l + 1 - f))) (fan (between idx f l)).
Proof. intros A B. rewrite <- between_x by assumption. apply C82_fan. Qed.
Lemma visible_end ds f m : (f <= m)%nat -> hidden ds m = false -> visible ds f m = visible ds f (m - 1) ++ [m] \/ visible ds f m = [m].
Proof.
  intros A H. destruct (Nat.eq_dec f m) as [->|D].
  - right. unfold visible. replace (m + 1 - m)%nat with 1%nat by lia. cbn. rewrite H. reflexivity.
  - left. rewrite (visible_split ds f (m - 1) m) by lia. f_equal. replace (S (m - 1)) with m by lia. unfold visible. replace (m + 1 - m)%nat with 1%nat by lia. cbn. rewrite H. reflexivity.
Qed.
Lemma sections_x : forall ds upper, in_order 0 ds -> (forall e, In e ds -> (snd e <= upper)%nat) -> (upper < length idx)%nat ->
  is_last left c (map point_at (visible ds first (Nat.min upper last))) (sections (fun i => pv (pos i)) s (pv c) first last upper (rev ds)).
Proof.
  induction ds as [|[from to] ds IH] using rev_ind; intros upper OR UP LE.
  - cbn [rev sections]. rewrite visible_all by (intros; reflexivity). destruct (Nat.leb_spec (Nat.min upper last) first) as [L|L].
    + apply is_last_short. rewrite map_length, seq_length. lia.
    + apply fan_between; lia.
  - rewrite rev_app_distr. cbn [rev app sections]. destruct (in_order_app _ _ _ OR) as (OR' & FT & _ & BEF). cbn [fst snd] in FT, BEF. assert (TU : (to <= upper)%nat) by (apply (UP (from, to)); apply in_or_app; right; left; reflexivity).
    specialize (IH from OR' BEF ltac:(lia)).
    destruct (Nat.ltb_spec upper first) as [L1|L1]. { rewrite visible_empty by lia. apply is_last_short. cbn. lia. }
    assert (HB : forall i, (i <= from)%nat -> hidden (ds ++ [(from, to)]) i = hidden ds i). { intros i Hi. rewrite hidden_app. cbn [fst snd]. replace (from <? i)%nat with false by (symmetry; apply Nat.ltb_ge; lia). rewrite andb_false_l, orb_false_r. reflexivity. }
    assert (HM : forall i, (from < i < to)%nat -> hidden (ds ++ [(from, to)]) i = true). { intros i Hi. rewrite hidden_app. cbn [fst snd]. replace (from <? i)%nat with true by (symmetry; apply Nat.ltb_lt; lia). replace (i <? to)%nat with true by (symmetry; apply Nat.ltb_lt; lia). apply orb_true_r. }
    assert (HA : forall i, (to <= i)%nat -> hidden (ds ++ [(from, to)]) i = false). { intros i Hi. rewrite hidden_app. cbn [fst snd]. replace (i <? to)%nat with false by (symmetry; apply Nat.ltb_ge; lia). rewrite andb_false_r, orb_false_r. apply (hidden_after ds i from BEF). lia. }
    destruct (Nat.ltb_spec (Nat.min upper last) (Nat.max to first)) as [L2|L2].
    + replace (visible (ds ++ [(from, to)]) first (Nat.min upper last)) with (visible ds first (Nat.min from last)); [exact IH|]. symmetry. destruct (le_lt_dec first (Nat.min upper last)) as [L3|L3]; [|rewrite !visible_empty by lia; reflexivity]. assert (last < to)%nat by lia. destruct (le_lt_dec last from) as [L4|L4].
      * replace (Nat.min upper last) with last by lia. replace (Nat.min from last) with last by lia. apply visible_ext. intros i Hi. apply HB. lia.
      * replace (Nat.min upper last) with last by lia. replace (Nat.min from last) with from by lia. destruct (le_lt_dec first from) as [L5|L5].
        { rewrite (visible_split _ first from last) by lia. rewrite (visible_none _ (S from) last) by (intros i Hi; apply HM; lia). rewrite app_nil_r. apply visible_ext. intros i Hi. apply HB. lia. }
        { rewrite (visible_none _ first last) by (intros i Hi; apply HM; lia). rewrite visible_empty by lia. reflexivity. }
    + assert (FB := fan_between (Nat.max to first) (Nat.min upper last) L2 ltac:(lia)). destruct (Nat.leb_spec first from) as [L3|L3].
      * replace (Nat.max to first) with to in * by lia. assert (E1 : nth_error idx from = Some (nth from idx 0%nat)) by (apply nth_error_nth'; lia). assert (E2 : nth_error idx to = Some (nth to idx 0%nat)) by (apply nth_error_nth'; lia). rewrite E1, E2.
        replace (Nat.min from last) with from in IH by lia. assert (HF : hidden ds from = false) by (apply (hidden_after ds from from BEF); lia).
        assert (VS : visible (ds ++ [(from, to)]) first (Nat.min upper last) = visible ds first from ++ seq to (Nat.min upper last + 1 - to)).
        { rewrite (visible_split _ first from) by lia. f_equal; [apply visible_ext; intros i Hi; apply HB; lia|]. rewrite (visible_split _ (S from) (to - 1)) by lia. rewrite (visible_none _ (S from) (to - 1)) by (intros i Hi; apply HM; lia). cbn [app]. replace (S (to - 1)) with to by lia. apply visible_all. intros i Hi. apply HA. lia. }
        rewrite VS, map_app. assert (MF := C82_fan pos left c [nth from idx 0%nat; nth to idx 0%nat]). fold (is_last left c (map pos [nth from idx 0%nat; nth to idx 0%nat]) (fan [nth from idx 0%nat; nth to idx 0%nat])) in MF. cbn [map] in MF. fold (point_at from) in MF. fold (point_at to) in MF.
        destruct (Nat.min upper last + 1 - to)%nat as [|n] eqn:NN; [lia|]. cbn [seq map] in FB |- *.
        assert (exists A, map point_at (visible ds first from) = A ++ [point_at from]) as (A & EA). { destruct (visible_end ds first from L3 HF) as [->| ->]; [exists (map point_at (visible ds first (from - 1))); rewrite map_app; reflexivity|exists []; reflexivity]. }
        rewrite EA in *. exact (is_last_join left c A (point_at from) (point_at to) _ _ _ _ IH MF FB).
      * rewrite (visible_empty ds first) in IH by lia. assert (VS : visible (ds ++ [(from, to)]) first (Nat.min upper last) = seq (Nat.max to first) (Nat.min upper last + 1 - Nat.max to first)).
        { destruct (le_lt_dec to first) as [L4|L4]; [replace (Nat.max to first) with first by lia; apply visible_all; intros i Hi; apply HA; lia|]. replace (Nat.max to first) with to by lia. rewrite (visible_split _ first (to - 1)) by lia. rewrite (visible_none _ first (to - 1)) by (intros i Hi; apply HM; lia). cbn [app]. replace (S (to - 1)) with to by lia. apply visible_all. intros i Hi. apply HA. lia. }
        rewrite VS. destruct (fan (between idx (Nat.max to first) (Nat.min upper last))) as [x|]; [exact FB|]. 
        destruct (sections (fun i => pv (pos i)) s (pv c) first last from (rev ds)) as [x|]; [|exact FB]. exfalso. destruct IH as (p & q & (i & [X _] & _) & _). destruct i; discriminate.
Qed.
(** The same along a range of a side without the vertices within its discontinuities *)
Theorem C82_multi : in_order 0 (side_discontinuities s) -> (forall e, In e (side_discontinuities s) -> (snd e < length idx)%nat) ->
  is_last left c (map point_at (visible (side_discontinuities s) first (Nat.min (length idx - 1) last))) (multi_fan_segment (fun i => pv (pos i)) s first last (pv c)).
Proof.
  intros OR UP. unfold multi_fan_segment. destruct idx as [|x l] eqn:E.
  - rewrite <- E in *. destruct (side_discontinuities s) as [|d ds]; [|specialize (UP d (or_introl eq_refl)); rewrite E in UP; cbn in UP; lia]. apply is_last_short. rewrite map_length. unfold visible, hidden. cbn [existsb]. rewrite E. cbn [length Nat.sub Nat.min]. destruct (0 + 1 - first)%nat as [|[|]] eqn:Q; cbn; lia.
  - rewrite <- E in *. destruct (Nat.leb_spec last first) as [L|L].
    + apply is_last_short. rewrite map_length. unfold visible. assert (Q : (Nat.min (length idx - 1) last + 1 - first <= 1)%nat) by lia. destruct (Nat.min (length idx - 1) last + 1 - first)%nat as [|[|]]; [cbn; lia| |lia]. cbn. destruct (negb _); cbn; lia.
    + apply sections_x; [exact OR| |rewrite E; cbn; lia]. intros e I. specialize (UP e I). lia.
Qed.
End Multi.

(** ** Coincident vertices *)
Section Coincident.
Context {M : num}.
Variable pos : nat -> vec M.
Variable category : nat -> forward.
(** consecutive vertices that are not of one run *)
Definition boundary (a b : nat) : Prop := category b = Front /\ category a <> Front.
Lemma coincident_from_x position : forall before i c, i = length before -> forall index, category index = c ->
  let r := coincident_from pos category position c i before in
  (r <= i)%nat /\ (forall j x, (r <= j)%nat -> nth_error (rev before ++ [index]) j = Some x -> (j < i)%nat -> veq (pos x) position = true) /\
  (forall j x y, (r <= j)%nat -> nth_error (rev before ++ [index]) j = Some x -> nth_error (rev before ++ [index]) (S j) = Some y -> ~ boundary x y) /\
  (r = 0%nat \/ exists x y, nth_error (rev before ++ [index]) (r - 1) = Some x /\ nth_error (rev before ++ [index]) r = Some y /\ (veq (pos x) position = false \/ boundary x y)).
Proof.
  induction before as [|x before IH]; intros i c E index C r; cbn [coincident_from] in r.
  - subst r. split; [lia|]. split; [intros; cbn in E; lia|]. split; [|left; reflexivity]. intros j x y _ _ Y. apply nth_step in Y. cbn in Y. lia.
  - cbn [length] in E. assert (LR : length (rev before ++ [x]) = i) by (rewrite app_length, rev_length; cbn; lia). assert (N1 : forall j, (j < i)%nat -> nth_error (rev (x :: before) ++ [index]) j = nth_error (rev before ++ [x]) j). { intros j J. cbn [rev]. apply nth_error_app1. lia. } assert (N2 : nth_error (rev (x :: before) ++ [index]) i = Some index). { cbn [rev]. rewrite nth_error_app2 by lia. rewrite LR, Nat.sub_diag. reflexivity. } assert (N3 : nth_error (rev before ++ [x]) (i - 1) = Some x). { rewrite nth_error_app2 by (rewrite rev_length; lia). rewrite rev_length. replace (i - 1 - length before)%nat with 0%nat by lia. reflexivity. }
    destruct (negb (veq (pos x) position) || (negb (same_forward (category x) c) && is_front c)) eqn:D.
    + subst r. split; [lia|]. split; [intros; lia|]. split.
      * intros j y z J _ Z. apply nth_step in Z. cbn [rev] in Z. rewrite !app_length, rev_length in Z. cbn in Z. lia.
      * right. exists x, index. rewrite N1 by lia. split; [exact N3|]. split; [exact N2|]. apply orb_true_iff in D. destruct D as [D|D]; [left; apply negb_true_iff; exact D|]. right. apply andb_true_iff in D. destruct D as [D1 D2]. unfold boundary. rewrite C. destruct c; try discriminate. split; [reflexivity|]. intros F. rewrite F in D1. discriminate.
    + apply orb_false_iff in D. destruct D as [D1 D2]. apply negb_false_iff in D1. destruct (IH (i - 1)%nat (category x) ltac:(lia) x eq_refl) as (R1 & R2 & R3 & R4). fold r in R1, R2, R3, R4.
      assert (NB : ~ boundary x index). { intros [F G]. rewrite C in F. subst c. rewrite F in D2. cbn in D2. rewrite andb_true_r in D2. apply negb_false_iff in D2. destruct (category x); try discriminate. apply G. reflexivity. }
      split; [lia|]. split; [|split].
      * intros j y J Y L. rewrite N1 in Y by exact L. destruct (Nat.eq_dec j (i - 1)) as [->|D]; [rewrite N3 in Y; injection Y as <-; exact D1|]. apply (R2 j y J Y). lia.
      * intros j y z J Y Z. assert (ZL := nth_step _ _ _ Z). cbn [rev] in ZL. rewrite app_length, LR in ZL. cbn in ZL. destruct (Nat.eq_dec (S j) i) as [DI|DI].
        { rewrite N1 in Y by lia. replace j with (i - 1)%nat in Y by lia. rewrite N3 in Y. injection Y as <-. rewrite DI, N2 in Z. injection Z as <-. exact NB. }
        { rewrite N1 in Y by lia. rewrite N1 in Z by lia. apply (R3 j y z J Y Z). }
      * destruct R4 as [R4|(y & z & Y & Z & Q)]; [left; exact R4|right]. exists y, z. rewrite !N1 by lia. auto.
Qed.
(** The start of the run: all its vertices are at the position of the given one, none of its neighbours is a boundary between partitions, and the vertex before it
    is elsewhere or of another partition.  The check fails if the offset is not that of a vertex *)
Theorem C82_coincident (l : list nat) offset :
  match coincident_start pos category l offset with
  | None => (length l <= offset)%nat
  | Some r => exists index, nth_error l offset = Some index /\ (r <= offset)%nat /\ (forall j x, (r <= j < offset)%nat -> nth_error l j = Some x -> veq (pos x) (pos index) = true) /\
      (forall j x y, (r <= j < offset)%nat -> nth_error l j = Some x -> nth_error l (S j) = Some y -> ~ boundary x y) /\
      (r = 0%nat \/ exists x y, nth_error l (r - 1) = Some x /\ nth_error l r = Some y /\ (veq (pos x) (pos index) = false \/ boundary x y))
  end.
Proof.
  unfold coincident_start. destruct (nth_error l offset) as [index|] eqn:E; [|apply nth_error_None; exact E]. exists index. split; [reflexivity|]. assert (OL := nth_step _ _ _ E). assert (LB : length (rev (firstn offset l)) = offset) by (rewrite rev_length, firstn_length; lia).
  destruct (coincident_from_x (pos index) (rev (firstn offset l)) offset (category index) (eq_sym LB) index eq_refl) as (R1 & R2 & R3 & R4). rewrite rev_involutive in R2, R3, R4. set (r := coincident_from pos category (pos index) (category index) offset (rev (firstn offset l))) in *.
  assert (NE : forall j, (j <= offset)%nat -> nth_error (firstn offset l ++ [index]) j = nth_error l j).
  { intros j J. rewrite rev_length in LB. destruct (Nat.eq_dec j offset) as [->|D]; [rewrite nth_error_app2 by lia; rewrite LB, Nat.sub_diag; symmetry; exact E|]. rewrite nth_error_app1 by lia. exact (nth_part l 0 offset j ltac:(lia)). }
  split; [exact R1|]. split; [|split].
  - intros j x J X. apply (R2 j x); [lia|rewrite NE by lia; exact X|lia].
  - intros j x y J X Y. apply (R3 j x y); [lia|rewrite NE by lia; exact X|rewrite NE by lia; exact Y].
  - destruct R4 as [R4|(x & y & X & Y & Q)]; [left; exact R4|right]. rewrite NE in X, Y by lia. exists x, y. auto.
Qed.
End Coincident.

(** ** The first vertices on the exterior *)
Section Exterior.
Variable exterior is_left : nat -> bool.
Notation good_l := (fun i => is_left i && exterior i).
Notation good_r := (fun i => negb (is_left i) && exterior i).
Lemma first_app {A} (good : A -> bool) l l' x y : first_with good l x -> first_with good l' y -> first_with good (l ++ l') (orelse x y).
Proof.
  intros X Y. destruct x as [x|]; cbn [orelse].
  - destruct X as (b & a & -> & G & F). exists b, (a ++ l'). rewrite <- app_assoc. auto.
  - destruct y as [y|]; cbn in *; [|intros z I; apply in_app_or in I; destruct I; auto]. destruct Y as (b & a & -> & G & F). exists (l ++ b), a. rewrite app_assoc. split; [reflexivity|]. split; [exact G|]. intros z I. apply in_app_or in I. destruct I; auto.
Qed.
Lemma note_x l done x y : first_with good_l done x -> first_with good_r done y -> first_with good_l (done ++ l) (fst (fold_left (note_vertex exterior is_left) l (x, y))) /\ first_with good_r (done ++ l) (snd (fold_left (note_vertex exterior is_left) l (x, y))).
Proof.
  revert done x y. induction l as [|i l IH]; intros done x y X Y; [rewrite app_nil_r; cbn; auto|]. cbn [fold_left]. replace (done ++ i :: l) with ((done ++ [i]) ++ l) by (rewrite <- app_assoc; reflexivity).
  assert (exists x' y', note_vertex exterior is_left (x, y) i = (x', y') /\ first_with good_l (done ++ [i]) x' /\ first_with good_r (done ++ [i]) y') as (x' & y' & -> & X' & Y'); [|apply IH; assumption].
  assert (GL : first_with good_l [i] (if is_left i && exterior i then Some i else None)). { destruct (is_left i && exterior i) eqn:D; [exists [], []; cbn; split; [reflexivity|split; [exact D|contradiction]]|intros z [<-|[]]; exact D]. }
  assert (GR : first_with good_r [i] (if negb (is_left i) && exterior i then Some i else None)). { destruct (negb (is_left i) && exterior i) eqn:D; [exists [], []; cbn; split; [reflexivity|split; [exact D|contradiction]]|intros z [<-|[]]; exact D]. }
  assert (AL := first_app _ _ _ _ _ X GL). assert (AR := first_app _ _ _ _ _ Y GR). unfold note_vertex. cbn [fst snd]. destruct (is_left i); cbn [negb andb] in AL, AR; destruct x, y, (exterior i); cbn [orelse] in AL, AR; eexists; eexists; (split; [reflexivity|split; assumption]).
Qed.
(** For each side the first vertex of the triangles from the given one on that is on the exterior *)
Theorem C82_exterior (triangles : list (list nat)) starting : let r := first_exterior exterior is_left triangles starting in
  first_with good_l (concat (skipn starting triangles)) (fst r) /\ first_with good_r (concat (skipn starting triangles)) (snd r).
Proof.
  unfold first_exterior. generalize (skipn starting triangles) as ts. intros ts. assert (G : forall ts done x y, first_with good_l done x -> first_with good_r done y -> first_with good_l (done ++ concat ts) (fst (exterior_from exterior is_left ts (x, y))) /\ first_with good_r (done ++ concat ts) (snd (exterior_from exterior is_left ts (x, y)))).
  { clear ts. induction ts as [|t ts IH]; intros done x y X Y; [cbn; rewrite app_nil_r; auto|]. cbn [exterior_from concat]. destruct (note_x t done x y X Y) as [X' Y']. rewrite app_assoc. destruct (fold_left (note_vertex exterior is_left) t (x, y)) as [x' y']. cbn [fst snd] in X', Y'. assert (R := IH (done ++ t) x' y' X' Y'). destruct x' as [x'|]; [|exact R]. destruct y' as [y'|]; [|exact R]. cbn [fst snd].
    clear R. destruct X' as (b & a & E & G & F). destruct Y' as (b' & a' & E' & G' & F'). split; [exists b, (a ++ concat ts); rewrite E, <- app_assoc; auto|exists b', (a' ++ concat ts); rewrite E', <- app_assoc; auto]. }
  apply (G ts [] None None); intros y [].
Qed.
End Exterior.

(** ** With the intersection of C83 *)
Definition hit_legacy (exponent : segment N -> segment N -> Z) (s1 s2 : segment N) : option (T N * T N) :=
  match legacy_intersection (N := N) same same exponent s1 s2 with Some (((t, _), (u, _)), _) => Some (t, u) | None => None end.
Theorem C82_legacy exponent : finds_first (hit_legacy exponent).
Proof.
  intros p q a b. unfold hit_legacy. pose proof (C83_intersection exponent p q a b) as H. destruct (legacy_intersection same same exponent (sg p q) (sg a b)) as [[[[t0 t1] [u0 u1]] s]|]; [|exact H].
  destruct H as (x & x' & y & y' & -> & _ & -> & _ & (T & T1 & U & _ & E & _ & ALL) & _). exists x, y. split; [reflexivity|]. split; [reflexivity|]. split; [lra|]. split; [exact U|]. split; [exact E|]. intros t' T' S. apply (ALL t' T' S).
Qed.
(** "If the outline consists of only one index (...), the result will be the last vertex to lie on [segment]": its position is not that of the vertex, but the origin *)
Theorem C82_position_refuted exponent p a b : a <> b -> seg_set a b p -> exists t u, find_intersection (N := N) (fun _ => pv p) (hit_legacy exponent) (Outline [0%nat] 0 1 [] 0 0) (sg a b) None (Fin 1) = Some (shown (Some (0%nat, 0%nat, t, u, P 0 0)) 1).
Proof.
  intros AB S. assert (O : visits (Outline [0%nat] 0 1 [] 0 0) [0%nat]) by (apply (C82_outline [0%nat] 0 1 [] 0 0); cbn; lia). destruct (C82_find (hit_legacy exponent) (C82_legacy exponent) (fun _ => p) _ _ O a b None 1) as (r & rest & E & A).
  pose proof (C82_legacy exponent p p a b) as F. destruct (hit_legacy exponent (sg p p) (sg a b)) as [[t u]|]; [|exfalso; apply F; exists p; split; [exists 0; split; [lra|rewrite mix_same; reflexivity]|exact S]]. destruct F as (t' & u' & _ & _ & F).
  assert (A' : along [p] a b (region None) 1 (Some ((length [p] - 1)%nat, (length [p] - 1)%nat, t', u', P 0 0)) 1) by (apply (AlongSingle _ _ _ _ _ p); [discriminate|intros q [<-|[]]; reflexivity|lra|exact F]).
  destruct (C82_unique _ _ _ _ _ _ _ _ _ AB A A') as [-> ->]. exists t', u'. exact E.
Qed.
(** "all outline positions from the start to the intersection must be contained in the triangle": neither the start nor the intersection need be *)
Theorem C82_triangle_refuted exponent : exists (pos : nat -> pt) r rest, find_intersection (N := N) (fun i => pv (pos i)) (hit_legacy exponent) (Outline [0; 1]%nat 0 2 [] 0 0) (sg (P 0 (-1)) (P 0 1)) (Some (tr (P 2 0) (P 3 0) (P 2 1))) (Fin 5) = Some (shown (Some r) rest) /\
  ~ tri_set (P 2 0) (P 3 0) (P 2 1) (pos 1%nat) /\ ~ tri_set (P 2 0) (P 3 0) (P 2 1) (snd r).
Proof.
  assert (O : visits (Outline [0; 1]%nat 0 2 [] 0 0) [1; 0]%nat) by (apply (C82_outline [0; 1]%nat 0 2 [] 0 0); cbn; lia). set (pos := fun i : nat => match i with O => P 1 0 | _ => P (-1) 0 end). destruct (C82_find (hit_legacy exponent) (C82_legacy exponent) pos _ _ O (P 0 (-1)) (P 0 1) (Some (P 2 0, P 3 0, P 2 1)) 5) as (r & rest & E & A).
  assert (F : first_at (P (-1) 0) (P 1 0) (P 0 (-1)) (P 0 1) (1 / 2) (1 / 2)). { split; [lra|]. split; [lra|]. split; [unfold mix; cbn; f_equal; lra|]. intros t' T (s & S & Q). unfold mix in Q. cbn in Q. injection Q as X Y. lra. }
  assert (A' : along (map pos [1; 0]%nat) (P 0 (-1)) (P 0 1) (region (Some (P 2 0, P 3 0, P 2 1))) 5 (Some (0%nat, 1%nat, 1 / 2, 1 / 2, mix (1 / 2) (P (-1) 0) (P 1 0))) (Rmax 0 (5 - (length_to (map pos [1; 0]%nat) 0 + 1 / 2 * far (P (-1) 0) (P 1 0))))).
  { apply AlongMeets; [split; reflexivity|intros D; injection D as D; lra|intros j p q J; lia|intros j p q J; lia|cbn; lra|exact F]. }
  assert (AB : P 0 (-1) <> P 0 1) by (intros D; injection D as D; lra). destruct (C82_unique _ _ _ _ _ _ _ _ _ AB A A') as [-> ->]. eexists pos, _, _. split; [exact E|]. split; intros (u & v & w & U & V & W & S & X); apply (f_equal px) in X; cbn in X; lra.
Qed.
(** A stroke with three vertices on one side and two on the other, and a segment that meets the part that connects the sides *)
Definition example_pos (i : nat) : pt := match i with 0 => P 0 0 | 1 => P 0 1 | 2 => P 0 2 | 3 => P 2 0 | _ => P 2 2 end%nat.
Definition example_left : side := Side true [0; 1; 2]%nat None 0 0 true [].
Definition example_right : side := Side false [3; 4]%nat None 0 0 true [].
Example C82_example exponent : visits (construct_outline example_left example_right) [2; 1; 0; 3; 4]%nat /\
  find_intersection (N := N) (fun i => pv (example_pos i)) (hit_legacy exponent) (construct_outline example_left example_right) (sg (P 1 (-1)) (P 1 1)) None (Fin 10) = Some (shown (Some (2%nat, 3%nat, 1 / 2, 1 / 2, P 1 0)) 7).
Proof.
  assert (O : visits (construct_outline example_left example_right) [2; 1; 0; 3; 4]%nat). { apply (C82_construct example_left example_right); cbn; lia. } split; [exact O|].
  destruct (C82_find (hit_legacy exponent) (C82_legacy exponent) example_pos _ _ O (P 1 (-1)) (P 1 1) None 10) as (r & rest & E & A).
  assert (F : first_at (P 0 0) (P 2 0) (P 1 (-1)) (P 1 1) (1 / 2) (1 / 2)). { split; [lra|]. split; [lra|]. split; [unfold mix; cbn; f_equal; lra|]. intros t' T (s & S & Q). unfold mix in Q. cbn in Q. injection Q as X Y. lra. }
  assert (R0 : forall x y, 0 <= x -> x * x = y -> sqrt y = x) by (intros x y X <-; apply sqrt_square; exact X).
  assert (L : length_to (map example_pos [2; 1; 0; 3; 4]%nat) 2 = 2). { cbn. unfold far, inner, minus. cbn. rewrite !(R0 1) by lra. lra. }
  assert (W : far (P 0 0) (P 2 0) = 2). { unfold far, inner, minus. cbn. apply R0; lra. }
  assert (A' : along (map example_pos [2; 1; 0; 3; 4]%nat) (P 1 (-1)) (P 1 1) (region None) 10 (Some (2%nat, 3%nat, 1 / 2, 1 / 2, mix (1 / 2) (P 0 0) (P 2 0))) (Rmax 0 (10 - (length_to (map example_pos [2; 1; 0; 3; 4]%nat) 2 + 1 / 2 * far (P 0 0) (P 2 0))))).
  { apply AlongMeets; [split; reflexivity|intros D; injection D as D; lra| |intros j p q J _ _; exact I|rewrite L; lra|exact F]. intros j p q J [X Y] _ (z & (t & T & ->) & (s & S & Q)). destruct j as [|[|j]]; [| |lia]; cbn in X, Y; injection X as <-; injection Y as <-; unfold mix in Q; cbn in Q; injection Q as Q1 Q2; lra. }
  assert (AB : P 1 (-1) <> P 1 1) by (intros D; injection D as D; lra). destruct (C82_unique _ _ _ _ _ _ _ _ _ AB A A') as [-> ->]. cbn [region_x option_map] in E. rewrite E. f_equal. rewrite L, W, Rmax_right by lra. f_equal; [|f_equal; lra]. unfold mix. cbn. do 3 f_equal; unfold pv; cbn; repeat f_equal; lra.
Qed.
(** a fan on the right whose middle part turns the wrong way, and the same part hidden by a discontinuity *)
Example C82_fan_example : clockwise false (P 0 0) (P 1 1) (P 2 1) /\ ~ clockwise false (P 0 0) (P 1 0) (P 1 1). Proof. unfold clockwise, cross, minus. cbn. split; lra. Qed.
Example C82_multi_example : in_order 0 [(1, 3)]%nat /\ visible [(1, 3)]%nat 0 4 = [0; 1; 3; 4]%nat. Proof. cbn. split; [lia|reflexivity]. Qed.
Example C82_coincident_example : coincident_start (N := N) (fun _ => pv (P 0 0)) (fun i => if (i <? 2)%nat then Back else Front) [0; 1; 2; 3]%nat 3 = Some 2%nat.
Proof. unfold coincident_start. cbn [nth_error firstn rev app coincident_from]. rewrite !(proj2 (veq_x _ _) eq_refl). reflexivity. Qed.
Example C82_exterior_example : first_exterior (fun i => (2 <? i)%nat) Nat.even [[0; 1; 2]; [2; 1; 3]; [2; 3; 4]; [4; 3; 5]]%nat 1 = (Some 4, Some 3)%nat. Proof. reflexivity. Qed.
Print Assumptions C82_outline. Print Assumptions C82_construct. Print Assumptions C82_find. Print Assumptions C82_unique. Print Assumptions C82_legacy. Print Assumptions C82_fan. Print Assumptions C82_multi. Print Assumptions C82_coincident. Print Assumptions C82_exterior. Print Assumptions C82_position_refuted. Print Assumptions C82_triangle_refuted.
