(** C66: the outline buffer of a stroke hands out exactly the indices that were
    added and not truncated, whatever was added and truncated and however often
    its storage had to grow; it never reads or writes outside of its storage or
    hands out an unwritten cell; and it grows rarely. *)

From Coq Require Import Arith Lia Bool List.
From Verif Require Import StrokeOutlineModel StrokeOutlineSpec.
Import ListNotations.

(** The operation of the code that a request stands for. *)
Definition op_of {A : Type} (q : request A) : op A :=
  match q with
  | Add l r => Append l r
  | Keep nl nr => Truncate nl nr
  end.

Section Proofs.
Variable A : Type.
Implicit Types (s : storage A) (L R : list A) (d : list (option A)).

(** The storage holds the two lists around the middle of an array of even
    size. *)
Definition holds s L R : Prop :=
  exists half pre post,
    capacity s = 2 * half /\
    data s = pre ++ map Some (rev R ++ L) ++ post /\
    left_used s = length L /\ right_used s = length R /\
    length pre + length R = half /\ length post + length L = half.

Lemma half_twice n : 2 * n / 2 = n.
Proof. rewrite Nat.mul_comm. apply Nat.div_mul. lia. Qed.

Lemma read_mid d a b c : d = a ++ b ++ c ->
  read_at d (length a) (length b) = Some b.
Proof.
  intros ->. unfold read_at. rewrite !app_length.
  destruct (Nat.leb_spec (length a + length b) (length a + (length b + length c)));
    [|lia].
  rewrite skipn_app, skipn_all, Nat.sub_diag. cbn [app skipn].
  rewrite firstn_app, firstn_all, Nat.sub_diag. cbn [firstn]. now rewrite app_nil_r.
Qed.

Lemma write_mid d a b c xs : d = a ++ b ++ c -> length xs = length b ->
  write_at d (length a) xs = Some (a ++ xs ++ c).
Proof.
  intros -> E. unfold write_at. rewrite !app_length, E.
  destruct (Nat.leb_spec (length a + length b) (length a + (length b + length c)));
    [|lia].
  f_equal. rewrite firstn_app, firstn_all, Nat.sub_diag. cbn [firstn].
  rewrite app_nil_r. f_equal. f_equal.
  rewrite skipn_app. rewrite skipn_all2 by lia. cbn [app].
  replace (length a + length b - length a) with (length b) by lia.
  rewrite skipn_app, skipn_all, Nat.sub_diag. reflexivity.
Qed.

Lemma holds_fresh : holds fresh [] [].
Proof. exists 0, [], []. cbn. repeat split. Qed.

Lemma holds_begin s L R : holds s L R -> exists pre post,
  data s = pre ++ map Some (rev R ++ L) ++ post /\
  span_begin s = length pre /\ span_size s = length (map Some (rev R ++ L)).
Proof.
  intros (h & pre & post & C & D & EL & ER & P & Q).
  exists pre, post. split; [assumption|]. split.
  - unfold span_begin, unused_right. rewrite C, half_twice, ER. lia.
  - unfold span_size. rewrite map_length, app_length, rev_length, EL, ER. lia.
Qed.

Lemma holds_span s L R : holds s L R -> used_span s = Some (map Some (rev R ++ L)).
Proof.
  intros H. destruct (holds_begin s L R H) as (pre & post & D & B & Z).
  unfold used_span. rewrite B, Z. now apply read_mid with (c := post).
Qed.

Lemma holds_truncate s L R nl nr : holds s L R ->
  holds (truncate s nl nr) (firstn nl L) (firstn nr R).
Proof.
  intros (h & pre & post & C & D & EL & ER & P & Q).
  exists h, (pre ++ map Some (rev (skipn nr R))), (map Some (skipn nl L) ++ post).
  unfold truncate. cbn [capacity data left_used right_used].
  rewrite !app_length, !map_length, rev_length, !firstn_length, !skipn_length.
  repeat split; try lia.
  rewrite D. rewrite <- (firstn_skipn nr R) at 1. rewrite <- (firstn_skipn nl L) at 1.
  rewrite rev_app_distr, !map_app, <- !app_assoc. reflexivity.
Qed.

(** Growing keeps what is held and leaves room for what was asked for. *)
Lemma bit_ceil_spec n : 1 <= n -> n <= bit_ceil n /\ exists k, bit_ceil n = 2 ^ k.
Proof.
  intros H. unfold bit_ceil. split; [|eexists; reflexivity].
  apply Nat.log2_up_le_pow2; lia.
Qed.

Lemma bit_ceil_even n : 1 <= n -> exists h, bit_ceil (2 * n) = 2 * h /\ n <= h /\
  exists k, h = 2 ^ k.
Proof.
  intros H. destruct (bit_ceil_spec (2 * n)) as (G & k & E); [lia|].
  destruct k as [|k].
  - rewrite E in G. cbn in G. lia.
  - exists (2 ^ k). rewrite E in *. cbn in *. repeat split; try lia. now exists k.
Qed.

Lemma holds_grow s L R nl nr : holds s L R -> 0 < nl + nr ->
  exists s1, grow s nl nr = Some s1 /\ holds s1 L R /\
    nl <= unused_left s1 /\ nr <= unused_right s1 /\
    capacity s1 = bit_ceil (2 * Nat.max (length L + nl) (length R + nr)).
Proof.
  intros H N.
  pose proof (holds_span s L R H) as US.
  destruct H as (h0 & pre & post & C & D & EL & ER & P & Q).
  unfold grow. rewrite US, EL, ER.
  set (m := Nat.max (length L + nl) (length R + nr)).
  assert (M : 1 <= m) by (unfold m; lia).
  destruct (bit_ceil_even m M) as (h & E & G & _). rewrite E.
  assert (X : length L + nl <= h /\ length R + nr <= h) by (unfold m in G; lia).
  destruct X as [XL XR].
  cbn [data]. unfold span_begin at 1, unused_right. cbn [capacity right_used].
  rewrite half_twice.
  set (p := repeat (@None A) (h - length R)).
  set (q := repeat (@None A) (h - length L)).
  assert (LP : length p = h - length R) by apply repeat_length.
  assert (LQ : length q = h - length L) by apply repeat_length.
  assert (RP : repeat (@None A) (2 * h) =
               p ++ repeat None (length R + length L) ++ q).
  { unfold p, q. rewrite <- !repeat_app. f_equal. lia. }
  rewrite (write_mid (repeat None (2 * h)) p
             (repeat None (length R + length L)) q) with (xs := map Some (rev R ++ L))
    || (rewrite <- LP; erewrite (write_mid _ p _ q); [ | exact RP | ]).
  2:{ rewrite map_length, app_length, rev_length, repeat_length. lia. }
  eexists. split; [reflexivity|]. cbn [capacity]. repeat split.
  - exists h, p, q. cbn. repeat split; lia.
  - unfold unused_left. cbn [capacity left_used]. rewrite half_twice. lia.
  - unfold unused_right. cbn [capacity right_used]. rewrite half_twice. lia.
Qed.

(** Appending where there is room. *)
Lemma holds_room s L R l r : holds s L R ->
  length l <= unused_left s -> length r <= unused_right s ->
  let s2 := Storage (data s) (capacity s) (left_used s + length l)
                    (right_used s + length r) in
  exists d1 d2,
    write_at (data s2) (span_begin s2 + span_size s2 - length l) (map Some l) = Some d1 /\
    write_at d1 (span_begin s2) (map Some (rev r)) = Some d2 /\
    holds (Storage d2 (capacity s2) (left_used s2) (right_used s2))
          (L ++ l) (R ++ r).
Proof.
  intros (h & pre & post & C & D & EL & ER & P & Q) UL UR s2.
  unfold unused_left in UL. unfold unused_right in UR.
  rewrite C, half_twice in UL, UR. rewrite EL in UL. rewrite ER in UR.
  set (pre1 := firstn (h - length R - length r) pre).
  set (pre2 := skipn (h - length R - length r) pre).
  set (post1 := firstn (length l) post). set (post2 := skipn (length l) post).
  assert (L1 : length pre1 = h - length R - length r)
    by (unfold pre1; rewrite firstn_length; lia).
  assert (L2 : length pre2 = length r)
    by (unfold pre2; rewrite skipn_length; lia).
  assert (L3 : length post1 = length l)
    by (unfold post1; rewrite firstn_length; lia).
  assert (L4 : length post2 + length L + length l = h)
    by (unfold post2; rewrite skipn_length; lia).
  set (mid := map Some (rev R ++ L)) in *.
  assert (LM : length mid = length R + length L)
    by (unfold mid; rewrite map_length, app_length, rev_length; lia).
  assert (D1 : data s = (pre1 ++ pre2 ++ mid) ++ post1 ++ post2).
  { rewrite D. unfold pre1, pre2, post1, post2.
    rewrite <- !app_assoc. rewrite (firstn_skipn (length l) post).
    rewrite (app_assoc (firstn _ pre)). now rewrite firstn_skipn. }
  exists ((pre1 ++ pre2 ++ mid) ++ map Some l ++ post2),
         (pre1 ++ map Some (rev r) ++ mid ++ map Some l ++ post2).
  assert (SB : span_begin s2 = length pre1).
  { unfold span_begin, unused_right, s2. cbn [capacity right_used].
    rewrite C, half_twice, ER. lia. }
  assert (SS : span_begin s2 + span_size s2 - length l = length (pre1 ++ pre2 ++ mid)).
  { rewrite SB. unfold span_size, s2. cbn [left_used right_used].
    rewrite !app_length, LM, L2, EL, ER. lia. }
  repeat split.
  - rewrite SS. cbn [data s2]. apply (write_mid _ _ post1 post2); [exact D1|].
    rewrite map_length. lia.
  - rewrite SB. rewrite (write_mid _ pre1 pre2 (mid ++ map Some l ++ post2)).
    + reflexivity.
    + now rewrite <- !app_assoc.
    + rewrite map_length, rev_length. lia.
  - exists h, pre1, post2. unfold s2. cbn [capacity data left_used right_used].
    rewrite !app_length. repeat split; try lia.
    unfold mid. rewrite rev_app_distr, !map_app, <- !app_assoc. reflexivity.
Qed.

Lemma must_grow_false s l r : must_grow s l r = false ->
  length l <= unused_left s /\ length r <= unused_right s.
Proof.
  unfold must_grow. intros H. apply orb_false_iff in H. destruct H as [H K].
  apply Nat.ltb_ge in H, K. lia.
Qed.

Lemma must_grow_some s l r : must_grow s l r = true -> 0 < length l + length r.
Proof.
  unfold must_grow. intros H. apply orb_true_iff in H.
  destruct H as [H|H]; apply Nat.ltb_lt in H; lia.
Qed.

Lemma holds_append s L R l r : holds s L R ->
  exists s1, append s l r = Some s1 /\ holds s1 (L ++ l) (R ++ r).
Proof.
  intros H. unfold append. destruct (must_grow s l r) eqn:M.
  - destruct (holds_grow s L R (length l) (length r) H (must_grow_some _ _ _ M))
      as (s1 & -> & H1 & UL & UR & _).
    destruct (holds_room s1 L R l r H1 UL UR) as (d1 & d2 & E1 & E2 & H2).
    cbv zeta in E1, E2, H2 |- *. rewrite E1, E2. eexists. split; [reflexivity|exact H2].
  - destruct (must_grow_false _ _ _ M) as [UL UR].
    destruct (holds_room s L R l r H UL UR) as (d1 & d2 & E1 & E2 & H2).
    cbv zeta in E1, E2, H2 |- *. rewrite E1, E2. eexists. split; [reflexivity|exact H2].
Qed.

Lemma holds_step s t q : holds s (lefts t) (rights t) ->
  exists s1, step s (op_of q) = Some s1 /\
             holds s1 (lefts (perform t q)) (rights (perform t q)).
Proof.
  intros H. destruct q as [l r|nl nr]; cbn.
  - apply holds_append, H.
  - eexists. split; [reflexivity|]. now apply holds_truncate.
Qed.

Lemma holds_run s t qs : holds s (lefts t) (rights t) ->
  exists s1, run s (map op_of qs) = Some s1 /\
    holds s1 (lefts (fold_left perform qs t)) (rights (fold_left perform qs t)).
Proof.
  revert s t. induction qs as [|q qs IH]; intros s t H; cbn.
  - eauto.
  - destruct (holds_step s t q H) as (s1 & -> & H1). apply IH, H1.
Qed.

(** ** How often the storage grows *)

Definition pow_cap s : Prop := capacity s = 0 \/ exists k, capacity s = 2 * 2 ^ k.

(** What the capacity is worth in growths. *)
Definition rank (c : nat) : nat := match c with 0 => 0 | _ => Nat.log2 c end.

Lemma grow_rank s L R l r : holds s L R -> pow_cap s -> must_grow s l r = true ->
  exists s1, append s l r = Some s1 /\ pow_cap s1 /\
    S (rank (capacity s)) <= rank (capacity s1) /\
    capacity s1 = bit_ceil (2 * Nat.max (length (L ++ l)) (length (R ++ r))).
Proof.
  intros H PC M. unfold append. rewrite M.
  pose proof H as (h0 & pre & post & C & D & EL & ER & P & Q).
  destruct (holds_grow s L R (length l) (length r) H (must_grow_some _ _ _ M))
    as (s1 & -> & H1 & UL & UR & CE).
  destruct (holds_room s1 L R l r H1 UL UR) as (d1 & d2 & E1 & E2 & H2).
  cbv zeta in E1, E2, H2 |- *. rewrite E1, E2. eexists. split; [reflexivity|].
  cbn [capacity]. rewrite !app_length, <- CE.
  set (m := Nat.max (length L + length l) (length R + length r)) in *.
  assert (M1 : 1 <= m).
  { pose proof (must_grow_some _ _ _ M). unfold m. lia. }
  destruct (bit_ceil_even m M1) as (h & E & G & k & K).
  assert (BIG : h0 < m).
  { unfold must_grow, unused_left, unused_right in M.
    rewrite C, half_twice, EL, ER in M. apply orb_true_iff in M. unfold m.
    destruct M as [M|M]; apply Nat.ltb_lt in M; lia. }
  rewrite E in CE. rewrite CE. repeat split.
  - right. exists k. cbn [capacity]. lia.
  - destruct PC as [PC|[j PC]].
    + rewrite PC. cbn [rank]. replace (2 * h) with (2 ^ S k) by (rewrite K; cbn; lia).
      pose proof (Nat.pow_nonzero 2 (S k)). destruct (2 ^ S k) eqn:Z; [lia|].
      cbn [rank]. rewrite <- Z, Nat.log2_pow2; lia.
    + replace (2 * h) with (2 ^ S k) by (rewrite K; cbn; lia).
      rewrite PC. replace (2 * 2 ^ j) with (2 ^ S j) by (cbn; lia).
      assert (LT : 2 ^ S j < 2 ^ S k) by (cbn; nia).
      apply Nat.pow_lt_mono_r_iff in LT; [|lia].
      pose proof (Nat.pow_nonzero 2 (S k)). pose proof (Nat.pow_nonzero 2 (S j)).
      unfold rank. destruct (2 ^ S j) eqn:Z; [lia|]. destruct (2 ^ S k) eqn:Y; [lia|].
      rewrite <- Z, <- Y, !Nat.log2_pow2; lia.
Qed.

Lemma same_cap s l r s1 : must_grow s l r = false -> append s l r = Some s1 ->
  capacity s1 = capacity s.
Proof.
  intros M. unfold append. rewrite M.
  destruct (write_at _ _ _) as [d1|]; [|discriminate].
  destruct (write_at d1 _ _) as [d2|]; [|discriminate].
  intros H. now inversion H.
Qed.

(** The capacity is never more than what the longest side needed. *)
Definition cap_for (m : nat) (c : nat) : Prop := c = 0 \/ c <= bit_ceil (2 * m).

Lemma bit_ceil_mono a b : a <= b -> bit_ceil a <= bit_ceil b.
Proof.
  intros H. unfold bit_ceil. apply Nat.pow_le_mono_r; [lia|].
  now apply Nat.log2_up_le_mono.
Qed.

Lemma run_rank s t qs M : holds s (lefts t) (rights t) -> pow_cap s ->
  cap_for M (capacity s) -> longest t qs <= M ->
  exists s1, run s (map op_of qs) = Some s1 /\ pow_cap s1 /\
    cap_for M (capacity s1) /\
    growths s (map op_of qs) + rank (capacity s) <= rank (capacity s1).
Proof.
  revert s t. induction qs as [|q qs IH]; intros s t H PC CF LM.
  - cbn. eexists. split; [reflexivity|]. split; [assumption|]. split; [assumption|]. lia.
  - cbn [longest] in LM.
    destruct (holds_step s t q H) as (s1 & E & H1).
    assert (X : pow_cap s1 /\ cap_for M (capacity s1) /\
                grows s (op_of q) + rank (capacity s) <= rank (capacity s1)).
    { destruct q as [l r|nl nr]; cbn [op_of step grows] in *.
      - destruct (must_grow s l r) eqn:G.
        + destruct (grow_rank s _ _ l r H PC G) as (s2 & E2 & P2 & R2 & C2).
          rewrite E2 in E. injection E as <-. repeat split; [assumption| |lia].
          right. rewrite C2. apply bit_ceil_mono.
          assert (Y : Nat.max (length (lefts t ++ l)) (length (rights t ++ r)) <= M).
          { destruct qs; cbn in LM; lia. }
          lia.
        + pose proof (same_cap _ _ _ _ G E) as C2. unfold pow_cap. rewrite C2.
          repeat split; [assumption|assumption|lia].
      - injection E as <-. unfold pow_cap, truncate. cbn [capacity].
        repeat split; [assumption|assumption|lia]. }
    destruct X as (P1 & F1 & R1).
    destruct (IH s1 (perform t q) H1 P1 F1) as (s2 & E2 & P2 & F2 & R2); [lia|].
    exists s2. cbn [map run growths]. rewrite E. repeat split; try assumption. lia.
Qed.

End Proofs.

(** ** The theorems *)

(** Any sequence of additions and truncations is carried out without touching
    memory outside of the storage, and what is handed out afterwards is the
    right indices backwards followed by the left ones: every cell has been
    written, and by the right value. *)
Theorem C66_indices (A : Type) (qs : list (request A)) :
  exists s, run fresh (map op_of qs) = Some s /\
    get_indices s = Some (map Some (outline (after qs))) /\
    get_counts s = (length (lefts (after qs)), length (rights (after qs))).
Proof.
  destruct (holds_run A fresh none qs (holds_fresh A)) as (s & E & H).
  exists s. split; [exact E|]. split.
  - apply holds_span in H. exact H.
  - destruct H as (h & pre & post & _ & _ & EL & ER & _). unfold get_counts.
    now rewrite EL, ER.
Qed.

(** The storage always has an even number of cells, and never more than the
    smallest power of two with room for the longest side twice. *)
Theorem C66_capacity (A : Type) (qs : list (request A)) s :
  run fresh (map op_of qs) = Some s ->
  Nat.Even (capacity s) /\ length (data s) = capacity s /\
  (capacity s = 0 \/ capacity s < 4 * longest none qs).
Proof.
  intros E.
  destruct (holds_run A fresh none qs (holds_fresh A)) as (s1 & E1 & H).
  rewrite E in E1. injection E1 as <-.
  destruct (run_rank A fresh none qs (longest none qs) (holds_fresh A))
    as (s2 & E2 & P2 & F2 & _).
  { now left. }
  { now left. }
  { lia. }
  rewrite E in E2. injection E2 as <-.
  destruct H as (h & pre & post & C & D & EL & ER & P & Q).
  repeat split.
  - exists h. exact C.
  - rewrite D, !app_length, map_length, app_length, rev_length. lia.
  - destruct F2 as [F2|F2]; [now left|].
    destruct P2 as [Z|[k Z]]; [now left|]. right.
    destruct (longest none qs) as [|m] eqn:LE.
    + cbn in F2. pose proof (Nat.pow_nonzero 2 k). lia.
    + assert (B : bit_ceil (2 * S m) < 2 * (2 * S m)).
      { unfold bit_ceil.
        destruct (Nat.eq_dec m 0) as [->|NZ]; [cbn; lia|].
        assert (1 < 2 * S m) by lia.
        pose proof (Nat.log2_up_spec (2 * S m) H) as [LO _].
        replace (2 ^ Nat.log2_up (2 * S m))
          with (2 * 2 ^ Nat.pred (Nat.log2_up (2 * S m))); [lia|].
        pose proof (Nat.log2_up_pos (2 * S m) H).
        destruct (Nat.log2_up (2 * S m)); [lia|]. reflexivity. }
      lia.
Qed.

(** However many additions there are, the storage is reallocated at most once
    per doubling of the longest side. *)
Theorem C66_growths (A : Type) (qs : list (request A)) :
  growths fresh (map op_of qs) <= 1 + Nat.log2_up (longest none qs).
Proof.
  destruct (run_rank A fresh none qs (longest none qs) (holds_fresh A))
    as (s2 & E2 & P2 & F2 & G).
  { now left. }
  { now left. }
  { lia. }
  cbn [rank capacity fresh] in G. rewrite Nat.add_0_r in G.
  apply (Nat.le_trans _ _ _ G).
  destruct F2 as [F2|F2]; [rewrite F2; cbn; lia|].
  destruct (longest none qs) as [|m].
  - cbn in F2. destruct P2 as [Z|[k Z]]; [rewrite Z; cbn; lia|].
    pose proof (Nat.pow_nonzero 2 k). lia.
  - unfold rank. destruct (capacity s2) eqn:Z; [lia|]. rewrite <- Z in *.
    apply Nat.le_trans with (Nat.log2 (bit_ceil (2 * S m))).
    + now apply Nat.log2_le_mono.
    + unfold bit_ceil. rewrite Nat.log2_pow2 by lia.
      rewrite Nat.log2_up_double by lia. lia.
Qed.

(** A case with two growths and a truncation that splits both sides. *)
Definition ex_requests : list (request nat) :=
  [Add [1; 2; 3] [10]; Keep 2 1; Add [4] [20; 30]; Keep 9 2; Add [5; 6] [40]].

Example C66_example :
  outline (after ex_requests) = [40; 20; 10; 1; 2; 4; 5; 6] /\
  option_map get_indices (run fresh (map op_of ex_requests)) =
    Some (Some (map Some [40; 20; 10; 1; 2; 4; 5; 6])) /\
  growths fresh (map op_of ex_requests) = 2.
Proof. repeat split. Qed.

Print Assumptions C66_indices.
Print Assumptions C66_capacity.
Print Assumptions C66_growths.
