(** Going around the circles of a tip. *)
From Coq Require Import ZArith Bool Lia List.
From Verif Require Import NumModel GeomModel AffineModel CircleModel TipShapeModel TipCapModel RoundedModel JoinedModel JoinedSpec.
Import ListNotations.

Ltac leb := repeat match goal with |- context [?a <=? ?b] => destruct (Nat.leb_spec a b) | H : context [?a <=? ?b] |- _ => destruct (Nat.leb_spec a b) end; try lia.
Section Walk.
Context {N : num}.
Variable s : shape N.
Notation n := (length (s_circles s)).
Lemma gap_eq i j : i < n -> j < n -> (j + n - i) mod n = if i <=? j then j - i else j + n - i.
Proof.
  intros I J. destruct (Nat.leb_spec i j) as [L|L].
  - replace (j + n - i) with (j - i + 1 * n) by lia. rewrite Nat.mod_add, Nat.mod_small by lia. reflexivity.
  - apply Nat.mod_small. lia.
Qed.
Lemma next_ccw_eq i : i < n -> next_ccw s i = (i + 1) mod n.
Proof.
  intros I. unfold next_ccw. destruct (Nat.leb_spec n (S i)) as [L|L].
  - replace (i + 1) with n by lia. symmetry. apply Nat.mod_same. lia.
  - rewrite Nat.mod_small by lia. lia.
Qed.
Lemma walk_eq stop : stop < n -> forall d i rounds, i < n -> (stop + n - i) mod n = d -> d <= rounds -> walk_ccw s rounds i stop = Some (map (fun m => (i + m) mod n) (seq 0 d)).
Proof.
  intros S0. induction d as [|d IH]; intros i rounds I D R.
  - assert (i = stop) as ->. { rewrite gap_eq in D by lia. destruct (Nat.leb_spec i stop); lia. } destruct rounds; cbn [walk_ccw]; rewrite Nat.eqb_refl; reflexivity.
  - destruct rounds as [|rounds]; [lia|]. cbn [walk_ccw]. destruct (Nat.eqb_spec i stop) as [-> |Ne]. { rewrite gap_eq, Nat.leb_refl in D by lia. lia. }
    assert (I' : next_ccw s i < n) by (rewrite next_ccw_eq by exact I; apply Nat.mod_upper_bound; lia).
    rewrite IH; [|exact I'| |lia].
    + cbn [seq map]. rewrite Nat.add_0_r, (Nat.mod_small i) by lia. rewrite <- seq_shift, map_map. apply f_equal, f_equal. apply map_ext. intros m. rewrite next_ccw_eq, Nat.add_mod_idemp_l by lia. f_equal. lia.
    + unfold next_ccw in *. rewrite gap_eq in D by lia. rewrite gap_eq by exact S0 || exact I'. leb.
Qed.
Theorem used_eq i j : i < n -> j < n -> used s i j = Some (ccw n i j).
Proof.
  intros I J. unfold used, ccw. destruct (Nat.eqb_spec i j) as [-> |Ne].
  - rewrite gap_eq, Nat.leb_refl, Nat.sub_diag by lia. cbn [seq map]. rewrite Nat.add_0_r, Nat.mod_small by lia. reflexivity.
  - rewrite (walk_eq j J ((j + n - i) mod n)); [|exact I|reflexivity|apply Nat.lt_le_incl, Nat.mod_upper_bound; lia]. rewrite seq_S, map_app. cbn [map plus]. apply f_equal, f_equal, f_equal2; [|reflexivity].
    rewrite Nat.add_mod_idemp_r by lia. replace (i + (j + n - i)) with (j + 1 * n) by lia. rewrite Nat.mod_add, Nat.mod_small by lia. reflexivity.
Qed.
(** how far up from [i] an index is *)
Lemma from_eq i k : i < n -> k < n -> (i + (k + n - i) mod n) mod n = k.
Proof. intros I K. rewrite Nat.add_mod_idemp_r by lia. replace (i + (k + n - i)) with (k + 1 * n) by lia. rewrite Nat.mod_add, Nat.mod_small by lia. reflexivity. Qed.
Lemma up_eq i m : i < n -> m < n -> ((i + m) mod n + n - i) mod n = m.
Proof.
  intros I M. destruct (Nat.lt_ge_cases (i + m) n) as [L|L].
  - rewrite (Nat.mod_small (i + m)) by lia. replace (i + m + n - i) with (m + 1 * n) by lia. rewrite Nat.mod_add, Nat.mod_small by lia. reflexivity.
  - replace ((i + m) mod n) with (i + m - n). + replace (i + m - n + n - i) with m by lia. apply Nat.mod_small. lia.
    + replace (i + m) with (i + m - n + 1 * n) at 2 by lia. rewrite Nat.mod_add, Nat.mod_small by lia. reflexivity.
Qed.
Lemma in_ccw i j k : i < n -> j < n -> In k (ccw n i j) <-> k < n /\ (k + n - i) mod n <= (j + n - i) mod n.
Proof.
  intros I J. assert (B := Nat.mod_upper_bound (j + n - i) n ltac:(lia)). unfold ccw. rewrite in_map_iff. split.
  - intros (m & <- & M). apply in_seq in M. split; [apply Nat.mod_upper_bound; lia|]. rewrite up_eq by lia. lia.
  - intros (K & L). exists ((k + n - i) mod n). split; [apply from_eq; assumption|apply in_seq; lia].
Qed.
(** the indices on the way from [j] to [i], both excluded, are those not on the way from [i] to [j] *)
Theorem rest_eq i j : i < n -> j < n -> exists l, walk_ccw s n (next_ccw s j) i = Some l /\ (forall k, In k l <-> k < n /\ ~ In k (ccw n i j)).
Proof.
  intros I J. assert (B := Nat.mod_upper_bound (j + n - i) n ltac:(lia)). set (d := (j + n - i) mod n) in *.
  assert (NJ : next_ccw s j = (i + (d + 1)) mod n). { rewrite next_ccw_eq by exact J. rewrite <- (from_eq i j I J). fold d. rewrite Nat.add_mod_idemp_l by lia. f_equal. lia. }
  assert (JN : next_ccw s j < n) by (rewrite NJ; apply Nat.mod_upper_bound; lia).
  assert (G : (i + n - next_ccw s j) mod n = n - 1 - d).
  { rewrite gap_eq by lia. unfold next_ccw. unfold d in *. rewrite gap_eq in * by lia. leb. }
  rewrite (walk_eq i I (n - 1 - d)); [|exact JN|exact G|lia]. eexists. split; [reflexivity|].
  assert (E : forall m, (next_ccw s j + m) mod n = (i + (d + 1 + m)) mod n). { intros m. rewrite NJ, Nat.add_mod_idemp_l by lia. f_equal. lia. }
  intros k. rewrite in_map_iff. split.
  - intros (m & <- & M). apply in_seq in M. split; [apply Nat.mod_upper_bound; lia|]. rewrite in_ccw by assumption. fold d. rewrite E, up_eq by lia. lia.
  - intros (K & L). rewrite in_ccw in L by assumption. fold d in L. assert (BK := Nat.mod_upper_bound (k + n - i) n ltac:(lia)). exists ((k + n - i) mod n - (d + 1)). split; [|apply in_seq; lia].
    rewrite E. replace (d + 1 + ((k + n - i) mod n - (d + 1))) with ((k + n - i) mod n) by lia. apply from_eq; assumption.
Qed.
Lemma next_cw_ccw i : i < n -> next_cw s i < n /\ next_ccw s (next_cw s i) = i.
Proof. intros I. unfold next_cw, next_ccw. destruct i as [|i]; [|destruct (Nat.leb_spec n (S i)); lia]. destruct (Nat.leb_spec n (S (Nat.pred n))); lia. Qed.
Lemma all_used i : i < n -> everything n (ccw n i (next_cw s i)).
Proof.
  intros I k K. destruct (next_cw_ccw i I) as [J E]. apply in_ccw; try assumption. split; [exact K|]. assert (B := Nat.mod_upper_bound (k + n - i) n ltac:(lia)).
  assert ((next_cw s i + n - i) mod n = n - 1). { rewrite gap_eq by lia. unfold next_cw in *. destruct i as [|i]; leb. } lia.
Qed.
End Walk.
