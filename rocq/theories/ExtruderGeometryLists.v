(** Lists, maps and what a save point keeps of a list, for ExtruderGeometryProofs *)
From Coq Require Import Arith Bool Lia Permutation List.
From Verif Require Import ExtruderGeometryModel.
Import ListNotations.

Lemma nth_resize {A} (z : A) n l k : k < n -> k < length l -> nth_error (resize z n l) k = nth_error l k.
Proof. intros H K. unfold resize. rewrite nth_error_app1 by (rewrite firstn_length; lia). revert n l H K. induction k as [|k IH]; intros [|n] [|x l] H K; cbn in *; try lia; [reflexivity|apply IH; lia]. Qed.
Lemma resize_len {A} (z : A) n l : length (resize z n l) = n.
Proof. unfold resize. rewrite app_length, firstn_length, repeat_length. lia. Qed.
Lemma resize_firstn {A} (z : A) n k l : k <= n -> k <= length l -> firstn k (resize z n l) = firstn k l.
Proof. intros H K. unfold resize. rewrite firstn_app, firstn_firstn, firstn_length. replace (Nat.min k n) with k by lia. replace (k - Nat.min n (length l)) with 0 by lia. apply app_nil_r. Qed.
Lemma resize_self {A} (z : A) n l : n <= length l -> resize z n l = firstn n l.
Proof. intros H. unfold resize. replace (n - length l) with 0 by lia. apply app_nil_r. Qed.
Lemma write_some {A} i (x : A) l l' : write i x l = Some l' -> i < length l /\ length l' = length l /\ nth_error l' i = Some x /\ (forall k, k <> i -> nth_error l' k = nth_error l k).
Proof.
  unfold write. destruct (Nat.ltb_spec i (length l)) as [H|H]; [|discriminate]. intros E. injection E as <-. split; [exact H|]. revert i H. induction l as [|y l IH]; intros i H; cbn in H; [lia|]. destruct i as [|i]; cbn [firstn skipn app].
  - repeat split; try reflexivity. intros [|k] K; [congruence|reflexivity].
  - destruct (IH i ltac:(lia)) as (L & N & O). cbn [length]. repeat split; [lia|exact N|]. intros [|k] K; [reflexivity|]. cbn. apply O. congruence.
Qed.
Lemma write_ok {A} i (x : A) l : i < length l -> exists l', write i x l = Some l'.
Proof. intros H. unfold write. destruct (Nat.ltb_spec i (length l)); [eauto|lia]. Qed.
Lemma lookup_in {A} k (m : list (nat * A)) x : lookup k m = Some x -> In (k, x) m.
Proof. induction m as [|[j y] m IH]; cbn; [discriminate|]. destruct (Nat.eqb_spec j k) as [->|N]; [intros E; injection E as ->; auto|auto]. Qed.
Lemma lookup_none {A} k (m : list (nat * A)) : lookup k m = None -> ~ In k (map fst m).
Proof. induction m as [|[j y] m IH]; cbn; [auto|]. destruct (Nat.eqb_spec j k) as [->|N]; [discriminate|]. intros H [E|E]; [auto|apply (IH H E)]. Qed.
Lemma emplace_keys {A} k (x : A) m j : In j (map fst (emplace k x m)) <-> j = k \/ In j (map fst m).
Proof.
  unfold emplace. destruct (lookup k m) as [y|] eqn:E; cbn.
  - apply lookup_in in E. split; [auto|]. intros [->|H]; [apply in_map_iff; exists (k, y); auto|exact H].
  - split; intros [H|H]; auto.
Qed.

(** What is saved of a list with [n] elements: for each either the old value, or it is among the first [b] and has it still *)
Section Covers.
Variables (A B : Type) (f : A -> B).
Record covers (m : list (nat * A)) (b : nat) (now before : list A) : Prop := {
  cov_nodup : NoDup (map fst m);
  cov_saved : forall k x, In (k, x) m -> exists y, nth_error before k = Some y /\ f x = f y;
  cov_rest : forall k, k < length before -> ~ In k (map fst m) -> k < b /\ exists x y, nth_error now k = Some x /\ nth_error before k = Some y /\ f x = f y }.
Lemma covers_start l : covers [] (length l) l l.
Proof. split; [constructor|intros k x []|]. intros k K _. split; [exact K|]. destruct (nth_error l k) as [x|] eqn:E; [|apply nth_error_None in E; lia]. exists x, x. auto. Qed.
Lemma covers_app m b now before x : covers m b now before -> covers m b (now ++ x) before.
Proof. intros [N S C]. split; [exact N|exact S|]. intros k K I. destruct (C k K I) as (H & y & z & Y & E). split; [exact H|]. exists y, z. rewrite nth_error_app1 by (apply nth_error_Some; congruence). auto. Qed.
Lemma covers_emplace m b now before i x : covers m b now before -> i < length before -> nth_error now i = Some x -> covers (emplace i x m) b now before.
Proof.
  intros [N S C] I X. unfold emplace. destruct (lookup i m) as [y|] eqn:E; [split; assumption|]. apply lookup_none in E. split.
  - constructor; assumption.
  - intros k y [H|H]; [|apply S, H]. injection H as -> ->. destruct (C k I E) as (_ & y' & z & Y & Z & F). exists z. split; [exact Z|congruence].
  - intros k K H. apply C; [exact K|]. intros Q. apply H. right. exact Q.
Qed.
Lemma covers_change m b now before now' i : covers m b now before -> (i < length before -> In i (map fst m)) -> (forall k, k <> i -> nth_error now' k = nth_error now k) -> covers m b now' before.
Proof. intros [N S C] I O. split; [exact N|exact S|]. intros k K H. rewrite O; [apply C; assumption|]. intros ->. apply H, I, K. Qed.
Lemma covers_same m b now before now' : covers m b now before -> (forall k x, nth_error now k = Some x -> exists x', nth_error now' k = Some x' /\ f x' = f x) -> covers m b now' before.
Proof. intros [N S C] O. split; [exact N|exact S|]. intros k K H. destruct (C k K H) as (B0 & x & y & X & Y & E). destruct (O k x X) as (x' & X' & E'). split; [exact B0|]. exists x', y. repeat split; try assumption. congruence. Qed.
Lemma covers_insert m b now before k x : covers m b now before -> (forall j, k <= j -> j < length before -> In j (map fst m)) -> covers m b (firstn k now ++ x :: skipn k now) before.
Proof.
  intros [N S C] I. split; [exact N|exact S|]. intros j J H. assert (j < k) by (destruct (le_lt_dec k j); [exfalso; auto|assumption]). destruct (C j J H) as (B0 & y & z & Y & E). split; [exact B0|]. exists y, z. split; [|exact E]. rewrite nth_error_app1.
  - rewrite <- Y. clear -H0. revert now j H0. induction k as [|k IH]; intros [|a now] [|j] H; cbn; try lia; try reflexivity. apply IH; lia.
  - rewrite firstn_length. assert (j < length now) by (apply nth_error_Some; congruence). lia.
Qed.
Lemma covers_cut m b now before z n : covers m b now before -> b <= n -> covers m b (resize z n now) before.
Proof. intros [N S C] I. split; [exact N|exact S|]. intros k K H. destruct (C k K H) as (B0 & x & y & X & E). split; [exact B0|]. exists x, y. rewrite nth_resize; [auto|lia|apply nth_error_Some; congruence]. Qed.
Lemma covers_from n : forall m i now before m' b, covers m b now before -> emplace_from i n now m = Some m' -> i + n <= length before ->
  covers m' b now before /\ (forall k, In k (map fst m') <-> (i <= k < i + n \/ In k (map fst m))).
Proof.
  induction n as [|n IH]; intros m i now before m' b H E L; cbn in E.
  - injection E as <-. split; [exact H|]. intros k. split; [auto|]. intros [K|K]; [lia|exact K].
  - destruct (nth_error now i) as [x|] eqn:X; [|discriminate]. assert (HI : i < length before) by lia. assert (HL : S i + n <= length before) by lia. destruct (IH _ _ _ _ _ _ (covers_emplace _ _ _ _ _ _ H HI X) E HL) as (C & K). split; [exact C|]. intros k. rewrite K, emplace_keys. split; [intros [?|[?|?]]; [left; lia|left; lia|right; assumption]|]. intros [Q|Q]; [|auto]. destruct (Nat.eq_dec k i); [auto|left; lia].
Qed.
Lemma covers_lower m b now before b' : covers m b now before -> (forall k, b' <= k -> k < length before -> In k (map fst m)) -> covers m b' now before.
Proof. intros [N S C] I. split; [exact N|exact S|]. intros k K H. destruct (C k K H) as (_ & E). split; [|exact E]. destruct (le_lt_dec b' k); [exfalso; auto|assumption]. Qed.
Lemma covers_permutation m m' b now before : Permutation m' m -> covers m b now before -> covers m' b now before.
Proof.
  intros P [N S C]. assert (Q : Permutation (map fst m') (map fst m)) by (apply Permutation_map, P). split.
  - apply (Permutation_NoDup (l := map fst m)); [apply Permutation_sym, Q|exact N].
  - intros k x H. apply S. apply (Permutation_in _ P H).
  - intros k K H. apply C; [exact K|]. intros I. apply H. apply (Permutation_in _ (Permutation_sym Q) I).
Qed.
(** writing everything back *)
Lemma covers_back m b now before : covers m b now before -> length now = length before -> b <= length before ->
  forall k, k < length before -> exists x y, (match lookup k m with Some x => Some x | None => nth_error now k end) = Some x /\ nth_error before k = Some y /\ f x = f y.
Proof.
  intros [N S C] L Bb k K. destruct (lookup k m) as [x|] eqn:E.
  - apply lookup_in in E. destruct (S k x E) as (y & Y & F). exists x, y. auto.
  - apply lookup_none in E. destruct (C k K E) as (_ & x & y & X & Y & F). exists x, y. auto.
Qed.
End Covers.

Lemma emplace_from_ok {A} n : forall i (l : list A) m, i + n <= length l -> exists m', emplace_from i n l m = Some m'.
Proof.
  induction n as [|n IH]; intros i l m H; cbn; [eauto|]. destruct (nth_error l i) as [x|] eqn:E; [apply IH; lia|apply nth_error_None in E; lia].
Qed.
(** what is left of a list and what is saved of it *)
Definition kept {A} (saved : list A) (b : nat) (now before : list A) : Prop := saved = skipn b before /\ firstn b now = firstn b before /\ b <= length now /\ b <= length before.
Lemma kept_start {A} (l : list A) : kept [] (length l) l l.
Proof. unfold kept. rewrite skipn_all. repeat split; lia. Qed.
Lemma kept_app {A} s b (now before : list A) x : kept s b now before -> kept s b (now ++ x) before.
Proof. intros (E & F & L & L'). split; [exact E|]. rewrite app_length. split; [|lia]. rewrite firstn_app, F. replace (b - length now) with 0 by lia. cbn. apply app_nil_r. Qed.
Lemma kept_cut {A} s b (now before : list A) z n : kept s b now before -> b <= n -> kept s b (resize z n now) before.
Proof. intros (E & F & L & L') N. split; [exact E|]. rewrite resize_len. split; [|lia]. rewrite resize_firstn by lia. exact F. Qed.
Lemma kept_capture {A} (now before : list A) b' x : kept [] (length before) now before -> slice b' (length before) now = Some x -> kept x b' now before.
Proof.
  intros (_ & F & L & _). unfold slice. destruct ((b' <=? length before) && (length before <=? length now)) eqn:E; [|discriminate]. apply andb_true_iff in E. destruct E as (E1 & E2). apply Nat.leb_le in E1. intros H. injection H as <-.
  rewrite firstn_all in F. unfold kept. repeat split; try lia.
  - rewrite <- F at 2. symmetry. rewrite skipn_firstn_comm. reflexivity.
  - rewrite <- F at 1. rewrite firstn_firstn. f_equal. lia.
Qed.
Lemma kept_back {A} s b (now before : list A) z : kept s b now before -> copy_to_end s (resize z (length before) now) = Some before /\ length before - length s = b.
Proof.
  intros (-> & F & L & L'). assert (E : length before - length (skipn b before) = b) by (rewrite skipn_length; lia). split; [|exact E]. unfold copy_to_end. rewrite resize_len. destruct (Nat.leb_spec (length (skipn b before)) (length before)) as [_|H]; [|rewrite skipn_length in H; lia].
  rewrite E, resize_firstn by lia. rewrite F, firstn_skipn. reflexivity.
Qed.
