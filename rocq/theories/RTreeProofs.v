(** The R-tree built by bulk loading contains every element once, under boxes that cover it. *)
From Coq Require Import ZArith Reals Lra Lia Bool Arith Permutation List.
From Flocq Require Import IEEE754.BinarySingleNaN.
From Verif Require Import F32 F32Lemmas NumModel GeomModel RTreeModel RTreeSpec.
Import ListNotations.
Local Open Scope nat_scope.

(** ** Chunks *)
Lemma firstn_add {A} (a b : nat) (l : list A) : firstn (a + b) l = firstn a l ++ firstn b (skipn a l).
Proof. revert l. induction a; intros l; [reflexivity|]. destruct l; cbn; [rewrite firstn_nil; reflexivity|]. f_equal. apply IHa. Qed.
Lemma chunks {A} (b n : nat) (l : list A) : concat (map (fun k => firstn b (skipn (k * b) l)) (seq 0 n)) = firstn (n * b) l.
Proof.
  induction n; [reflexivity|]. rewrite seq_S, map_app, concat_app, IHn. cbn [map concat plus]. rewrite app_nil_r, <- firstn_add. f_equal. lia.
Qed.
Lemma ceil_div_le n d : 0 < d -> n <= ceil_div n d * d.
Proof. intros H. unfold ceil_div. pose proof (Nat.div_mod (n + (d - 1)) d). pose proof (Nat.mod_upper_bound (n + (d - 1)) d). nia. Qed.
Lemma ceil_div_lt n d k : 0 < d -> k < ceil_div n d -> k * d < n.
Proof. intros H. unfold ceil_div. pose proof (Nat.div_mod (n + (d - 1)) d). pose proof (Nat.mod_upper_bound (n + (d - 1)) d). nia. Qed.
Lemma ceil_div_unique n d q : 0 < d -> n <= q * d -> (q - 1) * d < n -> 0 < q -> ceil_div n d = q.
Proof.
  intros H A C D. pose proof (ceil_div_le n d H). destruct (Nat.lt_trichotomy (ceil_div n d) q) as [L|[L|L]]; [|exact L|].
  - nia.
  - apply (ceil_div_lt n d q H) in L. nia.
Qed.
Lemma ceil_div_pos n d : 0 < d -> 0 < n -> 0 < ceil_div n d.
Proof. intros H G. pose proof (ceil_div_le n d H). nia. Qed.
Lemma ceil_div_0 d : 0 < d -> ceil_div 0 d = 0.
Proof. intros H. unfold ceil_div. apply Nat.div_small. lia. Qed.
Lemma ceil_sqrt_pos n : 0 < n -> 0 < ceil_sqrt n.
Proof. intros H. unfold ceil_sqrt. destruct (Nat.eqb_spec (Nat.sqrt n * Nat.sqrt n) n); [|lia]. destruct (Nat.sqrt n); lia. Qed.
Lemma all_chunks {A} (b : nat) (l : list A) m : 0 < b -> 
  map (fun k => firstn (if k =? m - 1 then length l - k * b else b) (skipn (k * b) l)) (seq 0 (ceil_div (length l) b)) =
  map (fun k => firstn b (skipn (k * b) l)) (seq 0 (ceil_div (length l) b)) \/ m < ceil_div (length l) b.
Proof.
  intros Hb. destruct (le_lt_dec (ceil_div (length l) b) m) as [G|G]; [left|right; exact G]. apply map_ext_in. intros k Hk. apply in_seq in Hk. destruct (Nat.eqb_spec k (m - 1)); [|reflexivity].
  pose proof (ceil_div_le (length l) b Hb). assert (length l - k * b <= b) by nia.
  rewrite (firstn_all2 (n := b)) by (rewrite skipn_length; lia). rewrite firstn_all2 by (rewrite skipn_length; lia). reflexivity.
Qed.

Section Tiles.
Context {N : num}.
Variable B : nat.
Hypothesis HB : 2 <= B.
Variable sort : (nat -> nat -> bool) -> list nat -> list nat.
Hypothesis sort_perm : forall f l, Permutation l (sort f l).
Lemma sort_len f l : length (sort f l) = length l.
Proof. symmetry. apply Permutation_length, sort_perm. Qed.

Lemma slice_ok m (slice : list nat) : ceil_div (length slice) B <= m ->
  concat (slice_tiles B m slice) = slice /\ length (slice_tiles B m slice) = ceil_div (length slice) B /\
  Forall (fun t => 0 < length t <= B) (slice_tiles B m slice).
Proof.
  intros Hm. unfold slice_tiles, tile, subspan.
  destruct (all_chunks B slice m) as [H|H]; [lia| |lia].
  rewrite H. split; [|split].
  - rewrite chunks. apply firstn_all2. apply ceil_div_le. lia.
  - rewrite map_length, seq_length. reflexivity.
  - apply Forall_forall. intros t Ht. apply in_map_iff in Ht. destruct Ht as (k & <- & Hk). apply in_seq in Hk.
    assert (L : k * B < length slice) by (apply ceil_div_lt; lia). rewrite firstn_length, skipn_length. lia.
Qed.
Lemma concat_flat_map {X Y} (f : X -> list (list Y)) l : concat (flat_map f l) = concat (map (fun x => concat (f x)) l).
Proof. induction l; cbn; [reflexivity|]. rewrite concat_app, IHl. reflexivity. Qed.
Lemma perm_concat {X} (f g : nat -> list X) l : (forall k, In k l -> Permutation (f k) (g k)) -> Permutation (concat (map f l)) (concat (map g l)).
Proof. induction l; intros H; cbn; [constructor|]. apply Permutation_app; [apply H; left; reflexivity|]. apply IHl. intros; apply H; right; assumption. Qed.
Lemma sum_const (f : nat -> nat) l c : (forall k, In k l -> f k = c) -> list_sum (map f l) = length l * c.
Proof. induction l; intros H; [reflexivity|]. cbn. rewrite (H a) by (left; reflexivity). unfold list_sum in IHl. rewrite IHl by (intros; apply H; right; assumption). lia. Qed.
Lemma flat_map_len {X Y} (f : X -> list Y) l : length (flat_map f l) = list_sum (map (fun x => length (f x)) l).
Proof. induction l; [reflexivity|]. cbn. rewrite app_length, IHl. reflexivity. Qed.
(** Tiles cut up the children *)
Theorem tiles_ok (get : nat -> option (rect N)) o n : 0 < n ->
  Permutation (concat (tiles B sort get o n)) (seq o n) /\ length (tiles B sort get o n) = ceil_div n B /\
  Forall (fun t => 0 < length t <= B) (tiles B sort get o n).
Proof.
  intros Hn. unfold tiles. set (nt := ceil_div n B). set (base := ceil_sqrt nt * B). set (ns := ceil_div n base). set (sorted := sort (by_x get) (seq o n)).
  assert (Hnt : 0 < nt) by (apply ceil_div_pos; lia). assert (Hr : 0 < ceil_sqrt nt) by (apply ceil_sqrt_pos; lia).
  assert (Hbase : 0 < base) by (unfold base; nia).
  assert (Hns : 0 < ns) by (apply ceil_div_pos; lia).
  assert (Ls : length sorted = n) by (unfold sorted; rewrite sort_len, seq_length; reflexivity).
  set (sl := fun k => subspan sorted (k * base) (if k =? ns - 1 then n - k * base else base)).
  assert (Lsl : forall k, k < ns -> length (sl k) = if k =? ns - 1 then n - k * base else base).
  { intros k Hk. unfold sl, subspan. rewrite firstn_length, skipn_length, Ls. assert (k * base < n) by (apply ceil_div_lt; assumption).
    destruct (Nat.eqb_spec k (ns - 1)); [lia|]. assert ((S k) * base < n) by (apply ceil_div_lt; [assumption|]; fold ns; lia). lia. }
  assert (Lt : forall k, k < ns -> ceil_div (length (sort (by_y get) (sl k))) B = if k =? ns - 1 then ceil_div (n - k * base) B else ceil_sqrt nt).
  { intros k Hk. rewrite sort_len, Lsl by exact Hk. destruct (Nat.eqb_spec k (ns - 1)); [reflexivity|]. apply ceil_div_unique; unfold base; nia. }
  assert (Hlast : (ns - 1) * base < n) by (apply ceil_div_lt; [assumption|]; fold ns; lia).
  assert (Sum : (ns - 1) * ceil_sqrt nt + ceil_div (n - (ns - 1) * base) B = nt).
  { symmetry. pose proof (ceil_div_le (n - (ns - 1) * base) B ltac:(lia)). pose proof (ceil_div_pos (n - (ns - 1) * base) B ltac:(lia) ltac:(lia)).
    pose proof (ceil_div_lt (n - (ns - 1) * base) B (ceil_div (n - (ns - 1) * base) B - 1) ltac:(lia) ltac:(lia)).
    set (c := ceil_div (n - (ns - 1) * base) B) in *. set (r := ceil_sqrt nt) in *. transitivity (ceil_div n B); [reflexivity|].
    assert (Eb : (ns - 1) * base = (ns - 1) * r * B) by (unfold base; lia). rewrite Eb in *. clearbody c r base ns. set (a := (ns - 1) * r) in *. clearbody a.
    apply ceil_div_unique; [lia|rewrite Nat.mul_add_distr_r; lia|replace (a + c - 1) with (a + (c - 1)) by lia; rewrite Nat.mul_add_distr_r; lia|lia]. }
  assert (Small : forall k, k < ns -> ceil_div (length (sort (by_y get) (sl k))) B <= nt).
  { intros k Hk. rewrite Lt by exact Hk. destruct (Nat.eqb_spec k (ns - 1)) as [->|]; [lia|]. assert (1 <= ns - 1) by lia. nia. }
  split; [|split].
  - rewrite concat_flat_map. transitivity (concat (map sl (seq 0 ns))).
    + apply perm_concat. intros k Hk. apply in_seq in Hk. fold (sl k). destruct (slice_ok nt (sort (by_y get) (sl k))) as (-> & _); [apply Small; lia|]. symmetry. apply sort_perm.
    + unfold sl, subspan. destruct (all_chunks base sorted ns) as [H|H]; [exact Hbase| |rewrite Ls in H; fold ns in H; lia]. rewrite Ls in H. fold ns in H. rewrite H, chunks, firstn_all2.
      * symmetry. apply sort_perm.
      * rewrite Ls. apply ceil_div_le. exact Hbase.
  - rewrite flat_map_len. replace (seq 0 ns) with (seq 0 (ns - 1) ++ [ns - 1]) by (replace ns with (S (ns - 1)) at 3 by lia; rewrite seq_S; reflexivity). rewrite map_app, list_sum_app. cbn [map list_sum fold_right plus].
    rewrite (sum_const _ _ (ceil_sqrt nt)).
    + rewrite seq_length. fold (sl (ns - 1)). destruct (slice_ok nt (sort (by_y get) (sl (ns - 1)))) as (_ & -> & _); [apply Small; lia|].
      rewrite Lt by lia. rewrite Nat.eqb_refl. lia.
    + intros k Hk. apply in_seq in Hk. fold (sl k). destruct (slice_ok nt (sort (by_y get) (sl k))) as (_ & -> & _); [apply Small; lia|].
      rewrite Lt by lia. destruct (Nat.eqb_spec k (ns - 1)); [lia|reflexivity].
  - apply Forall_forall. intros t Ht. apply in_flat_map in Ht. destruct Ht as (k & Hk & Ht). apply in_seq in Hk. fold (sl k) in Ht.
    destruct (slice_ok nt (sort (by_y get) (sl k))) as (_ & _ & F); [apply Small; lia|]. rewrite Forall_forall in F. apply F, Ht.
Qed.

(** Counts per level *)
Inductive level_counts : nat -> list nat -> Prop :=
| lc_one n : 0 < n -> n <= B -> level_counts n [1]
| lc_up n l : B < n -> level_counts (ceil_div n B) l -> level_counts n (l ++ [ceil_div n B]).
Lemma ceil_div_small n : 1 < n -> ceil_div n B < n.
Proof. intros H. pose proof (ceil_div_lt n B (ceil_div n B - 1) ltac:(lia)). pose proof (ceil_div_pos n B ltac:(lia) ltac:(lia)). nia. Qed.
Lemma counts_up_ok fuel : forall n, n <= fuel -> 1 < n -> exists l, counts_up B fuel n = Some l /\ level_counts n (rev l).
Proof.
  induction fuel; intros n Hf Hn; [lia|]. cbn [counts_up]. destruct (Nat.ltb_spec 1 n); [|lia]. pose proof (ceil_div_small n Hn).
  pose proof (ceil_div_pos n B ltac:(lia) ltac:(lia)). destruct (le_lt_dec (ceil_div n B) 1) as [G|G].
  - assert (ceil_div n B = 1) as -> by lia. assert (counts_up B fuel 1 = Some []) as -> by (destruct fuel; reflexivity). exists [1]. split; [reflexivity|]. apply lc_one; [lia|].
    pose proof (ceil_div_le n B ltac:(lia)). nia.
  - destruct (IHfuel (ceil_div n B)) as (l & -> & L); [lia|lia|]. exists (ceil_div n B :: l). split; [reflexivity|]. cbn [rev]. apply lc_up; [|exact L].
    destruct (le_lt_dec n B) as [Q|Q]; [|exact Q]. assert (ceil_div n B = 1) by (apply ceil_div_unique; lia). lia.
Qed.
Lemma depth_counts_ok n : 0 < n -> exists l, depth_counts B n = Some l /\ level_counts n l.
Proof.
  intros H. unfold depth_counts. destruct (Nat.leb_spec n B); [exists [1]; split; [reflexivity|]; apply lc_one; lia|].
  destruct (counts_up_ok n n) as (l & -> & L); [lia|lia|]. exists (rev l). auto.
Qed.
End Tiles.

(** ** Boxes, for any arithmetic whose comparison is that of real values on the numbers that matter *)
Section Boxes.
Variable N : num.
Variable isnum : T N -> Prop.
Variable val : T N -> R.
Hypothesis Hlt : forall a b, isnum a -> isnum b -> (nlt N a b = true <-> (val a < val b)%R).
Definition nums (r : rect N) : Prop := isnum (x_min r) /\ isnum (y_min r) /\ isnum (x_max r) /\ isnum (y_max r).
(** [b] covers [a] *)
Definition cover (a b : rect N) : Prop :=
  (val (x_min b) <= val (x_min a) /\ val (y_min b) <= val (y_min a) /\ val (x_max a) <= val (x_max b) /\ val (y_max a) <= val (y_max b))%R.
Lemma cover_refl a : cover a a. Proof. unfold cover. lra. Qed.
Lemma cover_trans a b c : cover a b -> cover b c -> cover a c. Proof. unfold cover. lra. Qed.
Lemma lt_mono q a b : isnum q -> isnum a -> isnum b -> (val b <= val a)%R -> nlt N q b = true -> nlt N q a = true.
Proof. intros Nq Na Nb H L. apply Hlt in L; auto. apply Hlt; auto. lra. Qed.
Lemma lt_mono' q a b : isnum q -> isnum a -> isnum b -> (val a <= val b)%R -> nlt N b q = true -> nlt N a q = true.
Proof. intros Nq Na Nb H L. apply Hlt in L; auto. apply Hlt; auto. lra. Qed.
Lemma lt_false a b : isnum a -> isnum b -> nlt N a b = false -> (val b <= val a)%R.
Proof. intros Na Nb H. destruct (Rle_lt_dec (val b) (val a)) as [K|K]; [exact K|]. apply Hlt in K; auto. congruence. Qed.
Lemma int_mono (a b q : rect N) : nums a -> nums b -> nums q -> cover a b -> int_rects a q = true -> int_rects b q = true.
Proof.
  intros (A1 & A2 & A3 & A4) (B1 & B2 & B3 & B4) (Q1 & Q2 & Q3 & Q4) (C1 & C2 & C3 & C4). unfold int_rects.
  destruct (nlt N (x_max q) (x_min b)) eqn:X1; [rewrite (lt_mono _ _ _ Q3 A1 B1 C1 X1); discriminate|].
  destruct (nlt N (x_max b) (x_min q)) eqn:X2; [rewrite (lt_mono' _ _ _ Q1 A3 B3 C3 X2), orb_true_r; discriminate|].
  destruct (nlt N (y_max q) (y_min b)) eqn:X3; [rewrite (lt_mono _ _ _ Q4 A2 B2 C2 X3); destruct (_ || _); discriminate|].
  destruct (nlt N (y_max b) (y_min q)) eqn:X4; [rewrite (lt_mono' _ _ _ Q2 A4 B4 C4 X4), orb_true_r; destruct (_ || _); discriminate|].
  reflexivity.
Qed.
Lemma min_nan a b : isnum a -> isnum b -> isnum (nmin a b) /\ (val (nmin a b) = Rmin (val a) (val b))%R.
Proof.
  intros A B. unfold nmin. destruct (nlt N b a) eqn:L.
  - split; [exact B|]. apply Hlt in L; auto. rewrite Rmin_right by lra. reflexivity.
  - split; [exact A|]. apply lt_false in L; auto. rewrite Rmin_left by lra. reflexivity.
Qed.
Lemma max_nan a b : isnum a -> isnum b -> isnum (nmax a b) /\ (val (nmax a b) = Rmax (val a) (val b))%R.
Proof.
  intros A B. unfold nmax. destruct (nlt N a b) eqn:L.
  - split; [exact B|]. apply Hlt in L; auto. rewrite Rmax_right by lra. reflexivity.
  - split; [exact A|]. apply lt_false in L; auto. rewrite Rmax_left by lra. reflexivity.
Qed.
Lemma join_cover (a b : rect N) : nums a -> nums b -> nums (rect_join a b) /\ cover a (rect_join a b) /\ cover b (rect_join a b).
Proof.
  intros (A1 & A2 & A3 & A4) (B1 & B2 & B3 & B4). unfold nums, cover, rect_join. cbn [x_min y_min x_max y_max].
  destruct (min_nan _ _ A1 B1) as [? ->], (min_nan _ _ A2 B2) as [? ->], (max_nan _ _ A3 B3) as [? ->], (max_nan _ _ A4 B4) as [? ->].
  pose proof (Rmin_l (val (x_min a)) (val (x_min b))). pose proof (Rmin_r (val (x_min a)) (val (x_min b))).
  pose proof (Rmin_l (val (y_min a)) (val (y_min b))). pose proof (Rmin_r (val (y_min a)) (val (y_min b))).
  pose proof (Rmax_l (val (x_max a)) (val (x_max b))). pose proof (Rmax_r (val (x_max a)) (val (x_max b))).
  pose proof (Rmax_l (val (y_max a)) (val (y_max b))). pose proof (Rmax_r (val (y_max a)) (val (y_max b))). auto 10.
Qed.
Lemma children_cover get l : forall e, (forall i, In i l -> exists b, get i = Some b /\ nums b) -> (forall r, e = Some r -> nums r) -> (l <> [] \/ e <> None) ->
  exists r, children_bounds get l e = Some r /\ nums r /\ (forall r0, e = Some r0 -> cover r0 r) /\ forall i b, In i l -> get i = Some b -> cover b r.
Proof.
  induction l as [|i l IH]; intros e Hg He Hne.
  - destruct e as [r|]; [|destruct Hne; congruence]. exists r. split; [reflexivity|]. split; [apply He; reflexivity|]. split; [intros ? [= <-]; apply cover_refl|]. intros ? ? [].
  - cbn [children_bounds]. destruct (Hg i) as (b & G & Nb); [left; reflexivity|]. rewrite G.
    assert (He' : exists r1, env_add e (ORect b) = Some r1 /\ nums r1 /\ cover b r1 /\ forall r0, e = Some r0 -> cover r0 r1).
    { destruct e as [r0|]; cbn [env_add].
      - exists (rect_join r0 b). destruct (join_cover r0 b (He r0 eq_refl) Nb) as (J1 & J2 & J3). split; [reflexivity|]. split; [exact J1|]. split; [exact J3|]. intros ? [= <-]. exact J2.
      - exists b. split; [reflexivity|]. split; [exact Nb|]. split; [apply cover_refl|]. intros ? H; discriminate H. }
    destruct He' as (r1 & -> & N1 & C1 & C0).
    destruct (IH (Some r1)) as (r & R1 & R2 & R3 & R4); [intros; apply Hg; right; assumption|intros ? [= <-]; exact N1|right; discriminate|].
    exists r. split; [exact R1|]. split; [exact R2|]. split; [intros r0 H; apply (cover_trans _ r1); [apply C0, H|apply R3; reflexivity]|].
    intros j c [<-|H] Hc; [|apply (R4 j); assumption]. rewrite G in Hc. injection Hc as <-. apply (cover_trans _ r1); [exact C1|apply R3; reflexivity].
Qed.

(** ** The tree *)
Context {A : Type}.
Variable bounds : A -> rect N.
Variable elements : list A.
Hypothesis Hnums : forall a, In a elements -> nums (bounds a).
(** The subtree at [i] of height [h] holds exactly the elements with the indices [L], in visiting
    order; its box covers them. *)
Inductive holds (nodes : list (node N)) : nat -> nat -> list nat -> Prop :=
| h_leaf i nd : nth_error nodes i = Some nd -> n_leaf nd = true -> nums (n_bounds nd) ->
    (forall j, In j (n_children nd) -> exists a, nth_error elements j = Some a /\ cover (bounds a) (n_bounds nd)) ->
    holds nodes 1 i (n_children nd)
| h_branch h i nd Ls : nth_error nodes i = Some nd -> n_leaf nd = false -> nums (n_bounds nd) ->
    Forall (fun j => i < j) (n_children nd) ->
    (forall j, In j (n_children nd) -> exists c, nth_error nodes j = Some c /\ cover (n_bounds c) (n_bounds nd)) ->
    Forall2 (holds nodes h) (n_children nd) Ls -> holds nodes (S h) i (concat Ls).
Fixpoint holds_all nodes h i L (H : holds nodes h i L) {struct H} :
  exists nd, nth_error nodes i = Some nd /\ nums (n_bounds nd) /\ forall j, In j L -> exists a, nth_error elements j = Some a /\ cover (bounds a) (n_bounds nd).
Proof.
  destruct H as [i nd H1 H2 H3 H4|h i nd Ls H1 H2 H3 H4 H5 H6].
  - exists nd. auto.
  - exists nd. split; [exact H1|]. split; [exact H3|]. intros j Hj. clear H4.
    revert H5. revert Hj. induction H6 as [|c L cs Ls Hc Hcs IH]; intros Hj H5; [destruct Hj|]. cbn [concat] in Hj. apply in_app_or in Hj. destruct Hj as [Hj|Hj].
    + destruct (holds_all _ _ _ _ Hc) as (cd & C1 & C2 & C3). destruct (C3 j Hj) as (a & A1 & A2). exists a. split; [exact A1|].
      destruct (H5 c) as (cd' & D1 & D2); [left; reflexivity|]. rewrite C1 in D1. injection D1 as <-. apply (cover_trans _ (n_bounds cd)); assumption.
    + apply IH; [exact Hj|]. intros; apply H5; right; assumption.
Qed.
(** Nodes before [lo] do not matter to subtrees from [lo] on *)
Fixpoint holds_ext nodes nodes' lo h i L (H : holds nodes h i L) {struct H} : lo <= i -> (forall j, lo <= j -> nth_error nodes' j = nth_error nodes j) -> holds nodes' h i L.
Proof.
  destruct H as [i nd H1 H2 H3 H4|h i nd Ls H1 H2 H3 H4 H5 H6]; intros Hi Hext.
  - apply h_leaf; auto. rewrite Hext by exact Hi. exact H1.
  - apply h_branch with nd; auto.
    + rewrite Hext by exact Hi. exact H1.
    + intros j Hj. destruct (H5 j Hj) as (c & C1 & C2). exists c. split; [|exact C2]. rewrite Hext; [exact C1|]. rewrite Forall_forall in H4. specialize (H4 j Hj). cbn in H4. lia.
    + clear H5. induction H6 as [|c L cs Ls Hc Hcs IH]; constructor.
      * apply (holds_ext nodes nodes' lo _ _ _ Hc); [|exact Hext]. apply Forall_inv in H4. lia.
      * apply IH. apply Forall_inv_tail in H4. exact H4.
Qed.
Lemma set_node_ok (l : list (node N)) i n : i < length l -> exists l', set_node l i n = Some l' /\ length l' = length l /\ nth_error l' i = Some n /\ forall j, j <> i -> nth_error l' j = nth_error l j.
Proof.
  revert i. induction l as [|m l IH]; intros i Hi; [cbn in Hi; lia|]. destruct i; cbn [set_node].
  - exists (n :: l). repeat split. intros [|j] Hj; [lia|reflexivity].
  - destruct (IH i) as (l' & -> & L1 & L2 & L3); [cbn in Hi; lia|]. exists (m :: l'). split; [reflexivity|]. split; [cbn; lia|]. split; [exact L2|].
    intros [|j] Hj; [reflexivity|]. apply L3. lia.
Qed.
Variable B : nat.
Hypothesis HB : 2 <= B.
Variable sort : (nat -> nat -> bool) -> list nat -> list nat.
Hypothesis sort_perm : forall f l, Permutation l (sort f l).
(** Assigning parents *)
Lemma assign_ok (get : list (node N) -> nat -> option (rect N)) leaf ts : forall nodes p,
  p + length ts <= length nodes -> Forall (fun t => 0 < length t <= B) ts ->
  (forall nodes' i, (forall j, p + length ts <= j -> nth_error nodes' j = nth_error nodes j) -> length nodes' = length nodes -> In i (concat ts) -> exists b, get nodes' i = Some b /\ get nodes i = Some b /\ nums b) ->
  exists nodes', assign B get leaf nodes p ts = Some nodes' /\ length nodes' = length nodes /\
    (forall j, j < p \/ p + length ts <= j -> nth_error nodes' j = nth_error nodes j) /\
    forall k t, nth_error ts k = Some t -> exists b, nth_error nodes' (p + k) = Some (Node b leaf t) /\ nums b /\ forall i c, In i t -> get nodes i = Some c -> cover c b.
Proof.
  induction ts as [|t ts IH]; intros nodes p Hlen Hts Hget.
  - exists nodes. split; [reflexivity|]. split; [reflexivity|]. split; [auto|]. intros [|k] t Hk; discriminate Hk.
  - cbn [assign]. pose proof (Forall_inv Hts) as Ht. cbn in Ht.
    destruct (children_cover (get nodes) t None) as (b & Hb & Nb & _ & Cb).
    { intros i Hi. destruct (Hget nodes i) as (b & G1 & G2 & G3); [auto|reflexivity|cbn [concat]; apply in_or_app; auto|]. eauto. }
    { intros r H; discriminate H. } { left. destruct t; [cbn in Ht; lia|discriminate]. }
    rewrite Hb. destruct (Nat.leb_spec (length t) B); [|lia].
    destruct (set_node_ok nodes p (Node b leaf t)) as (nodes1 & S1 & S2 & S3 & S4); [cbn [length] in Hlen; lia|]. rewrite S1.
    destruct (IH nodes1 (S p)) as (nodes' & A1 & A2 & A3 & A4).
    + cbn [length] in Hlen. lia.
    + apply Forall_inv_tail in Hts. exact Hts.
    + intros nodes2 i Hext Hl Hi. cbn [length] in *.
      destruct (Hget nodes2 i) as (c & G1 & G2 & G3); [intros j Hj; rewrite Hext by lia; apply S4; lia|lia|cbn [concat]; apply in_or_app; auto|].
      destruct (Hget nodes1 i) as (c' & G1' & G2' & G3'); [intros j Hj; apply S4; lia|lia|cbn [concat]; apply in_or_app; auto|].
      exists c. split; [exact G1|]. split; [|exact G3]. congruence.
    + exists nodes'. split; [exact A1|]. split; [lia|]. cbn [length]. split.
      * intros j Hj. rewrite A3 by lia. apply S4. lia.
      * intros [|k] t' Hk; cbn [nth_error] in Hk.
        -- injection Hk as <-. exists b. rewrite Nat.add_0_r. rewrite A3 by lia. split; [exact S3|]. split; [exact Nb|]. intros i c Hi Hc. apply (Cb i); assumption.
        -- destruct (A4 k t' Hk) as (b' & B1 & B2 & B3). exists b'. rewrite Nat.add_succ_r. split; [exact B1|]. split; [exact B2|]. intros i c Hi Hc. apply (B3 i); [exact Hi|].
           destruct (Hget nodes1 i) as (c' & G1' & G2' & G3'); [intros j Hj; apply S4; cbn [length] in Hj; lia|lia| |].
           { cbn [concat]. apply in_or_app. right. apply in_concat. exists t'. split; [apply nth_error_In in Hk; exact Hk|exact Hi]. }
           congruence.
Qed.
(** A level: the nodes from [o] on, [n] of them, hold all elements *)
Definition level (nodes : list (node N)) h o n : Prop :=
  exists Ls, Forall2 (holds nodes h) (seq o n) Ls /\ Permutation (concat Ls) (seq 0 (length elements)).
Lemma Forall2_nth {X Y} (P : X -> Y -> Prop) l m : Forall2 P l m -> forall i x, nth_error l i = Some x -> exists y, nth_error m i = Some y /\ P x y.
Proof. induction 1; intros [|i] z Hz; cbn in *; try discriminate; [injection Hz as <-; eauto|]. apply IHForall2; assumption. Qed.
Lemma Forall2_len {X Y} (P : X -> Y -> Prop) l m : Forall2 P l m -> length l = length m.
Proof. induction 1; cbn; congruence. Qed.
Lemma Forall2_make {X Y} (P : X -> Y -> Prop) f l : (forall x, In x l -> P x (f x)) -> Forall2 P l (map f l).
Proof. induction l; intros H; constructor; [apply H; left; reflexivity|]. apply IHl. intros; apply H; right; assumption. Qed.
Lemma seq_nth_error o n i : i < n -> nth_error (seq o n) i = Some (o + i).
Proof. intros H. rewrite (nth_error_nth' _ 0) by (rewrite seq_length; exact H). rewrite seq_nth by exact H. reflexivity. Qed.
Lemma concat_concat {X Y} (f : X -> list Y) (ts : list (list X)) : concat (map (fun t => concat (map f t)) ts) = concat (map f (concat ts)).
Proof. induction ts; cbn; [reflexivity|]. rewrite IHts, map_app, concat_app. reflexivity. Qed.
Lemma perm_map_concat {X Y} (f : X -> list Y) l m : Permutation l m -> Permutation (concat (map f l)) (concat (map f m)).
Proof. induction 1; cbn; [constructor|apply Permutation_app_head; assumption|rewrite !app_assoc; apply Permutation_app_tail, Permutation_app_comm|etransitivity; eassumption]. Qed.
Lemma map_nth_seq {X} (l : list X) d o : map (fun i => nth (i - o) l d) (seq o (length l)) = l.
Proof.
  revert o. induction l; intros o; [reflexivity|]. cbn [length seq map]. rewrite Nat.sub_diag. cbn [nth]. f_equal. rewrite <- (IHl (S o)) at 2.
  apply map_ext_in. intros i Hi. apply in_seq in Hi. replace (i - o) with (S (i - S o)) by lia. reflexivity.
Qed.
(** One more level of branches *)
Lemma level_up nodes h o n p : level nodes h o n -> 0 < n -> p + ceil_div n B = o -> o + n <= length nodes ->
  exists nodes', bulk_load B sort branch_bounds false nodes p o n = Some nodes' /\ length nodes' = length nodes /\ level nodes' (S h) p (ceil_div n B).
Proof.
  intros (Ls & HL & HP) Hn Hp Hlen. unfold bulk_load. destruct (Nat.eqb_spec n 0); [lia|].
  destruct (tiles_ok B HB sort sort_perm (branch_bounds nodes) o n Hn) as (T1 & T2 & T3). set (ts := tiles B sort (branch_bounds nodes) o n) in *.
  assert (Lls : length Ls = n) by (apply Forall2_len in HL; rewrite seq_length in HL; lia).
  assert (Hin : forall t i, In t ts -> In i t -> o <= i < o + n).
  { intros t i Ht Hi. assert (I : In i (concat ts)) by (apply in_concat; eauto). apply (Permutation_in _ T1) in I. apply in_seq in I. exact I. }
  assert (Hnode : forall i, o <= i < o + n -> holds nodes h i (nth (i - o) Ls [])).
  { intros i Hi. destruct (Forall2_nth _ _ _ HL (i - o) i) as (L & H1 & H2); [rewrite seq_nth_error by lia; f_equal; lia|]. rewrite (nth_error_nth _ _ _ H1). exact H2. }
  destruct (assign_ok branch_bounds false ts nodes p) as (nodes' & A1 & A2 & A3 & A4).
  - lia.
  - exact T3.
  - intros nodes2 i Hext Hl Hi. apply (Permutation_in _ T1) in Hi. apply in_seq in Hi. destruct (holds_all _ _ _ _ (Hnode i Hi)) as (nd & D1 & D2 & _).
    exists (n_bounds nd). unfold branch_bounds. rewrite Hext by lia. rewrite D1. auto.
  - exists nodes'. split; [exact A1|]. split; [exact A2|]. 
    exists (map (fun t => concat (map (fun i => nth (i - o) Ls []) t)) ts). split.
    + assert (G : forall k t, nth_error ts k = Some t -> holds nodes' (S h) (p + k) (concat (map (fun i => nth (i - o) Ls []) t))).
      { intros k t Hk. destruct (A4 k t Hk) as (b & B1 & B2 & B3). assert (Kl : k < length ts) by (apply nth_error_Some; congruence).
        assert (Ht : In t ts) by (apply nth_error_In in Hk; exact Hk).
        change t with (n_children (Node b false t)) at 1. apply h_branch with (Node b false t); auto.
        - apply Forall_forall. intros j Hj. cbn [n_children] in Hj. specialize (Hin t j Ht Hj). lia.
        - cbn [n_children n_bounds]. intros j Hj. specialize (Hin t j Ht Hj). destruct (holds_all _ _ _ _ (Hnode j Hin)) as (nd & D1 & D2 & _).
          exists nd. rewrite A3 by lia. split; [exact D1|]. apply (B3 j); [exact Hj|]. unfold branch_bounds. rewrite D1. reflexivity.
        - cbn [n_children]. apply Forall2_make. intros j Hj. specialize (Hin t j Ht Hj). apply (holds_ext nodes nodes' o); [apply Hnode; exact Hin|lia|]. intros j' Hj'. apply A3. lia. }
      rewrite <- T2. clear - G. revert p G. induction ts as [|t ts IH]; intros p G; [constructor|]. cbn [length seq map]. constructor.
      * specialize (G 0 t eq_refl). rewrite Nat.add_0_r in G. exact G.
      * apply IH. intros k t' Hk. rewrite Nat.add_succ_comm. apply G. exact Hk.
    + rewrite concat_concat. rewrite (perm_map_concat _ _ _ T1). rewrite <- Lls, map_nth_seq. exact HP.
Qed.
(** The level of leaf parents *)
Lemma level_leaf nodes p : 0 < length elements -> p + ceil_div (length elements) B <= length nodes ->
  exists nodes', bulk_load B sort (leaf_bounds bounds elements) true nodes p 0 (length elements) = Some nodes' /\ length nodes' = length nodes /\ level nodes' 1 p (ceil_div (length elements) B).
Proof.
  intros Hn Hlen. unfold bulk_load. destruct (Nat.eqb_spec (length elements) 0); [lia|].
  destruct (tiles_ok B HB sort sort_perm (leaf_bounds bounds elements nodes) 0 (length elements) Hn) as (T1 & T2 & T3). set (ts := tiles B sort (leaf_bounds bounds elements nodes) 0 (length elements)) in *.
  assert (Hin : forall t i, In t ts -> In i t -> exists a, nth_error elements i = Some a).
  { intros t i Ht Hi. assert (I : In i (concat ts)) by (apply in_concat; eauto). apply (Permutation_in _ T1) in I. apply in_seq in I.
    destruct (nth_error elements i) eqn:Q; [eauto|]. apply nth_error_None in Q. lia. }
  destruct (assign_ok (leaf_bounds bounds elements) true ts nodes p) as (nodes' & A1 & A2 & A3 & A4).
  - lia.
  - exact T3.
  - intros nodes2 i Hext Hl Hi. apply in_concat in Hi. destruct Hi as (t & Ht & Hi). destruct (Hin t i Ht Hi) as (a & Ha). exists (bounds a). unfold leaf_bounds. rewrite Ha.
    repeat split. 1-4: apply (Hnums a); apply nth_error_In in Ha; exact Ha.
  - exists nodes'. split; [exact A1|]. split; [exact A2|]. exists ts. split; [|exact T1].
    assert (G : forall k t, nth_error ts k = Some t -> holds nodes' 1 (p + k) t).
    { intros k t Hk. destruct (A4 k t Hk) as (b & B1 & B2 & B3). assert (Ht : In t ts) by (apply nth_error_In in Hk; exact Hk).
      change t with (n_children (Node b true t)) at 1. apply h_leaf; auto. cbn [n_children n_bounds]. intros j Hj. destruct (Hin t j Ht Hj) as (a & Ha). exists a. split; [exact Ha|].
      apply (B3 j); [exact Hj|]. unfold leaf_bounds. rewrite Ha. reflexivity. }
    rewrite <- T2. clear - G. revert p G. induction ts as [|t ts IH]; intros p G; [constructor|]. cbn [length seq]. constructor.
    + specialize (G 0 t eq_refl). rewrite Nat.add_0_r in G. exact G.
    + apply IH. intros k t' Hk. rewrite Nat.add_succ_comm. apply G. exact Hk.
Qed.
(** All levels *)
Lemma level_counts_facts n l : level_counts B n l -> exists d, length l = S d /\ nth d l 0 = ceil_div n B /\ nth 0 l 0 = 1 /\ forall k, k < d -> nth k l 0 = ceil_div (nth (S k) l 0) B /\ 0 < nth (S k) l 0.
Proof.
  induction 1 as [n H0 H|n l H _ (d & I1 & I2 & I3 & I4)].
  - exists 0. split; [reflexivity|]. split; [|split; [reflexivity|intros k Hk; lia]]. cbn. symmetry. apply ceil_div_unique; lia.
  - exists (S d). rewrite app_length. cbn [length]. split; [lia|]. split; [|split].
    + rewrite app_nth2 by lia. rewrite I1, Nat.sub_diag. reflexivity.
    + rewrite app_nth1 by lia. exact I3.
    + intros k Hk. destruct (Nat.eq_dec k d) as [->|].
      * rewrite app_nth1 by lia. rewrite (app_nth2 l _ 0) by lia. rewrite I1, Nat.sub_diag. cbn [nth]. split; [exact I2|]. apply ceil_div_pos; lia.
      * rewrite !app_nth1 by lia. apply I4. lia.
Qed.
Lemma offset_S counts d : offset_at counts (S d) = offset_at counts d + nth d counts 0.
Proof.
  unfold offset_at. revert d. induction counts as [|c counts IH]; intros d; [destruct d; reflexivity|]. destruct d.
  - cbn. lia.
  - change (firstn (S (S d)) (c :: counts)) with (c :: firstn (S d) counts). change (firstn (S d) (c :: counts)) with (c :: firstn d counts).
    cbn [list_sum fold_right nth]. unfold list_sum in IH. rewrite IH. lia.
Qed.
Lemma offset_mono counts a b : a <= b -> offset_at counts a <= offset_at counts b.
Proof. induction 1; [lia|]. rewrite offset_S. lia. Qed.
Lemma build_up_ok counts d : forall nodes h, (forall k, k < d -> nth k counts 0 = ceil_div (nth (S k) counts 0) B /\ 0 < nth (S k) counts 0) ->
  level nodes h (offset_at counts d) (nth d counts 0) -> offset_at counts (S d) <= length nodes ->
  exists nodes', build_up B sort counts nodes d = Some nodes' /\ length nodes' = length nodes /\ level nodes' (h + d) 0 (nth 0 counts 0).
Proof.
  induction d; intros nodes h Hc Hl Hlen; cbn [build_up].
  - exists nodes. rewrite Nat.add_0_r. auto.
  - destruct (Hc d) as (C1 & C2); [lia|]. rewrite (offset_S counts (S d)) in Hlen. 
    destruct (level_up nodes h (offset_at counts (S d)) (nth (S d) counts 0) (offset_at counts d) Hl C2) as (nodes1 & L1 & L2 & L3); [rewrite offset_S, C1; reflexivity|exact Hlen|].
    rewrite L1. rewrite <- C1 in L3. destruct (IHd nodes1 (S h)) as (nodes' & M1 & M2 & M3); [intros; apply Hc; lia|exact L3|lia|].
    exists nodes'. split; [exact M1|]. split; [lia|]. rewrite <- Nat.add_succ_comm. exact M3.
Qed.
Theorem init_tree_ok : elements <> [] -> (Z.of_nat (length elements) < 2 ^ 32)%Z ->
  exists nodes h L, init_tree B sort bounds elements = Some nodes /\ holds nodes h 0 L /\ h <= length nodes /\ Permutation L (seq 0 (length elements)).
Proof.
  intros Hne Hlen. unfold init_tree. assert (Hu : uint32 (length elements) = length elements) by (unfold uint32; rewrite Z.mod_small by lia; apply Nat2Z.id).
  assert (Hpos : 0 < length elements) by (destruct elements; [congruence|cbn; lia]).
  replace (match elements with [] => Some [] | _ :: _ => _ end) with
    (match depth_counts B (uint32 (length elements)) with None => None | Some counts => let d := length counts - 1 in
       match bulk_load B sort (leaf_bounds bounds elements) true (repeat node_default (offset_at counts d + nth d counts 0)) (offset_at counts d) 0 (uint32 (length elements)) with None => None | Some nodes' => build_up B sort counts nodes' d end end)
    by (destruct elements; [congruence|reflexivity]).
  rewrite Hu. destruct (depth_counts_ok B HB (length elements) Hpos) as (counts & -> & Lc). destruct (level_counts_facts _ _ Lc) as (d & D1 & D2 & D3 & D4).
  cbv zeta. rewrite D1. replace (S d - 1) with d by lia. set (nodes0 := repeat node_default (offset_at counts d + nth d counts 0)).
  assert (Ln0 : length nodes0 = offset_at counts (S d)) by (unfold nodes0; rewrite repeat_length, offset_S; reflexivity).
  destruct (level_leaf nodes0 (offset_at counts d) Hpos) as (nodes1 & L1 & L2 & L3); [rewrite Ln0, offset_S, D2; lia|]. rewrite L1. rewrite <- D2 in L3.
  destruct (build_up_ok counts d nodes1 1 D4 L3) as (nodes2 & M1 & M2 & (Ls & M3 & M4)); [lia|]. rewrite M1. rewrite D3 in M3. cbn [seq] in M3.
  inversion M3 as [|? L ? Ls' HL HLs]; subst. inversion HLs; subst. cbn [concat] in M4. rewrite app_nil_r in M4.
  exists nodes2, (1 + d), L. split; [reflexivity|]. split; [exact HL|]. split; [|exact M4].
  rewrite M2, L2, Ln0. assert (G : forall k, k <= d -> S k <= offset_at counts (S k)).
  { intros k. induction k; intros Hk; rewrite offset_S; [cbn; lia|]. specialize (IHk ltac:(lia)). destruct (D4 k ltac:(lia)). lia. }
  apply G. lia.
Qed.

(** ** Visiting *)
Context {S : Type}.
Variable visitor : S -> A -> S * bool.
Variable q : rect N.
Hypothesis Hq : nums q.
(** the visitor called on the elements of [l] that intersect *)
Fixpoint run (l : list A) (s : S) : S * bool :=
  match l with
  | [] => (s, true)
  | a :: r => if int_rects (bounds a) q then let (s', go) := visitor s a in if go then run r s' else (s', false) else run r s
  end.
Lemma run_app l m s : run (l ++ m) s = let (s', go) := run l s in if go then run m s' else (s', false).
Proof.
  revert s. induction l as [|a l IH]; intros s; cbn; [destruct (run m s); reflexivity|]. destruct (int_rects (bounds a) q); [|apply IH].
  destruct (visitor s a) as [s' []]; [apply IH|reflexivity].
Qed.
Definition at_ (L : list nat) : list A := flat_map (fun i => match nth_error elements i with Some a => [a] | None => [] end) L.
Lemma run_none l s : (forall a, In a l -> int_rects (bounds a) q = false) -> run l s = (s, true).
Proof. revert s. induction l as [|a l IH]; intros s H; [reflexivity|]. cbn. rewrite (H a) by (left; reflexivity). apply IH. intros; apply H; right; assumption. Qed.
Fixpoint visit_ok nodes h i L (H : holds nodes h i L) {struct H} : forall fuel s, h <= fuel -> visit_sub bounds visitor fuel nodes elements q i s = Some (run (at_ L) s).
Proof.
  destruct H as [i nd H1 H2 H3 H4|h i nd Ls H1 H2 H3 H4 H5 H6]; intros [|fuel] s Hf; try lia; cbn [visit_sub]; rewrite H1, H2.
  - clear - H4. revert s. induction (n_children nd) as [|j l IH]; intros s; [reflexivity|]. cbn [visit_loop at_ flat_map]. destruct (H4 j) as (a & -> & _); [left; reflexivity|].
    cbn [app run]. destruct (int_rects (bounds a) q).
    + destruct (visitor s a) as [s' []]; [|reflexivity]. apply IH. intros; apply H4; right; assumption.
    + apply IH. intros; apply H4; right; assumption.
  - clear H4 H1 H2. revert s. induction H6 as [|c L cs Ls Hc Hcs IH]; intros s; [reflexivity|]. cbn [visit_loop concat]. unfold at_. rewrite flat_map_app. fold (at_ L) (at_ (concat Ls)). rewrite run_app.
    destruct (H5 c) as (cd & D1 & _); [left; reflexivity|]. rewrite D1. destruct (int_rects (n_bounds cd) q) eqn:I.
    + rewrite (visit_ok nodes h c L Hc fuel s) by lia. destruct (run (at_ L) s) as [s' []]; [|reflexivity]. apply IH. intros; apply H5; right; assumption.
    + rewrite run_none; [apply IH; intros; apply H5; right; assumption|]. intros a Ha. unfold at_ in Ha. apply in_flat_map in Ha. destruct Ha as (j & Hj & Ha).
      destruct (holds_all _ _ _ _ Hc) as (cd' & C1 & C2 & C3). rewrite D1 in C1. injection C1 as <-. destruct (C3 j Hj) as (a' & A1 & A2). rewrite A1 in Ha. destruct Ha as [<-|[]].
      apply not_true_is_false. intros Q. rewrite (int_mono (bounds a') (n_bounds cd) q) in I; [discriminate| | | | |exact Q]; auto. apply Hnums. apply nth_error_In in A1. exact A1.
Qed.
End Boxes.

(** ** One tree answers every query *)
Section Query.
Variable N : num.
Variable isnum : T N -> Prop.
Variable val : T N -> R.
Hypothesis Hlt : forall a b, isnum a -> isnum b -> (nlt N a b = true <-> (val a < val b)%R).
Context {A : Type}.
Variable bounds : A -> rect N.
Variable B : nat.
Hypothesis HB : 2 <= B.
Variable sort : (nat -> nat -> bool) -> list nat -> list nat.
Hypothesis sort_perm : forall f l, Permutation l (sort f l).
Variable elements : list A.
Lemma run_visits {S} (v : S -> A -> S * bool) q l s : visits v (filter (fun a => int_rects (bounds a) q) l) s (fst (run N bounds v q l s)).
Proof.
  revert s. induction l as [|a l IH]; intros s; cbn [filter run]; [constructor|]. destruct (int_rects (bounds a) q); [|apply IH].
  destruct (v s a) as [s' []] eqn:V; [eapply v_go; [exact V|apply IH]|apply v_stop; exact V].
Qed.
Lemma perm_filter (f : A -> bool) l m : Permutation l m -> Permutation (filter f l) (filter f m).
Proof. induction 1; cbn; [constructor|destruct (f x); [constructor|]; assumption|destruct (f x), (f y); try apply Permutation_refl; constructor|eapply Permutation_trans; eassumption]. Qed.
Lemma perm_flat {X Y} (f : X -> list Y) l m : Permutation l m -> Permutation (flat_map f l) (flat_map f m).
Proof. induction 1; cbn; [constructor|apply Permutation_app_head; assumption|rewrite !app_assoc; apply Permutation_app_tail; apply Permutation_app_comm|eapply Permutation_trans; eassumption]. Qed.
Lemma at_seq : at_ elements (seq 0 (length elements)) = elements.
Proof.
  unfold at_. assert (G : forall (l : list A) k, (forall i, nth_error l i = nth_error elements (k + i)) -> flat_map (fun i => match nth_error elements i with Some a => [a] | None => [] end) (seq k (length l)) = l).
  { induction l as [|a l IH]; intros k H; [reflexivity|]. cbn [length seq flat_map]. pose proof (H 0) as H0. rewrite Nat.add_0_r in H0. rewrite <- H0. cbn. f_equal. apply IH. intros i. rewrite Nat.add_succ_comm. exact (H (Datatypes.S i)). }
  apply G. intros i. reflexivity.
Qed.
Theorem query_exact : elements <> [] -> (Z.of_nat (length elements) < 2 ^ 32)%Z -> (forall a, In a elements -> nums N isnum (bounds a)) ->
  exists nodes, init_tree B sort bounds elements = Some nodes /\
    forall q, nums N isnum q -> exists order,
      Permutation order (filter (fun a => int_rects (bounds a) q) elements) /\
      forall S (v : S -> A -> S * bool) s, exists s', visit bounds v nodes elements q s = Some s' /\ visits v order s s'.
Proof.
  intros Hne Hlen Hb. destruct (init_tree_ok N isnum val Hlt bounds elements Hb B HB sort sort_perm Hne Hlen) as (nodes & h & L & H1 & H2 & H3 & H4).
  exists nodes. split; [exact H1|]. intros q Hq. set (f := fun a => int_rects (bounds a) q).
  exists (filter f (at_ elements L)). split.
  - apply perm_filter. apply Permutation_trans with (at_ elements (seq 0 (length elements))); [apply perm_flat; exact H4|rewrite at_seq; apply Permutation_refl].
  - intros S v s. exists (fst (run N bounds v q (at_ elements L) s)). split; [|apply run_visits].
    destruct (holds_all _ _ _ _ _ _ _ _ _ H2) as (nd & D1 & D2 & D3). unfold visit. destruct nodes as [|root rest]; [discriminate D1|]. injection D1 as ->.
    destruct (int_rects (n_bounds nd) q) eqn:I.
    + rewrite (visit_ok N isnum val Hlt bounds elements Hb B HB v q Hq _ _ _ _ H2 _ _ H3). reflexivity.
    + rewrite run_none; [reflexivity|]. intros a Ha. unfold at_ in Ha. apply in_flat_map in Ha. destruct Ha as (j & Hj & Ha). destruct (D3 j Hj) as (a' & A1 & A2). rewrite A1 in Ha. destruct Ha as [<-|[]].
      apply not_true_is_false. intros Q. rewrite (int_mono N isnum val Hlt (bounds a') (n_bounds nd) q) in I; [discriminate| | | | |exact Q]; auto. apply Hb. apply nth_error_In in A1. exact A1.
Qed.
End Query.
