(** C28: which mesh formats can be created, and how they lay out a vertex. *)
From Coq Require Import ZArith Bool Arith Lia List.
From Verif Require Import MeshFormatModel.
Import ListNotations.

(** ** Specification *)
(** The documented conditions on a list of (type, id) bytes, mesh_format.h 236-243.  Types 2 to 5 have two components. *)
Definition acceptable (l : list (nat * nat)) : Prop :=
  l <> [] /\ length l <= 16 /\ (forall t i, In (t, i) l -> t <= 13 /\ i <= 18) /\ NoDup (map snd l) /\ exists t, In (t, 0) l /\ 2 <= t <= 5.
(** Sum of a list *)
Definition total (l : list nat) : nat := fold_right Nat.add 0 l.
(** How many floats a value of a type has *)
Definition components (t : nat) : nat := if t <=? 1 then 1 else if t <=? 5 then 2 else if t <=? 9 then 3 else 4.
(** A packed attribute takes the fewest 24-bit floats or 8-bit bytes that hold its bits *)
Definition fewest (bits per : nat) : nat := (bits + per - 1) / per.

Lemma type_of_byte t : type_of (type_byte t) = Some t. Proof. destruct t; reflexivity. Qed.
Lemma type_of_le b t : type_of b = Some t -> b <= 13 /\ type_byte t = b /\ component_count t = components b.
Proof. unfold type_of. intros H. do 14 (destruct b as [|b]; [injection H as <-; repeat split; lia|]). destruct b; discriminate. Qed.
Lemma type_of_some b : b <= 13 -> exists t, type_of b = Some t.
Proof. intros H. destruct (type_of b) as [t|] eqn:E; [eauto|]. apply nth_error_None in E. cbn in E. lia. Qed.
Lemma existsb_in x l : existsb (Nat.eqb x) l = true <-> In x l.
Proof. rewrite existsb_exists. split; [intros (y & I & E); apply Nat.eqb_eq in E; subst; exact I|intros I; exists x; split; [exact I|apply Nat.eqb_refl]]. Qed.
Lemma scan_ok l : forall i seen pos r p, scan l i seen pos = Some (r, p) ->
  map (fun x => (type_byte (fst x), snd x)) r = l /\ (forall t j, In (t, j) l -> t <= 13 /\ j <= 18) /\ NoDup (map snd l) /\ (forall j, In j (map snd l) -> ~ In j seen) /\
  (In 0 (map snd l) -> exists k, p = Some (i + k) /\ nth_error (map snd l) k = Some 0) /\ (~ In 0 (map snd l) -> p = pos).
Proof.
  induction l as [|[tb ib] l IH]; cbn [scan map snd]; intros i seen pos r p H.
  - injection H as <- <-. repeat split; try constructor; try contradiction; auto.
  - destruct (type_of tb) as [t|] eqn:T; [|discriminate]. unfold valid_id in H. destruct (ib <? 19) eqn:V; [|discriminate]. apply Nat.ltb_lt in V. cbn [negb] in H.
    destruct (existsb (Nat.eqb ib) seen) eqn:E; [discriminate|]. rewrite <- not_true_iff_false, existsb_in in E.
    destruct (scan l (i + 1) (ib :: seen) _) as [[r' p']|] eqn:SC; [|discriminate]. injection H as <- <-. destruct (IH _ _ _ _ _ SC) as (A & B & C & D & F & G). destruct (type_of_le tb t T) as (L & TB & _).
    split; [cbn [map fst snd]; rewrite A, TB; reflexivity|]. split; [intros t0 j [K|K]; [injection K as <- <-; lia|apply (B t0 j K)]|]. split; [constructor; [intros K; apply (D ib K); left; reflexivity|exact C]|].
    split; [intros j [<- |K]; [exact E|intros K2; apply (D j K); right; exact K2]|]. unfold kPosition in *. split.
    + intros [-> |K].
      * exists 0. split; [|reflexivity]. rewrite Nat.add_0_r. apply G. intros K. apply (D 0 K). left. reflexivity.
      * destruct (F K) as (k & -> & N). exists (S k). split; [f_equal; lia|exact N].
    + intros K. destruct (Nat.eqb_spec ib 0) as [-> |NE]; [elim K; left; reflexivity|]. apply G. intros K2. apply K. right. exact K2.
Qed.
Lemma scan_total l : forall i seen pos, (forall t j, In (t, j) l -> t <= 13 /\ j <= 18) -> NoDup (map snd l) -> (forall j, In j (map snd l) -> ~ In j seen) -> scan l i seen pos <> None.
Proof.
  induction l as [|[tb ib] l IH]; cbn [scan map snd]; intros i seen pos V N D; [discriminate|]. destruct (V tb ib (or_introl eq_refl)) as [V1 V2]. destruct (type_of_some tb V1) as (t & ->).
  unfold valid_id. destruct (Nat.ltb_spec ib 19) as [_|K]; [|lia]. cbn [negb]. destruct (existsb (Nat.eqb ib) seen) eqn:E; [apply existsb_in in E; elim (D ib); [left; reflexivity|exact E]|]. inversion N as [|? ? N1 N2]; subst.
  destruct (scan l (i + 1) (ib :: seen) _) as [[r' p']|] eqn:SC; [discriminate|]. exfalso. revert SC. apply IH; [intros t0 j K; apply (V t0 j); right; exact K|exact N2|]. intros j K [<- |K2]; [exact (N1 K)|apply (D j); [right; exact K|exact K2]].
Qed.
Lemma create_some l i f : create l i = Some f -> exists r pos t, map (fun x => (type_byte (fst x), snd x)) r = l /\ nth_error r pos = Some (t, 0) /\ component_count t = 2 /\ f = build r pos i /\ l <> [] /\ length l <= 16 /\ (forall t j, In (t, j) l -> t <= 13 /\ j <= 18) /\ NoDup (map snd l).
Proof.
  unfold create. intros H. destruct l as [|x l]; [discriminate|]. set (l' := x :: l) in *. unfold kMaxVertexAttributes in H. destruct (Nat.ltb_spec 16 (length l')) as [|LE]; [discriminate|].
  destruct (scan l' 0 [] None) as [[r [pos|]]|] eqn:SC; try discriminate. destruct (scan_ok _ _ _ _ _ _ SC) as (A & B & C & _ & F & G). destruct (nth_error r pos) as [[t j]|] eqn:N; [|discriminate]. destruct (Nat.eqb_spec (component_count t) 2) as [CC|]; [|discriminate]. injection H as <-.
  destruct (in_dec Nat.eq_dec 0 (map snd l')) as [I|I]; [|apply G in I; discriminate]. destruct (F I) as (k & K1 & K2). injection K1 as ->. cbn [Nat.add] in *.
  assert (j = 0). { rewrite <- A, map_map in K2. cbn [snd] in K2. pose proof (map_nth_error snd _ _ N) as K3. cbn [snd] in K3. change (fun x => snd x) with (@snd atype nat) in K2. congruence. } subst j.
  exists r, k, t. repeat split; try assumption; try discriminate; apply (B _ _ H).
Qed.
(** Create succeeds exactly on the documented lists *)
Theorem C28_create l i : create l i <> None <-> acceptable l.
Proof.
  split.
  - intros H. destruct (create l i) as [f|] eqn:E; [|congruence]. destruct (create_some _ _ _ E) as (r & pos & t & A & N & CC & _ & NE & LE & V & ND). split; [exact NE|]. split; [exact LE|]. split; [exact V|]. split; [exact ND|].
    exists (type_byte t). split; [|destruct t; try discriminate CC; cbn; lia]. rewrite <- A. apply in_map_iff. exists (t, 0). split; [reflexivity|]. apply nth_error_In in N. exact N.
  - intros (NE & LE & V & ND & t & I & T) H. unfold create in H. destruct l as [|x l]; [congruence|]. set (l' := x :: l) in *. unfold kMaxVertexAttributes in H. destruct (Nat.ltb_spec 16 (length l')) as [K|_]; [lia|].
    destruct (scan l' 0 [] None) as [[r p]|] eqn:SC; [|revert SC; apply scan_total; auto]. destruct (scan_ok _ _ _ _ _ _ SC) as (A & _ & _ & _ & F & _).
    assert (I0 : In 0 (map snd l')) by (apply in_map_iff; exists (t, 0); auto). destruct (F I0) as (k & -> & K). rewrite Nat.add_0_l in *. rewrite <- A, map_map in K. cbn [snd] in K.
    destruct (nth_error r k) as [[t' j]|] eqn:N; [|apply nth_error_None in N; assert (Q : k < length (map (fun x => snd x) r)) by (apply nth_error_Some; congruence); rewrite map_length in Q; lia].
    pose proof (map_nth_error snd _ _ N) as K3. cbn [snd] in K3. change (fun x => snd x) with (@snd atype nat) in K. assert (j = 0) by congruence. subst j.
    assert (T' : type_byte t' = t). { assert (I2 : In (type_byte t', 0) l') by (rewrite <- A; apply in_map_iff; exists (t', 0); split; [reflexivity|]; apply nth_error_In in N; exact N).
      destruct (In_nth_error _ _ I) as (n1 & N1). destruct (In_nth_error _ _ I2) as (n2 & N2). pose proof (map_nth_error snd _ _ N1) as M1. pose proof (map_nth_error snd _ _ N2) as M2. cbn [snd] in M1, M2.
      assert (n1 = n2). { apply (proj1 (NoDup_nth_error (map snd l')) ND); [apply nth_error_Some; congruence|congruence]. } subst n2. congruence. }
    assert (CC : component_count t' = 2) by (destruct t'; cbn in T'; subst t; try reflexivity; lia). rewrite CC in H. discriminate.
Qed.
(** Layout *)
Lemma firstn_total l k : k <= length l -> total (firstn k l) <= total l.
Proof. revert k. induction l as [|x l IH]; intros [|k] H; cbn in *; try lia. specialize (IH k ltac:(lia)). unfold total in *. lia. Qed.
Lemma sizes_le t : unpacked_size t <= 16 /\ packed_size t <= 16 /\ 1 <= packed_size t /\ 1 <= unpacked_size t. Proof. destruct t; cbn; lia. Qed.
Lemma small_u16 n : n <= 1024 -> u16 n = n.
Proof. intros H. unfold u16. apply Nat.mod_small. apply Nat.le_lt_trans with (2 ^ 10); [exact H|apply Nat.pow_lt_mono_r; lia]. Qed.
Lemma populate_ok r : forall u p, u + 16 * length r <= 1024 -> p + 16 * length r <= 1024 ->
  let '(a, u', p') := populate r u p in
  u' = u + total (map (fun x => unpacked_size (fst x)) r) /\ p' = p + total (map (fun x => packed_size (fst x)) r) /\
  map (fun a => (ty a, aid a)) a = r /\
  forall k x, nth_error a k = Some x ->
    uoff x = u + total (firstn k (map uwidth a)) /\ poff x = p + total (firstn k (map pwidth a)) /\ uwidth x = unpacked_size (ty x) /\ pwidth x = packed_size (ty x).
Proof.
  induction r as [|[t i] r IH]; cbn [populate map length]; intros u p U P.
  - cbn. repeat split; try lia; destruct k; discriminate.
  - pose proof (sizes_le t) as SZ. rewrite !small_u16 by lia. specialize (IH (u + unpacked_size t) (p + packed_size t) ltac:(lia) ltac:(lia)). destruct (populate r _ _) as [[a u'] p']. destruct IH as (A & B & C & D). cbn [map ty aid fst snd uwidth pwidth]. split; [cbn [total fold_right]; unfold total in A; lia|]. split; [cbn [total fold_right]; unfold total in B; lia|]. split; [rewrite C; reflexivity|].
    intros [|k] x H; cbn [nth_error] in H; [injection H as <-; cbn; repeat split; lia|]. destruct (D k x H) as (D1 & D2 & D3 & D4). cbn [firstn total fold_right]. unfold total in D1, D2. repeat split; try assumption; lia.
Qed.
(** The format has the given attributes in the given order; each starts where the one before ends, and the strides are the sums of the widths *)
Theorem C28_layout l i f : create l i = Some f ->
  map (fun a => (type_byte (ty a), aid a)) (attrs f) = l /\ index_format f = i /\ istride f = (match i with k16BitUnpacked16BitPacked => 2 | k32BitUnpacked16BitPacked => 4 end) /\
  (exists a, nth_error (attrs f) (pos_index f) = Some a /\ aid a = 0 /\ component_count (ty a) = 2) /\
  ustride f = total (map uwidth (attrs f)) /\ pstride f = total (map pwidth (attrs f)) /\
  forall k a, nth_error (attrs f) k = Some a -> uoff a = total (firstn k (map uwidth (attrs f))) /\ poff a = total (firstn k (map pwidth (attrs f))) /\
    uwidth a = 4 * components (type_byte (ty a)) /\ 1 <= pwidth a <= uwidth a.
Proof.
  intros H. destruct (create_some _ _ _ H) as (r & pos & t & A & N & CC & -> & NE & LE & V & ND). assert (LR : length r <= 16) by (rewrite <- A, map_length in LE; exact LE).
  unfold build. pose proof (populate_ok r 0 0 ltac:(lia) ltac:(lia)) as Q. destruct (populate r 0 0) as [[a u] p]. destruct Q as (Q1 & Q2 & Q3 & Q4). rewrite Nat.add_0_l in Q1, Q2. cbn [attrs index_format istride pos_index ustride pstride].
  assert (W : forall x, In x a -> uwidth x = unpacked_size (ty x) /\ pwidth x = packed_size (ty x)) by (intros x I; apply In_nth_error in I; destruct I as (k & I); apply (Q4 k x I)).
  split; [rewrite <- A, <- Q3, map_map; reflexivity|]. split; [reflexivity|]. split; [reflexivity|]. split.
  { rewrite <- Q3 in N. destruct (nth_error a pos) as [x|] eqn:E; [|rewrite nth_error_map, E in N; discriminate]. rewrite nth_error_map, E in N. injection N as N1 N2. exists x. subst t. auto. }
  split; [rewrite Q1, <- Q3, map_map; cbn [fst]; apply f_equal, map_ext_in; intros x I; symmetry; apply (W x I)|]. split; [rewrite Q2, <- Q3, map_map; cbn [fst]; apply f_equal, map_ext_in; intros x I; symmetry; apply (W x I)|].
  intros k x E. destruct (Q4 k x E) as (E1 & E2 & E3 & E4). rewrite E1, E2. repeat split; try reflexivity; rewrite ?E3, ?E4; [destruct (ty x); reflexivity|apply sizes_le|destruct (ty x); cbn; lia].
Qed.
(** so each byte of a vertex belongs to exactly one attribute *)
Lemma tile (w : list nat) : forall b, b < total w -> exists k x, nth_error w k = Some x /\ total (firstn k w) <= b < total (firstn k w) + x /\
  forall k' x', nth_error w k' = Some x' -> total (firstn k' w) <= b < total (firstn k' w) + x' -> k' = k.
Proof.
  induction w as [|y w IH]; intros b B; [cbn in B; lia|]. cbn [total fold_right] in B. fold (total w) in B. destruct (Nat.lt_ge_cases b y) as [L|L].
  - exists 0, y. cbn. repeat split; try lia. intros [|k'] x' E R; [reflexivity|]. cbn [nth_error firstn total fold_right] in *. lia.
  - destruct (IH (b - y) ltac:(lia)) as (k & x & E & R & U). exists (S k), x. cbn [nth_error firstn total fold_right]. fold (total (firstn k w)). split; [exact E|]. split; [lia|].
    intros [|k'] x' E' R'; cbn [nth_error firstn total fold_right] in *; [injection E' as ->; lia|]. fold (total (firstn k' w)) in R'. f_equal. apply (U k' x' E'). lia.
Qed.
Theorem C28_tiles l i f b : create l i = Some f ->
  (b < ustride f -> exists k a, nth_error (attrs f) k = Some a /\ uoff a <= b < uoff a + uwidth a /\ forall k' a', nth_error (attrs f) k' = Some a' -> uoff a' <= b < uoff a' + uwidth a' -> k' = k) /\
  (b < pstride f -> exists k a, nth_error (attrs f) k = Some a /\ poff a <= b < poff a + pwidth a /\ forall k' a', nth_error (attrs f) k' = Some a' -> poff a' <= b < poff a' + pwidth a' -> k' = k).
Proof.
  intros H. destruct (C28_layout _ _ _ H) as (_ & _ & _ & _ & U & P & Q). split; intros B.
  - rewrite U in B. destruct (tile _ _ B) as (k & x & E & R & UN). rewrite nth_error_map in E. destruct (nth_error (attrs f) k) as [a|] eqn:EA; [|discriminate]. injection E as <-. exists k, a. split; [exact EA|]. destruct (Q k a EA) as (Q1 & _). rewrite Q1. split; [exact R|].
    intros k' a' E' R'. destruct (Q k' a' E') as (Q1' & _). rewrite Q1' in R'. apply (UN k' (uwidth a')); [rewrite nth_error_map, E'; reflexivity|exact R'].
  - rewrite P in B. destruct (tile _ _ B) as (k & x & E & R & UN). rewrite nth_error_map in E. destruct (nth_error (attrs f) k) as [a|] eqn:EA; [|discriminate]. injection E as <-. exists k, a. split; [exact EA|]. destruct (Q k a EA) as (_ & Q1 & _). rewrite Q1. split; [exact R|].
    intros k' a' E' R'. destruct (Q k' a' E') as (_ & Q1' & _). rewrite Q1' in R'. apply (UN k' (pwidth a')); [rewrite nth_error_map, E'; reflexivity|exact R'].
Qed.
(** Packed widths are the smallest that hold the bits of all components; unpacked types keep their width *)
Theorem C28_widths t : match packed_bits t with
  | None => is_unpacked t = true /\ packed_size t = unpacked_size t
  | Some bits => is_unpacked t = false /\ length bits = component_count t /\ packed_size t = (if is_packed_as_float t then 4 * fewest (total bits) 24 else fewest (total bits) 8)
  end.
Proof. destruct t; repeat split. Qed.
(** WithoutAttributes *)
Lemma drop_ok a : NoDup (map aid a) -> forall todo, NoDup todo ->
  fst (drop_attrs a todo) = map (fun x => (type_byte (ty x), aid x)) (filter (fun x => negb (existsb (Nat.eqb (aid x)) todo)) a) /\ (forall j, In j (snd (drop_attrs a todo)) <-> In j todo /\ ~ In j (map aid a)).
Proof.
  induction a as [|x a IH]; cbn [drop_attrs map filter]; intros ND todo NT.
  - split; [reflexivity|]. intros j. tauto.
  - inversion ND as [|? ? N1 N2]; subst. destruct (existsb (Nat.eqb (aid x)) todo) eqn:E; cbn [negb].
    + destruct (IH N2 (filter (fun y => negb (Nat.eqb y (aid x))) todo) (NoDup_filter _ NT)) as [A B]. rewrite A. split.
      * f_equal. apply filter_ext_in. intros y I. f_equal. apply eq_true_iff_eq. rewrite !existsb_in, filter_In. split; [tauto|]. intros K. split; [exact K|]. apply negb_true_iff, Nat.eqb_neq. intros Q. apply N1. rewrite <- Q. apply in_map, I.
      * intros j. rewrite B, filter_In, negb_true_iff, Nat.eqb_neq. cbn [In map]. split; [intros [[P1 P2] P3]; split; [exact P1|intros [K|K]; [congruence|exact (P3 K)]]|intros [P1 P2]; split; [split; [exact P1|intros ->; apply P2; left; reflexivity]|intros K; apply P2; right; exact K]].
    + destruct (IH N2 todo NT) as [A B]. destruct (drop_attrs a todo) as [r t]. cbn [fst snd] in *. split; [cbn [map]; rewrite A; reflexivity|]. intros j. rewrite B. cbn [In map]. rewrite <- not_true_iff_false, existsb_in in E. split; [intros [P1 P2]; split; [exact P1|intros [K|K]; [subst; exact (E P1)|exact (P2 K)]]|tauto].
Qed.
Lemma filter_len {A} (p : A -> bool) l : length (filter p l) <= length l. Proof. induction l; cbn; [lia|]. destruct (p a); cbn; lia. Qed.
Lemma nodup_filter_map (p : nat * nat -> bool) l : NoDup (map snd l) -> NoDup (map snd (filter p l)).
Proof. induction l as [|x l IH]; cbn; intros N; [constructor|]. inversion N; subst. destruct (p x); cbn; [|auto]. constructor; [|auto]. intros K. apply H1. apply in_map_iff in K. destruct K as (y & E & I). apply filter_In in I. apply in_map_iff. exists y. tauto. Qed.
Theorem C28_without l i f ids : create l i = Some f ->
  let kept := filter (fun p => negb (existsb (Nat.eqb (snd p)) ids)) l in
  without_attributes f ids = (if existsb (Nat.eqb 0) ids || negb (forallb (fun j => existsb (Nat.eqb j) (map snd l)) ids) then None else create kept i) /\
  (without_attributes f ids <> None <-> ~ In 0 ids /\ forall j, In j ids -> In j (map snd l)).
Proof.
  intros H kept. destruct (C28_layout _ _ _ H) as (A & I & _). pose proof (proj1 (C28_create l i) ltac:(congruence)) as (NE & LE & V & ND & t & T0 & T).
  assert (ND' : NoDup (map aid (attrs f))) by (rewrite <- A, map_map in ND; exact ND). assert (MA : map aid (attrs f) = map snd l) by (rewrite <- A, map_map; reflexivity).
  destruct (drop_ok (attrs f) ND' (nodup Nat.eq_dec ids) (NoDup_nodup _ _)) as [B C]. set (d := drop_attrs (attrs f) (nodup Nat.eq_dec ids)) in *.
  assert (P0 : existsb (Nat.eqb kPosition) (nodup Nat.eq_dec ids) = existsb (Nat.eqb 0) ids) by (apply eq_true_iff_eq; rewrite !existsb_in, nodup_In; reflexivity).
  assert (K : fst d = kept). { rewrite B. unfold kept. rewrite <- A. generalize (attrs f). intros a. induction a as [|x a IHa]; [reflexivity|]. cbn [filter map snd]. assert (Q : existsb (Nat.eqb (aid x)) (nodup Nat.eq_dec ids) = existsb (Nat.eqb (aid x)) ids) by (apply eq_true_iff_eq; rewrite !existsb_in, nodup_In; reflexivity). rewrite Q. destruct (existsb (Nat.eqb (aid x)) ids); cbn [negb map filter snd]; [exact IHa|f_equal; exact IHa]. }
  assert (D : snd d = [] <-> forall j, In j ids -> In j (map snd l)). { split; [intros E j J|intros E]. 
    - destruct (in_dec Nat.eq_dec j (map snd l)) as [Y|N]; [exact Y|]. assert (X : In j (snd d)) by (apply C; rewrite nodup_In, MA; auto). rewrite E in X. destruct X.
    - destruct (snd d) as [|j s] eqn:Q; [reflexivity|]. destruct (proj1 (C j) (or_introl eq_refl)) as [X Y]. rewrite nodup_In in X. rewrite MA in Y. elim (Y (E j X)). }
  assert (FA : forallb (fun j => existsb (Nat.eqb j) (map snd l)) ids = true <-> forall j, In j ids -> In j (map snd l)). { rewrite forallb_forall. split; intros E j J; specialize (E j J); apply existsb_in; exact E. }
  assert (W : without_attributes f ids = if existsb (Nat.eqb 0) ids || negb (forallb (fun j => existsb (Nat.eqb j) (map snd l)) ids) then None else create kept i).
  { unfold without_attributes. rewrite P0. destruct (existsb (Nat.eqb 0) ids) eqn:E0; cbn [orb]; [reflexivity|]. fold d. destruct d as [r td] eqn:ED. cbn [fst snd] in *. destruct (forallb _ ids) eqn:EF; cbn [negb].
    - assert (td = []) by (apply D, FA; reflexivity). subst td. rewrite I, K. reflexivity.
    - destruct td; [|reflexivity]. assert (false = true) by (apply FA, D; reflexivity). discriminate. }
  split; [exact W|]. rewrite W. destruct (existsb (Nat.eqb 0) ids) eqn:E0; cbn [orb]; [apply existsb_in in E0; tauto|]. assert (E0' : ~ In 0 ids) by (rewrite <- existsb_in, E0; discriminate).
  destruct (forallb _ ids) eqn:EF; cbn [negb]; [|split; [congruence|intros [_ X]; apply FA in X; congruence]]. split; [intros _; split; [exact E0'|apply FA; reflexivity]|]. intros _. apply C28_create.
  assert (IK : In (t, 0) kept) by (apply filter_In; cbn [snd]; rewrite E0; auto). split; [intros X; rewrite X in IK; destruct IK|]. split; [unfold kept; eapply Nat.le_trans; [apply filter_len|exact LE]|].
  split; [intros t' j' J; apply filter_In in J; apply (V t' j'); tauto|]. split; [apply nodup_filter_map, ND|]. exists t. auto.
Qed.
(** Comparing formats *)
Lemma all2_eq {A B} (p : A -> A -> bool) (g : A -> B) a b : (forall x y, p x y = true <-> g x = g y) -> (all2 p a b = true <-> map g a = map g b).
Proof.
  intros P. revert b. induction a as [|x a IH]; intros [|y b]; cbn; try (split; [discriminate|discriminate]); [tauto|]. rewrite andb_true_iff, P, IH. split; [intros [-> ->]; reflexivity|intros H; injection H; auto].
Qed.
Lemma pos_unique l i f l' i' f' : create l i = Some f -> create l' i' = Some f' -> map snd l = map snd l' -> pos_index f = pos_index f'.
Proof.
  intros H H' E. destruct (C28_layout _ _ _ H) as (A & _ & _ & (a & P1 & P2 & _) & _). destruct (C28_layout _ _ _ H') as (A' & _ & _ & (a' & P1' & P2' & _) & _). pose proof (proj1 (C28_create l i) ltac:(congruence)) as (_ & _ & _ & ND & _).
  assert (X : nth_error (map snd l) (pos_index f) = Some 0) by (rewrite <- A, map_map; cbn [snd]; rewrite nth_error_map, P1; cbn; congruence). assert (X' : nth_error (map snd l) (pos_index f') = Some 0) by (rewrite E, <- A', map_map; cbn [snd]; rewrite nth_error_map, P1'; cbn; congruence).
  apply (proj1 (NoDup_nth_error (map snd l)) ND); [apply nth_error_Some; congruence|congruence].
Qed.
Theorem C28_equal l i f l' i' f' : create l i = Some f -> create l' i' = Some f' ->
  (format_eqb f f' = true <-> l = l' /\ i = i') /\ (packed_equiv f f' = true <-> l = l') /\
  (unpacked_equiv f f' = true <-> map (fun p => (components (fst p), snd p)) l = map (fun p => (components (fst p), snd p)) l').
Proof.
  intros H H'. pose proof (C28_layout _ _ _ H) as (A & I & _ & _ & _ & _ & W). pose proof (C28_layout _ _ _ H') as (A' & I' & _ & _ & _ & _ & W').
  assert (PU : l = l' -> pos_index f = pos_index f') by (intros ->; eapply pos_unique; eauto). split; [|split].
  - unfold format_eqb. rewrite andb_true_iff. rewrite (all2_eq _ (fun a => (type_byte (ty a), aid a))) by (intros x y; unfold same_type; rewrite andb_true_iff, !Nat.eqb_eq; split; [intros [-> ->]; reflexivity|intros E; injection E; auto]). rewrite A, A', I, I'. destruct i, i'; cbn; intuition congruence.
  - unfold packed_equiv. rewrite andb_true_iff, Nat.eqb_eq. rewrite (all2_eq _ (fun a => (type_byte (ty a), aid a))) by (intros x y; unfold same_type; rewrite andb_true_iff, !Nat.eqb_eq; split; [intros [-> ->]; reflexivity|intros E; injection E; auto]). rewrite A, A'. tauto.
  - unfold unpacked_equiv. rewrite andb_true_iff, Nat.eqb_eq. assert (CC : forall t, component_count t = components (type_byte t)) by (intros []; reflexivity).
    assert (W2 : forall x y, In x (attrs f) -> In y (attrs f') -> (uwidth x = uwidth y <-> components (type_byte (ty x)) = components (type_byte (ty y)))). { intros x y J K. apply In_nth_error in J, K. destruct J as (j & J), K as (k & K). destruct (W j x J) as (_ & _ & -> & _), (W' k y K) as (_ & _ & -> & _). lia. }
    assert (E : all2 (fun a b => Nat.eqb (aid a) (aid b) && Nat.eqb (component_count (ty a)) (component_count (ty b)) && Nat.eqb (uwidth a) (uwidth b)) (attrs f) (attrs f') = true <-> map (fun p => (components (fst p), snd p)) l = map (fun p => (components (fst p), snd p)) l').
    { rewrite <- A, <- A', !map_map. cbn [fst snd]. revert W2. generalize (attrs f) (attrs f'). intros a. induction a as [|x a IH]; intros [|y b] W2; cbn [all2 map]; try (split; [discriminate|discriminate]); [tauto|].
      rewrite !andb_true_iff, !Nat.eqb_eq, IH by (intros; apply W2; right; assumption). rewrite !CC. pose proof (W2 x y (or_introl eq_refl) (or_introl eq_refl)) as W3. split; [intros [[[E1 E2] _] E3]; rewrite E1, E2, E3; reflexivity|intros E; injection E as E1 E2 E3; rewrite E2; tauto]. }
    rewrite E. split; [tauto|]. intros Q. split; [|exact Q]. apply (pos_unique _ _ _ _ _ _ H H'). assert (MS : forall m : list (nat * nat), map snd m = map snd (map (fun p => (components (fst p), snd p)) m)) by (intros; rewrite map_map; reflexivity). rewrite (MS l), (MS l'), Q. reflexivity.
Qed.
(** mesh_format.h 240 allows any id of at least 128, but none is accepted *)
Theorem C28_custom_id_refuted l i t j : In (t, j) l -> 128 <= j -> create l i = None.
Proof. intros I J. destruct (create l i) eqn:E; [|reflexivity]. pose proof (proj1 (C28_create l i) ltac:(congruence)) as (_ & _ & V & _). apply V in I. lia. Qed.
(** The default format is one that can be created *)
Theorem C28_default : create [(2, 0)] k32BitUnpacked16BitPacked = Some default_format. Proof. reflexivity. Qed.
Example c28_case : exists f, create [(0, 2); (12, 1); (5, 0)] k16BitUnpacked16BitPacked = Some f /\ map uoff (attrs f) = [0; 4; 20] /\ map poff (attrs f) = [0; 4; 12] /\ (ustride f, pstride f, istride f, pos_index f) = (28, 16, 2, 2) /\
  without_attributes f [1; 1] = create [(0, 2); (5, 0)] k16BitUnpacked16BitPacked /\ without_attributes f [3] = None.
Proof. eexists. split; [vm_compute; reflexivity|]. repeat split; vm_compute; reflexivity. Qed.
Print Assumptions C28_create.
Print Assumptions C28_layout.
Print Assumptions C28_tiles.
Print Assumptions C28_widths.
Print Assumptions C28_without.
Print Assumptions C28_equal.
Print Assumptions C28_custom_id_refuted.
