(** The attributes that AsMeshes keeps *)
From Coq Require Import ZArith Bool Lia List.
From Verif Require Import F32 MeshFormatModel MeshFormatProps PackModel MutableMeshModel MutableMeshSpec MutableMeshProofs MeshModel MeshProofs MeshProps AsMeshesSpec.
Import ListNotations.
Local Open Scope nat_scope.

Lemma filter_seq {A B} (g : A -> bool) (h : A -> B) (d : A) : forall (l : list A) s (nth_ : nat -> A), (forall k, k < length l -> nth_ (s + k) = nth k l d) ->
  map (fun k => h (nth_ k)) (filter (fun k => g (nth_ k)) (seq s (length l))) = map h (filter g l).
Proof.
  induction l as [|x l IH]; intros s nth_ H; [reflexivity|]. cbn [length seq filter]. pose proof (H 0 ltac:(cbn; lia)) as E. rewrite Nat.add_0_r in E. cbn [nth] in E.
  assert (R : forall k, k < length l -> nth_ (S s + k) = nth k l d) by (intros k K; specialize (H (S k) ltac:(cbn; lia)); rewrite Nat.add_succ_r in H; exact H).
  rewrite E. destruct (g x); cbn [map]; [rewrite E; f_equal|]; apply IH, R.
Qed.
Lemma filter_combine {A B} (g : A -> bool) (d : A) (e : B) : forall (l : list A) (v : list B) s (nth_ : nat -> A) (val : nat -> B), length v = length l ->
  (forall k, k < length l -> nth_ (s + k) = nth k l d) -> (forall k, k < length l -> val (s + k) = nth k v e) ->
  map val (filter (fun k => g (nth_ k)) (seq s (length l))) = map snd (filter (fun p => g (fst p)) (combine l v)).
Proof.
  induction l as [|x l IH]; intros [|y v] s nth_ val L H K; try discriminate; [reflexivity|]. cbn [length seq filter combine fst]. pose proof (H 0 ltac:(cbn; lia)) as E. pose proof (K 0 ltac:(cbn; lia)) as F. rewrite Nat.add_0_r in E, F. cbn [nth] in E, F.
  assert (R : forall k, k < length l -> nth_ (S s + k) = nth k l d) by (intros k Q; specialize (H (S k) ltac:(cbn; lia)); rewrite Nat.add_succ_r in H; exact H).
  assert (Q : forall k, k < length l -> val (S s + k) = nth k v e) by (intros k J; specialize (K (S k) ltac:(cbn; lia)); rewrite Nat.add_succ_r in K; exact K).
  rewrite E. destruct (g x); cbn [map snd]; [rewrite F; f_equal|]; apply IH; auto.
Qed.
Lemma created_types l i f : create l i = Some f -> map ty (attrs f) = flat_map (fun p => match type_of (fst p) with Some t => [t] | None => [] end) l.
Proof.
  intros H. destruct (C28_layout _ _ _ H) as (A & _). rewrite <- A. generalize (attrs f). intros a. induction a as [|x a IH]; [reflexivity|]. cbn [map flat_map fst]. rewrite type_of_byte. cbn [app]. rewrite IH. reflexivity.
Qed.
Section Kept.
Variables (l : list (nat * nat)) (i : ifmt) (f nf : format) (omit : list nat).
Hypothesis CF : create l i = Some f.
Hypothesis CN : create (left_attributes l omit) i = Some nf.
Notation ks := (kept f omit).
Let AF : map (fun a => (type_byte (ty a), aid a)) (attrs f) = l. Proof. apply (C28_layout _ _ _ CF). Qed.
Let AN : map (fun a => (type_byte (ty a), aid a)) (attrs nf) = left_attributes l omit. Proof. apply (C28_layout _ _ _ CN). Qed.
Lemma attr_pair k : k < length l -> (type_byte (ty (attr_at f k)), aid (attr_at f k)) = nth k l (0, 0).
Proof.
  intros K. rewrite <- AF in K. rewrite map_length in K. symmetry. apply nth_error_nth. rewrite <- AF, nth_error_map, (attr_at_nth f k K). reflexivity.
Qed.
Lemma kept_attrs : map (attr_at f) ks = filter (fun a => negb (omitted omit a)) (attrs f).
Proof.
  unfold kept. pose proof (filter_seq (fun a => negb (omitted omit a)) (fun a => a) (Attr Float1Unpacked 0 0 0 0 0) (attrs f) 0 (attr_at f)) as H. cbv beta in H. rewrite map_id in H. apply H. intros k _. reflexivity.
Qed.
Lemma kept_pairs : map (fun k => (type_byte (ty (attr_at f k)), aid (attr_at f k))) ks = left_attributes l omit.
Proof.
  change (map (fun k => (type_byte (ty (attr_at f k)), aid (attr_at f k))) ks) with (map (fun k => (fun a => (type_byte (ty a), aid a)) (attr_at f k)) ks). rewrite <- (map_map (attr_at f) (fun a => (type_byte (ty a), aid a))), kept_attrs.
  unfold left_attributes, stays. rewrite <- AF. generalize (attrs f). intros a. unfold omitted. induction a as [|x a IH]; [reflexivity|]. cbn [filter map snd]. destruct (existsb (Nat.eqb (aid x)) omit); cbn [negb map]; [exact IH|]. rewrite IH. reflexivity.
Qed.
Lemma kept_length : length ks = length (attrs nf). Proof. rewrite <- (map_length (fun a => (type_byte (ty a), aid a)) (attrs nf)), AN, <- kept_pairs, map_length. reflexivity. Qed.
Lemma byte_inj t t' : type_byte t = type_byte t' -> t = t'. Proof. destruct t, t'; try reflexivity; discriminate. Qed.
Lemma kept_at k : k < length ks -> ty (attr_at nf k) = ty (attr_at f (nth k ks 0)) /\ aid (attr_at nf k) = aid (attr_at f (nth k ks 0)).
Proof.
  intros K. assert (E : nth_error (map (fun a => (type_byte (ty a), aid a)) (attrs nf)) k = nth_error (map (fun k => (type_byte (ty (attr_at f k)), aid (attr_at f k))) ks) k) by (rewrite AN, kept_pairs; reflexivity).
  rewrite !nth_error_map, (attr_at_nth nf k) in E by (rewrite <- kept_length; exact K). rewrite (nth_error_nth' ks 0 K) in E. cbn [option_map] in E. injection E as E1 E2. split; [apply byte_inj, E1|exact E2].
Qed.
Lemma kept_in k : k < length ks -> nth k ks 0 < length (attrs f).
Proof. intros K. assert (I : In (nth k ks 0) ks) by (apply nth_In, K). unfold kept in I at 2. apply filter_In in I. destruct I as [I _]. apply in_seq in I. lia. Qed.
Lemma kept_types : map ty (attrs nf) = left_types l omit. Proof. apply (created_types _ i), CN. Qed.
Lemma kept_types' : map (fun k => ty (attr_at f k)) ks = map ty (attrs nf).
Proof. rewrite <- (map_attr_at nf ty). apply nth_error_ext. intros k. rewrite !nth_error_map. destruct (Nat.lt_ge_cases k (length ks)) as [K|K].
  - rewrite (nth_error_nth' ks 0 K). rewrite (nth_error_nth' _ 0) by (rewrite seq_length, <- kept_length; exact K). rewrite seq_nth by (rewrite <- kept_length; exact K). cbn [option_map Nat.add]. destruct (kept_at k K) as [-> _]. reflexivity.
  - rewrite (proj2 (nth_error_None _ _)) by exact K. rewrite (proj2 (nth_error_None _ _)) by (rewrite seq_length, <- kept_length; exact K). reflexivity.
Qed.
Lemma kept_widths : map (fun k => pwidth (attr_at f k)) ks = map pwidth (attrs nf).
Proof.
  assert (E : forall g (fm : format), pwf fm -> forall kk, (forall k, In k kk -> k < length (attrs fm)) -> map (fun k => pwidth (attr_at fm k)) kk = map g kk -> map g kk = map (fun k => packed_size (ty (attr_at fm k))) kk).
  { intros g fm W kk IN E. rewrite <- E. apply map_ext_in. intros k I. apply (pwf_width fm W). eapply nth_error_In, attr_at_nth, IN, I. }
  pose proof (pcreated _ _ _ CF) as WF. pose proof (pcreated _ _ _ CN) as WN.
  rewrite (E _ f WF ks) by (try reflexivity; intros k I; unfold kept in I; apply filter_In in I; destruct I as [I _]; apply in_seq in I; lia).
  rewrite <- (map_attr_at nf pwidth), (E _ nf WN (seq 0 (length (attrs nf)))) by (try reflexivity; intros k I; apply in_seq in I; lia).
  rewrite (map_attr_at nf (fun a => packed_size (ty a))). rewrite <- (map_map (fun k => ty (attr_at f k)) packed_size), kept_types', map_map. reflexivity.
Qed.
Let ND : NoDup (map aid (attrs f)). Proof. pose proof (proj1 (C28_create l i) ltac:(congruence)) as (_ & _ & _ & ND & _). rewrite <- AF, map_map in ND. exact ND. Qed.
Let NDN : NoDup (map aid (attrs nf)). Proof. pose proof (proj1 (C28_create _ i) (fun E => eq_ind None (fun o => match o with None => True | Some _ => False end) I (Some nf) (eq_trans (eq_sym E) CN))) as (_ & _ & _ & ND' & _). rewrite <- AN, map_map in ND'. exact ND'. Qed.
Lemma id_unique (fm : format) : NoDup (map aid (attrs fm)) -> forall j k, j < length (attrs fm) -> k < length (attrs fm) -> aid (attr_at fm j) = aid (attr_at fm k) -> j = k.
Proof.
  intros N j k J K E. apply (proj1 (NoDup_nth_error (map aid (attrs fm))) N); [rewrite map_length; exact J|]. rewrite !nth_error_map, (attr_at_nth fm j J), (attr_at_nth fm k K). cbn [option_map]. congruence.
Qed.
Lemma pos_id (l' : list (nat * nat)) (fm : format) : create l' i = Some fm -> pos_index fm < length (attrs fm) /\ aid (attr_at fm (pos_index fm)) = 0.
Proof. intros C. destruct (C28_layout _ _ _ C) as (_ & _ & _ & (a & A & A0 & _) & _). split; [apply nth_error_Some; congruence|]. unfold attr_at. rewrite (nth_error_nth _ _ _ A). exact A0. Qed.
Lemma kept_pos k : k < length ks -> (nth k ks 0 = pos_index f <-> k = pos_index nf).
Proof.
  intros K. destruct (pos_id _ _ CF) as [PF IF]. destruct (pos_id _ _ CN) as [PN IN]. destruct (kept_at k K) as [_ E]. rewrite kept_length in K. split; intros H.
  - apply (id_unique nf NDN); [exact K|exact PN|]. rewrite E, H, IF, IN. reflexivity.
  - subst k. apply (id_unique f ND); [apply kept_in; rewrite kept_length; exact K|exact PF|]. rewrite <- E, IF, IN. reflexivity.
Qed.
Lemma left_of_kept v : length v = length (attrs f) -> left_of l omit v = map (fun k => nth k v []) ks.
Proof.
  intros L. assert (LL : length l = length (attrs f)) by (rewrite <- AF, map_length; reflexivity). unfold left_of, kept. rewrite <- LL.
  pose proof (filter_combine (stays omit) (0, 0) [] l v 0 (fun k => nth k l (0, 0)) (fun k => nth k v []) ltac:(congruence) ltac:(reflexivity) ltac:(reflexivity)) as H. rewrite <- H. f_equal. apply filter_ext_in. intros k I. apply in_seq in I.
  unfold stays, omitted. rewrite <- (attr_pair k) by lia. reflexivity.
Qed.
End Kept.
(** Whether some attributes can be left out *)
Lemma without_iff l i f omit : create l i = Some f ->
  (without_attributes f omit = None <-> ~ (~ In 0 omit /\ forall j, In j omit -> In j (map snd l))) /\
  forall nf, without_attributes f omit = Some nf -> create (left_attributes l omit) i = Some nf.
Proof.
  intros H. destruct (C28_without l i f omit H) as [A B]. cbv zeta in A. fold (left_attributes l omit) in A. split.
  - rewrite <- B. destruct (without_attributes f omit); split; try congruence; intros K; exfalso; apply K; discriminate.
  - intros nf E. rewrite E in A. destruct (existsb (Nat.eqb 0) omit || _) in A; [discriminate|]. symmetry. exact A.
Qed.
