(** C35: Mesh::Create, what it accepts and what can be read from the result. *)
From Coq Require Import ZArith Bool Reals Lra Lia List.
From Flocq Require Import Core IEEE754.BinarySingleNaN.
From Verif Require Import F32 F32Lemmas NumModel GeomModel BytesModel BytesLemmas MeshFormatModel MeshFormatProps PackModel PackProps PackQuantProps PartitionModel MutableMeshModel MutableMeshSpec MutableMeshProofs MeshModel MeshProofs MeshSpec MeshCoding.
Import ListNotations.
Local Open Scope nat_scope.

(** ** Spans *)
Lemma skipn_plus {A} a : forall b (l : list A), skipn b (skipn a l) = skipn (a + b) l.
Proof. induction a as [|a IH]; intros b l; [reflexivity|]. destruct l as [|x l]; [rewrite !skipn_nil; reflexivity|]. cbn [skipn Nat.add]. apply IH. Qed.
Lemma spans_nth ts : forall spans k t, nth_error ts k = Some t -> nth_error (attr_spans ts spans) k = Some (firstn (component_count t) (skipn (sum (firstn k (map component_count ts))) spans)).
Proof.
  induction ts as [|t0 ts IH]; intros spans [|k] t H; try discriminate; cbn [attr_spans nth_error map firstn] in *; [injection H as ->; reflexivity|]. rewrite (IH _ k t H). f_equal. f_equal. unfold sum. cbn [fold_right]. apply skipn_plus.
Qed.
Lemma spans_length ts : forall spans, length (attr_spans ts spans) = length ts. Proof. induction ts; intros spans; cbn; auto. Qed.
Lemma window {A} (d : A) l s n : s + n <= length l -> firstn n (skipn s l) = map (fun c => nth (s + c) l d) (seq 0 n).
Proof.
  intros H. apply nth_error_ext. intros k. rewrite nth_error_map. destruct (Nat.lt_ge_cases k n) as [L|L].
  - rewrite (nth_error_nth' (seq 0 n) 0) by (rewrite seq_length; exact L). rewrite seq_nth by exact L. cbn [option_map Nat.add]. rewrite (nth_error_nth' _ d) by (rewrite firstn_length, skipn_length; lia). f_equal.
    rewrite <- (firstn_skipn s l) at 2. rewrite app_nth2 by (rewrite firstn_length; lia). rewrite firstn_length. replace (s + k - Nat.min s (length l)) with k by lia. rewrite <- (firstn_skipn n (skipn s l)) at 2. rewrite app_nth1 by (rewrite firstn_length, skipn_length; lia). reflexivity.
  - rewrite (proj2 (nth_error_None _ _)) by (rewrite firstn_length; lia). rewrite (proj2 (nth_error_None _ _)) by (rewrite seq_length; lia). reflexivity.
Qed.
Lemma sum_total l : sum l = MeshFormatProps.total l. Proof. reflexivity. Qed.
Section Create.
Variables (f : format) (spans : list (list f32)) (idx : list Z) (custom : list (option (list params))).
Notation ts := (map ty (attrs f)).
Hypothesis W : pwf f.
Hypothesis LS : length spans = sum (map component_count ts).
Lemma room k t : nth_error ts k = Some t -> sum (firstn k (map component_count ts)) + component_count t <= length spans.
Proof. intros H. rewrite LS. rewrite sum_total. apply total_firstn_nth. rewrite nth_error_map, H. reflexivity. Qed.
Lemma spans_columns k t : nth_error ts k = Some t -> nth_error (attr_spans ts spans) k = Some (map (column ts spans k) (seq 0 (component_count t))).
Proof. intros H. rewrite (spans_nth ts spans k t H). f_equal. rewrite (window [] spans) by (apply room, H). reflexivity. Qed.
Lemma column_in k t c : nth_error ts k = Some t -> c < component_count t -> In (column ts spans k c) spans.
Proof. intros H C. unfold column. apply nth_In. pose proof (room k t H). lia. Qed.
Lemma pos_type : exists t, nth_error ts (pos_index f) = Some t /\ component_count t = 2.
Proof. destruct (pwf_pos f W) as (a & A & C). exists (ty a). rewrite nth_error_map, A. split; [reflexivity|exact C]. Qed.
Lemma spans_nonempty : nth 0 spans [] = hd [] spans /\ In (nth 0 spans []) spans.
Proof. destruct pos_type as (t & T & C). pose proof (room _ t T). split; [destruct spans; reflexivity|]. apply nth_In. lia. Qed.
End Create.

(** ** Least and greatest *)
Lemma min_least l : l <> [] -> (forall v, In v l -> is_finite v = true) -> least l (min_element l).
Proof.
  destruct l as [|x l]; intros H F; [contradiction|]. clear H. cbn [min_element]. assert (G : forall (l : list f32) (m : f32), is_finite m = true -> (forall v, In v l -> is_finite v = true) ->
    let r := fold_left (fun m y => if flt y m then y else m) l m in (r = m \/ In r l) /\ (B2R r <= B2R m)%R /\ forall y, In y l -> (B2R r <= B2R y)%R).
  { clear. induction l as [|y l IH]; intros m Fm F; cbn [fold_left]; [split; [left; reflexivity|split; [lra|intros y []]]|]. assert (Fy : is_finite y = true) by (apply F; left; reflexivity). set (m' := if flt y m then y else m).
    assert (M : is_finite m' = true /\ (B2R m' <= B2R m)%R /\ (B2R m' <= B2R y)%R /\ (m' = m \/ m' = y)).
    { unfold m'. destruct (flt y m) eqn:E; [apply flt_spec in E|apply flt_false in E]; try (apply finite_not_nan; assumption); rewrite !fX_finite in E by assumption; repeat split; try assumption; try lra; auto. }
    fold m'. clearbody m'. destruct M as (M1 & M2 & M3 & M4). specialize (IH m' M1 (fun v I => F v (or_intror I))). cbv zeta in IH. destruct IH as (I1 & I2 & I3). split; [|split; [lra|]].
    - destruct I1 as [-> |I1]; [destruct M4 as [-> | ->]; [left; reflexivity|right; left; reflexivity]|right; right; exact I1].
    - intros z [<- |I]; [lra|apply I3, I]. }
  specialize (G l x (F x (or_introl eq_refl)) (fun v I => F v (or_intror I))). cbv zeta in G. destruct G as (G1 & G2 & G3). split; [destruct G1 as [-> |G1]; [left; reflexivity|right; exact G1]|]. intros y [<- |I]; [exact G2|apply G3, I].
Qed.
Lemma max_greatest l : l <> [] -> (forall v, In v l -> is_finite v = true) -> greatest l (max_element l).
Proof.
  destruct l as [|x l]; intros H F; [contradiction|]. clear H. cbn [max_element]. assert (G : forall (l : list f32) (m : f32), is_finite m = true -> (forall v, In v l -> is_finite v = true) ->
    let r := fold_left (fun m y => if flt y m then m else y) l m in (r = m \/ In r l) /\ (B2R m <= B2R r)%R /\ forall y, In y l -> (B2R y <= B2R r)%R).
  { clear. induction l as [|y l IH]; intros m Fm F; cbn [fold_left]; [split; [left; reflexivity|split; [lra|intros y []]]|]. assert (Fy : is_finite y = true) by (apply F; left; reflexivity). set (m' := if flt y m then m else y).
    assert (M : is_finite m' = true /\ (B2R m <= B2R m')%R /\ (B2R y <= B2R m')%R /\ (m' = m \/ m' = y)).
    { unfold m'. destruct (flt y m) eqn:E; [apply flt_spec in E|apply flt_false in E]; try (apply finite_not_nan; assumption); rewrite !fX_finite in E by assumption; repeat split; try assumption; try lra; auto. }
    fold m'. clearbody m'. destruct M as (M1 & M2 & M3 & M4). specialize (IH m' M1 (fun v I => F v (or_intror I))). cbv zeta in IH. destruct IH as (I1 & I2 & I3). split; [|split; [lra|]].
    - destruct I1 as [-> |I1]; [destruct M4 as [-> | ->]; [left; reflexivity|right; left; reflexivity]|right; right; exact I1].
    - intros z [<- |I]; [lra|apply I3, I]. }
  specialize (G l x (F x (or_introl eq_refl)) (fun v I => F v (or_intror I))). cbv zeta in G. destruct G as (G1 & G2 & G3). split; [destruct G1 as [-> |G1]; [left; reflexivity|right; exact G1]|]. intros y [<- |I]; [exact G2|apply G3, I].
Qed.

(** ** Packing all the vertices *)
Definition pk (f : format) (c : list (list params)) (value : nat -> nat -> list f32) (i k : nat) : packed :=
  match pack_attribute (ty (attr_at f k)) (nth k c []) (value i k) with Some p => p | None => PBytes [] end.
Lemma gather_none {A} (l : list (option A)) : (forall x, In x l -> x <> None) -> exists r, gather l = Some r.
Proof.
  induction l as [|[a|] l IH]; intros H; cbn [gather]; [eauto| |exfalso; apply (H None); [left|]; reflexivity]. destruct IH as [r ->]; [intros x I; apply H; right; exact I|]. eauto.
Qed.
Lemma map_some_inj {A B} (g : A -> option B) (h : A -> B) l r : map g l = map Some r -> (forall x, In x l -> g x <> None -> g x = Some (h x)) -> r = map h l.
Proof.
  revert r. induction l as [|a l IH]; intros [|b r] E H; try discriminate; [reflexivity|]. cbn in *. injection E as E1 E2. f_equal; [specialize (H a (or_introl eq_refl)); rewrite E1 in H; specialize (H ltac:(discriminate)); congruence|]. apply IH; [exact E2|]. intros x I. apply H. right. exact I.
Qed.
Lemma flat_map_map_some {A B C} (g : A -> B -> option C) (h : A -> B -> C) la lb r :
  flat_map (fun a => map (g a) lb) la = map Some r -> (forall a b, In a la -> In b lb -> g a b <> None -> g a b = Some (h a b)) ->
  r = flat_map (fun a => map (h a) lb) la /\ forall a b, In a la -> In b lb -> g a b = Some (h a b).
Proof.
  revert r. induction la as [|a la IH]; intros r E H; cbn [flat_map] in *; [destruct r; [|discriminate]; split; [reflexivity|intros a b []]|].
  assert (S : exists r1 r2, r = r1 ++ r2 /\ map (g a) lb = map Some r1 /\ flat_map (fun a => map (g a) lb) la = map Some r2).
  { exists (firstn (length lb) r), (skipn (length lb) r). split; [symmetry; apply firstn_skipn|]. split.
    - rewrite <- firstn_map, <- E. symmetry. apply firstn_exact. rewrite map_length. reflexivity.
    - rewrite <- skipn_map, <- E. symmetry. apply skipn_exact. rewrite map_length. reflexivity. }
  destruct S as (r1 & r2 & -> & E1 & E2). destruct (IH r2 E2) as [-> D]; [intros; apply H; try assumption; right; assumption|]. assert (R1 : r1 = map (h a) lb) by (apply (map_some_inj (g a)); [exact E1|intros b I; apply H; [left; reflexivity|exact I]]). split; [rewrite R1; reflexivity|].
  intros a' b [<- |I] IB; [|apply D; assumption]. apply H; [left; reflexivity|exact IB|]. intros N. assert (I : In (g a b) (map Some r1)) by (rewrite <- E1; apply in_map, IB). rewrite N in I. apply in_map_iff in I. destruct I as (x & X & _). discriminate.
Qed.
Lemma combine_map {A B C} (g : A -> B) (h : A -> C) l : combine (map g l) (map h l) = map (fun a => (g a, h a)) l.
Proof. induction l as [|a l IH]; [reflexivity|]. cbn. rewrite IH. reflexivity. Qed.
Lemma map_map_eq {A B C} (h : B -> C) (g : A -> B) (k : A -> C) l : (forall a, In a l -> h (g a) = k a) -> map h (map g l) = map k l.
Proof. intros H. rewrite map_map. apply map_ext_in, H. Qed.
Lemma attr_at_nth f k : k < length (attrs f) -> nth_error (attrs f) k = Some (attr_at f k).
Proof. intros H. apply nth_error_nth'. exact H. Qed.
Lemma pack_writes_some f c value n ws : pwf f -> (forall i k, i < n -> k < length (attrs f) -> length (value i k) = component_count (ty (attr_at f k))) -> pack_writes f c value n = Some ws ->
  (forall i k, i < n -> k < length (attrs f) -> pack_attribute (ty (attr_at f k)) (nth k c []) (value i k) = Some (pk f c value i k)) /\
  write_all ws (repeat 0%Z (n * pstride f)) = image (penc (pstride f)) (map (fun i => map (fun k => packed_bytes (pk f c value i k)) (seq 0 (length (attrs f)))) (seq 0 n)) /\
  (forall i, i < n -> map (@length Z) (map (fun k => packed_bytes (pk f c value i k)) (seq 0 (length (attrs f)))) = map pwidth (attrs f)).
Proof.
  intros W L H. unfold pack_writes in H. apply gather_some in H. apply (flat_map_map_some _ (fun i k => (i * pstride f + poff (attr_at f k), packed_bytes (pk f c value i k)))) in H.
  2:{ intros i k _ _ N. cbv zeta. unfold pk. destruct (pack_attribute _ _ _); [reflexivity|exfalso; apply N; reflexivity]. }
  destruct H as [-> D]. assert (PA : forall i k, i < n -> k < length (attrs f) -> pack_attribute (ty (attr_at f k)) (nth k c []) (value i k) = Some (pk f c value i k)).
  { intros i k I K. specialize (D i k). cbv zeta in D. rewrite !in_seq in D. specialize (D ltac:(lia) ltac:(lia)). unfold pk. destruct (pack_attribute _ _ _); [reflexivity|discriminate]. }
  split; [exact PA|]. assert (SH : forall i, i < n -> map (@length Z) (map (fun k => packed_bytes (pk f c value i k)) (seq 0 (length (attrs f)))) = map pwidth (attrs f)).
  { intros i I. rewrite <- (map_attr_at f pwidth). apply map_map_eq. intros k K. apply in_seq in K. destruct (pack_bytes _ _ _ _ (PA i k I ltac:(lia))) as [E _]; [intros _; apply L; lia|]. rewrite E. symmetry. apply (pwf_width f W). eapply nth_error_In, attr_at_nth. lia. }
  split; [|exact SH]. etransitivity; [|etransitivity; [apply (write_table (map pwidth (attrs f)) (fun i => map (fun k => packed_bytes (pk f c value i k)) (seq 0 (length (attrs f)))) n SH)|]].
  - rewrite (pwf_stride f W). f_equal. rewrite !flat_map_concat_map. f_equal. apply map_ext. intros i. unfold row_writes. rewrite <- (poff_running f W), <- (map_attr_at f poff), map_map, combine_map. reflexivity.
  - unfold image. rewrite map_map. f_equal. apply map_ext_in. intros i I. apply in_seq in I. symmetry. apply penc_eq. rewrite concat_total, SH by lia. symmetry. apply (pwf_stride f W).
Qed.
Lemma pack_writes_all f c value n : (forall i k, i < n -> k < length (attrs f) -> exists p, pack_attribute (ty (attr_at f k)) (nth k c []) (value i k) = Some p) -> exists ws, pack_writes f c value n = Some ws.
Proof.
  intros H. unfold pack_writes. apply gather_none. intros x I. apply in_flat_map in I. destruct I as (i & I1 & I2). apply in_map_iff in I2. destruct I2 as (k & <- & I2). apply in_seq in I1, I2. cbv zeta. destruct (H i k) as [p ->]; [lia..|discriminate].
Qed.

(** ** The triangles *)
Lemma triples_length l : forall m, length l = 3 * m -> length (triples l) = m.
Proof. intros m. revert l. induction m as [|m IH]; intros l L; [destruct l; [reflexivity|discriminate]|]. destruct l as [|a [|b [|c l]]]; cbn in L; try lia. cbn [triples length]. f_equal. apply IH. lia. Qed.
Lemma triples_nth l : forall m j, length l = 3 * m -> j < m -> nth_error (triples l) j = Some (nth (3 * j) l 0%Z, nth (3 * j + 1) l 0%Z, nth (3 * j + 2) l 0%Z).
Proof.
  intros m. revert l. induction m as [|m IH]; intros l j L J; [lia|]. destruct l as [|a [|b [|c l]]]; cbn [length] in L; try lia. cbn [triples]. destruct j as [|j]; [reflexivity|]. cbn [nth_error]. rewrite (IH l j) by lia.
  replace (3 * S j) with (S (S (S (3 * j)))) by lia. reflexivity.
Qed.
Lemma triples_small l n : forall m, length l = 3 * m -> (forall i, In i l -> 0 <= i < n)%Z -> forall t, In t (triples l) -> small n t.
Proof.
  intros m. revert l. induction m as [|m IH]; intros l L H t T; [destruct l; [destruct T|discriminate]|]. destruct l as [|a [|b [|c l]]]; cbn [length] in L; try lia. cbn [triples] in T. destruct T as [<- |T]; [cbn; repeat split; apply H; cbn; auto|].
  apply (IH l); [lia|intros i I; apply H; cbn; auto|exact T].
Qed.
Lemma mod3 n : n mod 3 = 0 <-> exists m, n = 3 * m.
Proof. split; [intros H; exists (n / 3); rewrite (Nat.div_mod n 3) at 1 by lia; lia|intros [m ->]; rewrite Nat.mul_comm; apply Nat.mod_mul; lia]. Qed.

(** ** Create *)
Section Main.
Variables (f : format) (spans : list (list f32)) (idx : list Z) (custom : list (option (list params))).
Notation ts := (map ty (attrs f)).
Notation doc := (documented ts spans idx custom).
Notation vertices := (length (nth 0 spans [])).
Hypothesis W : pwf f.
Record plain : Prop := {
  p_spans : length spans = sum (map component_count ts);
  p_limit : (Z.of_nat vertices <= 2 ^ 16)%Z;
  p_even : forall s, In s spans -> length s = vertices;
  p_finite : forall s v, In s spans -> In v s -> is_finite v = true;
  p_three : exists m, length idx = 3 * m;
  p_index : forall i, In i idx -> (i < Z.of_nat vertices)%Z }.
Lemma documented_iff : doc <-> plain /\ (vertices <> 0 -> packing_ok ts (column ts spans) custom).
Proof.
  split.
  - intros (L & (n & N & E & IX & PK) & F & M). destruct (spans_nonempty f spans W L) as [_ I]. specialize (E _ I) as EN. subst n. split; [split; assumption|exact PK].
  - intros [P PK]. split; [apply P|]. split; [|split; [apply P|apply P]]. exists vertices. split; [apply P|]. split; [apply P|]. split; [apply P|exact PK].
Qed.
Definition bnds : list bounds := map (fun ss => (map min_element ss, map max_element ss)) (attr_spans ts spans).
Lemma bounds_eq : attribute_bounds ts spans = if Nat.eqb vertices 0 then None else Some bnds.
Proof. unfold attribute_bounds. destruct (nth 0 spans []); reflexivity. Qed.
Lemma bnds_ok : plain -> vertices <> 0 ->
  length bnds = length ts /\ (forall k t c v, nth_error ts k = Some t -> c < component_count t -> In v (column ts spans k c) -> is_finite v = true) /\
  (forall k t b, nth_error ts k = Some t -> nth_error bnds k = Some b -> length (fst b) = component_count t /\ length (snd b) = component_count t /\
    forall c lo hi, nth_error (fst b) c = Some lo -> nth_error (snd b) c = Some hi -> least (column ts spans k c) lo /\ greatest (column ts spans k c) hi).
Proof.
  intros P N. split; [unfold bnds; rewrite map_length, spans_length; reflexivity|]. assert (F : forall k t c v, nth_error ts k = Some t -> c < component_count t -> In v (column ts spans k c) -> is_finite v = true).
  { intros k t c v T C I. apply (p_finite P _ v (column_in f spans (p_spans P) k t c T C) I). }
  split; [exact F|]. intros k t b T B. unfold bnds in B. rewrite nth_error_map, (spans_columns f spans (p_spans P) k t T) in B. injection B as <-. cbn [fst snd]. rewrite !map_length, seq_length. split; [reflexivity|]. split; [reflexivity|].
  intros c lo hi H1 H2. rewrite !nth_error_map in H1, H2. destruct (nth_error (seq 0 (component_count t)) c) as [c'|] eqn:E; [|discriminate]. cbn [option_map] in H1, H2. injection H1 as <-. injection H2 as <-.
  assert (C : c < component_count t) by (rewrite <- (seq_length (component_count t) 0); apply nth_error_Some; congruence). rewrite (nth_error_nth' _ 0) in E by (rewrite seq_length; exact C). rewrite seq_nth in E by exact C. injection E as <-. cbn [Nat.add].
  assert (NE : column ts spans k c <> []) by (intros E; pose proof (p_even P _ (column_in f spans (p_spans P) k t c T C)) as L; rewrite E in L; cbn in L; lia).
  split; [apply min_least|apply max_greatest]; try exact NE; intros v I; apply (F k t c v T C I).
Qed.
Definition settle : option (list (list params)) := match attribute_bounds ts spans with Some b => compute_coding_array ts b custom | None => Some (empty_coding ts) end.
Lemma settle_iff : plain -> ((exists c, settle = Some c) <-> (vertices <> 0 -> packing_ok ts (column ts spans) custom)).
Proof.
  intros P. unfold settle. rewrite bounds_eq. destruct (Nat.eqb_spec vertices 0) as [E|E]; [split; [intros _ H; contradiction|eauto]|]. destruct (bnds_ok P E) as (A & B & C).
  rewrite (coding_iff ts (column ts spans) custom bnds A B C). tauto.
Qed.
Lemma create_cases : (~ doc /\ create_mesh f spans idx custom = Refused) \/
  (doc /\ plain /\ exists c, settle = Some c /\ create_mesh f spans idx custom = match pack_vertex_data f spans c with None => Undefined | Some vd => Made (make_mesh f c (attribute_bounds ts spans) vd (index_bytes (triples idx))) end).
Proof.
  unfold create_mesh. fold settle. change (fold_right Nat.add 0 (map component_count ts)) with (sum (map component_count ts)).
  assert (PL : ~ plain -> ~ doc) by (intros H D; apply documented_iff in D; tauto).
  destruct (Nat.eqb_spec (sum (map component_count ts)) (length spans)) as [E1|E1]; cbn [negb]; [|left; split; [apply PL; intros P; apply E1; symmetry; apply P|reflexivity]].
  destruct (Z.ltb_spec 65536 (Z.of_nat vertices)) as [E2|E2]; [left; split; [apply PL; intros P; pose proof (p_limit P) as H; change (2 ^ 16)%Z with 65536%Z in H; lia|reflexivity]|].
  destruct (forallb (fun s => length s =? vertices) (tl spans)) eqn:E3; cbn [negb].
  2:{ left. split; [|reflexivity]. apply PL. intros P. assert (X : forallb (fun s => length s =? vertices) (tl spans) = true) by (apply forallb_forall; intros s I; apply Nat.eqb_eq, (p_even P); destruct spans; [destruct I|right; exact I]). congruence. }
  destruct (forallb (forallb fisfinite) spans) eqn:E4; cbn [negb].
  2:{ left. split; [|reflexivity]. apply PL. intros P. assert (X : forallb (forallb fisfinite) spans = true) by (apply forallb_forall; intros s I; apply forallb_forall; intros v J; apply (p_finite P s v I J)). congruence. }
  destruct (Nat.eqb_spec (length idx mod 3) 0) as [E5|E5]; cbn [negb]; [|left; split; [apply PL; intros P; apply E5, mod3, P|reflexivity]].
  destruct (forallb (fun i => (i <? Z.of_nat vertices)%Z) idx) eqn:E6; cbn [negb].
  2:{ left. split; [|reflexivity]. apply PL. intros P. assert (X : forallb (fun i => (i <? Z.of_nat vertices)%Z) idx = true) by (apply forallb_forall; intros i I; apply Z.ltb_lt, (p_index P), I). congruence. }
  assert (P : plain).
  { rewrite forallb_forall in E3, E4, E6. split.
    - auto.
    - change (2 ^ 16)%Z with 65536%Z. exact E2.
    - intros s I. destruct spans as [|s0 r]; [destruct I|]. destruct I as [<- |I]; [reflexivity|]. apply Nat.eqb_eq, E3, I.
    - intros s v I J. specialize (E4 s I). rewrite forallb_forall in E4. apply E4, J.
    - apply mod3, E5.
    - intros i I. apply Z.ltb_lt, E6, I. }
  pose proof (settle_iff P) as SI. cbv zeta. fold settle. destruct settle as [c|] eqn:SE.
  - right. split; [apply documented_iff; split; [exact P|apply SI; eauto]|]. split; [exact P|]. exists c. split; reflexivity.
  - left. split; [|reflexivity]. intros D. apply documented_iff in D. destruct D as [_ D]. apply SI in D. destruct D as [c D]. discriminate.
Qed.
Definition value (i k : nat) : list f32 := map (fun s => nth i s f0) (nth k (attr_spans ts spans) []).
Lemma type_at k : k < length (attrs f) -> nth_error ts k = Some (ty (attr_at f k)).
Proof. intros K. rewrite nth_error_map, (attr_at_nth f k K). reflexivity. Qed.
Lemma value_given k t i : plain -> nth_error ts k = Some t -> value i k = given ts spans i k t.
Proof. intros P T. unfold value, given. rewrite (nth_error_nth _ _ [] (spans_columns f spans (p_spans P) k t T)). rewrite map_map. reflexivity. Qed.
Lemma value_length k i : plain -> k < length (attrs f) -> length (value i k) = component_count (ty (attr_at f k)).
Proof. intros P K. rewrite (value_given k _ i P (type_at k K)). unfold given. rewrite map_length, seq_length. reflexivity. Qed.
Lemma given_nth k t i c v : plain -> nth_error ts k = Some t -> i < vertices -> nth_error (given ts spans i k t) c = Some v -> c < component_count t /\ In v (column ts spans k c).
Proof.
  intros P T I H. assert (C : c < component_count t) by (rewrite <- (seq_length (component_count t) 0), <- (map_length (fun c => nth i (column ts spans k c) f0)); apply nth_error_Some; unfold given in H; congruence). split; [exact C|].
  unfold given in H. rewrite nth_error_map, (nth_error_nth' _ 0) in H by (rewrite seq_length; exact C). rewrite seq_nth in H by exact C. cbn [option_map Nat.add] in H. injection H as <-. apply nth_In. rewrite (p_even P _ (column_in f spans (p_spans P) k t c T C)). exact I.
Qed.
Lemma attribute_ok c : plain -> settle = Some c -> (forall k t, nth_error ts k = Some t -> spread (column ts spans) custom k t) ->
  forall i k t, i < vertices -> nth_error ts k = Some t -> exists p w, pack_attribute t (nth k c []) (given ts spans i k t) = Some p /\ unpack_attribute t (nth k c []) p = Some w /\ length w = component_count t /\
    (moderate (column ts spans) custom k t -> read_back (column ts spans) custom k t (given ts spans i k t) w) /\
    (forall bits, packed_bits t = Some bits -> exists ns, unpack_ints t p = Some ns /\ length ns = length bits /\ forall c b n, nth_error bits c = Some b -> nth_error ns c = Some n -> (0 <= n <= 2 ^ Z.of_nat b - 1)%Z).
Proof.
  intros P SE SP i k t I T. unfold settle in SE. rewrite bounds_eq in SE. destruct (Nat.eqb_spec vertices 0) as [E|E]; [lia|]. destruct (bnds_ok P E) as (A & B & C). destruct (coding_some ts (column ts spans) custom bnds A B C c SE) as (LC & [_ CO] & D).
  destruct (bnds_nth ts bnds A k t T) as [b BK]. destruct (D k t b T BK) as (ps & PS & CA). rewrite (nth_error_nth _ _ [] PS). pose proof (column_packs ts (column ts spans) custom bnds A B C k t b ps T BK (CO k t T) (SP k t T) CA) as CP.
  destruct (packed_bits t) as [bits|] eqn:PB.
  - destruct (CP bits eq_refl) as [LP CQ]. destruct (bits_lengths t bits PB) as [BLn _]. assert (LG : length (given ts spans i k t) = component_count t) by (unfold given; rewrite map_length, seq_length; reflexivity).
    destruct (attribute_packs t bits ps (given ts spans i k t) PB LP LG) as (p & ns & w & E1 & E2 & E3 & L1 & L2 & E4).
    { intros c' p b' v H1 H2 H3. destruct (given_nth k t i c' v P T I H3) as [C1 C2]. destruct (CQ c' p b' v H1 H2 C2) as (n & N1 & N2 & _). eauto. }
    exists p, w. split; [exact E1|]. split; [exact E3|]. split; [congruence|]. split.
    + intros MD. unfold read_back. rewrite PB. split; [exact L1|]. intros c' b' v w' H1 H2 H3. destruct (given_nth k t i c' v P T I H2) as [C1 C2]. destruct (nth_pick ps c' _ LP C1) as [p' P1]. destruct (CQ c' p' b' v P1 H1 C2) as (n & N1 & N2 & N3). destruct (E4 c' p' v P1 H2) as (n' & F1 & F2 & F3). rewrite N1 in F2. injection F2 as <-. rewrite H3 in F3. injection F3 as ->.
      destruct (given_for custom k) as [cps|] eqn:G; [|apply N3, MD]. intros p0 Q. exists n. cbn [code_attribute] in CA. unfold is_unpacked in CA. rewrite PB in CA. injection CA as ->. rewrite P1 in Q. injection Q as <-. split; [exact N3|]. split; [exact N2|reflexivity].
    + intros bits' [= <-]. exists ns. split; [exact E2|]. split; [congruence|]. intros c' b' n H1 H2. assert (C1 : c' < component_count t) by (rewrite <- BLn; apply nth_error_Some; congruence). destruct (nth_pick ps c' _ LP C1) as [p' P1]. destruct (nth_pick _ c' _ LG C1) as [v V1]. destruct (given_nth k t i c' v P T I V1) as [_ C2].
      destruct (CQ c' p' b' v P1 H1 C2) as (n1 & N1 & N2 & _). destruct (E4 c' p' v P1 V1) as (n2 & F1 & F2 & _). congruence.
  - exists (PFloats (given ts spans i k t)), (given ts spans i k t). unfold pack_attribute, unpack_attribute, is_unpacked, read_back. rewrite PB. repeat split; try reflexivity; [unfold given; rewrite map_length, seq_length; reflexivity|discriminate].
Qed.
End Main.

(** ** C35 *)
(** Create fails with an error exactly when one of the documented conditions is violated *)
Theorem C35_refused_iff : forall l i f spans idx custom, create l i = Some f ->
  (create_mesh f spans idx custom = Refused <-> ~ documented (map ty (attrs f)) spans idx custom).
Proof.
  intros l i f spans idx custom H. pose proof (pcreated l i f H) as W. destruct (create_cases f spans idx custom W) as [[N E]|(D & _ & c & _ & E)]; rewrite E; [tauto|]. split; [destruct (pack_vertex_data f spans c); discriminate|contradiction].
Qed.
(** Otherwise it makes a mesh with the given counts, triangles and values, provided that no component has a range so small that a step underflows *)
Theorem C35_made : forall l i f spans idx custom, create l i = Some f -> documented (map ty (attrs f)) spans idx custom ->
  (forall i, In i idx -> (0 <= i)%Z) -> (Z.of_nat (length idx) < 3 * 2 ^ 32)%Z ->
  (forall k t, nth_error (map ty (attrs f)) k = Some t -> spread (column (map ty (attrs f)) spans) custom k t) ->
  exists m, create_mesh f spans idx custom = Made m /\ iformat m = f /\
    ivcount m = Z.of_nat (length (nth 0 spans [])) /\ (itcount m * 3)%Z = Z.of_nat (length idx) /\
    (forall j, (0 <= j < itcount m)%Z -> iindices m j = (nth (3 * Z.to_nat j) idx 0%Z, nth (3 * Z.to_nat j + 1) idx 0%Z, nth (3 * Z.to_nat j + 2) idx 0%Z)) /\
    (forall i k t, (0 <= i < ivcount m)%Z -> nth_error (map ty (attrs f)) k = Some t -> exists w, iattribute m i k = Some w /\ length w = component_count t /\
       (moderate (column (map ty (attrs f)) spans) custom k t -> read_back (column (map ty (attrs f)) spans) custom k t (given (map ty (attrs f)) spans (Z.to_nat i) k t) w) /\
       (forall bits, packed_bits t = Some bits -> exists ns, iintegers m i k = Some ns /\ length ns = length bits /\ forall c b n, nth_error bits c = Some b -> nth_error ns c = Some n -> (0 <= n <= 2 ^ Z.of_nat b - 1)%Z)).
Proof.
  intros l i f spans idx custom H D IP IL SP. pose proof (pcreated l i f H) as W. destruct (create_cases f spans idx custom W) as [[N _]|(_ & P & c & SE & E)]; [contradiction|]. pose proof (attribute_ok f spans idx custom c P SE SP) as AO.
  set (n := length (nth 0 spans [])) in *. assert (LV : forall i k, i < n -> k < length (attrs f) -> length (value f spans i k) = component_count (ty (attr_at f k))) by (intros; apply (value_length f spans idx); assumption).
  destruct (pack_writes_all f c (value f spans) n) as [ws WS].
  { intros i0 k I0 K. destruct (AO i0 k _ I0 (type_at f k K)) as (p & w & PA & _). exists p. rewrite (value_given f spans idx k _ i0 P (type_at f k K)). exact PA. }
  destruct (pack_writes_some f c (value f spans) n ws W LV WS) as (PA & WA & SH).
  unfold pack_vertex_data in E. fold (value f spans) n in E. change (fun i k => map (fun s => nth i s f0) (nth k (attr_spans (map ty (attrs f)) spans) [])) with (value f spans) in E. rewrite WS, WA in E.
  set (vs := map (fun i => map (fun k => packed_bytes (pk f c (value f spans) i k)) (seq 0 (length (attrs f)))) (seq 0 n)) in *. destruct (p_three f spans idx P) as [m3 M3]. pose proof (triples_length idx m3 M3) as TL.
  assert (S0 : pstride f <> 0).
  { destruct (pwf_pos f W) as (a & A & _). rewrite (pwf_stride f W). assert (1 <= pwidth a) by (rewrite (pwf_width f W a (nth_error_In _ _ A)); destruct (ty a); cbn; lia). pose proof (total_firstn_nth (map pwidth (attrs f)) (pos_index f) (pwidth a)) as TF. rewrite nth_error_map, A in TF. specialize (TF eq_refl). lia. }
  assert (LN : length vs = n) by (unfold vs; rewrite map_length, seq_length; reflexivity). pose proof (p_limit f spans idx P) as LM. fold n in LM. change (2 ^ 16)%Z with 65536%Z in LM.
  eexists. split; [exact E|]. set (m := make_mesh _ _ _ _ _).
  assert (R : prep m vs (triples idx)).
  { split; cbn [m make_mesh ivdata iidata ivcount itcount iformat].
    - reflexivity.
    - apply index_bytes_eq.
    - rewrite (image_length (penc (pstride f)) _ (penc_length _)), LN, Nat.div_mul by exact S0. unfold count. rewrite LN. apply u32_id. change (2 ^ 32)%Z with 4294967296%Z. lia.
    - rewrite index_bytes_eq, (image_length (tri_bytes 2) 6 (tri_bytes_length 2)), Nat.div_mul by lia. unfold count. apply u32_id. unfold triple, tri in *. change (2 ^ 32)%Z with 4294967296%Z in *. lia.
    - unfold count. rewrite LN. exact LM.
    - unfold count, triple, tri in *. change (2 ^ 32)%Z with 4294967296%Z in *. lia.
    - intros v I. unfold vs in I. apply in_map_iff in I. destruct I as (j & <- & J). apply in_seq in J. apply SH. lia.
    - intros t I. apply (triples_small idx (2 ^ 16) m3 M3); [|exact I]. intros x IX. pose proof (p_index f spans idx P x IX) as B. fold n in B. split; [apply IP, IX|change (2 ^ 16)%Z with 65536%Z; lia]. }
  split; [reflexivity|]. split; [rewrite (prep_vc _ _ _ R); unfold count; rewrite LN; reflexivity|]. split; [rewrite (prep_tc _ _ _ R); unfold count, triple, tri in *; rewrite M3; lia|]. split.
  - intros j J. rewrite (prep_tc _ _ _ R) in J. unfold count, triple, tri in *. apply (read_indices m vs (triples idx)); [exact R|lia|]. apply (triples_nth idx m3); [exact M3|lia].
  - intros i0 k t I0 T. rewrite (prep_vc _ _ _ R) in I0. unfold count in I0. rewrite LN in I0. assert (K : k < length (attrs f)) by (rewrite <- (map_length ty); apply nth_error_Some; congruence). assert (TE : t = ty (attr_at f k)) by (rewrite (type_at f k K) in T; congruence).
    destruct (AO (Z.to_nat i0) k t ltac:(lia) T) as (p & w & A1 & A2 & AL & A3 & A4). specialize (PA (Z.to_nat i0) k ltac:(lia) K). rewrite (value_given f spans idx k t _ P T), <- TE, A1 in PA. injection PA as PA.
    assert (RP : packed_attribute m i0 k = packed_bytes p).
    { apply (read_packed m vs (triples idx) i0 (map (fun k => packed_bytes (pk f c (value f spans) (Z.to_nat i0) k)) (seq 0 (length (attrs f)))) k); [exact W|exact R|lia| |].
      - unfold vs. rewrite nth_error_map, (nth_error_nth' _ 0) by (rewrite seq_length; lia). rewrite seq_nth by lia. reflexivity.
      - rewrite nth_error_map, (nth_error_nth' _ 0) by (rewrite seq_length; lia). rewrite seq_nth by lia. cbn [option_map Nat.add]. rewrite <- PA. reflexivity. }
    destruct (pack_bytes t _ _ _ A1) as [_ BK]; [intros _; unfold given; rewrite map_length, seq_length; reflexivity|].
    exists w. unfold iattribute, iintegers. rewrite RP. cbn [m make_mesh iformat coding]. rewrite <- TE, BK. split; [exact A2|]. split; [exact AL|]. split; [exact A3|exact A4].
Qed.

(** ** Bounds *)
Lemma made_bounds f spans idx custom m : pwf f -> create_mesh f spans idx custom = Made m -> plain f spans idx /\ iformat m = f /\ ibounds m = attribute_bounds (map ty (attrs f)) spans.
Proof.
  intros W H. destruct (create_cases f spans idx custom W) as [[_ E]|(_ & P & c & _ & E)]; rewrite E in H; [discriminate|]. destruct (pack_vertex_data f spans c); [|discriminate]. injection H as <-. repeat split; apply P.
Qed.
Lemma point_envelope E (x0 y0 x1 y1 : f32) : is_finite x0 = true -> is_finite y0 = true -> is_finite x1 = true -> is_finite y1 = true -> (B2R x0 <= B2R x1)%R -> (B2R y0 <= B2R y1)%R ->
  exists r, env_add_point (env_add_point None (@V (fnum E) x0 y0)) (@V (fnum E) x1 y1) = Some r /\
    is_finite (x_min r : f32) = true /\ is_finite (y_min r : f32) = true /\ is_finite (x_max r : f32) = true /\ is_finite (y_max r : f32) = true /\
    B2R (x_min r : f32) = B2R x0 /\ B2R (y_min r : f32) = B2R y0 /\ B2R (x_max r : f32) = B2R x1 /\ B2R (y_max r : f32) = B2R y1.
Proof.
  intros F1 F2 F3 F4 L1 L2. assert (Z0 : is_finite (fdiv f0 (fZ 2)) = true /\ B2R (fdiv f0 (fZ 2)) = 0%R).
  { assert (B2SF (fdiv f0 (fZ 2)) = SpecFloat.S754_zero false) by (vm_compute; reflexivity). destruct (fdiv f0 (fZ 2)); try discriminate. split; reflexivity. }
  destruct Z0 as [Fz Rz].
  assert (SM : forall (x y : f32), is_finite x = true -> is_finite y = true -> (B2R x <= B2R y)%R -> is_finite (if flt y (fsub x (fdiv f0 (fZ 2))) then y else fsub x (fdiv f0 (fZ 2))) = true /\ B2R (if flt y (fsub x (fdiv f0 (fZ 2))) then y else fsub x (fdiv f0 (fZ 2))) = B2R x).
  { intros x y Fx Fy L. pose proof (fR_bounds x). destruct (fsub_finite x _ Fx Fz) as [(_ & A & B)|[(A & _)|(A & _)]]; rewrite Rz, Rminus_0_r, rnd_fR in A; [|lra..]. destruct (flt y (fsub x (fdiv f0 (fZ 2)))) eqn:E1; [|auto]. apply flt_spec in E1; [|apply finite_not_nan; assumption..]. rewrite !fX_finite in E1 by assumption. lra. }
  assert (SX : forall (x y : f32), is_finite x = true -> is_finite y = true -> (B2R x <= B2R y)%R -> is_finite (if flt (fadd x (fdiv f0 (fZ 2))) y then y else fadd x (fdiv f0 (fZ 2))) = true /\ B2R (if flt (fadd x (fdiv f0 (fZ 2))) y then y else fadd x (fdiv f0 (fZ 2))) = B2R y).
  { intros x y Fx Fy L. pose proof (fR_bounds x). destruct (fadd_finite x _ Fx Fz) as [(_ & A & B)|[(A & _)|(A & _)]]; rewrite Rz, Rplus_0_r, rnd_fR in A; [|lra..]. destruct (flt (fadd x (fdiv f0 (fZ 2))) y) eqn:E1; [auto|]. apply flt_false in E1; [|apply finite_not_nan; assumption..]. rewrite !fX_finite in E1 by assumption. split; [exact B|lra]. }
  eexists. split; [reflexivity|]. destruct (SM x0 x1 F1 F3 L1) as [A1 A2]. destruct (SM y0 y1 F2 F4 L2) as [B1 B2]. destruct (SX x0 x1 F1 F3 L1) as [C1 C2]. destruct (SX y0 y1 F2 F4 L2) as [D1 D2].
  repeat split; assumption.
Qed.
Lemma least_unique l x y : least l x -> least l y -> B2R x = B2R y. Proof. intros [A B] [C D]. specialize (B y C). specialize (D x A). lra. Qed.
Lemma greatest_unique l x y : greatest l x -> greatest l y -> B2R x = B2R y. Proof. intros [A B] [C D]. specialize (B y C). specialize (D x A). lra. Qed.
(** The bounds of each attribute are the least and greatest given values of each component; the bounding box is that of
    the given positions *)
Theorem C35_bounds : forall l i f spans idx custom m E, create l i = Some f -> create_mesh f spans idx custom = Made m ->
  (nth 0 spans [] = [] -> (forall k, iattr_bounds m k = None) /\ ienvelope E m = None) /\
  (nth 0 spans [] <> [] ->
   (forall k t, nth_error (map ty (attrs f)) k = Some t -> exists los his, iattr_bounds m k = Some (los, his) /\ length los = component_count t /\ length his = component_count t /\
      forall c lo hi, nth_error los c = Some lo -> nth_error his c = Some hi -> least (column (map ty (attrs f)) spans k c) lo /\ greatest (column (map ty (attrs f)) spans k c) hi) /\
   exists r, ienvelope E m = Some r /\
     is_finite (x_min r : f32) = true /\ is_finite (y_min r : f32) = true /\ is_finite (x_max r : f32) = true /\ is_finite (y_max r : f32) = true /\
     exists x y x' y', least (column (map ty (attrs f)) spans (pos_index f) 0) x /\ least (column (map ty (attrs f)) spans (pos_index f) 1) y /\
       greatest (column (map ty (attrs f)) spans (pos_index f) 0) x' /\ greatest (column (map ty (attrs f)) spans (pos_index f) 1) y' /\
       B2R (x_min r : f32) = B2R x /\ B2R (y_min r : f32) = B2R y /\ B2R (x_max r : f32) = B2R x' /\ B2R (y_max r : f32) = B2R y').
Proof.
  intros l i f spans idx custom m E H M. pose proof (pcreated l i f H) as W. destruct (made_bounds f spans idx custom m W M) as (P & F & B). rewrite bounds_eq in B. split.
  - intros N. rewrite N in B. cbn in B. unfold ienvelope, iattr_bounds. rewrite B. split; reflexivity.
  - intros N. assert (V : length (nth 0 spans []) <> 0) by (destruct (nth 0 spans []); [contradiction|discriminate]). destruct (Nat.eqb_spec (length (nth 0 spans [])) 0) as [V0|_]; [contradiction|]. destruct (bnds_ok f spans idx P V) as (A1 & A2 & A3).
    assert (AB : forall k t, nth_error (map ty (attrs f)) k = Some t -> exists los his, iattr_bounds m k = Some (los, his) /\ length los = component_count t /\ length his = component_count t /\
      forall c lo hi, nth_error los c = Some lo -> nth_error his c = Some hi -> least (column (map ty (attrs f)) spans k c) lo /\ greatest (column (map ty (attrs f)) spans k c) hi).
    { intros k t T. destruct (bnds_nth (map ty (attrs f)) (bnds f spans) A1 k t T) as [[los his] BK]. exists los, his. unfold iattr_bounds. rewrite B. split; [exact BK|]. apply (A3 k t (los, his) T BK). }
    split; [exact AB|]. destruct (pos_type f W) as (t & T & C). destruct (AB _ t T) as (los & his & IB & LL & LH & LG). rewrite C in LL, LH.
    destruct los as [|x0 [|y0 [|? ?]]]; try discriminate LL. destruct his as [|x1 [|y1 [|? ?]]]; try discriminate LH. destruct (LG 0 x0 x1 eq_refl eq_refl) as [X0 X1]. destruct (LG 1 y0 y1 eq_refl eq_refl) as [Y0 Y1].
    assert (FN : forall c v, c < 2 -> In v (column (map ty (attrs f)) spans (pos_index f) c) -> is_finite v = true) by (intros c v CB I; apply (A2 (pos_index f) t c v T); [lia|exact I]).
    destruct (point_envelope E x0 y0 x1 y1) as (r & R & R1 & R2 & R3 & R4 & R5 & R6 & R7 & R8); [apply (FN 0); [lia|apply X0]|apply (FN 1); [lia|apply Y0]|apply (FN 0); [lia|apply X1]|apply (FN 1); [lia|apply Y1]|apply X0, X1|apply Y0, Y1|].
    exists r. unfold ienvelope. rewrite F, IB. split; [exact R|]. repeat (split; [assumption|]). exists x0, y0, x1, y1. repeat split; assumption || apply X0 || apply Y0 || apply X1 || apply Y1.
Qed.

(** ** Where the documentation and the code differ *)
Definition made {A} (o : outcome A) : bool := match o with Made _ => true | _ => false end.
(** A range larger than the largest float is documented as an error, but only checked for packed attributes *)
Theorem C35_unpacked_range_refuted : exists f, create [(2, 0)] k16BitUnpacked16BitPacked = Some f /\
  made (create_mesh f [[fopp fmaxval; fmaxval]; [f0; f0]] [] []) = true /\ fisfinite (fsub fmaxval (fopp fmaxval)) = false.
Proof. eexists. split; [reflexivity|]. split; vm_compute; reflexivity. Qed.
(** A packed position can be read back outside the bounds *)
Theorem C35_packed_bounds_refuted : exists f, create [(3, 0)] k16BitUnpacked16BitPacked = Some f /\
  match create_mesh f [[f0; fdy 16773121 (-23)]; [f0; f0]] [] [] with
  | Made m => match iposition m 1, iattr_bounds m 0 with Some (x, _), Some (_, hi :: _) => flt hi x | _, _ => false end
  | _ => false
  end = true.
Proof. eexists. split; [reflexivity|]. vm_compute. reflexivity. Qed.

(** ** A case: a position packed with given parameters, and an unpacked attribute; two triangles *)
Definition ex_format : format := build [(Float2In1Float, 0); (Float1Unpacked, 5)] 0 k16BitUnpacked16BitPacked.
Definition ex_spans : list (list f32) := [[fZ 0; fZ 10; fZ 0; fZ 7]; [fZ 0; fZ 0; fZ 10; fZ 7]; [fZ 3; fZ (-4); fZ 5; fZ 6]].
Definition ex_custom : list (option (list params)) := [Some [Params f0 (fdy 1 (-8)); Params f0 (fdy 1 (-8))]; None].
Example C35_example : create [(3, 0); (0, 5)] k16BitUnpacked16BitPacked = Some ex_format /\
  documented (map ty (attrs ex_format)) ex_spans [0; 1; 3; 3; 2; 0]%Z ex_custom /\
  forall k t, nth_error (map ty (attrs ex_format)) k = Some t -> spread (column (map ty (attrs ex_format)) ex_spans) ex_custom k t.
Proof.
  split; [reflexivity|]. split.
  - destruct (C35_refused_iff [(3, 0); (0, 5)] k16BitUnpacked16BitPacked ex_format ex_spans [0; 1; 3; 3; 2; 0]%Z ex_custom eq_refl) as [_ H]. 
    destruct (create_cases ex_format ex_spans [0; 1; 3; 3; 2; 0]%Z ex_custom (pcreated _ _ _ (eq_refl : create [(3, 0); (0, 5)] k16BitUnpacked16BitPacked = Some ex_format))) as [[N E]|(D & _)]; [|exact D]. exfalso.
    assert (X : made (create_mesh ex_format ex_spans [0; 1; 3; 3; 2; 0]%Z ex_custom) = true) by (vm_compute; reflexivity). rewrite E in X. discriminate.
  - intros [|[|k]] t T G bits b c PB; try discriminate G; cbn in T; [injection T as <-; discriminate PB|destruct k; discriminate T].
Qed.
Print Assumptions C35_refused_iff.
Print Assumptions C35_made.
Print Assumptions C35_bounds.
Print Assumptions C35_unpacked_range_refuted.
Print Assumptions C35_packed_bounds_refuted.
