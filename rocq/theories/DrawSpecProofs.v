(** Lemmas about mesh specifications. *)
From Coq Require Import ZArith Bool Arith Reals Lia List.
From Flocq Require Import IEEE754.BinarySingleNaN.
From Verif Require Import F32 BytesModel BytesLemmas MeshFormatModel MeshFormatProps PackModel PackProps MutableMeshModel MutableMeshProofs MeshModel MeshProofs MeshProps StrokeVertexModel StrokeVertexSpec ShaderUnpackModel ShaderUnpackSpec ShaderUnpackProps DrawSpecModel DrawSpecSpec.
Import ListNotations.
Local Open Scope Z_scope.
Notation total := MeshFormatProps.total.

(** ** The index of an attribute *)
Definition step (id : nat) (r : Z) (x : nat * attribute) : Z := if Nat.eqb (aid (snd x)) id then Z.of_nat (fst x) else r.
Lemma step_none id l : forall s r, ~ In id (map aid l) -> fold_left (step id) (combine (seq s (length l)) l) r = r.
Proof.
  induction l as [|a l IH]; intros s r H; [reflexivity|]. cbn [length seq combine fold_left map] in *. rewrite IH by (intros K; apply H; right; exact K). unfold step. cbn [fst snd]. destruct (Nat.eqb_spec (aid a) id) as [E|E]; [|reflexivity]. exfalso. apply H. left. exact E.
Qed.
Lemma step_some id l : forall s r k a, NoDup (map aid l) -> nth_error l k = Some a -> aid a = id -> fold_left (step id) (combine (seq s (length l)) l) r = Z.of_nat (s + k).
Proof.
  induction l as [|b l IH]; intros s r [|k] a D H E; try discriminate; cbn [nth_error length seq combine fold_left map] in *; inversion_clear D.
  - injection H as ->. rewrite step_none by (rewrite <- E; assumption). unfold step. cbn [fst snd]. rewrite E, Nat.eqb_refl. rewrite Nat.add_0_r. reflexivity.
  - rewrite (IH (S s) _ k a) by assumption. f_equal. lia.
Qed.
Lemma index_none f id : ~ In id (map aid (attrs f)) -> last_index f id = -1.
Proof. apply step_none. Qed.
Lemma index_some f k a : NoDup (map aid (attrs f)) -> nth_error (attrs f) k = Some a -> last_index f (aid a) = Z.of_nat k.
Proof. intros D H. unfold last_index. exact (step_some (aid a) (attrs f) 0 (-1) k a D H eq_refl). Qed.
Lemma index_cases f id : NoDup (map aid (attrs f)) ->
  (~ In id (map aid (attrs f)) /\ last_index f id = -1) \/ (exists k a, nth_error (attrs f) k = Some a /\ aid a = id /\ last_index f id = Z.of_nat k).
Proof.
  intros D. destruct (in_dec Nat.eq_dec id (map aid (attrs f))) as [I|I]; [right|left; split; [exact I|apply index_none, I]].
  apply in_map_iff in I. destruct I as (a & <- & I). apply In_nth_error in I. destruct I as (k & K). exists k, a. split; [exact K|]. split; [reflexivity|]. apply index_some; assumption.
Qed.
Lemma created_ids l i f : create l i = Some f -> NoDup (map aid (attrs f)) /\ In 0%nat (map aid (attrs f)).
Proof.
  intros H. destruct (C28_layout _ _ _ H) as (M & _ & _ & (a & A & A0 & _) & _). destruct (proj1 (C28_create l i) ltac:(congruence)) as (_ & _ & _ & ND & _). rewrite <- M, map_map in ND. cbn [snd] in ND. split; [exact ND|]. rewrite <- A0. apply in_map, (nth_error_In _ _ A).
Qed.

(** ** The parts *)
Section Parts.
Variables (f : format) (D : NoDup (map aid (attrs f))).
Lemma same_place k k' a b : nth_error (attrs f) k = Some a -> nth_error (attrs f) k' = Some b -> aid a = aid b -> k = k'.
Proof.
  intros A B E. assert (X := index_some f k a D A). assert (Y := index_some f k' b D B). rewrite E in X. lia.
Qed.
Lemma attr_here k a : nth_error (attrs f) k = Some a -> attr_at f k = a.
Proof. intros K. unfold attr_at. apply nth_error_nth, K. Qed.
Lemma optional_some id find x : optional_part f (last_index f id) find = Some x <->
  (~ In id (map aid (attrs f)) /\ x = None) \/ (exists k a t, nth_error (attrs f) k = Some a /\ aid a = id /\ find (ty a) = Some t /\ x = Some (t, poff a)).
Proof.
  unfold optional_part. destruct (index_cases f id D) as [(N & E)|(k & a & K & I & E)]; rewrite E.
  - rewrite Z.eqb_refl. split; [intros H; injection H as <-; left; auto|]. intros [(_ & ->)|(k & a & t & K & I & _)]; [reflexivity|]. exfalso. apply N. rewrite <- I. apply in_map, (nth_error_In _ _ K).
  - destruct (Z.eqb_spec (Z.of_nat k) (-1)) as [F|_]; [lia|]. rewrite Nat2Z.id, (attr_here k a K). split.
    + destruct (find (ty a)) as [t|] eqn:F; [|discriminate]. intros H. injection H as <-. right. exists k, a, t. auto.
    + intros [(N & _)|(k' & b & t & K' & I' & F & ->)]; [exfalso; apply N; rewrite <- I; apply in_map, (nth_error_In _ _ K)|]. assert (k' = k) by (eapply same_place; [exact K'|exact K|congruence]). subst k'. rewrite K in K'. injection K' as <-. rewrite F. reflexivity.
Qed.
Lemma paired_some id id' find x : In id (map aid (attrs f)) -> In id' (map aid (attrs f)) -> paired_part f (last_index f id) (last_index f id') find = Some x <->
  (exists k a b t, nth_error (attrs f) k = Some a /\ nth_error (attrs f) (S k) = Some b /\ aid a = id /\ aid b = id' /\ find (ty a) (ty b) = Some t /\ x = (t, poff a)).
Proof.
  intros I I'. unfold paired_part. destruct (index_cases f id D) as [(N & _)|(k & a & K & E & ->)]; [contradiction|]. destruct (index_cases f id' D) as [(N & _)|(k' & b & K' & E' & ->)]; [contradiction|].
  rewrite !Nat2Z.id, (attr_here k a K), (attr_here k' b K'). destruct (Z.eqb_spec (Z.of_nat k + 1) (Z.of_nat k')) as [SK|SK]; cbn [negb].
  - assert (k' = S k) by lia. subst k'. split.
    + destruct (find (ty a) (ty b)) as [t|] eqn:F; [|discriminate]. intros H. injection H as <-. exists k, a, b, t. auto 7.
    + intros (j & c & d & t & J & J' & C & C' & F & ->). assert (j = k) by (eapply same_place; [exact J|exact K|congruence]). subst j. rewrite K in J. injection J as <-. rewrite K' in J'. injection J' as <-. rewrite F. reflexivity.
  - split; [discriminate|]. intros (j & c & d & t & J & J' & C & C' & _). exfalso. apply SK. assert (j = k) by (eapply same_place; [exact J|exact K|congruence]). assert (S j = k') by (eapply same_place; [exact J'|exact K'|congruence]). lia.
Qed.
Lemma neighbours_at a b : neighbours (attributes_of f) a b <-> exists k x y, nth_error (attrs f) k = Some x /\ nth_error (attrs f) (S k) = Some y /\ (ty x, aid x) = a /\ (ty y, aid y) = b.
Proof.
  unfold neighbours, attributes_of. split.
  - intros (l1 & l2 & E). assert (A : nth_error (map (fun a => (ty a, aid a)) (attrs f)) (length l1) = Some a) by (rewrite E, nth_error_app2, Nat.sub_diag by lia; reflexivity).
    assert (B : nth_error (map (fun a => (ty a, aid a)) (attrs f)) (S (length l1)) = Some b) by (rewrite E, nth_error_app2 by lia; replace (S (length l1) - length l1)%nat with 1%nat by lia; reflexivity).
    rewrite nth_error_map in A, B. destruct (nth_error (attrs f) (length l1)) as [x|] eqn:X; [|discriminate]. destruct (nth_error (attrs f) (S (length l1))) as [y|] eqn:Y; [|discriminate]. injection A as A. injection B as B. exists (length l1), x, y. auto.
  - intros (k & x & y & X & Y & A & B). apply nth_error_split in X. destruct X as (l1 & l2 & E & L). subst k. rewrite E, nth_error_app2 in Y by lia. replace (S (length l1) - length l1)%nat with 1%nat in Y by lia. destruct l2 as [|y' l2]; [discriminate|]. injection Y as ->.
    exists (map (fun a => (ty a, aid a)) l1), (map (fun a => (ty a, aid a)) l2). rewrite E, map_app. cbn [map]. rewrite A, B. reflexivity.
Qed.
Definition opt_at (id : nat) (find : atype -> option stype) (x : option (stype * nat)) : Prop :=
  (~ In id (map aid (attrs f)) /\ x = None) \/ (exists k a t, nth_error (attrs f) k = Some a /\ aid a = id /\ find (ty a) = Some t /\ x = Some (t, poff a)).
Definition pair_at (id id' : nat) (find : atype -> atype -> option stype) (x : stype * nat) : Prop :=
  exists k a b t, nth_error (attrs f) k = Some a /\ nth_error (attrs f) (S k) = Some b /\ aid a = id /\ aid b = id' /\ find (ty a) (ty b) = Some t /\ x = (t, poff a).
Lemma pair_in id id' find x : pair_at id id' find x -> In id (map aid (attrs f)) /\ In id' (map aid (attrs f)).
Proof. intros (k & a & b & t & A & B & <- & <- & _). split; apply in_map; eapply nth_error_In; eassumption. Qed.
Lemma missing id : last_index f id =? -1 = true <-> ~ In id (map aid (attrs f)).
Proof.
  rewrite Z.eqb_eq. destruct (index_cases f id D) as [(N & E)|(k & a & K & E & L)]; rewrite ?E, ?L.
  - tauto.
  - split; [lia|]. intros N. exfalso. apply N. rewrite <- E. apply in_map, (nth_error_In _ _ K).
Qed.
Lemma validated_iff v : In 0%nat (map aid (attrs f)) -> get_validated f = Some v <->
  pair_at 0 2 position_and_opacity_type (for_position v) /\ opt_at 1 hsl_type (for_hsl v) /\ pair_at 4 5 derivative_and_label_type (for_side v) /\
  pair_at 6 7 derivative_and_label_type (for_forward v) /\ opt_at 8 uv_type (for_uv v).
Proof.
  intros I0. unfold get_validated, kPosition, kOpacityShift, kSideDerivative, kSideLabel, kForwardDerivative, kForwardLabel, kColorShiftHsl, kSurfaceUv.
  destruct (existsb _ _) eqn:EX.
  - split; [discriminate|]. intros (P & _ & S4 & S6 & _). apply pair_in in P, S4, S6. exfalso. apply existsb_exists in EX. destruct EX as (id & I & M). apply missing in M. destruct I as [<-|[<-|[<-|[<-|[<-|[]]]]]]; tauto.
  - assert (HI : forall id, In id [2; 4; 5; 6; 7]%nat -> In id (map aid (attrs f))).
    { intros id I. destruct (in_dec Nat.eq_dec id (map aid (attrs f))) as [J|J]; [exact J|]. exfalso. apply missing in J. assert (X : existsb (fun id => last_index f id =? -1) [2; 4; 5; 6; 7]%nat = true) by (apply existsb_exists; eauto). congruence. }
    pose proof (HI 2%nat ltac:(cbn; auto)) as I2. pose proof (HI 4%nat ltac:(cbn; auto)) as I4. pose proof (HI 5%nat ltac:(cbn; auto 6)) as I5. pose proof (HI 6%nat ltac:(cbn; auto 6)) as I6. pose proof (HI 7%nat ltac:(cbn; auto 7)) as I7. clear HI EX.
    destruct v as [vp vh vs vf vu]. cbn [for_position for_hsl for_side for_forward for_uv]. unfold pair_at, opt_at.
    rewrite <- (paired_some 0 2 _ vp I0 I2), <- (paired_some 4 5 _ vs I4 I5), <- (paired_some 6 7 _ vf I6 I7), <- (optional_some 1 _ vh), <- (optional_some 8 _ vu).
    destruct (paired_part f (last_index f 0) _ _) as [p|]; [|split; [discriminate|intros (E & _); discriminate]]. destruct (optional_part f (last_index f 1) _) as [h|]; [|split; [discriminate|intros (_ & E & _); discriminate]].
    destruct (paired_part f (last_index f 4) _ _) as [s|]; [|split; [discriminate|intros (_ & _ & E & _); discriminate]]. destruct (paired_part f (last_index f 6) _ _) as [w|]; [|split; [discriminate|intros (_ & _ & _ & E & _); discriminate]].
    destruct (optional_part f (last_index f 8) _) as [u|]; [|split; [discriminate|intros (_ & _ & _ & _ & E); discriminate]].
    split; [intros E; injection E as <- <- <- <- <-; auto|]. intros (E1 & E2 & E3 & E4 & E5). congruence.
Qed.
Lemma pair_drawable id id' find p q p' q' : (forall t u s, find t u = Some s -> (t = p /\ u = q) \/ (t = p' /\ u = q')) -> find p q <> None -> find p' q' <> None ->
  (exists x, pair_at id id' find x) <-> neighbours (attributes_of f) (p, id) (q, id') \/ neighbours (attributes_of f) (p', id) (q', id').
Proof.
  intros F N N'. rewrite !neighbours_at. split.
  - intros (x & k & a & b & t & A & B & I & J & FT & _). destruct (F _ _ _ FT) as [[E1 E2]|[E1 E2]]; [left|right]; exists k, a, b; rewrite E1, E2, I, J; auto.
  - intros [H|H]; destruct H as (k & a & b & A & B & E1 & E2); injection E1 as T1 <-; injection E2 as T2 <-; rewrite <- T1, <- T2 in *; [destruct (find (ty a) (ty b)) as [t|] eqn:X; [|congruence]|destruct (find (ty a) (ty b)) as [t|] eqn:X; [|congruence]]; exists (t, poff a), k, a, b, t; auto 8.
Qed.
Lemma opt_drawable id find p q : (forall t s, find t = Some s -> t = p \/ t = q) -> find p <> None -> find q <> None ->
  (exists x, opt_at id find x) <-> forall t, In (t, id) (attributes_of f) -> t = p \/ t = q.
Proof.
  intros F N N'. split.
  - intros (x & [(NI & _)|(k & a & t & K & I & FT & _)]) u HI; apply in_map_iff in HI; destruct HI as (b & E & B); injection E as <- E.
    + exfalso. apply NI. rewrite <- E. apply in_map, B.
    + apply In_nth_error in B. destruct B as (k' & B). assert (k' = k) by (eapply same_place; [exact B|exact K|congruence]). subst k'. assert (b = a) by congruence. subst b. eapply F, FT.
  - intros H. destruct (index_cases f id D) as [(NI & _)|(k & a & K & I & _)]; [exists None; left; auto|]. destruct (find (ty a)) as [t|] eqn:FT; [exists (Some (t, poff a)); right; exists k, a, t; auto|].
    exfalso. destruct (H (ty a)) as [E|E]; [apply in_map_iff; exists a; rewrite I; split; [reflexivity|apply (nth_error_In _ _ K)]|congruence|congruence].
Qed.
End Parts.

(** ** The bytes of a vertex *)
Lemma firstn_plus {A} m n (l : list A) : firstn (m + n) l = firstn m l ++ firstn n (skipn m l).
Proof. revert l. induction m as [|m IH]; intros l; [reflexivity|]. destruct l as [|a l]; [cbn; rewrite !firstn_nil; reflexivity|]. cbn [Nat.add firstn skipn app]. rewrite IH. reflexivity. Qed.
Lemma peek_plus o m n d : peek o (m + n) d = peek o m d ++ peek (o + m) n d.
Proof. unfold peek. rewrite firstn_plus, skipn_plus. reflexivity. Qed.
Lemma next_offset f k a b : pwf f -> nth_error (attrs f) k = Some a -> nth_error (attrs f) (S k) = Some b -> (poff b = poff a + pwidth a)%nat.
Proof.
  intros W A B. rewrite (pwf_off f W k a A), (pwf_off f W _ b B). assert (E : nth_error (map pwidth (attrs f)) k = Some (pwidth a)) by (rewrite nth_error_map, A; reflexivity).
  clear - E. revert k E. induction (map pwidth (attrs f)) as [|x l IH]; intros [|k] E; try discriminate; cbn [nth_error] in E.
  - injection E as ->. cbn. lia.
  - specialize (IH k E). rewrite !firstn_cons. change (total (?x :: ?y)) with (x + total y)%nat. lia.
Qed.
Lemma inside f k a : pwf f -> nth_error (attrs f) k = Some a -> (poff a + pwidth a <= pstride f)%nat.
Proof. intros W A. rewrite (pwf_off f W k a A), (pwf_stride f W). apply total_firstn_nth. rewrite nth_error_map, A. reflexivity. Qed.
Lemma packed_at m i k a : pwf (iformat m) -> 0 <= i < 65536 -> nth_error (attrs (iformat m)) k = Some a ->
  packed_attribute m i k = peek (Z.to_nat i * pstride (iformat m) + poff a) (packed_size (ty a)) (ivdata m).
Proof.
  intros W I A. unfold packed_attribute. rewrite (attr_here _ k a A), (pwf_width _ W a (nth_error_In _ _ A)). pose proof (pstride_small _ W). pose proof (inside _ k a W A). rewrite u32_id by (change (2 ^ 32) with 4294967296; nia). f_equal. nia.
Qed.
Lemma stored_back t ns p : is_unpacked t = false -> pack_ints t ns = Some p -> bytes_packed t (packed_bytes p) = p /\ length (packed_bytes p) = packed_size t.
Proof.
  intros E H. unfold bytes_packed. rewrite E. cbn [orb]. assert (F : forall l, length l = (packed_size t / 4)%nat -> bytes_floats (packed_size t / 4) (floats_bytes l) = l) by (intros l <-; rewrite <- (app_nil_r (floats_bytes l)); apply floats_back).
  unfold pack_ints in H. destruct t; try discriminate E; repeat (destruct ns as [|? ns]; try discriminate H); injection H as <-; cbn [packed_bytes is_packed_as_float]; try (split; reflexivity); (split; [f_equal; apply F; reflexivity|rewrite floats_bytes_length; reflexivity]).
Qed.
Lemma floats_stored m i k a l : nth_error (attrs (iformat m)) k = Some a -> is_unpacked (ty a) = true -> packed_attribute m i k = packed_bytes (PFloats l) -> length l = component_count (ty a) -> iattribute m i k = Some l.
Proof.
  intros A U P L. unfold iattribute. rewrite (attr_here _ k a A), P. unfold bytes_packed. rewrite U. cbn [orb]. unfold unpack_attribute. rewrite U. cbn [packed_bytes].
  replace (packed_size (ty a) / 4)%nat with (length l) by (rewrite L; destruct (ty a); try discriminate; reflexivity). rewrite <- (app_nil_r (floats_bytes l)), floats_back. reflexivity.
Qed.
Lemma bytes_stored m i k a ns p : nth_error (attrs (iformat m)) k = Some a -> is_unpacked (ty a) = false -> pack_ints (ty a) ns = Some p -> packed_attribute m i k = packed_bytes p ->
  iattribute m i k = unpack_attribute (ty a) (nth k (coding m) []) p.
Proof. intros A U P E. unfold iattribute. rewrite (attr_here _ k a A), E. rewrite (proj1 (stored_back _ _ _ U P)). reflexivity. Qed.

(** ** The uniforms *)
Lemma transforms_set s L : (forall a c id, In (a, c) L -> unpacking_uniform (aid a) = Some id -> as_uniform c <> None) ->
  (forall a c id, In (a, c) L -> unpacking_uniform (aid a) = Some id -> existsb (fun x => uniform_eqb (fst x) id) (suniforms s) = true) ->
  NoDup (map (fun x => aid (fst x)) L) -> forall u, exists u', initialize_transforms s L u = Some u' /\
    (forall a c id, In (a, c) L -> unpacking_uniform (aid a) = Some id -> u' id = as_uniform c) /\
    (forall id, (forall a c, In (a, c) L -> unpacking_uniform (aid a) <> Some id) -> u' id = u id).
Proof.
  assert (INJ : forall a b id, unpacking_uniform a = Some id -> unpacking_uniform b = Some id -> a = b).
  { unfold unpacking_uniform. intros a b id. destruct (Nat.eqb_spec a kPosition); [intros [= <-]|destruct (Nat.eqb_spec a kSideDerivative); [intros [= <-]|destruct (Nat.eqb_spec a kForwardDerivative); [intros [= <-]|discriminate]]];
    (destruct (Nat.eqb_spec b kPosition); [try discriminate; congruence|destruct (Nat.eqb_spec b kSideDerivative); [try discriminate; congruence|destruct (Nat.eqb_spec b kForwardDerivative); [try discriminate; congruence|discriminate]]]). }
  assert (EQ : forall x y, uniform_eqb x y = true <-> x = y) by (intros [] []; cbn; split; congruence).
  induction L as [|[a c] L IH]; intros H1 H2 ND u; [exists u; split; [reflexivity|split; [intros ? ? ? []|auto]]|]. cbn [map fst] in ND. inversion_clear ND as [|? ? NI ND']. cbn [initialize_transforms].
  assert (IH' := IH (fun a c id I => H1 a c id (or_intror I)) (fun a c id I => H2 a c id (or_intror I)) ND'). clear IH. destruct (unpacking_uniform (aid a)) as [id|] eqn:U.
  - rewrite (H2 a c id (or_introl eq_refl) U). cbn [negb]. destruct (as_uniform c) as [t|] eqn:AU; [|exfalso; exact (H1 a c id (or_introl eq_refl) U AU)]. destruct (IH' (fun id' => if uniform_eqb id' id then Some t else u id')) as (u' & E & A & B). exists u'. split; [exact E|]. split.
    + intros b d id' [K|K] U'; [|eapply A; eassumption]. injection K as <- <-. rewrite U in U'. injection U' as <-. rewrite B, (proj2 (EQ id id) eq_refl); [auto|]. intros b d I F. apply NI. rewrite (INJ _ _ _ U F). change (aid b) with (aid (fst (b, d))). apply (in_map (fun x => aid (fst x)) L (b, d)), I.
    + intros id' N. rewrite B; [|intros b d I; apply N with d; right; exact I]. destruct (uniform_eqb id' id) eqn:Q; [|reflexivity]. apply EQ in Q. subst id'. exfalso. exact (N a c (or_introl eq_refl) U).
  - destruct (IH' u) as (u' & E & A & B). exists u'. split; [exact E|]. split.
    + intros b d id' [K|K] U'; [|eapply A; eassumption]. injection K as <- <-. congruence.
    + intros id' N. apply B. intros b d I. apply N with d. right. exact I.
Qed.
