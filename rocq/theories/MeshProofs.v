(** The bytes of an immutable mesh *)
From Coq Require Import ZArith Bool Lia List.
From Verif Require Import F32 BytesModel BytesLemmas MeshFormatModel MeshFormatProps PackModel PackProps PartitionModel MutableMeshModel MutableMeshSpec MutableMeshProofs MeshModel.
Import ListNotations.
Local Open Scope Z_scope.
Notation total := MeshFormatProps.total.

(** ** Writes one after the other *)
Lemma gather_some {A} (l : list (option A)) r : gather l = Some r <-> l = map Some r.
Proof.
  revert r. induction l as [|[a|] l IH]; intros r; cbn [gather].
  - split; [intros [= <-]; reflexivity|destruct r; [reflexivity|discriminate]].
  - destruct (gather l) as [q|].
    + split; [intros [= <-]; cbn; f_equal; apply IH; reflexivity|]. destruct r as [|b r]; [discriminate|]. cbn. intros [= <- E]. apply IH in E. injection E as ->. reflexivity.
    + split; [discriminate|]. destruct r as [|b r]; [discriminate|]. cbn. intros [= <- E]. apply IH in E. discriminate.
  - split; [discriminate|destruct r; discriminate].
Qed.
Lemma poke_at pre old post bs : length old = length bs -> poke (length pre) bs (pre ++ old ++ post) = pre ++ bs ++ post.
Proof. intros H. apply poke_mid. symmetry. exact H. Qed.
Lemma write_all_app a b mem : write_all (a ++ b) mem = write_all b (write_all a mem).
Proof. unfold write_all. apply fold_left_app. Qed.
Lemma split_at {A} n (l : list A) : (n <= length l)%nat -> exists a b, l = a ++ b /\ length a = n.
Proof. intros H. exists (firstn n l), (skipn n l). split; [symmetry; apply firstn_skipn|]. rewrite firstn_length. lia. Qed.
Lemma write_row base chunks : forall o pre old post, length pre = (base + o)%nat -> length old = length (concat chunks) ->
  write_all (combine (map (fun o => base + o)%nat (running o (map (@length Z) chunks))) chunks) (pre ++ old ++ post) = pre ++ concat chunks ++ post.
Proof.
  induction chunks as [|c chunks IH]; intros o pre old post P L; cbn [map running combine concat] in *.
  - destruct old; [reflexivity|discriminate].
  - rewrite app_length in L. destruct (split_at (length c) old) as (o1 & o2 & -> & L1); [lia|]. rewrite app_length in L. change (write_all (?w :: ?ws) ?m) with (write_all ws (poke (fst w) (snd w) m)). cbn [fst snd].
    rewrite <- P, <- app_assoc. rewrite poke_at by exact L1. rewrite (app_assoc pre c). rewrite IH; [|rewrite app_length; lia|lia]. rewrite <- !app_assoc. reflexivity.
Qed.
Definition row_writes (stride : nat) (widths : list nat) (chunks : nat -> list (list Z)) (i : nat) : list (nat * list Z) :=
  combine (map (fun o => i * stride + o)%nat (running 0 widths)) (chunks i).
Lemma write_rows widths chunks : forall n s pre post old, (forall i, (s <= i < s + n)%nat -> map (@length Z) (chunks i) = widths) -> length pre = (s * total widths)%nat -> length old = (n * total widths)%nat ->
  write_all (flat_map (row_writes (total widths) widths chunks) (seq s n)) (pre ++ old ++ post) = pre ++ concat (map (fun i => concat (chunks i)) (seq s n)) ++ post.
Proof.
  induction n as [|n IH]; intros s pre post old H P L; cbn [seq flat_map map concat].
  - destruct old; [reflexivity|discriminate].
  - assert (W : map (@length Z) (chunks s) = widths) by (apply H; lia). assert (LC : length (concat (chunks s)) = total widths).
    { rewrite <- W. clear. unfold total. induction (chunks s) as [|c l IH]; [reflexivity|]. cbn. rewrite app_length, IH. reflexivity. }
    destruct (split_at (total widths) old) as (o1 & o2 & -> & L1); [lia|]. rewrite app_length in L. rewrite write_all_app. unfold row_writes at 2. rewrite <- app_assoc.
    pose proof (write_row (s * total widths) (chunks s) 0 pre o1 (o2 ++ post)) as K. rewrite W in K. rewrite K by lia. clear K. rewrite (app_assoc pre). rewrite IH; [rewrite <- !app_assoc; reflexivity|intros i I; apply H; lia|rewrite app_length; lia|lia].
Qed.
Lemma concat_total cs : length (concat cs) = total (map (@length Z) cs).
Proof. unfold total. induction cs as [|c l IH]; [reflexivity|]. cbn. rewrite app_length, IH. reflexivity. Qed.
Lemma write_table widths chunks n : (forall i, (i < n)%nat -> map (@length Z) (chunks i) = widths) ->
  write_all (flat_map (row_writes (total widths) widths chunks) (seq 0 n)) (repeat 0 (n * total widths)) = concat (map (fun i => concat (chunks i)) (seq 0 n)).
Proof.
  intros H. pose proof (write_rows widths chunks n 0 [] [] (repeat 0 (n * total widths))) as K. rewrite !app_nil_r in K. cbn [app] in K. apply K; [intros; apply H; lia|reflexivity|apply repeat_length].
Qed.
Lemma index_bytes_eq ts : index_bytes ts = image (tri_bytes 2) ts.
Proof.
  unfold index_bytes. pose proof (write_table [6%nat] (fun i => [tri_bytes 2 (nth i ts (0, 0, 0))]) (length ts)) as K.
  assert (T : total [6%nat] = 6%nat) by reflexivity. rewrite T in K. rewrite (Nat.mul_comm 6). etransitivity; [|etransitivity; [apply K|]].
  - f_equal. unfold row_writes. cbn [running map combine]. rewrite flat_map_concat_map. clear K T.
    assert (G : forall l s, (forall i, (i < length l)%nat -> nth (s + i) ts (0, 0, 0) = nth i l (0, 0, 0)) -> map (fun x => ((fst x * 6)%nat, tri_bytes 2 (snd x))) (combine (seq s (length l)) l) = concat (map (fun x => [((x * 6 + 0)%nat, tri_bytes 2 (nth x ts (0, 0, 0)))]) (seq s (length l)))).
    { induction l as [|t l IH]; intros s E; [reflexivity|]. cbn [length seq combine map concat app fst snd]. rewrite <- IH; [f_equal; f_equal; [lia|]; specialize (E 0%nat ltac:(cbn; lia)); rewrite Nat.add_0_r in E; rewrite E; reflexivity|].
      intros i I. specialize (E (S i) ltac:(cbn; lia)). rewrite Nat.add_succ_r in E. exact E. }
    apply G. reflexivity.
  - intros i _. cbn [map]. rewrite tri_bytes_length. reflexivity.
  - cbn [concat]. unfold image. f_equal. clear K. 
    assert (G : forall l s, (forall i, (i < length l)%nat -> nth (s + i) ts (0, 0, 0) = nth i l (0, 0, 0)) -> map (fun i => tri_bytes 2 (nth i ts (0, 0, 0)) ++ []) (seq s (length l)) = map (tri_bytes 2) l).
    { induction l as [|t l IH]; intros s E; [reflexivity|]. cbn [length seq map]. rewrite IH; [f_equal; specialize (E 0%nat ltac:(cbn; lia)); rewrite Nat.add_0_r in E; rewrite E, app_nil_r; reflexivity|].
      intros i I. specialize (E (S i) ltac:(cbn; lia)). rewrite Nat.add_succ_r in E. exact E. }
    apply G. reflexivity.
Qed.

(** ** Packed values in bytes *)
Lemma pack_bytes t ps vs p : pack_attribute t ps vs = Some p -> (is_unpacked t = true -> length vs = component_count t) ->
  length (packed_bytes p) = packed_size t /\ bytes_packed t (packed_bytes p) = p.
Proof.
  intros H U. unfold pack_attribute in H. destruct (is_unpacked t) eqn:E.
  - injection H as <-. specialize (U eq_refl). cbn [packed_bytes]. rewrite floats_bytes_length, U. split; [destruct t; try discriminate; reflexivity|]. unfold bytes_packed. rewrite E. cbn [orb]. f_equal.
    rewrite <- (app_nil_r (floats_bytes vs)). replace (packed_size t / 4)%nat with (length vs) by (rewrite U; destruct t; try discriminate; reflexivity). apply floats_back.
  - destruct (pack_singles ps vs) as [n|]; [|discriminate]. unfold bytes_packed. rewrite E. cbn [orb].
    assert (F : forall l, length l = (packed_size t / 4)%nat -> bytes_floats (packed_size t / 4) (floats_bytes l) = l) by (intros l <-; rewrite <- (app_nil_r (floats_bytes l)); apply floats_back).
    unfold pack_ints in H. destruct t; try discriminate E; repeat (destruct n as [|? n]; try discriminate H); injection H as <-; cbn [packed_bytes is_packed_as_float]; try (split; reflexivity); (split; [rewrite floats_bytes_length; reflexivity|f_equal; apply F; reflexivity]).
Qed.

(** ** The packed layout of a format *)
Record pwf (f : format) : Prop := {
  pwf_stride : pstride f = total (map pwidth (attrs f));
  pwf_off : forall k a, nth_error (attrs f) k = Some a -> poff a = total (firstn k (map pwidth (attrs f)));
  pwf_width : forall a, In a (attrs f) -> pwidth a = packed_size (ty a);
  pwf_count : (length (attrs f) <= 16)%nat;
  pwf_pos : exists a, nth_error (attrs f) (pos_index f) = Some a /\ component_count (ty a) = 2%nat }.
Lemma pcreated l i f : create l i = Some f -> pwf f.
Proof.
  intros H. destruct (C28_layout _ _ _ H) as (M & _ & _ & (a & A1 & _ & A2) & _ & U & Q). split.
  - exact U.
  - intros k x E. apply (Q k x E).
  - destruct (create_some _ _ _ H) as (r & pos & t & A & N & CC & -> & NE & LE & V & ND). unfold build. assert (LR : (length r <= 16)%nat) by (rewrite <- A, map_length in LE; exact LE).
    pose proof (populate_ok r 0 0 ltac:(lia) ltac:(lia)) as P. destruct (populate r 0 0) as [[x u] p]. destruct P as (_ & _ & _ & P4). cbn [attrs]. intros y I. apply In_nth_error in I. destruct I as (k & I). apply (P4 k y I).
  - destruct (create_some _ _ _ H) as (r & pos & t & A & N & CC & E & NE & LE & V & ND). rewrite <- M, map_length in LE. exact LE.
  - eauto.
Qed.
Lemma running_nth ws : forall o k w, nth_error ws k = Some w -> nth_error (running o ws) k = Some (o + total (firstn k ws))%nat.
Proof.
  induction ws as [|x ws IH]; intros o [|k] w H; try discriminate; cbn [running nth_error firstn] in *; [f_equal; cbn; lia|]. rewrite (IH _ k w H). f_equal. unfold total. cbn [fold_right]. lia.
Qed.
Lemma running_length ws : forall o, length (running o ws) = length ws. Proof. induction ws; intros o; cbn; auto. Qed.
Lemma nth_error_ext {A} (l l' : list A) : (forall k, nth_error l k = nth_error l' k) -> l = l'.
Proof.
  revert l'. induction l as [|a l IH]; intros [|b l'] H; [reflexivity|specialize (H 0%nat); discriminate|specialize (H 0%nat); discriminate|]. pose proof (H 0%nat) as H0. cbn in H0. injection H0 as <-. f_equal. apply IH. intros k. apply (H (S k)).
Qed.
Lemma poff_running f : pwf f -> map poff (attrs f) = running 0 (map pwidth (attrs f)).
Proof.
  intros W. apply nth_error_ext. intros k. rewrite nth_error_map. destruct (nth_error (attrs f) k) as [a|] eqn:E.
  - rewrite (running_nth _ 0 k (pwidth a)) by (rewrite nth_error_map, E; reflexivity). cbn [option_map]. f_equal. apply (pwf_off f W k a E).
  - cbn [option_map]. symmetry. apply nth_error_None. rewrite running_length, map_length. apply nth_error_None, E.
Qed.
Lemma map_attr_at {A} f (g : attribute -> A) : map (fun k => g (attr_at f k)) (seq 0 (length (attrs f))) = map g (attrs f).
Proof.
  apply nth_error_ext. intros k. rewrite !nth_error_map. destruct (nth_error (attrs f) k) as [a|] eqn:E.
  - assert (L : (k < length (attrs f))%nat) by (apply nth_error_Some; congruence). rewrite (nth_error_nth' _ 0%nat) by (rewrite seq_length; exact L). rewrite seq_nth by exact L. cbn [option_map]. f_equal. unfold attr_at. cbn [Nat.add]. rewrite (nth_error_nth _ _ _ E). reflexivity.
  - cbn [option_map]. assert (L : (length (attrs f) <= k)%nat) by (apply nth_error_None, E). rewrite (proj2 (nth_error_None _ _)) by (rewrite seq_length; exact L). reflexivity.
Qed.

(** A packed vertex is a list of chunks *)
Definition penc (w : nat) (v : list (list Z)) : list Z := resize w (concat v).
Lemma penc_length w v : length (penc w v) = w. Proof. apply resize_length. Qed.
Lemma penc_eq w v : length (concat v) = w -> penc w v = concat v. Proof. apply resize_id. Qed.
Record prep (m : imesh) (vs : list (list (list Z))) (ts : list triple) : Prop := {
  prep_v : ivdata m = image (penc (pstride (iformat m))) vs;
  prep_t : iidata m = image (tri_bytes 2) ts;
  prep_vc : ivcount m = count vs;
  prep_tc : itcount m = count ts;
  prep_vmax : count vs <= 2 ^ 16;
  prep_tmax : count ts < 2 ^ 32;
  prep_shape : forall v, In v vs -> map (@length Z) v = map pwidth (attrs (iformat m));
  prep_small : forall t, In t ts -> small (2 ^ 16) t }.
Lemma pstride_small f : pwf f -> (pstride f <= 256)%nat.
Proof.
  intros W. rewrite (pwf_stride f W). pose proof (pwf_count f W) as C. assert (B : forall a, In a (attrs f) -> (pwidth a <= 16)%nat) by (intros a I; rewrite (pwf_width f W a I); destruct (ty a); cbn; lia).
  assert (G : forall l : list attribute, (forall a, In a l -> (pwidth a <= 16)%nat) -> (total (map pwidth l) <= 16 * length l)%nat).
  { induction l as [|a l IH]; intros H; [cbn; lia|]. cbn [map length]. change (total (?x :: ?y)) with (x + total y)%nat. pose proof (H a (or_introl eq_refl)). specialize (IH (fun b I => H b (or_intror I))). lia. }
  specialize (G _ B). lia.
Qed.
Lemma chunk_split (v : list (list Z)) k c : nth_error v k = Some c -> peek (total (firstn k (map (@length Z) v))) (length c) (concat v) = c.
Proof.
  intros H. apply nth_error_split in H. destruct H as (v1 & v2 & -> & L). subst k. rewrite firstn_map_length, concat_app. cbn [concat]. rewrite <- concat_total. apply peek_mid.
Qed.
Lemma read_packed m vs ts i v k c : pwf (iformat m) -> prep m vs ts -> 0 <= i -> nth_error vs (Z.to_nat i) = Some v -> nth_error v k = Some c -> packed_attribute m i k = c.
Proof.
  intros W R I0 V K. unfold packed_attribute. pose proof (prep_shape _ _ _ R v (nth_error_In _ _ V)) as SH. pose proof (pstride_small _ W) as SM.
  assert (KA : exists a, nth_error (attrs (iformat m)) k = Some a /\ pwidth a = length c).
  { assert (E : nth_error (map (@length Z) v) k = Some (length c)) by (rewrite nth_error_map, K; reflexivity). rewrite SH, nth_error_map in E. destruct (nth_error (attrs (iformat m)) k) as [a|]; [|discriminate]. injection E as E. eauto. }
  destruct KA as (a & A & AW). unfold attr_at. rewrite (nth_error_nth _ _ _ A). rewrite (pwf_off _ W k a A), AW.
  assert (T : (total (firstn k (map pwidth (attrs (iformat m)))) + length c <= pstride (iformat m))%nat) by (rewrite (pwf_stride _ W); apply total_firstn_nth; rewrite nth_error_map, A; cbn; congruence).
  assert (LI : i < 2 ^ 16) by (pose proof (prep_vmax _ _ _ R); unfold count in *; assert (Z.to_nat i < length vs)%nat by (apply nth_error_Some; congruence); lia).
  assert (LE : (length c <= pstride (iformat m))%nat) by lia. rewrite u32_id by (change (2 ^ 16) with 65536 in LI; change (2 ^ 32) with 4294967296; nia).
  replace (Z.to_nat (i * Z.of_nat (pstride (iformat m)) + Z.of_nat (total (firstn k (map pwidth (attrs (iformat m))))))) with (Z.to_nat i * pstride (iformat m) + total (firstn k (map pwidth (attrs (iformat m)))))%nat by nia.
  rewrite (prep_v _ _ _ R). rewrite (peek_image (penc (pstride (iformat m))) _ (penc_length _) vs _ v) by assumption. rewrite penc_eq by (rewrite concat_total, SH; symmetry; apply (pwf_stride _ W)). rewrite <- SH. apply chunk_split, K.
Qed.
Lemma read_indices m vs ts j t : prep m vs ts -> 0 <= j -> nth_error ts (Z.to_nat j) = Some t -> iindices m j = t.
Proof.
  intros R J H. unfold iindices. rewrite (prep_t _ _ _ R). replace (Z.to_nat (j * 3 * 2)) with (Z.to_nat j * 6 + 0)%nat by lia.
  rewrite (peek_image (tri_bytes 2) 6 (tri_bytes_length 2) ts _ t 0 6 H) by lia. pose proof (prep_small _ _ _ R t (nth_error_In _ _ H)) as S. destruct t as [[a b] c]. cbn [small] in S. change (2 ^ 16) with (256 ^ Z.of_nat 2) in S.
  unfold tri_bytes. rewrite (peek_all (le_bytes 2 a ++ le_bytes 2 b ++ le_bytes 2 c) 6) by (rewrite !app_length, !le_bytes_length; reflexivity).
  pose proof (peek_mid [] (le_bytes 2 a) (le_bytes 2 b ++ le_bytes 2 c)) as P1. pose proof (peek_mid (le_bytes 2 a) (le_bytes 2 b) (le_bytes 2 c)) as P2. pose proof (peek_mid (le_bytes 2 a ++ le_bytes 2 b) (le_bytes 2 c) []) as P3.
  rewrite !app_length, app_nil_r, <- app_assoc in P3. rewrite !le_bytes_length in *. cbn [app length] in P1. cbn [Nat.add] in P3. rewrite P1, P2, P3. rewrite !le_back by tauto. reflexivity.
Qed.
