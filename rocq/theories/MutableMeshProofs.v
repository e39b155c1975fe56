(** The bytes of a mutable mesh are the images of the two lists of MutableMeshSpec *)
From Coq Require Import ZArith Bool Lia List.
From Verif Require Import F32 BytesModel BytesLemmas MeshFormatModel MeshFormatProps PartitionModel MutableMeshModel MutableMeshSpec.
Import ListNotations.
Local Open Scope Z_scope.

(** ** Lists *)
Lemma put_split {A} (l1 l2 : list A) x y : put (length l1) y (l1 ++ x :: l2) = l1 ++ y :: l2.
Proof. induction l1 as [|a l1 IH]; cbn; [reflexivity|]. rewrite IH. reflexivity. Qed.
Lemma put_firstn {A} (l : list A) i x y : nth_error l i = Some x -> firstn i l ++ y :: skipn (S i) l = put i y l.
Proof. revert i. induction l as [|a l IH]; intros [|i] H; try discriminate; cbn; [reflexivity|]. f_equal. apply (IH i H). Qed.
Lemma put_length {A} (l : list A) i y : length (put i y l) = length l.
Proof. revert i. induction l as [|a l IH]; intros [|i]; cbn; auto. Qed.
Lemma put_map {A B} (g : A -> B) (l : list A) i y : nth_error (map g l) i = Some (g y) -> map g (put i y l) = map g l.
Proof. revert i. induction l as [|a l IH]; intros [|i] H; try discriminate; cbn in *; [injection H as <-; reflexivity|]. f_equal. apply IH, H. Qed.
Lemma put_in {A} (l : list A) i y z : In z (put i y l) -> z = y \/ In z l.
Proof. revert i. induction l as [|a l IH]; intros [|i] H; cbn in *; [contradiction|contradiction|destruct H; auto|]. destruct H as [H|H]; [auto|]. destruct (IH i H); auto. Qed.
Lemma put_nth {A} (l : list A) i y : (i < length l)%nat -> nth_error (put i y l) i = Some y.
Proof. revert i. induction l as [|a l IH]; intros [|i] H; cbn in *; [lia|lia|reflexivity|]. apply IH. lia. Qed.
Lemma put_other {A} (l : list A) i j y : i <> j -> nth_error (put i y l) j = nth_error l j.
Proof. revert i j. induction l as [|a l IH]; intros [|i] [|j] H; cbn; try reflexivity; try lia. apply IH. lia. Qed.
Lemma put_put {A} (l : list A) i x y : put i x (put i y l) = put i x l.
Proof. revert i. induction l as [|a l IH]; intros [|i]; cbn; try reflexivity. rewrite IH. reflexivity. Qed.
Lemma insert_eq {A} (l : list A) i x : (i <= length l)%nat -> insert i x l = firstn i l ++ x :: skipn i l.
Proof. revert i. induction l as [|a l IH]; intros [|i] H; cbn in *; try reflexivity; try lia. rewrite IH by lia. reflexivity. Qed.
Lemma insert_nth {A} (l : list A) i x : (i <= length l)%nat -> nth_error (insert i x l) i = Some x.
Proof. revert i. induction l as [|a l IH]; intros [|i] H; cbn in *; try reflexivity; try lia. apply IH. lia. Qed.
Lemma put_insert {A} (l : list A) i x y : (i <= length l)%nat -> put i y (insert i x l) = insert i y l.
Proof. revert i. induction l as [|a l IH]; intros [|i] H; cbn in *; try reflexivity; try lia. rewrite IH by lia. reflexivity. Qed.
Lemma fit_nil {A} (z : A) n : fit z n [] = repeat z n. Proof. induction n; cbn; [reflexivity|]. rewrite IHn. reflexivity. Qed.
Lemma fit_eq {A} (z : A) n l : fit z n l = firstn n l ++ repeat z (n - length l).
Proof. revert l. induction n as [|n IH]; intros [|x l]; cbn; try reflexivity; [rewrite fit_nil; reflexivity|]. rewrite IH. reflexivity. Qed.
Lemma fit_length {A} (z : A) n l : length (fit z n l) = n.
Proof. revert l. induction n as [|n IH]; intros [|x l]; cbn; try reflexivity; rewrite IH; reflexivity. Qed.
Lemma fit_in {A} (z : A) n l y : In y (fit z n l) -> y = z \/ In y l.
Proof. revert l. induction n as [|n IH]; intros [|x l] H; cbn in *; try contradiction; destruct H as [H|H]; auto; destruct (IH _ H) as [?|?]; auto. Qed.

(** ** One vertex *)
Definition vbytes (v : vertex) : list Z := concat (map floats_bytes v).
Lemma vbytes_length v : length (vbytes v) = (4 * total (map (@length f32) v))%nat.
Proof. unfold vbytes, total. induction v as [|x v IH]; [reflexivity|]. cbn [map concat fold_right]. rewrite app_length, IH, floats_bytes_length. lia. Qed.
Lemma firstn_map_length {A B} (g : A -> B) l1 l2 : firstn (length l1) (map g (l1 ++ l2)) = map g l1.
Proof. rewrite map_app. apply firstn_exact. rewrite map_length. reflexivity. Qed.
Lemma vbytes_split v k x : nth_error v k = Some x -> exists v1 v2, v = v1 ++ x :: v2 /\ length v1 = k /\ vbytes v = vbytes v1 ++ floats_bytes x ++ vbytes v2 /\ length (vbytes v1) = (4 * total (firstn k (map (@length f32) v)))%nat.
Proof.
  intros H. apply nth_error_split in H. destruct H as (v1 & v2 & -> & L). exists v1, v2. split; [reflexivity|]. split; [exact L|]. split; [unfold vbytes; rewrite map_app, concat_app; reflexivity|].
  rewrite vbytes_length. f_equal. subst k. rewrite firstn_map_length. reflexivity.
Qed.
Lemma peek_mid l1 l l2 : peek (length l1) (length l) (l1 ++ l ++ l2) = l.
Proof. unfold peek. rewrite skipn_exact by reflexivity. apply firstn_exact. reflexivity. Qed.
Lemma poke_mid l1 l l' l2 : length l' = length l -> poke (length l1) l' (l1 ++ l ++ l2) = l1 ++ l' ++ l2.
Proof. intros H. unfold poke. rewrite firstn_exact by reflexivity. rewrite H. f_equal. f_equal. rewrite app_assoc. apply skipn_exact. rewrite app_length. reflexivity. Qed.
Lemma resize_id n l : length l = n -> resize n l = l.
Proof. intros <-. unfold resize. rewrite firstn_all, Nat.sub_diag. apply app_nil_r. Qed.
Lemma resize_length n l : length (resize n l) = n.
Proof. unfold resize. rewrite app_length, firstn_length, repeat_length. lia. Qed.
Definition venc (w : nat) (v : vertex) : list Z := resize w (vbytes v).
Lemma venc_length w v : length (venc w v) = w. Proof. apply resize_length. Qed.

(** ** Triangles *)
Lemma tri_bytes_length w t : length (tri_bytes w t) = (3 * w)%nat.
Proof. destruct t as [[a b] c]. unfold tri_bytes. rewrite !app_length, !le_bytes_length. lia. Qed.

(** ** The format *)
Definition shape_of (f : format) : list nat := map (fun a => component_count (ty a)) (attrs f).
Definition limit_of (f : format) : Z := 256 ^ Z.of_nat (istride f).
Record wf (f : format) : Prop := {
  wf_stride : ustride f = (4 * total (shape_of f))%nat;
  wf_off : forall k a, nth_error (attrs f) k = Some a -> uoff a = (4 * total (firstn k (shape_of f)))%nat;
  wf_pos : nth_error (shape_of f) (pos_index f) = Some 2%nat;
  wf_index : istride f = 2%nat \/ istride f = 4%nat }.
Lemma total_scale c l : total (map (fun n => c * n)%nat l) = (c * total l)%nat.
Proof. unfold total. induction l as [|n l IH]; cbn [map fold_right]; [lia|]. rewrite IH. lia. Qed.
Lemma created l i f : create l i = Some f -> wf f.
Proof.
  intros H. destruct (C28_layout _ _ _ H) as (_ & _ & W & (p & P1 & P2 & P3) & U & _ & Q).
  assert (E : map uwidth (attrs f) = map (fun n => 4 * n)%nat (shape_of f)).
  { unfold shape_of. rewrite map_map. apply map_ext_in. intros a I. apply In_nth_error in I. destruct I as (k & I). destruct (Q k a I) as (_ & _ & -> & _). f_equal. symmetry. apply (type_of_le _ _ (type_of_byte (ty a))). }
  split.
  - rewrite U, E, total_scale. reflexivity.
  - intros k a I. destruct (Q k a I) as (-> & _). rewrite E, firstn_map, total_scale. reflexivity.
  - unfold shape_of. rewrite nth_error_map, P1. cbn. rewrite P3. reflexivity.
  - rewrite W. destruct i; auto.
Qed.
Lemma total_firstn_nth l k n : nth_error l k = Some n -> (total (firstn k l) + n <= total l)%nat.
Proof. revert k. unfold total. induction l as [|x l IH]; intros [|k] H; try discriminate; cbn in *; [injection H as ->; lia|]. specialize (IH k H). lia. Qed.
Lemma attr_at_off f (WF : wf f) k n : nth_error (shape_of f) k = Some n -> uoff (attr_at f k) = (4 * total (firstn k (shape_of f)))%nat /\ component_count (ty (attr_at f k)) = n.
Proof.
  intros H. unfold shape_of in H. rewrite nth_error_map in H. destruct (nth_error (attrs f) k) as [a|] eqn:E; [|discriminate]. injection H as <-. unfold attr_at. rewrite (nth_error_nth _ _ _ E). split; [apply (wf_off f WF k a E)|reflexivity].
Qed.
Lemma venc_eq f (WF : wf f) v : vertex_of_shape (shape_of f) v -> venc (ustride f) v = vbytes v.
Proof. intros S. unfold venc. apply resize_id. rewrite vbytes_length, S. symmetry. apply (wf_stride f WF). Qed.
Lemma shape_nth sh v k x : vertex_of_shape sh v -> nth_error v k = Some x -> nth_error sh k = Some (length x).
Proof. intros <- H. rewrite nth_error_map, H. reflexivity. Qed.
Lemma shape_nth' sh v k n : vertex_of_shape sh v -> nth_error sh k = Some n -> exists x, nth_error v k = Some x /\ length x = n.
Proof. intros <- H. rewrite nth_error_map in H. destruct (nth_error v k) as [x|]; [|discriminate]. injection H as <-. eauto. Qed.
Lemma peek_attr f (WF : wf f) v k x : vertex_of_shape (shape_of f) v -> nth_error v k = Some x ->
  peek (uoff (attr_at f k)) (4 * length x) (venc (ustride f) v) = floats_bytes x.
Proof.
  intros S H. rewrite (venc_eq f WF v S). destruct (attr_at_off f WF k _ (shape_nth _ _ _ _ S H)) as [-> _]. destruct (vbytes_split v k x H) as (v1 & v2 & E1 & L & -> & L1). rewrite <- S, <- L1. rewrite <- floats_bytes_length. apply peek_mid.
Qed.
Lemma poke_attr f (WF : wf f) v k x y : vertex_of_shape (shape_of f) v -> nth_error v k = Some x -> length y = length x ->
  poke (uoff (attr_at f k)) (floats_bytes y) (venc (ustride f) v) = venc (ustride f) (put k y v).
Proof.
  intros S H LY. rewrite (venc_eq f WF v S). rewrite venc_eq; [|exact WF|unfold vertex_of_shape; rewrite put_map; [exact S|rewrite S, LY; apply (shape_nth _ _ _ _ S H)]].
  destruct (attr_at_off f WF k _ (shape_nth _ _ _ _ S H)) as [-> _]. destruct (vbytes_split v k x H) as (v1 & v2 & E1 & L & -> & L1). rewrite <- S, <- L1. rewrite poke_mid by (rewrite !floats_bytes_length; lia).
  subst v k. rewrite put_split. unfold vbytes. rewrite map_app, concat_app. reflexivity.
Qed.
Lemma attr_fits f (WF : wf f) k n : nth_error (shape_of f) k = Some n -> (uoff (attr_at f k) + 4 * n <= ustride f)%nat.
Proof. intros H. destruct (attr_at_off f WF k n H) as [-> _]. rewrite (wf_stride f WF). pose proof (total_firstn_nth _ _ _ H). lia. Qed.
Lemma blank_shape sh : vertex_of_shape sh (blank sh).
Proof. unfold vertex_of_shape, blank. rewrite map_map. induction sh as [|n sh IH]; cbn; [reflexivity|]. rewrite repeat_length, IH. reflexivity. Qed.
Lemma floats_bytes_zero n : floats_bytes (repeat f0 n) = repeat 0 (4 * n).
Proof. unfold floats_bytes. induction n as [|n IH]; [reflexivity|]. cbn [repeat map concat]. rewrite IH. rewrite float_zero. replace (4 * S n)%nat with (4 + 4 * n)%nat by lia. reflexivity. Qed.
Lemma blank_bytes f (WF : wf f) : venc (ustride f) (blank (shape_of f)) = repeat 0 (ustride f).
Proof.
  rewrite (venc_eq f WF) by apply blank_shape. rewrite (wf_stride f WF). generalize (shape_of f) as sh. intros sh. unfold vbytes, blank, total. induction sh as [|n sh IH]; [reflexivity|]. cbn [map concat fold_right]. rewrite IH, floats_bytes_zero, <- repeat_app. f_equal. lia.
Qed.
Lemma zero_tri w : tri_bytes w (0, 0, 0) = repeat 0 (3 * w).
Proof. unfold tri_bytes. rewrite !le_bytes_0, <- !repeat_app. f_equal. lia. Qed.

(** ** The mesh *)
Record rep (m : mesh) (vs : list vertex) (ts : list triple) : Prop := {
  rep_v : vdata m = image (venc (ustride (fmt m))) vs;
  rep_t : idata m = image (tri_bytes (istride (fmt m))) ts;
  rep_vc : vcount m = count vs;
  rep_tc : tcount m = count ts;
  rep_vmax : count vs < 2 ^ 32;
  rep_tmax : count ts < 2 ^ 32;
  rep_shape : forall v, In v vs -> vertex_of_shape (shape_of (fmt m)) v;
  rep_small : forall t, In t ts -> small (limit_of (fmt m)) t }.
Lemma vertex_byte_nat f i k : 0 <= i -> Z.to_nat (vertex_byte f i k) = (Z.to_nat i * ustride f + uoff (attr_at f k))%nat.
Proof. intros H. unfold vertex_byte. nia. Qed.
Lemma tri_byte_nat j w : 0 <= j -> Z.to_nat (j * 3 * Z.of_nat w) = (Z.to_nat j * (3 * w) + 0)%nat. Proof. nia. Qed.
Lemma nth_lt {A} (l : list A) i : 0 <= i < count l -> exists x, nth_error l (Z.to_nat i) = Some x.
Proof. unfold count. intros H. destruct (nth_error l (Z.to_nat i)) as [x|] eqn:E; [eauto|]. apply nth_error_None in E. lia. Qed.
Lemma u32_id z : 0 <= z < 2 ^ 32 -> u32 z = z. Proof. intros H. unfold u32. apply Z.mod_small, H. Qed.
(** writing one attribute *)
Lemma write_attr f (WF : wf f) vs i k v y : (forall v, In v vs -> vertex_of_shape (shape_of f) v) -> nth_error vs i = Some v -> nth_error (shape_of f) k = Some (length y) ->
  poke (i * ustride f + uoff (attr_at f k)) (floats_bytes y) (image (venc (ustride f)) vs) = image (venc (ustride f)) (put i (put k y v) vs) /\
  vertex_of_shape (shape_of f) (put k y v).
Proof.
  intros SH H K. pose proof (SH v (nth_error_In _ _ H)) as S. destruct (shape_nth' _ _ _ _ S K) as (x & X & LX). split.
  - rewrite (poke_image (venc (ustride f)) (ustride f) (venc_length _) vs i v (put k y v)).
    + f_equal. apply (put_firstn _ _ _ _ H).
    + exact H.
    + rewrite floats_bytes_length. apply (attr_fits f WF k _ K).
    + apply (poke_attr f WF v k x y S X). congruence.
  - unfold vertex_of_shape. rewrite put_map; [exact S|]. rewrite S. exact K.
Qed.
Lemma rep_set_attr m vs ts i k v y : wf (fmt m) -> rep m vs ts -> 0 <= i -> nth_error vs (Z.to_nat i) = Some v -> nth_error (shape_of (fmt m)) k = Some (length y) ->
  rep (Mesh (fmt m) (poke (Z.to_nat (vertex_byte (fmt m) i k)) (floats_bytes y) (vdata m)) (idata m) (vcount m) (tcount m)) (put (Z.to_nat i) (put k y v) vs) ts.
Proof.
  intros WF R I0 H K. destruct (write_attr _ WF vs (Z.to_nat i) k v y (rep_shape _ _ _ R) H K) as [W S].
  split; cbn [fmt vdata idata vcount tcount]; try apply R.
  - rewrite vertex_byte_nat by exact I0. rewrite (rep_v _ _ _ R). exact W.
  - unfold count. rewrite put_length. apply R.
  - unfold count. rewrite put_length. apply R.
  - intros w IW. apply put_in in IW. destruct IW as [-> |IW]; [exact S|apply R, IW].
Qed.
Lemma rep_set_position m vs ts i v x y : wf (fmt m) -> rep m vs ts -> 0 <= i -> nth_error vs (Z.to_nat i) = Some v ->
  rep (set_vertex_position m i (x, y)) (put (Z.to_nat i) (put (pos_index (fmt m)) [x; y] v) vs) ts.
Proof.
  intros WF R I0 H. unfold set_vertex_position. cbn [fst snd]. replace (float_bytes x ++ float_bytes y) with (floats_bytes [x; y]) by (unfold floats_bytes; cbn [map concat]; rewrite app_nil_r; reflexivity).
  apply rep_set_attr; try assumption. apply (wf_pos _ WF).
Qed.
Lemma rep_set_attribute m vs ts i k v y : wf (fmt m) -> rep m vs ts -> 0 <= i -> nth_error vs (Z.to_nat i) = Some v -> nth_error (shape_of (fmt m)) k = Some (length y) ->
  rep (set_float_vertex_attribute m i k y) (put (Z.to_nat i) (put k y v) vs) ts.
Proof.
  intros WF R I0 H K. unfold set_float_vertex_attribute. destruct (attr_at_off _ WF k _ K) as [_ ->]. rewrite firstn_all. apply rep_set_attr; assumption.
Qed.
Lemma rep_set_triangle m vs ts j t t0 : rep m vs ts -> 0 <= j -> nth_error ts (Z.to_nat j) = Some t0 -> small (limit_of (fmt m)) t ->
  rep (set_triangle_indices m j t) vs (put (Z.to_nat j) t ts).
Proof.
  intros R J H SM. split; cbn [set_triangle_indices fmt vdata idata vcount tcount]; try apply R.
  - rewrite tri_byte_nat by exact J. rewrite (rep_t _ _ _ R). erewrite (poke_image (tri_bytes (istride (fmt m))) (3 * istride (fmt m)) (tri_bytes_length _) ts _ t0 t); [f_equal; apply (put_firstn _ _ _ _ H)|exact H|rewrite tri_bytes_length; lia|apply poke_all; rewrite !tri_bytes_length; reflexivity].
  - unfold count. rewrite put_length. apply R.
  - unfold count. rewrite put_length. apply R.
  - intros w IW. apply put_in in IW. destruct IW as [-> |IW]; [exact SM|apply R, IW].
Qed.
Lemma grow_image {A} (enc : A -> list Z) w (Hw : forall a, length (enc a) = w) l z : enc z = repeat 0 w -> resize (length (image enc l) + w) (image enc l) = image enc (l ++ [z]).
Proof.
  intros H. unfold resize. rewrite firstn_all2 by lia. replace (length (image enc l) + w - length (image enc l))%nat with w by lia. rewrite image_app. f_equal. unfold image. cbn [map concat]. rewrite app_nil_r. symmetry. exact H.
Qed.
Lemma nth_last {A} (l : list A) x : nth_error (l ++ [x]) (length l) = Some x.
Proof. rewrite nth_error_app2 by lia. rewrite Nat.sub_diag. reflexivity. Qed.
Lemma count_app {A} (l : list A) x : count (l ++ [x]) = count l + 1. Proof. unfold count. rewrite app_length. cbn. lia. Qed.
Lemma rep_append_vertex m vs ts x y : wf (fmt m) -> rep m vs ts -> count vs + 1 < 2 ^ 32 ->
  rep (append_vertex m (x, y)) (vs ++ [put (pos_index (fmt m)) [x; y] (blank (shape_of (fmt m)))]) ts.
Proof.
  intros WF R B. assert (C0 : 0 <= count vs) by (unfold count; lia). unfold append_vertex. cbn [fmt vdata idata vcount tcount]. rewrite (rep_vc _ _ _ R), (u32_id (count vs + 1)) by lia. replace (count vs + 1 - 1) with (count vs) by lia. rewrite u32_id by lia.
  set (m' := Mesh (fmt m) _ (idata m) _ (tcount m)).
  assert (R' : rep m' (vs ++ [blank (shape_of (fmt m))]) ts).
  { split; cbn [m' fmt vdata idata vcount tcount]; try apply R.
    - rewrite (rep_v _ _ _ R). apply grow_image; [apply venc_length|apply (blank_bytes _ WF)].
    - rewrite count_app. reflexivity.
    - rewrite count_app. lia.
    - intros v IV. apply in_app_iff in IV. destruct IV as [IV|[<- |[]]]; [apply R, IV|apply blank_shape]. }
  pose proof (rep_set_position m' _ ts (count vs) (blank (shape_of (fmt m))) x y WF R' C0) as Q. unfold count in Q at 1. rewrite Nat2Z.id in Q. specialize (Q (nth_last _ _)).
  unfold count in Q at 2. rewrite Nat2Z.id in Q. rewrite put_split in Q. exact Q.
Qed.
Lemma rep_append_triangle m vs ts t : rep m vs ts -> count ts + 1 < 2 ^ 32 -> small (limit_of (fmt m)) t -> rep (append_triangle_indices m t) vs (ts ++ [t]).
Proof.
  intros R B SM. assert (C0 : 0 <= count ts) by (unfold count; lia). unfold append_triangle_indices. cbn [fmt vdata idata vcount tcount]. rewrite (rep_tc _ _ _ R), (u32_id (count ts + 1)) by lia. replace (count ts + 1 - 1) with (count ts) by lia. rewrite u32_id by lia.
  set (m' := Mesh (fmt m) (vdata m) _ _ _).
  assert (Z0 : small (limit_of (fmt m)) (0, 0, 0)) by (unfold small, limit_of; pose proof (Z.pow_pos_nonneg 256 (Z.of_nat (istride (fmt m)))); lia).
  assert (R' : rep m' vs (ts ++ [(0, 0, 0)])).
  { split; cbn [m' fmt vdata idata vcount tcount]; try apply R.
    - rewrite (rep_t _ _ _ R). apply grow_image; [apply tri_bytes_length|apply zero_tri].
    - rewrite count_app. reflexivity.
    - rewrite count_app. lia.
    - intros v IV. apply in_app_iff in IV. destruct IV as [IV|[<- |[]]]; [apply R, IV|exact Z0]. }
  pose proof (rep_set_triangle m' vs _ (count ts) t (0, 0, 0) R' C0) as Q. unfold count in Q at 1. rewrite Nat2Z.id in Q. specialize (Q (nth_last _ _) SM).
  unfold count in Q at 2. rewrite Nat2Z.id in Q. rewrite put_split in Q. exact Q.
Qed.
Lemma rep_insert_triangle m vs ts j t : rep m vs ts -> 0 <= j <= count ts -> count ts + 1 < 2 ^ 32 -> small (limit_of (fmt m)) t -> rep (insert_triangle_indices m j t) vs (insert (Z.to_nat j) t ts).
Proof.
  intros R J B SM. unfold insert_triangle_indices. set (w := istride (fmt m)). set (o := Z.to_nat (3 * Z.of_nat w * j)). assert (HO : o = (Z.to_nat j * (3 * w))%nat) by (unfold o; nia).
  set (m' := Mesh (fmt m) (vdata m) _ (vcount m) _). assert (LJ : (Z.to_nat j <= length ts)%nat) by (unfold count in J; lia).
  assert (Z0 : small (limit_of (fmt m)) (0, 0, 0)) by (unfold small, limit_of; pose proof (Z.pow_pos_nonneg 256 (Z.of_nat (istride (fmt m)))); lia).
  assert (C1 : count (insert (Z.to_nat j) (0, 0, 0) ts) = count ts + 1). { rewrite insert_eq by exact LJ. unfold count. rewrite app_length, firstn_length. cbn [length]. rewrite skipn_length. clear -LJ. unfold triple in *. lia. }
  assert (R' : rep m' vs (insert (Z.to_nat j) (0, 0, 0) ts)).
  { split; cbn [m' fmt vdata idata vcount tcount]; try apply R.
    - fold w. rewrite (rep_t _ _ _ R). fold w. rewrite HO. rewrite (firstn_image (tri_bytes w) (3 * w) (tri_bytes_length w)). rewrite insert_eq by exact LJ. rewrite image_app. change (image (tri_bytes w) ((0, 0, 0) :: skipn (Z.to_nat j) ts)) with (tri_bytes w (0, 0, 0) ++ image (tri_bytes w) (skipn (Z.to_nat j) ts)). rewrite zero_tri. f_equal. f_equal.
      rewrite <- (firstn_skipn (Z.to_nat j) ts) at 1. rewrite image_app. apply skipn_exact. rewrite (image_length (tri_bytes w) (3 * w) (tri_bytes_length w)), firstn_length. f_equal. lia.
    - rewrite (rep_tc _ _ _ R). etransitivity; [|symmetry; exact C1]. apply u32_id. unfold count in *; lia.
    - eapply Z.le_lt_trans; [apply Z.eq_le_incl, C1|exact B].
    - intros v IV. rewrite insert_eq in IV by exact LJ. apply in_app_iff in IV. destruct IV as [IV|[<- |IV]]; [apply R; rewrite <- (firstn_skipn (Z.to_nat j) ts); apply in_app_iff; left; exact IV|exact Z0|apply R; rewrite <- (firstn_skipn (Z.to_nat j) ts); apply in_app_iff; right; exact IV]. }
  pose proof (rep_set_triangle m' vs _ j t (0, 0, 0) R' ltac:(lia) (insert_nth _ _ _ LJ) SM) as Q. rewrite put_insert in Q by exact LJ. exact Q.
Qed.
Lemma rep_resize m vs ts nv nt : wf (fmt m) -> rep m vs ts -> 0 <= nv < 2 ^ 32 -> 0 <= nt < 2 ^ 32 -> rep (resize_mesh m nv nt) (fit (blank (shape_of (fmt m))) (Z.to_nat nv) vs) (fit (0, 0, 0) (Z.to_nat nt) ts).
Proof.
  intros WF R NV NT. split; cbn [resize_mesh fmt vdata idata vcount tcount].
  - rewrite (rep_v _ _ _ R), fit_eq. replace (Z.to_nat (nv * Z.of_nat (ustride (fmt m)))) with (Z.to_nat nv * ustride (fmt m))%nat by nia. apply resize_image; [apply venc_length|apply (blank_bytes _ WF)].
  - rewrite (rep_t _ _ _ R), fit_eq. rewrite tri_byte_nat by lia. rewrite Nat.add_0_r. apply resize_image; [apply tri_bytes_length|apply zero_tri].
  - unfold count. rewrite fit_length. lia.
  - unfold count. rewrite fit_length. lia.
  - unfold count. rewrite fit_length. lia.
  - unfold count. rewrite fit_length. lia.
  - intros v IV. apply fit_in in IV. destruct IV as [-> |IV]; [apply blank_shape|apply R, IV].
  - intros t IT. apply fit_in in IT. destruct IT as [-> |IT]; [unfold small, limit_of; pose proof (Z.pow_pos_nonneg 256 (Z.of_nat (istride (fmt m)))); lia|apply R, IT].
Qed.
(** ** Reading *)
Lemma floats_back' l : bytes_floats (length l) (floats_bytes l) = l. Proof. rewrite <- (app_nil_r (floats_bytes l)). apply floats_back. Qed.
Lemma read_attr f (WF : wf f) vs i k v x : (forall v, In v vs -> vertex_of_shape (shape_of f) v) -> nth_error vs i = Some v -> nth_error v k = Some x ->
  peek (i * ustride f + uoff (attr_at f k)) (4 * length x) (image (venc (ustride f)) vs) = floats_bytes x.
Proof.
  intros SH H X. pose proof (SH v (nth_error_In _ _ H)) as S. rewrite (peek_image (venc (ustride f)) (ustride f) (venc_length _) vs i v); [apply (peek_attr f WF v k x S X)|exact H|]. apply (attr_fits f WF k _ (shape_nth _ _ _ _ S X)).
Qed.
Lemma read_float_attribute m vs ts i i' k v x : wf (fmt m) -> rep m vs ts -> 0 <= i' -> u32 (vertex_byte (fmt m) i k) = vertex_byte (fmt m) i' k -> nth_error vs (Z.to_nat i') = Some v -> nth_error v k = Some x ->
  float_vertex_attribute m i k = x.
Proof.
  intros WF R I0 U H X. unfold float_vertex_attribute. rewrite U. pose proof (rep_shape _ _ _ R v (nth_error_In _ _ H)) as S. destruct (attr_at_off _ WF k _ (shape_nth _ _ _ _ S X)) as [_ ->].
  rewrite vertex_byte_nat by exact I0. rewrite (rep_v _ _ _ R). rewrite (read_attr _ WF vs (Z.to_nat i') k v x (rep_shape _ _ _ R) H X). apply floats_back'.
Qed.
Lemma read_position m vs ts i v x y : wf (fmt m) -> rep m vs ts -> 0 <= i -> nth_error vs (Z.to_nat i) = Some v -> nth_error v (pos_index (fmt m)) = Some [x; y] -> vertex_position m i = (x, y).
Proof.
  intros WF R I0 H X. unfold vertex_position. rewrite vertex_byte_nat by exact I0. rewrite (rep_v _ _ _ R). change 8%nat with (4 * length [x; y])%nat. rewrite (read_attr _ WF vs (Z.to_nat i) _ v [x; y] (rep_shape _ _ _ R) H X). change 2%nat with (length [x; y]). rewrite floats_back'. reflexivity.
Qed.
Lemma read_triangle m vs ts j t : rep m vs ts -> 0 <= j -> nth_error ts (Z.to_nat j) = Some t -> triangle_indices m j = t.
Proof.
  intros R J H. unfold triangle_indices. set (w := istride (fmt m)). rewrite tri_byte_nat by exact J. rewrite (rep_t _ _ _ R). fold w. rewrite (peek_image (tri_bytes w) (3 * w) (tri_bytes_length w) ts _ t 0 (3 * w) H) by lia. rewrite (peek_all (tri_bytes w t) (3 * w)) by (symmetry; apply tri_bytes_length).
  pose proof (rep_small _ _ _ R t (nth_error_In _ _ H)) as SM. destruct t as [[a b] c]. unfold small, limit_of in SM. fold w in SM. destruct SM as (A & B & C). unfold tri_bytes.
  assert (M : forall l1 l l2 n k, n = length l1 -> k = length l -> peek n k (l1 ++ l ++ l2) = l) by (intros l1 l l2 n k -> ->; apply peek_mid).
  assert (E1 : peek 0 w (le_bytes w a ++ le_bytes w b ++ le_bytes w c) = le_bytes w a) by (apply (M [] (le_bytes w a)); [reflexivity|symmetry; apply le_bytes_length]).
  assert (E2 : peek w w (le_bytes w a ++ le_bytes w b ++ le_bytes w c) = le_bytes w b) by (apply (M (le_bytes w a) (le_bytes w b)); symmetry; apply le_bytes_length).
  assert (E3 : peek (2 * w) w (le_bytes w a ++ le_bytes w b ++ le_bytes w c) = le_bytes w c).
  { rewrite app_assoc. rewrite <- (app_nil_r (le_bytes w c)) at 1. apply (M (le_bytes w a ++ le_bytes w b) (le_bytes w c) []); [rewrite app_length, !le_bytes_length; lia|symmetry; apply le_bytes_length]. }
  rewrite E1, E2, E3, !le_back by assumption. reflexivity.
Qed.
