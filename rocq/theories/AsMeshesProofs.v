(** Lemmas about AsMeshes: values, partitions, bounds, packing of one partition *)
From Coq Require Import ZArith Bool Reals Lra Lia List.
From Flocq Require Import Core IEEE754.BinarySingleNaN.
From Verif Require Import F32 F32Lemmas NumModel GeomModel BytesModel BytesLemmas MeshFormatModel MeshFormatProps PackModel PackProps PackQuantProps PartitionModel PartitionProps MutableMeshModel MutableMeshSpec MutableMeshProofs MutableMeshProps MeshModel MeshProofs MeshSpec MeshCoding MeshProps AsMeshesModel AsMeshesSpec AsMeshesFormat AsMeshesBounds.
Import ListNotations.
Local Open Scope nat_scope.

(** ** The triangles of the partitions *)
Lemma all_triangles_eq m vs ts : rep m vs ts -> all_triangles m = ts.
Proof.
  intros R. unfold all_triangles, indices_upto. rewrite (rep_tc _ _ _ R). unfold count. rewrite Nat2Z.id, map_map. apply nth_error_ext. intros k. rewrite nth_error_map. destruct (nth_error ts k) as [t|] eqn:E.
  - assert (K : k < length ts) by (apply nth_error_Some; congruence). rewrite (nth_error_nth' _ 0) by (rewrite seq_length; exact K). rewrite seq_nth by exact K. cbn [option_map Nat.add]. transitivity (Some t); [|symmetry; exact E]. f_equal. apply (read_triangle m vs ts); [exact R|lia|]. rewrite Nat2Z.id. exact E.
  - rewrite (proj2 (nth_error_None _ _)) by (rewrite seq_length; apply nth_error_None, E). symmetry. exact E.
Qed.
Lemma at_index_nth l i v : at_index l i = Some v -> nth (Z.to_nat i) l (-1)%Z = v /\ In v l.
Proof. intros H. apply at_index_some in H. destruct H as [_ H]. split; [apply nth_error_nth, H|eapply nth_error_In, H]. Qed.
Lemma corners3_eq t : corners3 t = corners t. Proof. destruct t as [[a b] c]. reflexivity. Qed.
Section Parts.
Variable ts : list tri.
Notation parts := (partition_triangles (2 ^ 16) ts).
Lemma max_range : (3 <= 2 ^ 16 < 2 ^ 64)%Z. Proof. lia. Qed.
Lemma part_tri p t : In p parts -> In t (triangles p) -> exists t', original (vertex_indices p) t = Some t' /\ In t' ts.
Proof.
  intros P T. assert (I : In (original (vertex_indices p) t) (concat (map originals parts))) by (apply in_concat; exists (originals p); split; [apply in_map, P|apply in_map, T]). rewrite (C31_keeps_triangles _ ts max_range) in I. apply in_map_iff in I. destruct I as (t' & E & I). exists t'. auto.
Qed.
Lemma part_used v : (exists p, In p parts /\ In v (vertex_indices p)) <-> In v (used_vertices ts).
Proof.
  unfold used_vertices. rewrite in_flat_map. split.
  - intros (p & P & V). destruct (C31_good_partitions _ ts max_range) as [G _]. rewrite Forall_forall in G. destruct (G p P) as (_ & _ & U). destruct (In_nth_error _ _ V) as (n & NV). assert (NL : n < length (vertex_indices p)) by (apply nth_error_Some; congruence). destruct (U (Z.of_nat n)) as (t & T & C); [unfold size; lia|].
    destruct (part_tri p t P T) as (t' & O & I). exists t'. split; [exact I|]. rewrite corners3_eq. destruct t as [[a b] c]. cbn [original] in O. destruct (at_index _ a) as [a'|] eqn:EA; [|discriminate]. destruct (at_index _ b) as [b'|] eqn:EB; [|discriminate]. destruct (at_index _ c) as [c'|] eqn:EC; [|discriminate]. injection O as <-.
    assert (AV : at_index (vertex_indices p) (Z.of_nat n) = Some v) by (apply at_index_some; split; [unfold size; lia|rewrite Nat2Z.id; exact NV]). cbn [corners In] in *. destruct C as [C|[C|[C|[]]]]; subst; [left|right; left|right; right; left]; congruence.
  - intros (t & T & C). assert (I : In (Some t) (concat (map originals parts))) by (rewrite (C31_keeps_triangles _ ts max_range); apply in_map, T). apply in_concat in I. destruct I as (o & O & I). apply in_map_iff in O. destruct O as (p & <- & P). exists p. split; [exact P|]. unfold originals in I. apply in_map_iff in I. destruct I as ([[a b] c] & O & _). cbn [original] in O.
    destruct (at_index _ a) as [a'|] eqn:EA; [|discriminate]. destruct (at_index _ b) as [b'|] eqn:EB; [|discriminate]. destruct (at_index _ c) as [c'|] eqn:EC; [|discriminate]. injection O as <-. rewrite corners3_eq in C. cbn [corners In] in C. destruct C as [<- |[<- |[<- |[]]]]; eapply at_index_nth; eassumption.
Qed.
Lemma part_nonempty p : ts <> [] -> In p parts -> triangles p <> [] /\ vertex_indices p <> [] /\ (Z.of_nat (length (vertex_indices p)) <= 2 ^ 16)%Z /\ NoDup (vertex_indices p) /\ (forall i, (0 <= i < Z.of_nat (length (vertex_indices p)))%Z -> exists t, In t (triangles p) /\ In i (corners t)).
Proof.
  intros NE P. destruct (C31_good_partitions _ ts max_range) as [G N]. specialize (N NE). rewrite Forall_forall in G, N. specialize (N p P). destruct (G p P) as (ND & SZ & U). split; [exact N|]. split; [|split; [exact SZ|split; [exact ND|exact U]]].
  destruct (triangles p) as [|t r] eqn:E; [contradiction|]. destruct (part_tri p t P) as (t' & O & _); [rewrite E; left; reflexivity|]. destruct t as [[a b] c]. cbn [original] in O. intros V. rewrite V in O. unfold at_index in O. destruct (a <? 0)%Z; [discriminate|]. destruct (Z.to_nat a); discriminate.
Qed.
Lemma part_small p : ts <> [] -> In p parts -> forall t, In t (triangles p) -> small (2 ^ 16) t.
Proof.
  intros NE P [[a b] c] T. destruct (part_nonempty p NE P) as (_ & _ & SZ & _). destruct (part_tri p _ P T) as (t' & O & _). cbn [original] in O. destruct (at_index _ a) as [a'|] eqn:EA; [|discriminate]. destruct (at_index _ b) as [b'|] eqn:EB; [|discriminate]. destruct (at_index _ c) as [c'|] eqn:EC; [|discriminate].
  apply at_index_some in EA, EB, EC. unfold size in *. unfold small. lia.
Qed.
Lemma parts_nonempty : ts <> [] -> parts <> [].
Proof. intros NE E. pose proof (C31_keeps_triangles _ ts max_range) as C. rewrite E in C. cbn in C. destruct ts; [contradiction|discriminate]. Qed.
Lemma part_count p : In p parts -> length (triangles p) <= length ts.
Proof.
  intros P. rewrite <- (map_length Some ts), <- (C31_keeps_triangles _ ts max_range). clear -P. induction parts as [|q l IH]; [destruct P|]. cbn [map concat]. rewrite app_length. destruct P as [-> |P]; [unfold originals; rewrite map_length; lia|specialize (IH P); lia].
Qed.
End Parts.

(** ** The values *)
Section Values.
Variables (l : list (nat * nat)) (i : ifmt) (f nf : format) (omit : list nat) (m : mesh) (vs : list vertex) (ts : list triple).
Hypothesis CF : create l i = Some f.
Hypothesis CN : create (left_attributes l omit) i = Some nf.
Hypothesis MF : fmt m = f.
Hypothesis R : rep m vs ts.
Hypothesis SMALL : (count vs * Z.of_nat (ustride f) <= 2 ^ 32)%Z.
Notation ks := (kept f omit).
Notation nts := (map ty (attrs nf)).
Lemma shape_at v : In v vs -> vertex_of_shape (shape_of f) v. Proof. intros I. rewrite <- MF. apply (rep_shape _ _ _ R v I). Qed.
Lemma shape_len v : In v vs -> length v = length (attrs f).
Proof. intros I. pose proof (shape_at v I) as S. unfold vertex_of_shape, shape_of in S. rewrite <- (map_length (@length f32) v), S, map_length. reflexivity. Qed.
Lemma count_pos t : 1 <= component_count t. Proof. destruct t; cbn; lia. Qed.
Lemma attr_value k v : k < length (attrs f) -> (0 <= v < count vs)%Z -> exists x, nth_error (nth (Z.to_nat v) vs []) k = Some x /\ float_vertex_attribute m v k = x /\ length x = component_count (ty (attr_at f k)).
Proof.
  intros K V. pose proof (created _ _ _ CF) as WF. destruct (nth_lt vs v V) as (w & W). pose proof (shape_at w (nth_error_In _ _ W)) as S. rewrite (nth_error_nth _ _ _ W).
  assert (KS : nth_error (shape_of f) k = Some (component_count (ty (attr_at f k)))) by (unfold shape_of; rewrite nth_error_map, (attr_at_nth f k K); reflexivity). destruct (shape_nth' _ _ _ _ S KS) as (x & X & LX). exists x. split; [exact X|]. split; [|exact LX].
  apply (read_float_attribute m vs ts v v k w x); try assumption; [rewrite MF; exact WF|lia|]. rewrite MF. unfold vertex_byte. pose proof (attr_fits f WF k _ KS) as AF. pose proof (count_pos (ty (attr_at f k))) as CP. rewrite u32_id; [reflexivity|]. nia.
Qed.
Lemma kept_value k v : k < length ks -> (0 <= v < count vs)%Z -> float_vertex_attribute m v (nth k ks 0) = value_at l omit vs k v /\ length (value_at l omit vs k v) = component_count (ty (attr_at nf k)).
Proof.
  intros K V. destruct (attr_value (nth k ks 0) v (kept_in f omit k K) V) as (x & X & E & L). destruct (kept_at l i f nf omit CF CN k K) as [-> _]. assert (VX : value_at l omit vs k v = x).
  { unfold value_at. destruct (nth_lt vs v V) as (w & W). rewrite (nth_error_nth _ _ _ W) in X |- *. rewrite (left_of_kept l i f omit CF w) by (apply shape_len, (nth_error_In _ _ W)). apply nth_error_nth. rewrite nth_error_map, (nth_error_nth' _ 0 K). cbn [option_map]. f_equal. apply nth_error_nth, X. }
  rewrite VX. split; [exact E|exact L].
Qed.
(** the check for values that are not finite *)
Lemma finite_check : forallb (fun vi => forallb (fun k => forallb fisfinite (float_vertex_attribute m vi k)) ks) (indices_upto (vcount m)) = true <->
  forall v a x, In v vs -> In a (left_of l omit v) -> In x a -> is_finite x = true.
Proof.
  unfold indices_upto. rewrite (rep_vc _ _ _ R). unfold count. rewrite Nat2Z.id. rewrite forallb_forall. split.
  - intros H v a x V A X. destruct (In_nth_error _ _ V) as (n & NV). assert (NL : n < length vs) by (apply nth_error_Some; congruence). specialize (H (Z.of_nat n)). rewrite forallb_forall in H. rewrite (left_of_kept l i f omit CF v (shape_len v V)) in A. apply in_map_iff in A. destruct A as (k & <- & K).
    specialize (H ltac:(apply in_map, in_seq; lia) k K). rewrite forallb_forall in H. apply H. assert (KL : k < length (attrs f)) by (unfold kept in K; apply filter_In in K; destruct K as [K _]; apply in_seq in K; lia).
    destruct (attr_value k (Z.of_nat n) KL) as (y & Y & -> & _); [unfold count; lia|]. rewrite Nat2Z.id, (nth_error_nth _ _ _ NV) in Y. rewrite (nth_error_nth _ _ _ Y) in X. exact X.
  - intros H z I. apply in_map_iff in I. destruct I as (n & <- & I). apply in_seq in I. apply forallb_forall. intros k K. apply forallb_forall. intros x X. assert (KL : k < length (attrs f)) by (unfold kept in K; apply filter_In in K; destruct K as [K _]; apply in_seq in K; lia).
    destruct (attr_value k (Z.of_nat n) KL) as (y & Y & E & _); [unfold count; lia|]. rewrite E in X. rewrite Nat2Z.id in Y. assert (V : In (nth n vs []) vs) by (apply nth_In; lia). apply (H (nth n vs []) y x V); [|exact X]. rewrite (left_of_kept l i f omit CF _ (shape_len _ V)). apply in_map_iff. exists k. split; [apply nth_error_nth, Y|exact K].
Qed.
Hypothesis FIN : forall v a x, In v vs -> In a (left_of l omit v) -> In x a -> is_finite x = true.
Lemma value_finite k v x : k < length ks -> (0 <= v < count vs)%Z -> In x (value_at l omit vs k v) -> is_finite x = true.
Proof.
  intros K V X. destruct (nth_lt vs v V) as (w & W). apply (FIN w (value_at l omit vs k v) x (nth_error_In _ _ W)); [|exact X]. unfold value_at. rewrite (nth_error_nth _ _ _ W). rewrite (left_of_kept l i f omit CF w) by (apply shape_len, (nth_error_In _ _ W)). apply nth_In. rewrite map_length. exact K.
Qed.
Lemma type_index k t : nth_error nts k = Some t -> k < length ks /\ ty (attr_at nf k) = t.
Proof.
  intros T. assert (K : k < length (attrs nf)) by (rewrite <- (map_length ty); apply nth_error_Some; congruence). rewrite (kept_length l i f nf omit CF CN). split; [exact K|]. rewrite nth_error_map, (attr_at_nth nf k K) in T. injection T as T. exact T.
Qed.
Section Vis.
Variable vis : list Z.
Hypothesis VR : forall v, In v vis -> (0 <= v < count vs)%Z.
Lemma values_finite : finite_vals nts (values_of l omit vs vis).
Proof.
  intros k t c x T C I. destruct (type_index k t T) as [K TY]. unfold values_of in I. apply in_map_iff in I. destruct I as (v & <- & V). apply (value_finite k v _ K (VR v V)). apply nth_In. destruct (kept_value k v K (VR v V)) as [_ ->]. rewrite TY. exact C.
Qed.
Lemma part_bounds : vis <> [] -> bounds_of nts (values_of l omit vs vis) (partition_bounds m vis omit).
Proof.
  intros NE. unfold partition_bounds. rewrite MF. split; [rewrite !map_length; apply (kept_length l i f nf omit CF CN)|]. intros k t T. destruct (type_index k t T) as [K TY]. cbv zeta.
  match goal with |- context [@nth ?T k ?L ?d] => match L with map ?g ks => assert (EN : @nth T k L d = g (nth k ks 0)) by (apply nth_error_nth; rewrite nth_error_map, (nth_error_nth' ks 0 K); reflexivity) end end. rewrite EN. clear EN. cbv beta zeta.
  destruct (kept_at l i f nf omit CF CN k K) as [TA _]. rewrite <- TA, TY.
  pose proof (fold_bounds (fun v => float_vertex_attribute m v (nth k ks 0)) (component_count t) vis NE) as FB. cbv zeta in FB. destruct FB as (A & B & C).
  - intros v V. destruct (kept_value k v K (VR v V)) as [-> ->]. rewrite TY. reflexivity.
  - intros v x V X. destruct (kept_value k v K (VR v V)) as [E _]. rewrite E in X. apply (value_finite k v x K (VR v V) X).
  - unfold grow in A, B, C. split; [exact A|]. split; [exact B|]. intros c CL. destruct (C c CL) as [C1 C2].
    assert (E : map (fun v => nth c (float_vertex_attribute m v (nth k ks 0)) f0) vis = values_of l omit vs vis k c) by (unfold values_of; apply map_ext_in; intros v V; destruct (kept_value k v K (VR v V)) as [-> _]; reflexivity). rewrite E in C1, C2. split; assumption.
Qed.
End Vis.
(** ** Packing one partition *)
Lemma copy_writes vis c over : length c = length (attrs nf) ->
  copy_and_pack m vis omit c over = match pack_writes nf c (fun n k => override f over m (nth n vis (-1)%Z) (nth k ks 0)) (length vis) with Some ws => Some (write_all ws (repeat 0%Z (length vis * pstride nf))) | None => None end.
Proof.
  intros LC. unfold copy_and_pack. cbv zeta. rewrite MF. rewrite (kept_widths l i f nf omit CF CN). pose proof (pcreated _ _ _ CN) as W. assert (ST : fold_right Nat.add 0 (map pwidth (attrs nf)) = pstride nf) by (symmetry; apply (pwf_stride nf W)). rewrite ST.
  assert (E : combine ks (combine (running 0 (map pwidth (attrs nf))) c) = map (fun k => (nth k ks 0, (poff (attr_at nf k), nth k c []))) (seq 0 (length (attrs nf)))).
  { pose proof (kept_length l i f nf omit CF CN) as KL. rewrite <- (poff_running nf W), <- (map_attr_at nf poff).
    assert (EC : c = map (fun k => nth k c []) (seq 0 (length (attrs nf)))). { apply nth_error_ext. intros k. rewrite nth_error_map. destruct (Nat.lt_ge_cases k (length c)) as [K|K]; [rewrite (nth_error_nth' c [] K), (nth_error_nth' _ 0) by (rewrite seq_length; lia); rewrite seq_nth by lia; reflexivity|rewrite !(proj2 (nth_error_None _ _)) by (rewrite ?seq_length; lia); reflexivity]. }
    assert (EK : ks = map (fun k => nth k ks 0) (seq 0 (length (attrs nf)))). { apply nth_error_ext. intros k. rewrite nth_error_map. destruct (Nat.lt_ge_cases k (length ks)) as [K|K]; [rewrite (nth_error_nth' ks 0 K), (nth_error_nth' _ 0) by (rewrite seq_length; lia); rewrite seq_nth by lia; reflexivity|rewrite !(proj2 (nth_error_None _ _)) by (rewrite ?seq_length; lia); reflexivity]. }
    rewrite EC at 1. rewrite EK at 1. rewrite !combine_map. reflexivity. }
  rewrite E. clear E. unfold pack_writes.
  assert (E : forall (h h' : nat * Z -> list (option (nat * list Z))) , True) by auto. clear E.
  set (row := fun n v => map (fun k => let a := attr_at nf k in match pack_attribute (ty a) (nth k c []) (override f over m v (nth k ks 0)) with Some p => Some (n * pstride nf + poff a, packed_bytes p) | None => None end) (seq 0 (length (attrs nf)))).
  assert (E1 : flat_map (fun iv : nat * Z => map (fun kc : nat * (nat * list params) => let '(k, (o, ps)) := kc in match pack_attribute (ty (attr_at f k)) ps (override f over m (snd iv) k) with Some p => Some (fst iv * pstride nf + o, packed_bytes p) | None => None end) (map (fun k => (nth k ks 0, (poff (attr_at nf k), nth k c []))) (seq 0 (length (attrs nf))))) (combine (seq 0 (length vis)) vis)
             = flat_map (fun iv => row (fst iv) (snd iv)) (combine (seq 0 (length vis)) vis)).
  { rewrite !flat_map_concat_map. f_equal. apply map_ext. intros [n v]. unfold row. rewrite map_map. apply map_ext_in. intros k K. apply in_seq in K. cbn [fst snd]. cbv zeta. destruct (kept_at l i f nf omit CF CN k) as [-> _]; [rewrite (kept_length l i f nf omit CF CN); lia|]. reflexivity. }
  rewrite E1. clear E1.
  assert (E2 : flat_map (fun iv => row (fst iv) (snd iv)) (combine (seq 0 (length vis)) vis) = flat_map (fun n => row n (nth n vis (-1)%Z)) (seq 0 (length vis))).
  { rewrite !flat_map_concat_map. f_equal. apply nth_error_ext. intros n. rewrite !nth_error_map. destruct (Nat.lt_ge_cases n (length vis)) as [K|K].
    - rewrite (nth_error_nth' (combine (seq 0 (length vis)) vis) (0, (-1)%Z)) by (rewrite combine_length, seq_length; lia). rewrite combine_nth by (rewrite seq_length; reflexivity). rewrite seq_nth by exact K. rewrite (nth_error_nth' _ 0) by (rewrite seq_length; exact K). rewrite seq_nth by exact K. reflexivity.
    - rewrite !(proj2 (nth_error_None _ _)) by (rewrite ?combine_length, ?seq_length; lia). reflexivity. }
  rewrite E2. reflexivity.
Qed.
End Values.

(** ** One mesh made from packed rows *)
Lemma made_reads f c b value n ws tris : pwf f -> (forall i k, i < n -> k < length (attrs f) -> length (value i k) = component_count (ty (attr_at f k))) ->
  pack_writes f c value n = Some ws -> (Z.of_nat n <= 2 ^ 16)%Z -> (forall t, In t tris -> small (2 ^ 16) t) -> (Z.of_nat (length tris) < 2 ^ 32)%Z ->
  let m := make_mesh f c b (write_all ws (repeat 0%Z (n * pstride f))) (index_bytes tris) in
  ivcount m = Z.of_nat n /\ itcount m = Z.of_nat (length tris) /\ map (iindices m) (indices_upto (itcount m)) = tris /\
  forall i k, (0 <= i < Z.of_nat n)%Z -> k < length (attrs f) -> exists p, pack_attribute (ty (attr_at f k)) (nth k c []) (value (Z.to_nat i) k) = Some p /\
    iattribute m i k = unpack_attribute (ty (attr_at f k)) (nth k c []) p /\ iintegers m i k = unpack_ints (ty (attr_at f k)) p /\ packed_attribute m i k = packed_bytes p.
Proof.
  intros W LV WS LM SM LT m. destruct (pack_writes_some f c value n ws W LV WS) as (PA & WA & SH). unfold m. rewrite WA. clear m. set (m := make_mesh _ _ _ _ _).
  set (vs := map (fun i => map (fun k => packed_bytes (pk f c value i k)) (seq 0 (length (attrs f)))) (seq 0 n)) in *.
  assert (S0 : pstride f <> 0).
  { destruct (pwf_pos f W) as (a & A & _). rewrite (pwf_stride f W). assert (1 <= pwidth a) by (rewrite (pwf_width f W a (nth_error_In _ _ A)); destruct (ty a); cbn; lia). pose proof (total_firstn_nth (map pwidth (attrs f)) (pos_index f) (pwidth a)) as TF. rewrite nth_error_map, A in TF. specialize (TF eq_refl). lia. }
  assert (LN : length vs = n) by (unfold vs; rewrite map_length, seq_length; reflexivity). change (2 ^ 16)%Z with 65536%Z in LM.
  assert (R : prep m vs tris).
  { split; cbn [m make_mesh ivdata iidata ivcount itcount iformat].
    - reflexivity.
    - apply index_bytes_eq.
    - rewrite (image_length (penc (pstride f)) _ (penc_length _)), LN, Nat.div_mul by exact S0. unfold count. rewrite LN. apply u32_id. change (2 ^ 32)%Z with 4294967296%Z. lia.
    - rewrite index_bytes_eq, (image_length (tri_bytes 2) 6 (tri_bytes_length 2)), Nat.div_mul by lia. unfold count. apply u32_id. unfold triple, tri in *. lia.
    - unfold count. rewrite LN. exact LM.
    - unfold count, triple, tri in *. exact LT.
    - intros v I. unfold vs in I. apply in_map_iff in I. destruct I as (j & <- & J). apply in_seq in J. apply SH. lia.
    - intros t I. apply SM, I. }
  split; [rewrite (prep_vc _ _ _ R); unfold count; rewrite LN; reflexivity|]. assert (TC : itcount m = Z.of_nat (length tris)) by apply (prep_tc _ _ _ R). split; [exact TC|]. split.
  - rewrite TC. unfold indices_upto. rewrite Nat2Z.id, map_map. apply nth_error_ext. intros k. rewrite nth_error_map. destruct (nth_error tris k) as [t|] eqn:E.
    + assert (K : k < length tris) by (apply nth_error_Some; congruence). rewrite (nth_error_nth' _ 0) by (rewrite seq_length; exact K). rewrite seq_nth by exact K. cbn [option_map Nat.add]. transitivity (Some t); [|symmetry; exact E]. f_equal. apply (read_indices m vs tris); [exact R|lia|]. rewrite Nat2Z.id. exact E.
    + rewrite (proj2 (nth_error_None _ _)) by (rewrite seq_length; apply nth_error_None, E). symmetry. exact E.
  - intros i0 k I0 K. exists (pk f c value (Z.to_nat i0) k). pose proof (PA (Z.to_nat i0) k ltac:(lia) K) as A1. split; [exact A1|].
    assert (RP : packed_attribute m i0 k = packed_bytes (pk f c value (Z.to_nat i0) k)).
    { apply (read_packed m vs tris i0 (map (fun k => packed_bytes (pk f c value (Z.to_nat i0) k)) (seq 0 (length (attrs f)))) k); [exact W|exact R|lia| |].
      - unfold vs. rewrite nth_error_map, (nth_error_nth' _ 0) by (rewrite seq_length; lia). rewrite seq_nth by lia. reflexivity.
      - rewrite nth_error_map, (nth_error_nth' _ 0) by (rewrite seq_length; lia). rewrite seq_nth by lia. reflexivity. }
    destruct (pack_bytes _ _ _ _ A1) as [_ BK]; [intros _; apply LV; [lia|exact K]|].
    unfold iattribute, iintegers. rewrite RP. cbn [m make_mesh iformat coding]. rewrite BK. repeat split.
Qed.

Lemma coding_lengths ts vals custom bnds c : length bnds = length ts -> finite_vals ts vals -> bounds_of ts vals bnds -> compute_coding_array ts bnds custom = Some c ->
  length c = length ts /\ forall k t, nth_error ts k = Some t -> length (nth k c []) = component_count t.
Proof.
  intros A B C' SE. destruct (coding_some ts vals custom bnds A B (bounds_of_BB ts vals bnds C') c SE) as (LC & [_ CO] & D). split; [exact LC|]. intros k t T.
  destruct (bnds_nth ts bnds A k t T) as [b BK]. destruct (D k t b T BK) as (ps & PS & CA). rewrite (nth_error_nth _ _ [] PS). specialize (CO k t T). unfold column_ok in CO. destruct (given_for custom k) as [cps|]; cbn [code_attribute] in CA.
  - destruct CO as (bits & PB & LP & _). unfold is_unpacked in CA. rewrite PB in CA. injection CA as <-. exact LP.
  - unfold compute_coding in CA. destruct (packed_bits t) as [bits|] eqn:PB; [|injection CA as <-; apply repeat_length]. destruct (components_some _ _ _ _ CA) as (_ & _ & L3 & _). destruct (bits_lengths t bits PB) as [BLn _]. congruence.
Qed.
(** What packing leaves: floats, or integers each in its range *)
Definition properly_packed (t : atype) (p : packed) : Prop :=
  if is_unpacked t then exists l, p = PFloats l /\ length l = component_count t else exists ns, in_range t ns /\ pack_ints t ns = Some p.
Lemma packs_properly t ps x p : length x = component_count t -> pack_attribute t ps x = Some p ->
  (forall bits, packed_bits t = Some bits -> length ps = component_count t /\ forall j q b v, nth_error ps j = Some q -> nth_error bits j = Some b -> nth_error x j = Some v -> exists n, pack_single q v = Some n /\ (0 <= n <= 2 ^ Z.of_nat b - 1)%Z) ->
  properly_packed t p.
Proof.
  unfold properly_packed, pack_attribute, is_unpacked. intros L PK H. destruct (packed_bits t) as [bits|] eqn:PB.
  - destruct (H bits eq_refl) as [LP HN]. destruct (bits_lengths t bits PB) as [BLn _]. destruct (pack_singles_nth ps x bits) as (ns & A & F & _); [congruence..|exact HN|]. rewrite A in PK.
    destruct (packed_widths t bits PB) as (w & kk & LY & _). exists ns. split; [|exact PK]. exists w, kk, (map Z.of_nat bits). split; assumption.
  - injection PK as <-. exists x. auto.
Qed.
(** ** A value of a settled column can be packed *)
Lemma packs_value ts vals custom bnds c : length bnds = length ts -> finite_vals ts vals -> bounds_of ts vals bnds -> compute_coding_array ts bnds custom = Some c ->
  forall k t x, nth_error ts k = Some t -> spread vals custom k t -> length x = component_count t -> (forall j v, nth_error x j = Some v -> In v (vals k j)) ->
  exists p w, pack_attribute t (nth k c []) x = Some p /\ unpack_attribute t (nth k c []) p = Some w /\ length w = component_count t /\
    (moderate vals custom k t -> read_back vals custom k t x w) /\
    (forall bits, packed_bits t = Some bits -> length (nth k c []) = component_count t /\ exists ns, unpack_ints t p = Some ns /\ length ns = length bits /\ length w = length bits /\
       forall j b q v, nth_error bits j = Some b -> nth_error (nth k c []) j = Some q -> nth_error x j = Some v -> exists n, nth_error ns j = Some n /\ nth_error w j = Some (unpack_single q n) /\ pack_single q v = Some n /\ (0 <= n <= 2 ^ Z.of_nat b - 1)%Z).
Proof.
  intros A B C' SE k t x T SP LG IN. pose proof (bounds_of_BB ts vals bnds C') as C. destruct (coding_some ts vals custom bnds A B C c SE) as (LC & [_ CO] & D).
  destruct (bnds_nth ts bnds A k t T) as [b BK]. destruct (D k t b T BK) as (ps & PS & CA). rewrite (nth_error_nth _ _ [] PS). pose proof (column_packs ts vals custom bnds A B C k t b ps T BK (CO k t T) SP CA) as CP.
  destruct (packed_bits t) as [bits|] eqn:PB.
  - destruct (CP bits eq_refl) as [LP CQ]. destruct (bits_lengths t bits PB) as [BLn _].
    destruct (attribute_packs t bits ps x PB LP LG) as (p & ns & w & E1 & E2 & E3 & L1 & L2 & E4).
    { intros c' p b' v H1 H2 H3. destruct (CQ c' p b' v H1 H2 (IN _ _ H3)) as (n & N1 & N2 & _). eauto. }
    exists p, w. split; [exact E1|]. split; [exact E3|]. split; [congruence|]. split.
    + intros MD. unfold read_back. rewrite PB. split; [exact L1|]. intros c' b' v w' H1 H2 H3. pose proof (IN _ _ H2) as C2. assert (C1 : c' < component_count t) by (rewrite <- LG; apply nth_error_Some; congruence). destruct (nth_pick ps c' _ LP C1) as [p' P1]. destruct (CQ c' p' b' v P1 H1 C2) as (n & N1 & N2 & N3). destruct (E4 c' p' v P1 H2) as (n' & F1 & F2 & F3). rewrite N1 in F2. injection F2 as <-. rewrite H3 in F3. injection F3 as ->.
      destruct (given_for custom k) as [cps|] eqn:G; [|apply N3, MD]. intros p0 Q. exists n. cbn [code_attribute] in CA. unfold is_unpacked in CA. rewrite PB in CA. injection CA as ->. rewrite P1 in Q. injection Q as <-. split; [exact N3|]. split; [exact N2|reflexivity].
    + intros bits' [= <-]. split; [exact LP|]. exists ns. split; [exact E2|]. split; [congruence|]. split; [congruence|]. intros j b' q v H1 H2 H3. destruct (CQ j q b' v H2 H1 (IN _ _ H3)) as (n & N1 & N2 & _). destruct (E4 j q v H2 H3) as (n2 & F1 & F2 & F3). exists n. rewrite N1 in F2. injection F2 as <-. auto.
  - exists (PFloats x), x. unfold pack_attribute, unpack_attribute, is_unpacked, read_back. rewrite PB. repeat split; try reflexivity; try discriminate. exact LG.
Qed.
