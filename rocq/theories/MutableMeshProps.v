(** C32, C33: a mutable mesh behaves as a list of vertices and a list of triangles; ValidateTriangles is exact. *)
From Coq Require Import ZArith Bool Lia List.
From Verif Require Import F32 BytesModel BytesLemmas MeshFormatModel MeshFormatProps PartitionModel MutableMeshModel MutableMeshSpec MutableMeshProofs.
Import ListNotations.
Local Open Scope Z_scope.

(** The calls of a history on the model *)
Definition call (m : mesh) (o : op) : mesh :=
  match o with
  | AppendVertex x y => append_vertex m (x, y)
  | SetPosition i x y => set_vertex_position m i (x, y)
  | SetAttribute i k v => set_float_vertex_attribute m i k v
  | AppendTriangle t => append_triangle_indices m t
  | InsertTriangle j t => insert_triangle_indices m j t
  | SetTriangle j t => set_triangle_indices m j t
  | Resize nv nt => resize_mesh m nv nt
  | Clear => clear m
  | Clone => clone m
  end.
Definition calls (m : mesh) (os : list op) : mesh := fold_left call os m.
(** Number of values of an index of the two index formats *)
Definition index_limit (i : ifmt) : Z := match i with k16BitUnpacked16BitPacked => 2 ^ 16 | k32BitUnpacked16BitPacked => 2 ^ 32 end.
(** The number of floats of each attribute, from the bytes given to MeshFormat::Create *)
Definition shape_bytes (l : list (nat * nat)) : list nat := map (fun x => components (fst x)) l.

Lemma created_shape l i f : create l i = Some f -> shape_of f = shape_bytes l /\ limit_of f = index_limit i.
Proof.
  intros H. destruct (C28_layout _ _ _ H) as (A & _ & W & _). split.
  - unfold shape_of, shape_bytes. rewrite <- A, map_map. apply map_ext. intros a. cbn [fst]. apply (type_of_le _ _ (type_of_byte (ty a))).
  - unfold limit_of, index_limit. rewrite W. destruct i; reflexivity.
Qed.
Lemma call_fmt m o : fmt (call m o) = fmt m. Proof. destruct o; reflexivity. Qed.
Lemma calls_fmt os m : fmt (calls m os) = fmt m. Proof. revert m. unfold calls. induction os as [|o os IH]; intros m; cbn; [reflexivity|]. rewrite IH. apply call_fmt. Qed.
Lemma put_none {A} (l : list A) i y : nth_error l i = None -> put i y l = l.
Proof. revert i. induction l as [|a l IH]; intros [|i] H; try discriminate; cbn; try reflexivity. rewrite IH by exact H. reflexivity. Qed.
Lemma rep_call m vs ts o vs' ts' : wf (fmt m) -> rep m vs ts -> allowed (shape_of (fmt m)) (limit_of (fmt m)) (vs, ts) o ->
  effect (shape_of (fmt m)) (pos_index (fmt m)) (vs, ts) o = (vs', ts') -> rep (call m o) vs' ts'.
Proof.
  intros WF R A E. destruct o; cbn [allowed effect call] in *; injection E as <- <-.
  - apply rep_append_vertex; assumption.
  - destruct (nth_lt vs i A) as (v & N). unfold put_attribute. rewrite N. apply rep_set_position; try assumption. lia.
  - destruct A as [A K]. destruct (nth_lt vs i A) as (w & N). unfold put_attribute. rewrite N. apply rep_set_attribute; try assumption. lia.
  - apply rep_append_triangle; tauto.
  - apply rep_insert_triangle; tauto.
  - destruct A as [A K]. destruct (nth_lt ts j A) as (t0 & N). apply rep_set_triangle with t0; try assumption. lia.
  - apply rep_resize; tauto.
  - split; cbn [clear fmt vdata idata vcount tcount]; try reflexivity; intros ? [].
  - destruct m. exact R.
Qed.
Lemma rep_history f os vs ts : wf f -> history (shape_of f) (pos_index f) (limit_of f) os vs ts -> rep (calls (new_mesh f) os) vs ts.
Proof.
  intros WF H. induction H as [|os o vs ts vs' ts' H IH A E].
  - split; cbn; try reflexivity; intros ? [].
  - unfold calls. rewrite fold_left_app. cbn [fold_left]. fold (calls (new_mesh f) os). assert (F : fmt (calls (new_mesh f) os) = f) by apply calls_fmt. apply rep_call with vs ts; rewrite ?F; assumption.
Qed.

(** After every allowed history every read gives what the two lists hold: the counts, positions, triangles and
    their corners always; attribute values as long as they lie within the first 2^32 bytes. *)
Theorem C32_reads l i f os vs ts : create l i = Some f -> history (shape_bytes l) (pos_index f) (index_limit i) os vs ts ->
  let m := calls (new_mesh f) os in
  vcount m = count vs /\ tcount m = count ts /\
  (forall n v, 0 <= n -> nth_error vs (Z.to_nat n) = Some v ->
     map (@length f32) v = shape_bytes l /\
     (exists x y, nth_error v (pos_index f) = Some [x; y] /\ vertex_position m n = (x, y)) /\
     forall k x, nth_error v k = Some x -> n * Z.of_nat (ustride f) + Z.of_nat (uoff (attr_at f k)) < 2 ^ 32 -> float_vertex_attribute m n k = x) /\
  (forall j t, 0 <= j -> nth_error ts (Z.to_nat j) = Some t -> triangle_indices m j = t) /\
  (forall j a b c va vb vc, 0 <= j -> nth_error ts (Z.to_nat j) = Some (a, b, c) ->
     nth_error vs (Z.to_nat a) = Some va -> nth_error vs (Z.to_nat b) = Some vb -> nth_error vs (Z.to_nat c) = Some vc ->
     exists xa ya xb yb xc yc, nth_error va (pos_index f) = Some [xa; ya] /\ nth_error vb (pos_index f) = Some [xb; yb] /\ nth_error vc (pos_index f) = Some [xc; yc] /\
       get_triangle m j = ((xa, ya), (xb, yb), (xc, yc))).
Proof.
  intros C H m. destruct (created_shape _ _ _ C) as [SH LI]. rewrite <- SH, <- LI in H. pose proof (created _ _ _ C) as WF. pose proof (rep_history f os vs ts WF H) as R. fold m in R. assert (F : fmt m = f) by apply calls_fmt.
  assert (POS : forall n v, 0 <= n -> nth_error vs (Z.to_nat n) = Some v -> exists x y, nth_error v (pos_index f) = Some [x; y] /\ vertex_position m n = (x, y)).
  { intros n v N0 N. pose proof (rep_shape _ _ _ R v (nth_error_In _ _ N)) as S. rewrite F in S. destruct (shape_nth' _ _ _ _ S (wf_pos f WF)) as (p & P & LP). destruct p as [|x [|y [|]]]; try discriminate LP. exists x, y. split; [exact P|]. apply (read_position m vs ts n v x y); rewrite ?F; assumption. }
  split; [apply R|]. split; [apply R|]. split; [|split].
  - intros n v N0 N. pose proof (rep_shape _ _ _ R v (nth_error_In _ _ N)) as S. rewrite F in S. split; [rewrite <- SH; exact S|]. split; [apply (POS n v N0 N)|]. intros k x X B. apply (read_float_attribute m vs ts n n k v x); rewrite ?F; try assumption. unfold vertex_byte. rewrite u32_id; [reflexivity|]. split; [lia|exact B].
  - intros j t J N. apply (read_triangle m vs ts j t R J N).
  - intros j a b c va vb vc J N A B D. unfold get_triangle. rewrite (read_triangle m vs ts j _ R J N). pose proof (rep_small _ _ _ R _ (nth_error_In _ _ N)) as SM. unfold small in SM.
    destruct (POS a va ltac:(lia) A) as (xa & ya & Pa & Ea). destruct (POS b vb ltac:(lia) B) as (xb & yb & Pb & Eb). destruct (POS c vc ltac:(lia) D) as (xc & yc & Pc & Ec).
    exists xa, ya, xb, yb, xc, yc. rewrite Ea, Eb, Ec. auto.
Qed.
(** The raw arrays: RawVertexData and RawIndexData are the floats of the vertices in order and the indices of the
    triangles in order, in the width of the format. *)
Theorem C32_raw l i f os vs ts : create l i = Some f -> history (shape_bytes l) (pos_index f) (index_limit i) os vs ts ->
  vdata (calls (new_mesh f) os) = concat (map float_bytes (concat (concat vs))) /\
  idata (calls (new_mesh f) os) = concat (map (fun t => let '(a, b, c) := t in concat (map (le_bytes (match i with k16BitUnpacked16BitPacked => 2 | k32BitUnpacked16BitPacked => 4 end)) [a; b; c])) ts).
Proof.
  intros C H. destruct (created_shape _ _ _ C) as [SH LI]. rewrite <- SH, <- LI in H. pose proof (created _ _ _ C) as WF. pose proof (rep_history f os vs ts WF H) as R. set (m := calls _ _) in *. assert (F : fmt m = f) by apply calls_fmt. split.
  - rewrite (rep_v _ _ _ R), F. pose proof (rep_shape _ _ _ R) as S. rewrite F in S. clear -S WF. unfold image. induction vs as [|v vs IH]; [reflexivity|]. cbn [map concat]. rewrite !concat_app, map_app, concat_app, IH by (intros w W; apply S; right; exact W). f_equal. rewrite (venc_eq f WF v) by (apply S; left; reflexivity).
    unfold vbytes, floats_bytes. clear. induction v as [|x v IH]; [reflexivity|]. cbn [map concat]. rewrite map_app, concat_app, IH. reflexivity.
  - rewrite (rep_t _ _ _ R), F. destruct (C28_layout _ _ _ C) as (_ & _ & W & _). rewrite <- W. unfold image. f_equal. apply map_ext. intros [[a b] c]. unfold tri_bytes. cbn [map concat]. rewrite app_nil_r. reflexivity.
Qed.
(** Reset changes the format and forgets everything *)
Theorem C32_reset m f : reset m f = new_mesh f. Proof. reflexivity. Qed.

(** ValidateTriangles accepts exactly the meshes all of whose triangles have three distinct existing vertices, and
    otherwise names the first bad triangle. *)
Lemma validate_spec m vs ts (R : rep m vs ts) n : forall j, 0 <= j -> j + Z.of_nat n = count ts ->
  match validate_from m n j with
  | None => forall k t, j <= k -> nth_error ts (Z.to_nat k) = Some t -> good_triple (count vs) t
  | Some (k, b) => exists t, j <= k /\ nth_error ts (Z.to_nat k) = Some t /\ ~ good_triple (count vs) t /\ (b = true <-> dangling (count vs) t) /\
      forall k' t', j <= k' < k -> nth_error ts (Z.to_nat k') = Some t' -> good_triple (count vs) t'
  end.
Proof.
  induction n as [|n IH]; intros j J0 JN; cbn [validate_from].
  - intros k t K N. assert (Z.to_nat k < length ts)%nat by (apply nth_error_Some; congruence). unfold count in JN. lia.
  - destruct (nth_lt ts j ltac:(lia)) as (t & T). rewrite (read_triangle m vs ts j t R J0 T). rewrite (rep_vc _ _ _ R). destruct t as [[a b] c].
    destruct (Z.leb_spec (count vs) a) as [A|A]; [|destruct (Z.leb_spec (count vs) b) as [B|B]; [|destruct (Z.leb_spec (count vs) c) as [C|C]]]; cbn [orb].
    1-3: exists (a, b, c); split; [lia|]; split; [exact T|]; split; [cbn; lia|]; split; [cbn; split; [lia|reflexivity]|intros; lia].
    destruct (Z.eqb_spec a b) as [E1|E1]; [|destruct (Z.eqb_spec a c) as [E2|E2]; [|destruct (Z.eqb_spec b c) as [E3|E3]]]; cbn [orb].
    1-3: exists (a, b, c); split; [lia|]; split; [exact T|]; split; [cbn; lia|]; split; [cbn; split; [discriminate|lia]|intros; lia].
    assert (G : good_triple (count vs) (a, b, c)) by (cbn; lia). specialize (IH (j + 1) ltac:(lia) ltac:(lia)). destruct (validate_from m n (j + 1)) as [[k r]|].
    + destruct IH as (t & K & N & BAD & D & FIRST). exists t. split; [lia|]. split; [exact N|]. split; [exact BAD|]. split; [exact D|]. intros k' t' K' N'. destruct (Z.eq_dec k' j) as [-> |NE]; [congruence|apply (FIRST k'); [lia|exact N']].
    + intros k t K N. destruct (Z.eq_dec k j) as [-> |NE]; [congruence|apply (IH k); [lia|exact N]].
Qed.
Theorem C33_validate l i f os vs ts : create l i = Some f -> history (shape_bytes l) (pos_index f) (index_limit i) os vs ts ->
  (validate_triangles (calls (new_mesh f) os) = None <-> forall t, In t ts -> good_triple (count vs) t) /\
  (forall j b, validate_triangles (calls (new_mesh f) os) = Some (j, b) ->
     exists t, 0 <= j /\ nth_error ts (Z.to_nat j) = Some t /\ ~ good_triple (count vs) t /\ (b = true <-> dangling (count vs) t) /\
       forall k t', 0 <= k < j -> nth_error ts (Z.to_nat k) = Some t' -> good_triple (count vs) t').
Proof.
  intros C H. destruct (created_shape _ _ _ C) as [SH LI]. rewrite <- SH, <- LI in H. pose proof (created _ _ _ C) as WF. pose proof (rep_history f os vs ts WF H) as R. set (m := calls _ _) in *.
  assert (C0 : 0 <= tcount m) by (rewrite (rep_tc _ _ _ R); unfold count; lia). pose proof (validate_spec m vs ts R (Z.to_nat (tcount m)) 0 ltac:(lia)) as V. fold (validate_triangles m) in V. rewrite Z2Nat.id, (rep_tc _ _ _ R) in V by exact C0. specialize (V eq_refl). split.
  - split.
    + intros E t I. rewrite E in V. apply In_nth_error in I. destruct I as (k & I). apply (V (Z.of_nat k) t ltac:(lia)). rewrite Nat2Z.id. exact I.
    + intros G. destruct (validate_triangles m) as [[k b]|]; [|reflexivity]. destruct V as (t & _ & N & BAD & _). elim BAD. apply G, (nth_error_In _ _ N).
  - intros j b E. rewrite E in V. destruct V as (t & K & N & V). exists t. auto.
Qed.

(** ** A concrete history: position (2 floats), a one-float attribute; 16-bit indices *)
Definition ex_bytes : list (nat * nat) := [(2, 0); (0, 9)]%nat.
Definition ex_ops : list op :=
  [AppendVertex f1 f0; AppendVertex f0 f1; AppendVertex f1 f1; SetAttribute 1 1 [f1]; AppendTriangle (0, 1, 2); InsertTriangle 0 (2, 1, 3); SetTriangle 1 (2, 0, 1); SetPosition 0 f0 f0; Clone].
Definition ex_vs : list vertex := [[[f0; f0]; [f0]]; [[f0; f1]; [f1]]; [[f1; f1]; [f0]]].
Definition ex_ts : list triple := [(2, 1, 3); (2, 0, 1)].
Example ex_history : exists f, create ex_bytes k16BitUnpacked16BitPacked = Some f /\ pos_index f = 0%nat /\
  history (shape_bytes ex_bytes) 0 (index_limit k16BitUnpacked16BitPacked) ex_ops ex_vs ex_ts.
Proof.
  eexists. split; [reflexivity|]. split; [reflexivity|].
  assert (ST : forall os o vs ts vs' ts', history (shape_bytes ex_bytes) 0 (2 ^ 16) os vs ts -> allowed (shape_bytes ex_bytes) (2 ^ 16) (vs, ts) o -> effect (shape_bytes ex_bytes) 0 (vs, ts) o = (vs', ts') -> history (shape_bytes ex_bytes) 0 (2 ^ 16) (os ++ [o]) vs' ts') by (intros; eapply step; eassumption).
  pose proof (start (shape_bytes ex_bytes) 0 (2 ^ 16)) as H.
  change ex_ops with ((((((((([] ++ [AppendVertex f1 f0]) ++ [AppendVertex f0 f1]) ++ [AppendVertex f1 f1]) ++ [SetAttribute 1 1 [f1]]) ++ [AppendTriangle (0, 1, 2)]) ++ [InsertTriangle 0 (2, 1, 3)]) ++ [SetTriangle 1 (2, 0, 1)]) ++ [SetPosition 0 f0 f0]) ++ [Clone]).
  unfold ex_vs, ex_ts. cbn [index_limit].
  assert (NX : forall os o vs ts vs' ts', history (shape_bytes ex_bytes) 0 (2 ^ 16) os vs ts -> allowed (shape_bytes ex_bytes) (2 ^ 16) (vs, ts) o /\ effect (shape_bytes ex_bytes) 0 (vs, ts) o = (vs', ts') -> history (shape_bytes ex_bytes) 0 (2 ^ 16) (os ++ [o]) vs' ts') by (intros os o vs ts vs' ts' Q [Q1 Q2]; eapply ST; eassumption).
  repeat match goal with |- history _ _ _ (_ ++ _) _ _ => eapply NX end; [exact H|split; [cbn; repeat split; lia|reflexivity]..].
Qed.
(** its last triangle is fine, its first is not *)
Example ex_validate : exists f, create ex_bytes k16BitUnpacked16BitPacked = Some f /\ validate_triangles (calls (new_mesh f) ex_ops) = Some (0, true).
Proof. eexists. split; [reflexivity|]. vm_compute. reflexivity. Qed.

(** Beyond 4 GiB of vertex data FloatVertexAttribute reads another vertex: with 2^29 + 1 vertices of two floats, what was
    set on the last one is not read back (VertexPosition does read it back). *)
Theorem C32_attribute_beyond_4GiB_refuted :
  let f := default_format in
  let os := [Resize (2 ^ 29 + 1) 0; SetAttribute (2 ^ 29) 0 [f1; f1]] in
  create [(2, 0)]%nat k32BitUnpacked16BitPacked = Some f /\
  (exists vs ts, history [2]%nat 0 (2 ^ 32) os vs ts /\ nth_error vs (Z.to_nat (2 ^ 29)) = Some [[f1; f1]]) /\
  float_vertex_attribute (calls (new_mesh f) os) (2 ^ 29) 0 = [f0; f0] /\ vertex_position (calls (new_mesh f) os) (2 ^ 29) = (f1, f1).
Proof.
  set (N := 2 ^ 29). assert (HN : 0 < N < 2 ^ 32 - 1) by (unfold N; lia). assert (HU : u32 (vertex_byte default_format N 0) = vertex_byte default_format 0 0) by (unfold N; vm_compute; reflexivity). clearbody N.
  intros f os. assert (C : create [(2, 0)]%nat k32BitUnpacked16BitPacked = Some f) by reflexivity. pose proof (created _ _ _ C) as WF.
  set (vs := put (Z.to_nat N) [[f1; f1]] (repeat [[f0; f0]] (Z.to_nat (N + 1)))).
  assert (RP : nth_error (repeat [[f0; f0]] (Z.to_nat (N + 1))) (Z.to_nat N) = Some [[f0; f0]]) by (rewrite nth_error_repeat by lia; reflexivity).
  assert (H : history [2]%nat 0 (2 ^ 32) os vs []).
  { change os with (([] ++ [Resize (N + 1) 0]) ++ [SetAttribute N 0 [f1; f1]]). eapply step; [eapply step; [apply start|cbn; lia|cbn [effect]; rewrite fit_nil; reflexivity]| |].
    - cbn [allowed nth_error]. unfold count. rewrite repeat_length. split; [lia|reflexivity].
    - cbn [effect]. unfold put_attribute. change (blank [2%nat]) with [[f0; f0]]. unfold vertex. rewrite RP. reflexivity. }
  assert (NV : nth_error vs (Z.to_nat N) = Some [[f1; f1]]) by (apply put_nth; rewrite repeat_length; lia).
  assert (N0 : nth_error vs (Z.to_nat 0) = Some [[f0; f0]]) by (unfold vs; rewrite put_other by lia; apply nth_error_repeat; lia).
  assert (R : rep (calls (new_mesh f) os) vs []) by (apply (rep_history f os vs [] WF); exact H).
  split; [exact C|]. split; [exists vs, []; split; assumption|]. split.
  - apply (read_float_attribute _ vs [] N 0 0 [[f0; f0]] [f0; f0]); try assumption; try reflexivity; lia.
  - apply (read_position _ vs [] N [[f1; f1]] f1 f1); try assumption; try reflexivity; lia.
Qed.

Print Assumptions C32_reads.
Print Assumptions C32_raw.
Print Assumptions C32_reset.
Print Assumptions C33_validate.
Print Assumptions C32_attribute_beyond_4GiB_refuted.
