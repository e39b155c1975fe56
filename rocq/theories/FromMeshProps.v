(** C57: MutableMesh::FromMesh *)
From Coq Require Import ZArith Bool Lia List.
From Verif Require Import F32 BytesModel BytesLemmas MeshFormatModel MeshFormatProps PackModel PartitionModel MutableMeshModel MutableMeshSpec MutableMeshProofs MutableMeshProps MeshModel MeshProofs MeshSpec MeshProps AsMeshesModel AsMeshesSpec AsMeshesFormat AsMeshesProofs AsMeshesProps.
Import ListNotations.
Local Open Scope Z_scope.

(** The mesh is determined by its format and its two lists *)
Lemma rep_same m m' vs ts : fmt m = fmt m' -> rep m vs ts -> rep m' vs ts -> m = m'.
Proof. intros F [A1 A2 A3 A4 _ _ _ _] [B1 B2 B3 B4 _ _ _ _]. destruct m, m'; cbn in *. congruence. Qed.

(** ** Writing every attribute of every vertex *)
Section Write.
Variables (sh : list nat) (pos : nat) (lim : Z) (val : Z -> nat -> list f32).
Definition write_at (vs : list vertex) (p : Z * nat) : list vertex := put_attribute (Z.to_nat (fst p)) (snd p) (val (fst p) (snd p)) vs.
Definition in_range (n : Z) (p : Z * nat) : Prop := 0 <= fst p < n /\ nth_error sh (snd p) = Some (length (val (fst p) (snd p))).
Lemma write_count vs p : count (write_at vs p) = count vs.
Proof. unfold write_at, put_attribute. destruct (nth_error _ _); [|reflexivity]. unfold count. rewrite put_length. reflexivity. Qed.
Lemma history_writes ps : forall os vs ts, history sh pos lim os vs ts -> (forall p, In p ps -> in_range (count vs) p) ->
  history sh pos lim (os ++ map (fun p => SetAttribute (fst p) (snd p) (val (fst p) (snd p))) ps) (fold_left write_at ps vs) ts.
Proof.
  induction ps as [|p ps IH]; intros os vs ts H R; cbn [map fold_left]; [rewrite app_nil_r; exact H|].
  change (?a :: ?b) with ([a] ++ b). rewrite app_assoc. apply IH.
  - apply step with vs ts; [exact H| |reflexivity]. cbn. destruct (R p (or_introl eq_refl)). split; assumption.
  - intros q Q. rewrite write_count. apply R. right. exact Q.
Qed.
Definition holds (vs : list vertex) (p : Z * nat) : Prop := exists w, nth_error vs (Z.to_nat (fst p)) = Some w /\ nth_error w (snd p) = Some (val (fst p) (snd p)).
Lemma write_keeps vs p q : 0 <= fst p -> 0 <= fst q -> holds vs q -> holds (write_at vs p) q.
Proof.
  intros P Q (w & W & X). unfold write_at, put_attribute. destruct (nth_error vs (Z.to_nat (fst p))) as [u|] eqn:U; [|exists w; auto].
  assert (LP : (Z.to_nat (fst p) < length vs)%nat) by (apply nth_error_Some; congruence).
  destruct (Z.eq_dec (fst p) (fst q)) as [E|N].
  - unfold holds. rewrite <- E in *. rewrite U in W. injection W as ->. exists (put (snd p) (val (fst p) (snd p)) w). split; [apply put_nth, LP|]. destruct (Nat.eq_dec (snd p) (snd q)) as [K|K].
    + rewrite <- K in *. apply put_nth. apply nth_error_Some. congruence.
    + rewrite put_other by exact K. exact X.
  - exists w. split; [rewrite put_other by lia; exact W|exact X].
Qed.
Lemma write_sets vs p : (forall v, In v vs -> vertex_of_shape sh v) -> in_range (count vs) p -> holds (write_at vs p) p.
Proof.
  intros V [R K]. unfold write_at, put_attribute. destruct (nth_lt vs (fst p) R) as (w & W). rewrite W. exists (put (snd p) (val (fst p) (snd p)) w). split.
  - apply put_nth. apply nth_error_Some. congruence.
  - apply put_nth. pose proof (V w (nth_error_In _ _ W)) as S. destruct (shape_nth' _ _ _ _ S K) as (x & X & _). apply nth_error_Some. congruence.
Qed.
Lemma write_shape vs p : (forall v, In v vs -> vertex_of_shape sh v) -> in_range (count vs) p -> forall v, In v (write_at vs p) -> vertex_of_shape sh v.
Proof.
  intros V [R K] v I. unfold write_at, put_attribute in I. destruct (nth_error vs (Z.to_nat (fst p))) as [w|] eqn:W; [|apply V, I]. apply put_in in I. destruct I as [-> |I]; [|apply V, I].
  unfold vertex_of_shape. pose proof (V w (nth_error_In _ _ W)) as S. unfold vertex_of_shape in S. rewrite put_map; [exact S|]. rewrite S. exact K.
Qed.
Lemma writes_all ps : forall vs, (forall v, In v vs -> vertex_of_shape sh v) -> (forall p, In p ps -> in_range (count vs) p) ->
  count (fold_left write_at ps vs) = count vs /\ (forall v, In v (fold_left write_at ps vs) -> vertex_of_shape sh v) /\
  (forall q, 0 <= fst q -> holds vs q -> holds (fold_left write_at ps vs) q) /\ forall q, In q ps -> holds (fold_left write_at ps vs) q.
Proof.
  induction ps as [|p ps IH]; intros vs V R; cbn [fold_left]; [repeat split; auto; intros ? []|].
  pose proof (R p (or_introl eq_refl)) as RP. destruct (IH (write_at vs p)) as (C & SH & KEEP & ALL).
  - apply write_shape; assumption.
  - intros q Q. rewrite write_count. apply R. right. exact Q.
  - rewrite write_count in C. split; [exact C|]. split; [exact SH|]. split.
    + intros q Q H. apply KEEP; [exact Q|]. apply write_keeps; [apply RP|exact Q|exact H].
    + intros q [<-|Q]; [|apply ALL, Q]. apply KEEP; [apply RP|]. apply write_sets; assumption.
Qed.
End Write.
(** ** Writing every triangle *)
Section Triangles.
Variables (sh : list nat) (pos : nat) (lim : Z) (val : Z -> triple).
Lemma history_triangles js : forall os vs ts, history sh pos lim os vs ts -> (forall j, In j js -> 0 <= j < count ts /\ small lim (val j)) ->
  history sh pos lim (os ++ map (fun j => SetTriangle j (val j)) js) vs (fold_left (fun ts j => put (Z.to_nat j) (val j) ts) js ts).
Proof.
  induction js as [|j js IH]; intros os vs ts H R; cbn [map fold_left]; [rewrite app_nil_r; exact H|].
  change (?a :: ?b) with ([a] ++ b). rewrite app_assoc. apply IH.
  - apply step with vs ts; [exact H| |reflexivity]. apply (R j (or_introl eq_refl)).
  - intros k K. unfold count. rewrite put_length. apply R. right. exact K.
Qed.
Lemma put_all n : forall ts k, length ts = (k + n)%nat -> (forall j, (j < k)%nat -> nth_error ts j = Some (val (Z.of_nat j))) ->
  fold_left (fun ts j => put (Z.to_nat j) (val j) ts) (map Z.of_nat (seq k n)) ts = map val (map Z.of_nat (seq 0 (k + n))).
Proof.
  induction n as [|n IH]; intros ts k L H; cbn [seq map fold_left].
  - rewrite Nat.add_0_r in *. apply nth_error_ext. intros j. rewrite map_map, nth_error_map. destruct (Nat.lt_ge_cases j k) as [J|J].
    + rewrite H by exact J. rewrite (nth_error_nth' _ 0%nat) by (rewrite seq_length; exact J). rewrite seq_nth by exact J. reflexivity.
    + rewrite !(proj2 (nth_error_None _ _)) by (rewrite ?seq_length; lia). reflexivity.
  - replace (k + S n)%nat with (S k + n)%nat by lia. apply IH.
    + rewrite put_length. lia.
    + intros j J. rewrite Nat2Z.id. destruct (Nat.eq_dec j k) as [-> |N]; [apply put_nth; lia|]. rewrite put_other by lia. apply H. lia.
Qed.
End Triangles.
Lemma calls_app m os os' : calls m (os ++ os') = calls (calls m os) os'. Proof. apply fold_left_app. Qed.
Lemma indices_in n x : In x (indices_upto n) <-> 0 <= x < Z.of_nat (Z.to_nat n).
Proof. unfold indices_upto. rewrite in_map_iff. split; [intros (k & <- & K); apply in_seq in K; lia|]. intros X. exists (Z.to_nat x). split; [lia|]. apply in_seq. lia. Qed.
Lemma tri_le w a b c : tri_bytes w (a, b, c) = concat (map (le_bytes w) [a; b; c]). Proof. cbn. rewrite app_nil_r. reflexivity. Qed.

Section From.
Variables (l : list (nat * nat)) (i : ifmt) (f : format) (im : imesh) (ts : list triple).
Hypothesis CF : create l i = Some f.
Hypothesis IF : iformat im = f.
Hypothesis VR : 0 <= ivcount im < 2 ^ 32.
Hypothesis TC : itcount im = count ts.
Hypothesis TR : count ts < 2 ^ 32.
Hypothesis RAW : iidata im = concat (map (fun t => let '(a, b, c) := t in concat (map (le_bytes 2) [a; b; c])) ts).
Hypothesis SM : forall t, In t ts -> small (2 ^ 16) t.
Hypothesis RD : forall n k w, 0 <= n < ivcount im -> nth_error (shape_bytes l) k = Some w -> exists v, iattribute im n k = Some v /\ length v = w.
Notation sh := (shape_bytes l).
Notation lim := (index_limit i).
Definition val (n : Z) (k : nat) : list f32 := match iattribute im n k with Some v => v | None => [] end.
Notation pairs := (flat_map (fun i => map (fun k => (i, k)) (seq 0 (length (attrs f)))) (indices_upto (ivcount im))).
Lemma sh_length : length sh = length (attrs f).
Proof. destruct (created_shape _ _ _ CF) as [S _]. rewrite <- S. unfold shape_of. apply map_length. Qed.
Lemma pairs_in p : In p pairs <-> 0 <= fst p < ivcount im /\ (snd p < length (attrs f))%nat.
Proof.
  rewrite in_flat_map. split.
  - intros (n & N & P). apply indices_in in N. apply in_map_iff in P. destruct P as (k & <- & K). apply in_seq in K. cbn. lia.
  - intros [N K]. exists (fst p). split; [apply indices_in; lia|]. apply in_map_iff. exists (snd p). split; [destruct p; reflexivity|apply in_seq; lia].
Qed.
Lemma pair_ok p : In p pairs -> iattribute im (fst p) (snd p) = Some (val (fst p) (snd p)) /\ in_range sh val (ivcount im) p.
Proof.
  intros P. apply pairs_in in P. destruct P as [N K]. rewrite <- sh_length in K. destruct (nth_error sh (snd p)) as [w|] eqn:W; [|apply nth_error_None in W; lia].
  destruct (RD _ _ _ N W) as (v & V & L). unfold in_range, val. rewrite V. split; [reflexivity|]. split; [exact N|]. rewrite W, L. reflexivity.
Qed.
Lemma raw_image : iidata im = image (tri_bytes 2) ts.
Proof. rewrite RAW. unfold image. f_equal. Qed.
Lemma iindices_at j t : 0 <= j -> nth_error ts (Z.to_nat j) = Some t -> iindices im j = t.
Proof.
  intros J T. set (m := Mesh (Format [] 0 k16BitUnpacked16BitPacked 0 0 2) [] (iidata im) 0 (count ts)). transitivity (triangle_indices m j); [reflexivity|]. apply read_triangle with (vs := []) (ts := ts); [|exact J|exact T].
  split; cbn [m fmt vdata idata vcount tcount]; [reflexivity|exact raw_image|reflexivity|reflexivity|reflexivity|exact TR|intros ? []|exact SM].
Qed.
Lemma indices_eq : map (iindices im) (map Z.of_nat (seq 0 (length ts))) = ts.
Proof.
  apply nth_error_ext. intros k. rewrite map_map, nth_error_map. destruct (nth_error ts k) as [t|] eqn:E.
  - assert (K : (k < length ts)%nat) by (apply nth_error_Some; congruence). rewrite (nth_error_nth' _ 0%nat) by (rewrite seq_length; exact K). rewrite seq_nth by exact K. cbn [option_map Nat.add]. transitivity (Some t); [|symmetry; exact E]. f_equal. apply iindices_at; [lia|]. rewrite Nat2Z.id. exact E.
  - rewrite (proj2 (nth_error_None _ _)) by (rewrite seq_length; apply nth_error_None, E). symmetry. exact E.
Qed.
Notation vs0 := (repeat (blank sh) (Z.to_nat (ivcount im))).
Notation ts0 := (repeat (0, 0, 0) (length ts)).
Notation sets := (map (fun p : Z * nat => SetAttribute (fst p) (snd p) (val (fst p) (snd p))) pairs).
Notation vs := (fold_left (write_at val) pairs vs0).
Notation os1 := ([Resize (ivcount im) (count ts)] ++ sets).
Lemma vs0_count : count vs0 = ivcount im. Proof. unfold count. rewrite repeat_length. lia. Qed.
Lemma history_sets : history sh (pos_index f) lim os1 vs ts0.
Proof.
  apply history_writes.
  - change [Resize (ivcount im) (count ts)] with ([] ++ [Resize (ivcount im) (count ts)]). apply step with [] []; [constructor| |].
    + cbn. unfold count in *. lia.
    + cbn. rewrite !fit_nil. unfold count. rewrite Nat2Z.id. reflexivity.
  - intros p P. rewrite vs0_count. apply pair_ok, P.
Qed.
Lemma copy_eq ps : forall m, (forall p, In p ps -> iattribute im (fst p) (snd p) = Some (val (fst p) (snd p))) ->
  fold_left (fun r ik => match r with Some m => match iattribute im (fst ik) (snd ik) with Some v => Some (set_float_vertex_attribute m (fst ik) (snd ik) v) | None => None end | None => None end) ps (Some m)
  = Some (calls m (map (fun p : Z * nat => SetAttribute (fst p) (snd p) (val (fst p) (snd p))) ps)).
Proof. induction ps as [|p ps IH]; intros m H; [reflexivity|]. cbn [fold_left map]. rewrite (H p (or_introl eq_refl)). rewrite IH by (intros q Q; apply H; right; exact Q). reflexivity. Qed.
Lemma triangles_calls js : forall m, fold_left (fun m j => set_triangle_indices m j (iindices im j)) js m = calls m (map (fun j => SetTriangle j (iindices im j)) js).
Proof. induction js as [|j js IH]; intros m; [reflexivity|]. cbn [fold_left map]. rewrite IH. reflexivity. Qed.
Notation js := (map Z.of_nat (seq 0 (length ts))).
Notation os := (os1 ++ map (fun j => SetTriangle j (iindices im j)) js).
Lemma history_os : history sh (pos_index f) lim os vs ts.
Proof.
  assert (E : fold_left (fun (ts : list triple) j => @put triple (Z.to_nat j) (iindices im j) ts) js ts0 = ts). { transitivity (map (iindices im) js); [apply (put_all (iindices im) (length ts) ts0 0); [apply repeat_length|intros j J; lia]|exact indices_eq]. }
  pose proof (history_triangles sh (pos_index f) lim (iindices im) js os1 vs ts0) as H. rewrite E in H. apply H; [exact history_sets|]. intros j J. apply in_map_iff in J. destruct J as (k & <- & K). apply in_seq in K. unfold count. rewrite repeat_length. split; [lia|].
  destruct (nth_error ts k) as [t|] eqn:T; [|apply nth_error_None in T; lia]. rewrite (iindices_at (Z.of_nat k) t) by (rewrite ?Nat2Z.id; assumption || lia). apply nth_error_In in T. apply SM in T. destruct t as [[a b] c]. unfold small in *. destruct i; cbn [index_limit]; lia.
Qed.
Lemma from_eq : from_mesh im = Some (calls (new_mesh f) os).
Proof.
  unfold from_mesh, copy_attributes. rewrite IF, TC. rewrite copy_eq by (intros p P; apply pair_ok, P). f_equal.
  change (calls (resize_mesh (new_mesh f) (ivcount im) (count ts)) sets) with (calls (calls (new_mesh f) [Resize (ivcount im) (count ts)]) sets). rewrite <- calls_app.
  destruct (C28_layout _ _ _ CF) as (_ & FI & W & _). destruct (created_shape _ _ _ CF) as [SH LI]. pose proof (created _ _ _ CF) as WF. rewrite FI.
  pose proof (fun o a b => rep_history f o a b WF) as RH. rewrite SH, LI in RH. pose proof (RH _ _ _ history_sets) as R1. pose proof (RH _ _ _ history_os) as R2.
  destruct i eqn:EI; [|unfold indices_upto, count; rewrite Nat2Z.id, triangles_calls, <- calls_app; reflexivity].
  set (m1 := calls (new_mesh f) os1) in *. assert (F1 : fmt m1 = f) by apply calls_fmt. apply rep_same with vs ts; [rewrite calls_fmt; exact F1| |exact R2].
  split; cbn [fmt vdata idata vcount tcount].
  - apply (rep_v _ _ _ R1).
  - rewrite F1, W. rewrite raw_image. assert (LT : length (image (tri_bytes 2) ts) = Z.to_nat (3 * 2 * count ts)) by (rewrite (image_length (tri_bytes 2) 6 (tri_bytes_length 2)); unfold count, triple, tri in *; lia).
    rewrite (peek_all _ _ (eq_sym LT)). rewrite (rep_t _ _ _ R1), F1, W. assert (L0 : length (image (tri_bytes 2) ts) = length (image (tri_bytes 2) ts0)) by (rewrite !(image_length (tri_bytes 2) 6 (tri_bytes_length 2)), repeat_length; reflexivity).
    rewrite <- (app_nil_r (image (tri_bytes 2) ts0)). rewrite <- (app_nil_l (_ ++ [])). change 0%nat with (@length Z []). rewrite poke_mid by exact L0. apply app_nil_r.
  - apply (rep_vc _ _ _ R1).
  - rewrite (rep_tc _ _ _ R1). unfold count. rewrite repeat_length. reflexivity.
  - apply (rep_vmax _ _ _ R1).
  - exact TR.
  - apply (rep_shape _ _ _ R1).
  - rewrite F1, LI. exact SM.
Qed.
Lemma vs_values : count vs = ivcount im /\ forall n k, 0 <= n < ivcount im -> (k < length l)%nat -> exists v w, nth_error vs (Z.to_nat n) = Some v /\ nth_error v k = Some w /\ iattribute im n k = Some w.
Proof.
  destruct (writes_all sh val pairs vs0) as (C & _ & _ & ALL).
  - intros v V. apply repeat_spec in V. subst v. apply blank_shape.
  - intros p P. rewrite vs0_count. apply pair_ok, P.
  - rewrite vs0_count in C. split; [exact C|]. intros n k N K. assert (P : In (n, k) pairs). { apply pairs_in. split; [exact N|]. rewrite <- sh_length. unfold shape_bytes. rewrite map_length. exact K. }
    destruct (ALL _ P) as (v & V1 & V2). destruct (pair_ok _ P) as [E _]. exists v, (val n k). auto.
Qed.
End From.

(** FromMesh gives a mutable mesh that is exactly the one made by some sequence of edits whose vertices hold the attribute values read from the
    mesh and whose triangles are those of the mesh; so all that is proved of such meshes (C32, C33, C56) holds of it. [ts] are the
    triangles whose indices the index data holds. *)
Theorem C57_from_mesh l i f im ts : create l i = Some f -> iformat im = f -> 0 <= ivcount im < 2 ^ 32 -> itcount im = count ts -> count ts < 2 ^ 32 ->
  iidata im = concat (map (fun t => let '(a, b, c) := t in concat (map (le_bytes 2) [a; b; c])) ts) -> (forall t, In t ts -> small (2 ^ 16) t) ->
  (forall n k w, 0 <= n < ivcount im -> nth_error (shape_bytes l) k = Some w -> exists v, iattribute im n k = Some v /\ length v = w) ->
  (forall j t, 0 <= j -> nth_error ts (Z.to_nat j) = Some t -> iindices im j = t) /\
  exists os vs, from_mesh im = Some (calls (new_mesh f) os) /\ history (shape_bytes l) (pos_index f) (index_limit i) os vs ts /\ count vs = ivcount im /\
    forall n k, 0 <= n < ivcount im -> (k < length l)%nat -> exists v w, nth_error vs (Z.to_nat n) = Some v /\ nth_error v k = Some w /\ iattribute im n k = Some w.
Proof.
  intros CF IF VR TC TR RAW SM RD. split; [apply iindices_at; assumption|]. eexists _, _. split; [apply from_eq with (l := l) (i := i); eassumption|]. split; [apply history_os; assumption|]. apply vs_values with (i := i) (f := f); assumption.
Qed.

Lemma small_mono t n : n <= 2 ^ 16 -> (let '(a, b, c) := t in 0 <= a < n /\ 0 <= b < n /\ 0 <= c < n) -> small (2 ^ 16) t.
Proof. destruct t as [[a b] c]. unfold small. lia. Qed.
Lemma raw_eq ts : index_bytes ts = concat (map (fun t : triple => let '(a, b, c) := t in concat (map (le_bytes 2) [a; b; c])) ts).
Proof. rewrite index_bytes_eq. unfold image. f_equal. Qed.
(** Every mesh that Create makes can be turned into a mutable mesh that reads the same *)
Theorem C57_created l i f spans idx custom : create l i = Some f -> documented (map ty (attrs f)) spans idx custom ->
  (forall i, In i idx -> (0 <= i)%Z) -> (Z.of_nat (length idx) < 3 * 2 ^ 32)%Z ->
  (forall k t, nth_error (map ty (attrs f)) k = Some t -> spread (column (map ty (attrs f)) spans) custom k t) ->
  exists im os vs ts, create_mesh f spans idx custom = Made im /\ from_mesh im = Some (calls (new_mesh f) os) /\ history (shape_bytes l) (pos_index f) (index_limit i) os vs ts /\
    count vs = ivcount im /\ count ts = itcount im /\
    (forall n k, 0 <= n < ivcount im -> (k < length l)%nat -> exists v w, nth_error vs (Z.to_nat n) = Some v /\ nth_error v k = Some w /\ iattribute im n k = Some w) /\
    (forall j, 0 <= j < itcount im -> nth_error ts (Z.to_nat j) = Some (iindices im j)).
Proof.
  intros CF D IP IL SP. destruct (C35_made l i f spans idx custom CF D IP IL SP) as (im & M & F & VC & TC & _ & RD).
  pose proof (pcreated l i f CF) as W. destruct (create_cases f spans idx custom W) as [[N _]|(_ & P & c & SE & E)]; [contradiction|].
  rewrite E in M. destruct (pack_vertex_data f spans c) as [vd|]; [|discriminate]. injection M as M. destruct (p_three f spans idx P) as [m3 M3]. pose proof (triples_length idx m3 M3) as TL. pose proof (p_limit f spans idx P) as LM.
  set (ts := triples idx : list triple). assert (TC' : itcount im = count ts) by (unfold count, ts, triple, tri in *; lia).
  destruct (C57_from_mesh l i f im ts CF F) as (J & os & vs & A1 & A2 & A3 & A4).
  - rewrite VC. change (2 ^ 32)%Z with 4294967296%Z. change (2 ^ 16)%Z with 65536%Z in LM. lia.
  - exact TC'.
  - unfold count, ts, triple, tri in *. change (2 ^ 32)%Z with 4294967296%Z in *. lia.
  - rewrite <- M. cbn [make_mesh iidata]. apply raw_eq.
  - intros t I. apply (triples_small idx (2 ^ 16) m3 M3); [|exact I]. intros x IX. pose proof (p_index f spans idx P x IX) as B. split; [apply IP, IX|lia].
  - intros n k w N S. destruct (created_shape _ _ _ CF) as [SH _]. rewrite <- SH in S. unfold shape_of in S. rewrite nth_error_map in S. destruct (nth_error (attrs f) k) as [a|] eqn:A; [|discriminate]. injection S as <-.
    destruct (RD n k (ty a) N) as (w & W1 & W2 & _); [rewrite nth_error_map, A; reflexivity|]. eauto.
  - exists im, os, vs, ts. split; [rewrite E, M; reflexivity|]. split; [exact A1|]. split; [exact A2|]. split; [exact A3|]. split; [symmetry; exact TC'|]. split; [exact A4|].
    intros j JB. rewrite TC' in JB. destruct (nth_lt ts j JB) as (t & T). rewrite T. f_equal. symmetry. apply J; [lia|exact T].
Qed.
(** and so can every mesh that AsMeshes makes *)
Theorem C57_frozen E l i f omit os vs ts custom nf : create l i = Some f -> history (shape_bytes l) (pos_index f) (index_limit i) os vs ts -> (count vs * Z.of_nat (ustride f) <= 2 ^ 32)%Z ->
  ts <> [] -> proper l omit vs ts custom -> create (left_attributes l omit) i = Some nf ->
  (forall k t, nth_error (left_types l omit) k = Some t -> spread (values_of l omit vs (used_vertices ts)) custom k t) ->
  (forall t, nth_error (left_types l omit) (pos_index nf) = Some t -> position_calm l omit vs ts custom (pos_index nf) t) ->
  exists ms, as_meshes E (calls (new_mesh f) os) custom omit = Made ms /\ forall im, In im ms -> exists os' vs' ts',
    from_mesh im = Some (calls (new_mesh nf) os') /\ history (shape_bytes (left_attributes l omit)) (pos_index nf) (index_limit i) os' vs' ts' /\
    count vs' = ivcount im /\ count ts' = itcount im /\
    (forall n k, 0 <= n < ivcount im -> (k < length (left_attributes l omit))%nat -> exists v w, nth_error vs' (Z.to_nat n) = Some v /\ nth_error v k = Some w /\ iattribute im n k = Some w) /\
    (forall j, 0 <= j < itcount im -> nth_error ts' (Z.to_nat j) = Some (iindices im j)).
Proof.
  intros CF HI SM NE PR CN SP PC. destruct (C56_made E l i f omit os vs ts custom nf CF HI SM NE PR CN SP PC) as (ms & vms & EQ & c & kx & ky & F2 & CC & _).
  exists ms. split; [exact EQ|]. intros im IM. destruct (created_shape _ _ _ CF) as [SH LI]. pose proof HI as HI'. rewrite <- SH, <- LI in HI'. pose proof (rep_tmax _ _ _ (rep_history f os vs ts (created _ _ _ CF) HI')) as TM.
  assert (K : exists us, piece E l i omit vs ts custom c kx ky im us /\ (length (recovered im us) <= length ts)%nat).
  { apply (f_equal (@length _)) in CC. rewrite <- CC. clear CC. clear -F2 IM. revert F2. generalize (piece E l i omit vs ts custom c kx ky). intros Q F2. induction F2 as [|x y xs ys P F2 IH]; [destruct IM|]. cbn [combine map concat fst snd]. rewrite app_length. destruct IM as [-> |IM]; [exists y; split; [exact P|lia]|]. destruct (IH IM) as (us & A & B). exists us. split; [exact A|lia]. }
  destruct K as (us & P & RL). destruct P as (P1 & P2 & P3 & P4 & P5 & P6 & P7 & P8 & P9 & P10 & P11 & P12 & _). assert (IF : iformat im = nf) by congruence.
  set (ts' := map (iindices im) (indices_upto (itcount im)) : list triple) in *. assert (TC : itcount im = count ts') by (unfold ts', count; rewrite map_length; unfold indices_upto; rewrite map_length, seq_length; lia).
  assert (TR : count ts' < 2 ^ 32). { unfold count in *. unfold recovered in RL. rewrite map_length in RL. unfold ts'. rewrite map_length. eapply Z.le_lt_trans; [|exact TM]. lia. }
  assert (NT : forall j, 0 <= j < itcount im -> nth_error ts' (Z.to_nat j) = Some (iindices im j)). { intros j J. unfold ts', indices_upto. rewrite map_map, nth_error_map, (nth_error_nth' _ 0%nat) by (rewrite seq_length; lia). rewrite seq_nth by lia. cbn [option_map Nat.add]. rewrite Z2Nat.id by lia. reflexivity. }
  destruct (C57_from_mesh (left_attributes l omit) i nf im ts' CN IF) as (J & os' & vs' & A1 & A2 & A3 & A4).
  - rewrite P3. change (2 ^ 32)%Z with 4294967296%Z. change (2 ^ 16)%Z with 65536%Z in P5. lia.
  - exact TC.
  - exact TR.
  - exact P9.
  - intros t I. unfold ts' in I. apply in_map_iff in I. destruct I as (j & <- & JI). apply indices_in in JI. pose proof (P10 j ltac:(lia)) as S. destruct (iindices im j) as [[a b] d]. unfold small in *. lia.
  - intros n k w N S. destruct (created_shape _ _ _ CN) as [SN _]. pose proof S as S'. rewrite <- SN in S'. unfold shape_of in S'. rewrite nth_error_map in S'. destruct (nth_error (attrs nf) k) as [a|] eqn:A; [|discriminate]. injection S' as <-.
    assert (T : nth_error (left_types l omit) k = Some (ty a)) by (rewrite <- (kept_types l i nf omit CN), nth_error_map, A; reflexivity).
    destruct (Nat.eq_dec k (pos_index (iformat im))) as [-> |NK]; [destruct (packed_bits (ty a)) as [bits|] eqn:PB|].
    + destruct (P12 n _ bits N T PB) as (p & q & EC & _ & AT). eexists. split; [exact AT|]. rewrite IF in A. destruct (C28_layout _ _ _ CN) as (_ & _ & _ & (a' & A' & _ & CT) & _). rewrite A in A'. injection A' as <-. rewrite CT. reflexivity.
    + destruct (P11 n _ _ N T (or_intror PB)) as (w & W1 & W2 & _). eauto.
    + destruct (P11 n _ _ N T (or_introl NK)) as (w & W1 & W2 & _). eauto.
  - exists os', vs', ts'. split; [exact A1|]. split; [exact A2|]. split; [exact A3|]. split; [symmetry; exact TC|]. split; [exact A4|exact NT].
Qed.

(** ** A case: the mesh of C35_example *)
Example C57_example :
  match create_mesh MeshProps.ex_format MeshProps.ex_spans [0; 1; 3; 3; 2; 0] MeshProps.ex_custom with
  | Made im => match from_mesh im with
     | Some m => Z.eqb (vcount m) 4 && Z.eqb (tcount m) 2 && (let '(a, b, c) := triangle_indices m 1 in Z.eqb a 3 && Z.eqb b 2 && Z.eqb c 0) &&
         forallb (fun n => match iattribute im n 0, float_vertex_attribute m n 0 with Some [x; y], [x'; y'] => feq x x' && feq y y' | _, _ => false end) [0; 1; 2; 3]
     | None => false
     end
  | _ => false
  end = true.
Proof. vm_compute. reflexivity. Qed.
Print Assumptions C57_from_mesh.
Print Assumptions C57_created.
Print Assumptions C57_frozen.
