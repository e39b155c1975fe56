(** C67: updates of a stroke's mesh. *)
From Coq Require Import ZArith Bool Lia List.
From Verif Require Import F32 BytesModel BytesLemmas MeshFormatModel MeshFormatProps PartitionModel MutableMeshModel MutableMeshSpec MutableMeshProofs StrokeVertexModel StrokeVertexSpec StrokeVertexProofs MeshViewModel MeshViewSpec.
Import ListNotations.
Local Open Scope Z_scope.

Lemma firstn_image {A} (enc : A -> list Z) w (Hw : forall a, length (enc a) = w) l k : firstn (k * w) (image enc l) = image enc (firstn k l).
Proof.
  revert l. induction k as [|k IH]; intros [|x l]; cbn [Nat.mul]; [reflexivity|reflexivity|cbn [firstn image]; apply firstn_nil|].
  cbn [firstn]. unfold image in *. cbn [map concat]. rewrite firstn_app. rewrite Hw. replace (w + k * w - w)%nat with (k * w)%nat by lia. rewrite IH. f_equal. apply firstn_all2. rewrite Hw. lia.
Qed.
Lemma length_image {A} (enc : A -> list Z) w (Hw : forall a, length (enc a) = w) l : length (image enc l) = (length l * w)%nat.
Proof. unfold image. induction l as [|x l IH]; [reflexivity|]. cbn [map concat length Nat.mul]. rewrite app_length, IH, Hw. reflexivity. Qed.
Definition same (k : Z) {A} (l l' : list A) : Prop := firstn (Z.to_nat k) l' = firstn (Z.to_nat k) l.
Lemma same_le {A} (l l' : list A) k k' : k' <= k -> same k l l' -> same k' l l'.
Proof. unfold same. intros H E. replace (Z.to_nat k') with (Nat.min (Z.to_nat k') (Z.to_nat k)) by lia. rewrite <- !firstn_firstn, E. reflexivity. Qed.
Lemma put_same {A} i (x : A) l : same (Z.of_nat i) l (put i x l).
Proof. unfold same. rewrite Nat2Z.id. revert i. induction l as [|y l IH]; intros [|i]; cbn; [reflexivity..|]. f_equal. apply IH. Qed.
Lemma insert_same {A} i (x : A) l : (i <= length l)%nat -> same (Z.of_nat i) l (insert i x l).
Proof. unfold same. rewrite Nat2Z.id. revert i. induction l as [|y l IH]; intros [|i] H; cbn in *; [reflexivity|lia|reflexivity|]. f_equal. apply IH. lia. Qed.
Lemma app_same {A} (l : list A) x : same (count l) l (l ++ x).
Proof. unfold same, count. rewrite Nat2Z.id, firstn_app, Nat.sub_diag, app_nil_r. reflexivity. Qed.
Lemma fit_same {A} (z : A) n l : same (Z.min n (count l)) l (fit z (Z.to_nat n) l).
Proof. unfold same, count. rewrite fit_eq, firstn_app, firstn_firstn. replace (Nat.min _ _) with (Z.to_nat (Z.min n (Z.of_nat (length l)))) by lia. rewrite firstn_length. replace (Z.to_nat (Z.min n (Z.of_nat (length l))) - Nat.min (Z.to_nat n) (length l))%nat with 0%nat by lia. apply app_nil_r. Qed.
Lemma count_nonneg {A} (l : list A) : 0 <= count l. Proof. unfold count. lia. Qed.

Definition holds (m : mesh) (vs : list stroke_vertex) (ts : list triple) : Prop := stroke_format (fmt m) /\ rep m (map to_vertex vs) ts.
Lemma writable_small m t : writable m t = true -> small (limit_of (fmt m)) t.
Proof. unfold writable, small, limit_of. destruct t as [[a b] c]. intros H. repeat (apply andb_true_iff in H; destruct H as (H & ?)). lia. Qed.

(** one call: what it leaves alone *)
Definition leaves (c0 c1 c0' : Z) {A} (l l' : list A) : Prop := exists b, c1 = Z.min c0 b /\ 0 <= b <= count l /\ b <= count l' /\ same b l l' /\ c0' = count l'.
Lemma vertex_count m vs ts : holds m vs ts -> vcount m = count vs /\ tcount m = count ts.
Proof. intros (_ & R). rewrite (rep_vc _ _ _ R), (rep_tc _ _ _ R). unfold count. rewrite map_length. auto. Qed.
Lemma count_put {A} i (x : A) l : count (put i x l) = count l. Proof. unfold count. rewrite put_length. reflexivity. Qed.
Lemma count_insert {A} i (x : A) l : count (insert i x l) = count l + 1.
Proof. unfold count. revert i. induction l as [|y l IH]; intros [|i]; cbn [insert length] in *; try lia. specialize (IH i). lia. Qed.
Lemma count_fit {A} (z : A) n l : 0 <= n -> count (fit z (Z.to_nat n) l) = n. Proof. intros H. unfold count. rewrite fit_length. lia. Qed.

Lemma step_leaves v c v' vs ts : holds (vmesh v) vs ts -> 0 <= first_mutated_vertex v <= count vs -> 0 <= first_mutated_triangle v <= count ts -> step v c = Some v' ->
  exists vs' ts', holds (vmesh v') vs' ts' /\ leaves (first_mutated_vertex v) (first_mutated_vertex v') (vcount (vmesh v')) vs vs' /\ leaves (first_mutated_triangle v) (first_mutated_triangle v') (tcount (vmesh v')) ts ts'.
Proof.
  intros H BV BT E. pose proof (vertex_count _ _ _ H) as (VC & TC). destruct H as (F & R).
  assert (DO : forall o vs' ts', can (limit_of (fmt (vmesh v))) (vs, ts) o -> does (vs, ts) o (vs', ts') -> holds (do_op (vmesh v) o) vs' ts').
  { intros o vs' ts' C D. split; [rewrite do_op_fmt; exact F|]. apply (do_op_rep _ _ _ _ _ _ F R C D). }
  assert (KV : leaves (first_mutated_vertex v) (first_mutated_vertex v) (count vs) vs vs) by (exists (count vs); unfold same; repeat split; try reflexivity; lia).
  assert (KT : leaves (first_mutated_triangle v) (first_mutated_triangle v) (count ts) ts ts) by (exists (count ts); unfold same; repeat split; try reflexivity; lia).
  assert (LV : forall i x, 0 <= i < count vs -> leaves (first_mutated_vertex v) (Z.min (first_mutated_vertex v) i) (count vs) vs (put (Z.to_nat i) x vs)).
  { intros i x I. exists i. rewrite count_put. pose proof (put_same (Z.to_nat i) x vs) as P. rewrite Z2Nat.id in P by lia. repeat split; try exact P; lia. }
  assert (FIN : forall v'' vs' ts', holds (vmesh v'') vs' ts' -> leaves (first_mutated_vertex v) (first_mutated_vertex v'') (count vs') vs vs' -> leaves (first_mutated_triangle v) (first_mutated_triangle v'') (count ts') ts ts' ->
    exists vs' ts', holds (vmesh v'') vs' ts' /\ leaves (first_mutated_vertex v) (first_mutated_vertex v'') (vcount (vmesh v'')) vs vs' /\ leaves (first_mutated_triangle v) (first_mutated_triangle v'') (tcount (vmesh v'')) ts ts').
  { intros v'' vs' ts' H A B. exists vs', ts'. destruct (vertex_count _ _ _ H) as (-> & ->). auto. }
  assert (CH : forall i c m, with_vertex v i (mutated_vertex v m i) = Some v' -> m = do_op (vmesh v) (Change i c) ->
    exists vs' ts', holds (vmesh v') vs' ts' /\ leaves (first_mutated_vertex v) (first_mutated_vertex v') (vcount (vmesh v')) vs vs' /\ leaves (first_mutated_triangle v) (first_mutated_triangle v') (tcount (vmesh v')) ts ts').
  { intros i c0 m W ->. unfold with_vertex in W. destruct ((0 <=? i) && (i <? vcount (vmesh v))) eqn:G; [|discriminate]. injection W as <-. assert (I : 0 <= i < count vs) by (apply andb_true_iff in G; lia).
    destruct (nth_lt vs i I) as (x & X). apply (FIN _ (put (Z.to_nat i) (changed c0 x) vs) ts); [apply (DO (Change i c0)); [exact I|]; exists x; auto| |exact KT]. rewrite count_put. apply LV, I. }
  destruct c as [x|t|i x|i d|i d|i l|i l|j t|j t|nv nt]; cbn [step] in E.
  - destruct (Z.ltb_spec (vcount (vmesh v) + 1) (2 ^ 32)) as [G|G]; [|discriminate]. injection E as <-. apply (FIN _ (vs ++ [StrokeVertex (position x) (stored (non_position x))]) ts); [|..].
    + apply (DO (Append x)); [cbn; lia|]. eexists. split; [apply stored_kept|reflexivity].
    + exists (count vs). cbn [first_mutated_vertex]. rewrite count_app. repeat split; try lia. apply app_same.
    + exact KT.
  - destruct (Z.ltb_spec (tcount (vmesh v) + 1) (2 ^ 32)) as [G|G]; [|discriminate]. destruct (writable (vmesh v) t) eqn:W; [|discriminate]. injection E as <-. apply (FIN _ vs (ts ++ [t])); [|..].
    + apply (DO (AddTriangle t)); [|reflexivity]. split; [lia|apply writable_small, W].
    + exact KV.
    + exists (count ts). cbn [first_mutated_triangle]. rewrite count_app. repeat split; try lia. apply app_same.
  - unfold with_vertex in E. destruct ((0 <=? i) && (i <? vcount (vmesh v))) eqn:G; [|discriminate]. injection E as <-. assert (I : 0 <= i < count vs) by (apply andb_true_iff in G; lia).
    apply (FIN _ (put (Z.to_nat i) (StrokeVertex (position x) (stored (non_position x))) vs) ts); [|rewrite count_put; apply LV, I|exact KT].
    apply (DO (Put i x)); [exact I|]. eexists. split; [apply stored_kept|reflexivity].
  - apply (CH i (SideDerivative d) _ E). reflexivity.
  - apply (CH i (ForwardDerivative d) _ E). reflexivity.
  - apply (CH i (SideLabel l) _ E). reflexivity.
  - apply (CH i (ForwardLabel l) _ E). reflexivity.
  - destruct ((0 <=? j) && (j <? tcount (vmesh v))) eqn:G; [|discriminate]. destruct (writable (vmesh v) t) eqn:W; [|discriminate]. injection E as <-. assert (J : 0 <= j < count ts) by (apply andb_true_iff in G; lia).
    apply (FIN _ vs (put (Z.to_nat j) t ts)); [apply (DO (PutTriangle j t)); [split; [exact J|apply writable_small, W]|reflexivity]|exact KV|].
    exists j. rewrite count_put. pose proof (put_same (Z.to_nat j) t ts) as P. rewrite Z2Nat.id in P by lia. repeat split; try exact P; lia.
  - destruct ((0 <=? j) && (j <=? tcount (vmesh v)) && (tcount (vmesh v) + 1 <? 2 ^ 32)) eqn:G; [|discriminate]. destruct (writable (vmesh v) t) eqn:W; [|discriminate]. injection E as <-.
    apply andb_true_iff in G. destruct G as (G & G3). apply andb_true_iff in G. destruct G as (G1 & G2). assert (J : 0 <= j <= count ts) by lia.
    apply (FIN _ vs (insert (Z.to_nat j) t ts)); [split; [exact F|apply rep_insert_triangle; [exact R|exact J|lia|apply writable_small, W]]|exact KV|].
    exists j. rewrite count_insert. assert (L : (Z.to_nat j <= length ts)%nat) by (unfold count in J; lia). pose proof (insert_same (Z.to_nat j) t ts L) as P. rewrite Z2Nat.id in P by lia. repeat split; try exact P; lia.
  - destruct (is_u32 nv && is_u32 nt) eqn:G; [|discriminate]. injection E as <-. unfold is_u32 in G. assert (0 <= nv < 2 ^ 32 /\ 0 <= nt < 2 ^ 32) as (NV & NT) by (rewrite !andb_true_iff in G; lia).
    pose proof (count_nonneg vs). pose proof (count_nonneg ts).
    apply (FIN _ (fit blank_vertex (Z.to_nat nv) vs) (fit (0, 0, 0) (Z.to_nat nt) ts)); [apply (DO (Truncate nv nt)); [split; assumption|reflexivity]| |].
    + exists (Z.min nv (count vs)). rewrite count_fit by lia. cbn [first_mutated_vertex]. repeat split; try lia. apply fit_same.
    + exists (Z.min nt (count ts)). rewrite count_fit by lia. cbn [first_mutated_triangle]. repeat split; try lia. apply fit_same.
Qed.

(** the part of [l] below [k] is that of [l0] *)
Definition tracks (k : Z) {A} (l0 l : list A) : Prop := 0 <= k <= count l /\ k <= count l0 /\ same k l0 l.
Lemma tracks_start {A} (l : list A) : tracks (count l) l l.
Proof. unfold tracks, same. pose proof (count_nonneg l). repeat split; lia. Qed.
Lemma tracks_step {A} (l0 l l' : list A) c0 c1 n : tracks c0 l0 l -> leaves c0 c1 n l l' -> tracks c1 l0 l'.
Proof.
  intros (B & B0 & E) (b & -> & C & D & S & _). split; [lia|]. split; [lia|]. unfold same. transitivity (firstn (Z.to_nat (Z.min c0 b)) l); [apply (same_le _ _ b); [lia|exact S]|apply (same_le _ _ c0); [lia|exact E]].
Qed.
Lemma run_tracks cs : forall v v' vs0 ts0 vs ts, holds (vmesh v) vs ts -> tracks (first_mutated_vertex v) vs0 vs -> tracks (first_mutated_triangle v) ts0 ts -> run v cs = Some v' ->
  exists vs' ts', holds (vmesh v') vs' ts' /\ tracks (first_mutated_vertex v') vs0 vs' /\ tracks (first_mutated_triangle v') ts0 ts'.
Proof.
  induction cs as [|c cs IH]; intros v v' vs0 ts0 vs ts H TV TT E; cbn [run] in E.
  - injection E as <-. eauto.
  - destruct (step v c) as [w|] eqn:S; [|discriminate]. destruct (step_leaves v c w vs ts H (proj1 TV) (proj1 TT) S) as (vs' & ts' & H' & LV & LT).
    apply (IH w v' vs0 ts0 vs' ts' H' (tracks_step _ _ _ _ _ _ TV LV) (tracks_step _ _ _ _ _ _ TT LT) E).
Qed.

(** an offset below which nothing changed; none if nothing at all changed *)
Definition sound (o : option Z) {A} (l0 l : list A) : Prop :=
  match o with None => l = l0 | Some k => tracks k l0 l end.
Lemma sound_min {A} (l0 l l' : list A) a b : sound a l0 l -> sound b l l' -> sound (get_min_value a b) l0 l'.
Proof.
  destruct a as [x|], b as [y|]; cbn; intros HA HB; try (subst; auto; fail).
  destruct HA as (A1 & A2 & A3), HB as (B1 & B2 & B3). split; [lia|]. split; [lia|]. unfold same. transitivity (firstn (Z.to_nat (Z.min x y)) l); [apply (same_le _ _ y); [lia|exact B3]|apply (same_le _ _ x); [lia|exact A3]].
Qed.
Lemma tracks_all {A} (l0 l : list A) : tracks (count l) l0 l -> count l = count l0 -> l = l0.
Proof. unfold tracks, same, count. rewrite !Nat2Z.id. intros (_ & _ & E) L. rewrite firstn_all in E. rewrite E. apply Nat2Z.inj in L. rewrite L. apply firstn_all. Qed.
Lemma extend_sound v cs v' u vs ts : holds (vmesh v) vs ts -> extend v cs = Some (v', u) ->
  exists vs' ts', holds (vmesh v') vs' ts' /\ sound (first_vertex_offset u) vs vs' /\ exists o, sound o ts ts' /\ first_index_offset u = option_map (fun k => u32 (3 * k)) o.
Proof.
  intros H E. unfold extend in E. set (v0 := reset_mutation_tracking v) in E. destruct (vertex_count _ _ _ H) as (VC & TC).
  destruct (run v0 cs) as [w|] eqn:RN; [|discriminate]. injection E as <- <-.
  destruct (run_tracks cs v0 w vs ts vs ts H) as (vs' & ts' & H' & TV & TT); [cbn; rewrite VC; apply tracks_start|cbn; rewrite TC; apply tracks_start|exact RN|].
  exists vs', ts'. destruct (vertex_count _ _ _ H') as (VC' & TC'). split; [exact H'|]. unfold construct_update. cbn [first_vertex_offset first_index_offset vmesh v0 reset_mutation_tracking]. rewrite VC, TC, VC', TC'. split.
  - destruct (Z.eqb_spec (first_mutated_vertex w) (count vs')) as [e|e]; cbn [negb orb]; [|exact TV]. destruct (Z.eqb_spec (count vs') (count vs)) as [e'|e']; cbn [negb]; [|exact TV]. cbn. rewrite e in TV. apply tracks_all; assumption.
  - exists (if negb (first_mutated_triangle w =? count ts') || negb (count ts' =? count ts) then Some (first_mutated_triangle w) else None).
    destruct (Z.eqb_spec (first_mutated_triangle w) (count ts')) as [e|e]; cbn [negb orb]; [|split; [exact TT|reflexivity]]. destruct (Z.eqb_spec (count ts') (count ts)) as [e'|e']; cbn [negb]; [|split; [exact TT|reflexivity]]. split; [|reflexivity]. cbn. rewrite e in TT. apply tracks_all; assumption.
Qed.
(** the same for numbers of indices, three to a triangle *)
Definition sound3 (o : option Z) (l0 l : list triple) : Prop :=
  match o with None => l = l0 | Some n => exists k, 0 <= n <= 3 * k /\ tracks k l0 l end.
Lemma u32_le z : 0 <= z -> 0 <= u32 z <= z.
Proof. intros H. unfold u32. split; [apply Z.mod_pos_bound; lia|apply Z.mod_le; lia]. Qed.
Lemma sound_sound3 o l0 l : sound o l0 l -> sound3 (option_map (fun k => u32 (3 * k)) o) l0 l.
Proof. destruct o as [k|]; [|auto]. cbn [option_map sound3 sound]. intros T. exists k. split; [apply u32_le; destruct T; lia|exact T]. Qed.
Lemma sound3_min l0 l l' a b : sound3 a l0 l -> sound3 b l l' -> sound3 (get_min_value a b) l0 l'.
Proof.
  destruct a as [x|], b as [y|]; cbn [sound3 get_min_value]; intros HA HB; try (subst; auto; fail).
  - destruct HA as (p & P & TP), HB as (q & Q & TQ). exists (Z.min p q). split; [lia|]. apply (sound_min l0 l l' (Some p) (Some q)); assumption.
Qed.
Lemma extends_sound css : forall v u v' u' vs0 ts0 vs ts, holds (vmesh v) vs ts -> sound (first_vertex_offset u) vs0 vs -> sound3 (first_index_offset u) ts0 ts -> extends v u css = Some (v', u') ->
  exists vs' ts', holds (vmesh v') vs' ts' /\ sound (first_vertex_offset u') vs0 vs' /\ sound3 (first_index_offset u') ts0 ts'.
Proof.
  induction css as [|cs css IH]; intros v u v' u' vs0 ts0 vs ts H SV ST E; cbn [extends] in E.
  - injection E as <- <-. eauto.
  - destruct (extend v cs) as [[w x]|] eqn:X; [|discriminate]. destruct (extend_sound v cs w x vs ts H X) as (vs' & ts' & H' & SV' & o & ST' & EO).
    apply (IH w (add u x) v' u' vs0 ts0 vs' ts' H'); [| |exact E]; cbn [add first_vertex_offset first_index_offset]; [apply (sound_min _ vs); assumption|]. rewrite EO. apply (sound3_min _ ts); [exact ST|apply sound_sound3, ST'].
Qed.

Lemma refresh_sound {A} (enc : A -> list Z) w (Hw : forall a, length (enc a) = w) k n w' l0 l : tracks k l0 l -> (n * w' <= Z.to_nat k * w)%nat ->
  firstn (n * w') (image enc l0) ++ skipn (n * w') (image enc l) = image enc l.
Proof.
  intros (_ & _ & E) N. rewrite <- (firstn_skipn (n * w') (image enc l)) at 2. f_equal. replace (n * w')%nat with (Nat.min (n * w') (Z.to_nat k * w)) by lia. rewrite <- !firstn_firstn. f_equal. rewrite !(firstn_image enc w Hw). f_equal. symmetry. exact E.
Qed.

Lemma new_holds full l i f : full_mesh_format = Some full -> create l i = Some f -> unpacked_equiv f full = true -> holds (vmesh (new_view (new_mesh f))) [] [].
Proof. intros E C U. split; [apply (equivalent _ _ _ _ C E U)|]. split; cbn; try reflexivity; intros ? []. Qed.
Lemma tracks_now {A} (l : list A) n : n = count l -> tracks n l l. Proof. intros ->. apply tracks_start. Qed.
Lemma history_holds full l i f hist v : full_mesh_format = Some full -> create l i = Some f -> unpacked_equiv f full = true -> run (new_view (new_mesh f)) hist = Some v -> exists vs ts, holds (vmesh v) vs ts.
Proof.
  intros E C U R. destruct (run_tracks hist (new_view (new_mesh f)) v [] [] [] [] (new_holds full l i f E C U)) as (vs & ts & H & _); [apply tracks_now; reflexivity|apply tracks_now; reflexivity|exact R|]. exists vs, ts. exact H.
Qed.

(** After any calls, and then any number of ExtendStrokes whose calls pass their checks: a renderer that has the bytes of the mesh from before,
    keeps those below the offsets of the added-up update and copies the others, has the bytes of the mesh now. *)
Theorem C67_refresh full l i f hist v0 css v u : full_mesh_format = Some full -> create l i = Some f -> unpacked_equiv f full = true ->
  run (new_view (new_mesh f)) hist = Some v0 -> extends v0 no_update css = Some (v, u) ->
  refresh (first_vertex_offset u) (ustride f) (vdata (vmesh v0)) (vdata (vmesh v)) = vdata (vmesh v) /\
  refresh (first_index_offset u) (istride f) (idata (vmesh v0)) (idata (vmesh v)) = idata (vmesh v).
Proof.
  intros E C U R X. destruct (history_holds full l i f hist v0 E C U R) as (vs0 & ts0 & H0).
  destruct (extends_sound css v0 no_update v u vs0 ts0 vs0 ts0 H0 eq_refl eq_refl X) as (vs & ts & H & SV & ST).
  assert (FS : forall w c w', step w c = Some w' -> fmt (vmesh w') = fmt (vmesh w)).
  { intros w c w' S. destruct c as [x|t|j x|j d|j d|j b|j b|j t|j t|nv nt]; cbn [step] in S; unfold with_vertex in S;
      match type of S with (if ?b then _ else _) = _ => destruct b; [|discriminate] end; injection S as <-; try reflexivity; destruct x as [p [o [[h s] li] sd sl fd fl uv]]; reflexivity. }
  assert (FR : forall cs w w', run w cs = Some w' -> fmt (vmesh w') = fmt (vmesh w)).
  { induction cs as [|c cs IH]; intros w w' Q; cbn [run] in Q; [injection Q as <-; reflexivity|]. destruct (step w c) as [w1|] eqn:S; [|discriminate]. rewrite (IH _ _ Q). apply (FS _ _ _ S). }
  assert (FX : forall cs w a w' b, extends w a cs = Some (w', b) -> fmt (vmesh w') = fmt (vmesh w)).
  { induction cs as [|c cs IH]; intros w a w' b Q; cbn [extends] in Q; [injection Q as <- <-; reflexivity|]. unfold extend in Q. destruct (run (reset_mutation_tracking w) c) as [w1|] eqn:S; [|discriminate]. rewrite (IH _ _ _ _ Q). rewrite (FR _ _ _ S). reflexivity. }
  pose proof (FR _ _ _ R) as F0. cbn in F0. pose proof (FX _ _ _ _ _ X) as F1. rewrite F0 in F1.
  destruct H0 as (_ & R0), H as (_ & R1). rewrite (rep_v _ _ _ R0), (rep_v _ _ _ R1), (rep_t _ _ _ R0), (rep_t _ _ _ R1), F0, F1. split.
  - destruct (first_vertex_offset u) as [k|]; cbn [sound refresh] in *; [|rewrite SV; reflexivity]. apply (refresh_sound _ (ustride f) (venc_length _) k); [|lia].
    destruct SV as (A & B & D). unfold tracks, count, same in *. rewrite !map_length, !firstn_map, D. auto.
  - destruct (first_index_offset u) as [n|]; cbn [sound3 refresh] in *; [|rewrite ST; reflexivity]. destruct ST as (k & N & T). apply (refresh_sound _ (3 * istride f) (tri_bytes_length _) k); [exact T|]. nia.
Qed.

(** If an ExtendStroke only appends, exactly what is new is reported: the offsets are the counts from before, or nothing. *)
Definition appends (c : call) : bool := match c with AppendVertex _ | AppendTriangleIndices _ => true | _ => false end.
Definition is_vertex (c : call) : bool := match c with AppendVertex _ => true | _ => false end.
Theorem C67_appended full l i f hist v0 cs v u : full_mesh_format = Some full -> create l i = Some f -> unpacked_equiv f full = true ->
  run (new_view (new_mesh f)) hist = Some v0 -> extend v0 cs = Some (v, u) -> forallb appends cs = true ->
  first_vertex_offset u = (if existsb is_vertex cs then Some (vcount (vmesh v0)) else None) /\
  first_index_offset u = (if existsb (fun c => negb (is_vertex c)) cs then Some (u32 (3 * tcount (vmesh v0))) else None).
Proof.
  intros E C U R X AP. destruct (history_holds full l i f hist v0 E C U R) as (vs0 & ts0 & H0). unfold extend in X. set (r := reset_mutation_tracking v0) in X. destruct (run r cs) as [w|] eqn:RN; [|discriminate]. injection X as <- <-.
  assert (K : forall cs w w' vs ts, holds (vmesh w) vs ts -> 0 <= first_mutated_vertex w <= count vs -> 0 <= first_mutated_triangle w <= count ts -> forallb appends cs = true -> run w cs = Some w' ->
    first_mutated_vertex w' = first_mutated_vertex w /\ first_mutated_triangle w' = first_mutated_triangle w /\
    vcount (vmesh w) <= vcount (vmesh w') /\ tcount (vmesh w) <= tcount (vmesh w') /\
    (vcount (vmesh w') = vcount (vmesh w) <-> existsb is_vertex cs = false) /\ (tcount (vmesh w') = tcount (vmesh w) <-> existsb (fun c => negb (is_vertex c)) cs = false)).
  { clear. induction cs as [|c cs IH]; intros w w' vs ts H BV BT AP RN; cbn [run forallb existsb] in *.
    - injection RN as <-. repeat split; try reflexivity; lia.
    - apply andb_true_iff in AP. destruct AP as (A & AP). destruct (step w c) as [x|] eqn:S; [|discriminate].
      destruct (step_leaves w c x vs ts H BV BT S) as (vs' & ts' & H' & (b & B1 & B2 & B3 & _ & _) & (d & D1 & D2 & D3 & _ & _)).
      destruct (vertex_count _ _ _ H) as (VC & TC). destruct (vertex_count _ _ _ H') as (VC' & TC').
      specialize (IH x w' vs' ts' H' ltac:(lia) ltac:(lia) AP RN). destruct IH as (I1 & I2 & I3 & I4 & I5 & I6).
      destruct H as (F & RP). destruct c as [y|t| | | | | | | |]; try discriminate A; cbn [step] in S.
      + destruct (Z.ltb_spec (vcount (vmesh w) + 1) (2 ^ 32)) as [G|G]; [|discriminate]. injection S as <-. cbn [vmesh first_mutated_vertex first_mutated_triangle] in *.
        assert (P : rep (append_to_mesh (vmesh w) y) (map to_vertex (vs ++ [StrokeVertex (position y) (stored (non_position y))])) ts) by (apply append_rep; [exact F|exact RP|lia]).
        assert (V1 : vcount (append_to_mesh (vmesh w) y) = vcount (vmesh w) + 1) by (rewrite (rep_vc _ _ _ P), VC; unfold count; rewrite map_length, app_length; cbn; lia).
        assert (T1 : tcount (append_to_mesh (vmesh w) y) = tcount (vmesh w)) by (rewrite (rep_tc _ _ _ P), TC; reflexivity).
        cbn [is_vertex negb orb]. rewrite T1 in *. repeat split; try tauto; try lia; try discriminate.
      + destruct (Z.ltb_spec (tcount (vmesh w) + 1) (2 ^ 32)) as [G|G]; [|discriminate]. destruct (writable (vmesh w) t) eqn:W; [|discriminate]. injection S as <-. cbn [vmesh first_mutated_vertex first_mutated_triangle] in *.
        assert (P : rep (append_triangle_indices (vmesh w) t) (map to_vertex vs) (ts ++ [t])) by (apply rep_append_triangle; [exact RP|lia|apply writable_small, W]).
        assert (V1 : vcount (append_triangle_indices (vmesh w) t) = vcount (vmesh w)) by (rewrite (rep_vc _ _ _ P), VC; unfold count; rewrite map_length; reflexivity).
        assert (T1 : tcount (append_triangle_indices (vmesh w) t) = tcount (vmesh w) + 1) by (rewrite (rep_tc _ _ _ P), TC; apply count_app).
        cbn [is_vertex negb orb]. rewrite V1 in *. repeat split; try tauto; try lia; try discriminate. }
  destruct (vertex_count _ _ _ H0) as (VC & TC). pose proof (count_nonneg vs0). pose proof (count_nonneg ts0).
  destruct (K cs r w vs0 ts0 H0) as (K1 & K2 & K3 & K4 & K5 & K6); [cbn; lia|cbn; lia|exact AP|exact RN|]. cbn [r reset_mutation_tracking vmesh first_mutated_vertex first_mutated_triangle] in *.
  unfold construct_update. cbn [first_vertex_offset first_index_offset]. rewrite K1, K2. cbn [r reset_mutation_tracking vmesh first_mutated_vertex first_mutated_triangle]. split.
  - destruct (existsb is_vertex cs); destruct (Z.eqb_spec (vcount (vmesh v0)) (vcount (vmesh w))) as [e|e]; destruct (Z.eqb_spec (vcount (vmesh w)) (vcount (vmesh v0))) as [e'|e']; cbn [negb orb]; try reflexivity; exfalso; try (apply e'; tauto); try (apply e; symmetry; tauto).
    assert (true = false) by tauto. discriminate.
  - destruct (existsb (fun c => negb (is_vertex c)) cs); destruct (Z.eqb_spec (tcount (vmesh v0)) (tcount (vmesh w))) as [e|e]; destruct (Z.eqb_spec (tcount (vmesh w)) (tcount (vmesh v0))) as [e'|e']; cbn [negb orb]; try reflexivity; exfalso; try (apply e'; tauto); try (apply e; symmetry; tauto).
    assert (true = false) by tauto. discriminate.
Qed.

(** ** A case: two vertices and two triangles; then one vertex is cut off and put back otherwise, and the second triangle changed; then one vertex is appended *)
Definition ex_vertex (x : Z) : stroke_vertex := StrokeVertex (fZ x, f1) (Attributes f0 (f0, f1, f0) (f1, f0) f1 (f0, f1) f0 (f0, f1)).
Definition ex_before : list call := [AppendVertex (ex_vertex 1); AppendVertex (ex_vertex 2); AppendTriangleIndices (0, 1, 2); AppendTriangleIndices (2, 1, 3)].
Definition ex_frames : list (list call) := [[Resize 1 2; AppendVertex (ex_vertex 5); SetTriangleIndices 1 (1, 2, 3)]; [AppendVertex (ex_vertex 4)]].
Definition ex_outcome : option (update * bool) :=
  match full_mesh_format with
  | Some f =>
      match run (new_view (new_mesh f)) ex_before with
      | Some v0 => match extends v0 no_update ex_frames with Some (v, u) => Some (u, Nat.eqb (length (vdata (vmesh v))) 168) | None => None end
      | None => None
      end
  | None => None
  end.
Example C67_applies : ex_outcome = Some (Update (Some 3) (Some 1), true). Proof. vm_compute. reflexivity. Qed.

Print Assumptions C67_refresh.
Print Assumptions C67_appended.
