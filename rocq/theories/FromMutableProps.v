(** C58: PartitionedMesh::FromMutableMesh and FromMutableMeshGroups *)
From Coq Require Import ZArith Bool Lia List.
From Verif Require Import F32 NumModel GeomModel MeshFormatModel MeshFormatProps PackModel PartitionModel PartitionProps MutableMeshModel MutableMeshSpec MutableMeshProofs MutableMeshProps MeshModel MeshSpec AsMeshesModel AsMeshesSpec AsMeshesFormat AsMeshesProofs AsMeshesProps PartitionedMeshModel PartitionedMeshSpec PartitionedMeshProps.
Import ListNotations.
Local Open Scope nat_scope.

(** ** What is asked for *)
(** A group of the call: a mutable mesh with vertices [g_vs] and triangles [g_ts], made by calls of the API, and the other arguments *)
Record given := Given { g_l : list (nat * nat); g_i : ifmt; g_vs : list vertex; g_ts : list triple; g_lines : list (list Z); g_omit : list nat; g_custom : list (option (list params)) }.
Definition stands_for (g : given) (a : mutable_group) : Prop :=
  exists f os, create (g_l g) (g_i g) = Some f /\ history (shape_bytes (g_l g)) (pos_index f) (index_limit (g_i g)) os (g_vs g) (g_ts g) /\ (count (g_vs g) * Z.of_nat (ustride f) <= 2 ^ 32)%Z /\
    (forall o v, In o (g_lines g) -> In v o -> (0 <= v)%Z) /\
    a = MutableGroup (calls (new_mesh f) os) (g_lines g) (g_omit g) (g_custom g).
(** the conditions of C56 on the coding parameters *)
Definition usual (g : given) : Prop := forall nf, create (left_attributes (g_l g) (g_omit g)) (g_i g) = Some nf ->
  (forall k t, nth_error (left_types (g_l g) (g_omit g)) k = Some t -> spread (values_of (g_l g) (g_omit g) (g_vs g) (used_vertices (g_ts g))) (g_custom g) k t) /\
  (forall t, nth_error (left_types (g_l g) (g_omit g)) (pos_index nf) = Some t -> position_calm (g_l g) (g_omit g) (g_vs g) (g_ts g) (g_custom g) (pos_index nf) t).
(** The documented errors: an outline has an index that is not that of a vertex; AsMeshes fails (C56); ... *)
Definition no_such_vertex (g : given) : Prop := exists o v, In o (g_lines g) /\ In v o /\ (count (g_vs g) <= v)%Z.
Definition not_packable (g : given) : Prop := g_ts g <> [] /\ ~ proper (g_l g) (g_omit g) (g_vs g) (g_ts g) (g_custom g).
(** ... and the error that is not documented: an outline all of whose vertices are in no triangle *)
Definition used (g : given) (v : Z) : bool := existsb (Z.eqb v) (used_vertices (g_ts g)).
Definition lost_outline (g : given) : Prop := exists o, In o (g_lines g) /\ o <> [] /\ forall v, In v o -> used g v = false.
Definition nonempty {A} (o : list A) : bool := match o with [] => false | _ => true end.
(** the vertex that a point of an outline stands for, when the meshes were made from the vertices [vms] *)
Definition stored_vertex (vms : list (list Z)) (p : Z * Z) : option Z :=
  match nth_error vms (Z.to_nat (fst p)) with Some us => nth_error us (Z.to_nat (snd p)) | None => None end.

Lemma forall2_length {A B} {P : A -> B -> Prop} {xs ys} : Forall2 P xs ys -> length xs = length ys.
Proof. induction 1; cbn; congruence. Qed.
Lemma forall2_at {A B} {P : A -> B -> Prop} {xs ys} : Forall2 P xs ys -> forall j x y, nth_error xs j = Some x -> nth_error ys j = Some y -> P x y.
Proof. induction 1 as [|a b xs ys H _ IH]; intros [|j] x y; cbn; try discriminate; [intros [= <-] [= <-]; exact H|apply IH]. Qed.
Lemma same_index {A B} (xs : list A) (ys : list B) j x : length xs = length ys -> nth_error xs j = Some x -> exists y, nth_error ys j = Some y.
Proof. intros L X. assert (j < length xs) by (apply nth_error_Some; congruence). destruct (nth_error ys j) as [y|] eqn:Y; [eauto|]. apply nth_error_None in Y. lia. Qed.

(** ** The map from vertices to pairs *)
Lemma find_app {A} (f : A -> bool) (a b : list A) : find f (a ++ b) = match find f a with Some x => Some x | None => find f b end.
Proof. induction a as [|x a IH]; cbn; [reflexivity|]. destruct (f x); [reflexivity|exact IH]. Qed.
Definition part_pairs (k s : nat) (us : list Z) : list (Z * ipair) := map (fun iv => (snd iv, (u16z (Z.of_nat k), u16z (Z.of_nat (fst iv))))) (combine (seq s (length us)) us).
Lemma part_find k v us : forall s,
  match find (fun e => Z.eqb (fst e) v) (part_pairs k s us) with
  | Some e => exists n, nth_error us n = Some v /\ e = (v, (u16z (Z.of_nat k), u16z (Z.of_nat (s + n))))
  | None => ~ In v us
  end.
Proof.
  induction us as [|u us IH]; intros s; [intros []|]. unfold part_pairs. cbn [length seq combine map find fst snd]. destruct (Z.eqb_spec u v) as [->|N].
  - exists 0. rewrite Nat.add_0_r. auto.
  - specialize (IH (S s)). unfold part_pairs in IH. destruct (find _ _) as [e|].
    + destruct IH as (n & A & B). exists (S n). rewrite Nat.add_succ_r. auto.
    + intros [A|A]; [apply N, A|apply IH, A].
Qed.
Definition pairs_from (s : nat) (parts : list part) : list (Z * ipair) := flat_map (fun kp => part_pairs (fst kp) 0 (vertex_indices (snd kp))) (combine (seq s (length parts)) parts).
Lemma pairs_find v parts : forall s,
  match find (fun e => Z.eqb (fst e) v) (pairs_from s parts) with
  | Some e => exists k us n, nth_error (map vertex_indices parts) k = Some us /\ nth_error us n = Some v /\ e = (v, (u16z (Z.of_nat (s + k)), u16z (Z.of_nat n))) /\
      forall k' us', k' < k -> nth_error (map vertex_indices parts) k' = Some us' -> ~ In v us'
  | None => forall us, In us (map vertex_indices parts) -> ~ In v us
  end.
Proof.
  induction parts as [|p parts IH]; intros s; [intros us []|]. unfold pairs_from. cbn [length seq combine flat_map fst snd]. rewrite find_app. pose proof (part_find s v (vertex_indices p) 0) as P. destruct (find _ (part_pairs _ _ _)) as [e|].
  - destruct P as (n & A & ->). exists 0, (vertex_indices p), n. rewrite Nat.add_0_r. cbn [map nth_error Nat.add]. repeat split; try assumption. intros k' us' L. lia.
  - specialize (IH (S s)). unfold pairs_from in IH. destruct (find _ _) as [e|].
    + destruct IH as (k & us & n & A & B & C & D). exists (S k), us, n. rewrite Nat.add_succ_r. repeat split; try assumption. intros [|k'] us' L; cbn [map nth_error]; [intros [= <-]; exact P|apply D; lia].
    + intros us [<-|I]; [exact P|apply IH, I].
Qed.
Lemma pairs_eq parts : partition_pairs parts = pairs_from 0 parts. Proof. reflexivity. Qed.
Lemma used_iff g v : used g v = true <-> In v (used_vertices (g_ts g)).
Proof. unfold used. rewrite existsb_exists. split; [intros (x & I & E); apply Z.eqb_eq in E; subst; exact I|]. intros I. exists v. rewrite Z.eqb_refl. auto. Qed.

(** ** One group *)
Section Group.
Variables (E : elem) (g : given) (a : mutable_group).
Hypothesis ST : stands_for g a.
Hypothesis US : usual g.
Notation parts := (partition_triangles (2 ^ 16) (g_ts g)).
Definition kept_lines : list (list ipair) := map (partition_outline (partition_pairs parts)) (filter nonempty (g_lines g)).
(** the meshes and the vertices they are made from: C56 *)
Definition meshes_for (ms : list imesh) (vms : list (list Z)) : Prop :=
  (g_ts g = [] /\ ms = [] /\ vms = []) \/
  (g_ts g <> [] /\ exists nf, create (left_attributes (g_l g) (g_omit g)) (g_i g) = Some nf /\ meshes_of E (g_l g) (g_i g) (g_omit g) (g_vs g) (g_ts g) (g_custom g) nf ms vms).
Lemma group_cases :
  (mesh_group (correct E) a = Refused /\ (no_such_vertex g \/ not_packable g)) \/
  (~ no_such_vertex g /\ ~ not_packable g /\ exists ms vms, as_meshes E (mg_mesh a) (mg_packing a) (mg_omit a) = Made ms /\ mesh_group (correct E) a = Made (Group ms kept_lines) /\
     meshes_for ms vms /\ (g_ts g <> [] -> vms = map vertex_indices parts)).
Proof.
  destruct ST as (f & os & CF & HI & SM & POS & ->). pose proof (RP _ _ _ _ _ _ CF HI) as R. unfold mesh_group. cbn [mg_mesh mg_outlines mg_omit mg_packing]. rewrite (rep_vc _ _ _ R).
  destruct (forallb (forallb (fun v => v <? count (g_vs g))%Z) (g_lines g)) eqn:FB.
  2: { left. split; [reflexivity|]. left. apply not_true_iff_false in FB. destruct (existsb (existsb (fun v => count (g_vs g) <=? v)%Z) (g_lines g)) eqn:EB.
    - apply existsb_exists in EB. destruct EB as (o & O & EB). apply existsb_exists in EB. destruct EB as (v & V & EB). apply Z.leb_le in EB. exists o, v. auto.
    - exfalso. apply FB. apply forallb_forall. intros o O. apply forallb_forall. intros v V. apply Z.ltb_lt. destruct (Z_lt_le_dec v (count (g_vs g))) as [L|L]; [exact L|]. exfalso. apply not_true_iff_false in EB. apply EB. apply existsb_exists. exists o. split; [exact O|]. apply existsb_exists. exists v. split; [exact V|apply Z.leb_le, L]. }
  assert (NS : ~ no_such_vertex g). { intros (o & v & O & V & L). rewrite forallb_forall in FB. specialize (FB o O). rewrite forallb_forall in FB. specialize (FB v V). apply Z.ltb_lt in FB. lia. }
  change (as_meshes_with (correct E) (calls (new_mesh f) os) (g_custom g) (g_omit g)) with (as_meshes E (calls (new_mesh f) os) (g_custom g) (g_omit g)).
  assert (KL : partition_outlines (calls (new_mesh f) os) (g_lines g) = kept_lines). { unfold partition_outlines, kept_lines. rewrite (all_triangles_eq _ _ _ R). reflexivity. }
  rewrite KL. destruct (as_cases E _ _ f (g_omit g) os _ _ (g_custom g) CF HI SM) as [(T & EQ)|[(T & P & EQ)|(T & P & nf & c & CN & _ & EQ)]].
  - right. split; [exact NS|]. split; [intros [X _]; contradiction|]. exists [], []. rewrite EQ. split; [reflexivity|]. split; [reflexivity|]. split; [left; auto|contradiction].
  - left. rewrite EQ. split; [reflexivity|]. right. split; assumption.
  - clear EQ. destruct (US nf CN) as [SP PC]. destruct (made_parts E _ _ f (g_omit g) os _ _ (g_custom g) nf CF HI SM T P CN SP PC) as (ms & vms & EQ & EV & MO). right. split; [exact NS|]. split; [intros [_ X]; contradiction|].
    exists ms, vms. rewrite EQ. split; [reflexivity|]. split; [reflexivity|]. split; [right; eauto|auto].
Qed.
(** what is stored for an outline *)
Definition outline_reads (vms : list (list Z)) (o : list Z) (ps : list ipair) : Prop :=
  map (stored_vertex vms) ps = map Some (filter (used g) o) /\
  forall p, In p ps -> (0 <= fst p)%Z /\ (0 <= snd p)%Z /\ forall v k us, stored_vertex vms p = Some v -> k < Z.to_nat (fst p) -> nth_error vms k = Some us -> ~ In v us.
Lemma no_triangles_unused v : g_ts g = [] -> used g v = false.
Proof. intros T. unfold used. rewrite T. reflexivity. Qed.
Lemma outline_stored vms o : (g_ts g = [] /\ vms = [] \/ g_ts g <> [] /\ vms = map vertex_indices parts) -> (Z.of_nat (length vms) <= 2 ^ 16)%Z -> outline_reads vms o (partition_outline (partition_pairs parts) o).
Proof.
  intros V L. unfold outline_reads, partition_outline. assert (STEP : forall v, match find_pair (partition_pairs parts) v with
     | Some p => used g v = true /\ stored_vertex vms p = Some v /\ (0 <= fst p)%Z /\ (0 <= snd p)%Z /\ forall k us, k < Z.to_nat (fst p) -> nth_error vms k = Some us -> ~ In v us
     | None => used g v = false end).
  { intros v. unfold find_pair. pose proof (pairs_find v parts 0) as F. rewrite pairs_eq. destruct (find _ _) as [e|]; cbn [option_map].
    - destruct F as (k & us & n & A & B & -> & D). cbn [fst snd Nat.add]. assert (UV : used g v = true). { apply used_iff. apply part_used. rewrite nth_error_map in A. destruct (nth_error parts k) as [p|] eqn:PK; [|discriminate]. injection A as <-. exists p. split; [apply (nth_error_In _ _ PK)|apply (nth_error_In _ _ B)]. }
      destruct V as [[T _]|[T V]]; [rewrite (no_triangles_unused v T) in UV; discriminate|]. subst vms. assert (KB : k < length (map vertex_indices parts)) by (apply nth_error_Some; congruence). assert (NB : n < length us) by (apply nth_error_Some; congruence).
      assert (UB : (Z.of_nat (length us) <= 2 ^ 16)%Z). { rewrite nth_error_map in A. destruct (nth_error parts k) as [p|] eqn:PK; [|discriminate]. injection A as <-. apply (part_nonempty (g_ts g) p T (nth_error_In _ _ PK)). }
      unfold u16z. rewrite !Z.mod_small by lia. split; [exact UV|]. unfold stored_vertex. cbn [fst snd]. rewrite !Nat2Z.id, A. split; [exact B|]. split; [lia|]. split; [lia|]. intros k' us' K'. apply D. exact K'.
    - destruct (used g v) eqn:UV; [|reflexivity]. exfalso. apply used_iff in UV. apply part_used in UV. destruct UV as (p & P & I). apply (F (vertex_indices p)); [apply in_map, P|exact I]. }
  induction o as [|v o [IH1 IH2]]; [split; [reflexivity|intros p []]|]. cbn [flat_map filter]. specialize (STEP v). destruct (find_pair _ v) as [p|].
  - destruct STEP as (UV & SV & A & B & C). rewrite UV. cbn [app map]. split; [rewrite SV, IH1; reflexivity|]. intros q [<-|Q]; [|apply IH2, Q]. split; [exact A|]. split; [exact B|]. intros w k us W. rewrite SV in W. injection W as <-. apply C.
  - rewrite STEP. cbn [app]. split; assumption.
Qed.
Lemma meshes_length ms vms : meshes_for ms vms -> length ms = length vms.
Proof. intros [(_ & -> & ->)|(_ & nf & _ & c & kx & ky & F & _)]; [reflexivity|apply (forall2_length F)]. Qed.
Lemma meshes_pieces ms vms : meshes_for ms vms -> exists nf, forall j im us, nth_error ms j = Some im -> nth_error vms j = Some us ->
  create (left_attributes (g_l g) (g_omit g)) (g_i g) = Some (iformat im) /\ iformat im = nf /\ ivcount im = Z.of_nat (length us) /\ (0 < itcount im)%Z.
Proof.
  intros [(_ & -> & ->)|(_ & nf & CN & c & kx & ky & F & _)]; [exists default_format; intros [|j]; discriminate|]. exists nf. intros j im us J U. destruct (forall2_at F j im us J U) as (A & _ & B & _ & _ & _ & C & _). rewrite CN in A. injection A as A. rewrite <- A. auto.
Qed.
Lemma group_formats ms vms : meshes_for ms vms -> formats_made (imesh_ops E) ms.
Proof.
  intros MF im I. destruct (meshes_pieces ms vms MF) as (nf & P). destruct (In_nth_error _ _ I) as (j & J). destruct (same_index ms vms j im (meshes_length _ _ MF) J) as (us & U). destruct (P j im us J U) as (C & _). cbn. eauto.
Qed.
Lemma group_good ms vms : meshes_for ms vms -> (g_ts g <> [] -> vms = map vertex_indices parts) -> (Z.of_nat (length ms) <= 65535)%Z ->
  (good_group (imesh_ops E) (Group ms kept_lines) <-> ~ lost_outline g).
Proof.
  intros MF EV L. pose proof (meshes_length _ _ MF) as LE. destruct (meshes_pieces ms vms MF) as (nf & P).
  assert (V : g_ts g = [] /\ vms = [] \/ g_ts g <> [] /\ vms = map vertex_indices parts) by (destruct MF as [(A & _ & B)|(A & _)]; auto).
  assert (OS : forall o, outline_reads vms o (partition_outline (partition_pairs parts) o)) by (intros o; apply outline_stored; [exact V|lia]).
  split.
  - intros [_ _ OG] (o & O & NE & UN). destruct (OG (partition_outline (partition_pairs parts) o)) as [X _]; [apply in_map, filter_In; split; [exact O|destruct o; [contradiction|reflexivity]]|]. apply X. destruct (OS o) as [Q _].
    assert (FN : filter (used g) o = []). { clear -UN. induction o as [|v o IH]; [reflexivity|]. cbn. rewrite (UN v (or_introl eq_refl)). apply IH. intros w W. apply UN. right. exact W. }
    rewrite FN in Q. destruct (partition_outline _ o); [reflexivity|discriminate].
  - intros NL. constructor; cbn [g_meshes g_outlines].
    + assert (K : forall im, In im ms -> iformat im = nf). { intros im I. destruct (In_nth_error _ _ I) as (j & J). destruct (same_index ms vms j im LE J) as (us & U). apply (P j im us J U). }
      intros x y X Y. cbn. rewrite (K x X), (K y Y). reflexivity.
    + intros im I. destruct (In_nth_error _ _ I) as (j & J). destruct (same_index ms vms j im LE J) as (us & U). destruct (P j im us J U) as (_ & _ & _ & T). cbn. lia.
    + intros ps PS. apply in_map_iff in PS. destruct PS as (o & <- & O). apply filter_In in O. destruct O as [O NE]. destruct (OS o) as [Q1 Q2]. split.
      * intros EQ. rewrite EQ in Q1. cbn in Q1. apply NL. exists o. split; [exact O|]. split; [intros ->; discriminate|]. intros v I. destruct (used g v) eqn:UV; [|reflexivity]. exfalso. assert (IF : In v (filter (used g) o)) by (apply filter_In; auto). destruct (filter (used g) o); [destruct IF|discriminate].
      * intros mi vi I. destruct (Q2 (mi, vi) I) as (A & B & _). cbn [fst snd] in A, B. assert (SV : In (stored_vertex vms (mi, vi)) (map Some (filter (used g) o))) by (rewrite <- Q1; apply in_map, I). apply in_map_iff in SV. destruct SV as (v & SV & _). symmetry in SV. unfold stored_vertex in SV. cbn [fst snd] in SV.
        destruct (nth_error vms (Z.to_nat mi)) as [us|] eqn:U; [|discriminate]. destruct (same_index vms ms (Z.to_nat mi) us (eq_sym LE) U) as (im & J). exists im. split; [exact J|]. destruct (P _ im us J U) as (_ & _ & C & _). cbn. rewrite C. assert (Z.to_nat vi < length us) by (apply nth_error_Some; congruence). lia.
Qed.
End Group.

(** ** All groups *)
Section All.
Variable E : elem.
Notation packs := (fun a ms => as_meshes E (mg_mesh a) (mg_packing a) (mg_omit a) = Made ms).
Lemma groups_cases gs args : Forall2 stands_for gs args -> (forall g, In g gs -> usual g) ->
  (mesh_groups (correct E) args = Refused /\ exists g, In g gs /\ (no_such_vertex g \/ not_packable g)) \/
  ((forall g, In g gs -> ~ no_such_vertex g /\ ~ not_packable g) /\ exists xs, mesh_groups (correct E) args = Made xs /\ Forall2 packs args (map g_meshes xs) /\
     Forall2 (fun g x => exists vms, g_outlines x = kept_lines g /\ meshes_for E g (g_meshes x) vms /\ (g_ts g <> [] -> vms = map vertex_indices (partition_triangles (2 ^ 16) (g_ts g)))) gs xs).
Proof.
  induction 1 as [|g a gs args H _ IH]; intros US.
  - right. split; [intros g []|]. exists []. repeat split; constructor.
  - cbn [mesh_groups]. destruct (group_cases E g a H (US g (or_introl eq_refl))) as [[EQ B]|(N1 & N2 & ms & vms & AM & EQ & MF & EV)].
    { left. rewrite EQ. split; [reflexivity|]. exists g. split; [left; reflexivity|exact B]. }
    rewrite EQ. destruct IH as [[EQ' (g' & I & B)]|(N & xs & EQ' & PK & F)]; [intros g' I; apply US; right; exact I| |].
    + left. rewrite EQ'. split; [reflexivity|]. exists g'. split; [right; exact I|exact B].
    + right. split; [intros g' [<-|I]; [auto|apply N, I]|]. exists (Group ms (kept_lines g) :: xs). rewrite EQ'. split; [reflexivity|]. split; [constructor; assumption|]. constructor; [|exact F]. exists vms. cbn [g_outlines g_meshes]. auto.
Qed.
Lemma packs_unique args : forall xs ys, Forall2 packs args xs -> Forall2 packs args ys -> xs = ys.
Proof. induction args as [|a args IH]; intros xs ys X Y; inversion X; inversion Y; subst; [reflexivity|]. f_equal; [congruence|apply IH; assumption]. Qed.

(** The call is refused exactly when an outline has an index that is not that of a vertex, AsMeshes fails, there are more than 65535
    meshes, or an outline has vertices but none of them is in a triangle *)
Theorem C58_refused_iff gs args : Forall2 stands_for gs args -> (forall g, In g gs -> usual g) ->
  (from_mutable_mesh_groups E (correct E) args = Refused <->
   (exists g, In g gs /\ (no_such_vertex g \/ not_packable g \/ lost_outline g)) \/
   (exists mss, Forall2 packs args mss /\ (65535 < Z.of_nat (length (concat mss)))%Z)) /\
  from_mutable_mesh_groups E (correct E) args <> Undefined.
Proof.
  intros ST US. unfold from_mutable_mesh_groups. destruct (groups_cases gs args ST US) as [[-> (g & I & B)]|(N & xs & -> & PK & F)].
  { split; [|discriminate]. split; [|reflexivity]. intros _. left. exists g. tauto. }
  assert (FM : forall x, In x xs -> formats_made (imesh_ops E) (g_meshes x)). { intros x X. destruct (In_nth_error _ _ X) as (j & J). destruct (same_index xs gs j x (eq_sym (forall2_length F)) J) as (g & G). destruct (forall2_at F j g x G J) as (vms & _ & MF & _). apply (group_formats E g _ _ MF). }
  pose proof (C36_created_iff (imesh_ops E) xs FM) as CI.
  assert (GG : (mesh_total xs <= 65535)%Z -> forall j g x, nth_error gs j = Some g -> nth_error xs j = Some x -> (good_group (imesh_ops E) x <-> ~ lost_outline g)).
  { intros T j g x G X. destruct (forall2_at F j g x G X) as (vms & EO & MF & EV). destruct x as [ms os]. cbn [g_outlines g_meshes] in *. subst os. apply (group_good E g ms vms MF EV).
    destruct (nth_error_split xs j X) as (l1 & l2 & -> & _). unfold mesh_total in T. rewrite flat_map_app in T. cbn [flat_map g_meshes] in T. rewrite !app_length in T. lia. }
  assert (MT : Z.of_nat (length (concat (map g_meshes xs))) = mesh_total xs) by (unfold mesh_total; rewrite flat_map_concat_map; reflexivity).
  destruct (from_mesh_groups (imesh_ops E) xs) as [d|] eqn:FG.
  - split; [|discriminate]. split; [discriminate|]. destruct (proj1 CI) as [T AG]; [eauto|]. intros [(g & I & [B|[B|B]])|(mss & PM & L)]; exfalso; [destruct (N g I); contradiction|destruct (N g I); contradiction| |].
    + destruct (In_nth_error _ _ I) as (j & J). destruct (same_index gs xs j g (forall2_length F) J) as (x & X). apply (proj1 (GG T j g x J X)) in B; [exact B|]. apply AG, (nth_error_In _ _ X).
    + rewrite (packs_unique _ _ _ PM PK), MT in L. lia.
  - split; [|discriminate]. split; [|reflexivity]. intros _. destruct (Z_lt_le_dec 65535 (mesh_total xs)) as [L|L]; [right; exists (map g_meshes xs); split; [exact PK|rewrite MT; exact L]|]. left.
    destruct (existsb (fun g => existsb (fun o => nonempty o && forallb (fun v => negb (used g v)) o) (g_lines g)) gs) eqn:EB.
    + apply existsb_exists in EB. destruct EB as (g & I & EB). exists g. split; [exact I|]. right. right. apply existsb_exists in EB. destruct EB as (o & O & EB). apply andb_true_iff in EB. destruct EB as [E1 E2]. exists o. split; [exact O|]. split; [intros ->; discriminate|]. intros v V. rewrite forallb_forall in E2. apply negb_true_iff, E2, V.
    + exfalso. destruct (proj2 CI) as (d & D); [|discriminate]. split; [exact L|]. intros x X. destruct (In_nth_error _ _ X) as (j & J). destruct (same_index xs gs j x (eq_sym (forall2_length F)) J) as (g & G). apply (proj2 (GG L j g x G J)). intros (o & O & NE & UN).
      apply not_true_iff_false in EB. apply EB. apply existsb_exists. exists g. split; [apply (nth_error_In _ _ G)|]. apply existsb_exists. exists o. split; [exact O|]. apply andb_true_iff. split; [destruct o; [contradiction|reflexivity]|]. apply forallb_forall. intros v V. rewrite (UN v V). reflexivity.
Qed.
(** Otherwise every group reads as it was given: its meshes are those of AsMeshes (C56); the outlines are the given ones that are not empty,
    in order; each is the list of its vertices that are in a triangle, in order, each read from the first mesh that has it *)
Theorem C58_made gs args d : Forall2 stands_for gs args -> (forall g, In g gs -> usual g) -> from_mutable_mesh_groups E (correct E) args = Made d ->
  (Z.of_nat (length gs) < 2 ^ 32)%Z -> (Z.of_nat (length (flat_map g_lines gs)) < 2 ^ 32)%Z ->
  render_group_count (Some d) = Z.of_nat (length gs) /\
  forall n g a, nth_error gs n = Some g -> nth_error args n = Some a ->
    exists ms vms, as_meshes E (mg_mesh a) (mg_packing a) (mg_omit a) = Made ms /\ meshes_for E g ms vms /\
      render_group_meshes (Some d) (Z.of_nat n) = Some ms /\
      outline_count (Some d) (Z.of_nat n) = Some (Z.of_nat (length (filter nonempty (g_lines g)))) /\
      forall j o, nth_error (filter nonempty (g_lines g)) j = Some o ->
        exists ps, outline (Some d) (Z.of_nat n) (Z.of_nat j) = Some ps /\ outline_reads g vms o ps /\
          forall k p, nth_error ps k = Some p -> (Z.of_nat (length ps) < 2 ^ 32)%Z -> exists im, nth_error ms (Z.to_nat (fst p)) = Some im /\
            outline_position (imesh_ops E) (Some d) (Z.of_nat n) (Z.of_nat j) (Z.of_nat k) = option_map (to_vec E) (iposition im (snd p)).
Proof.
  intros ST US FD LG LO. unfold from_mutable_mesh_groups in FD. destruct (groups_cases gs args ST US) as [[EQ _]|(N & xs & EQ & PK & F)]; [rewrite EQ in FD; discriminate|]. rewrite EQ in FD. destruct (from_mesh_groups (imesh_ops E) xs) as [d'|] eqn:FG; [|discriminate]. injection FD as <-.
  assert (FM : forall x, In x xs -> formats_made (imesh_ops E) (g_meshes x)). { intros x X. destruct (In_nth_error _ _ X) as (j & J). destruct (same_index xs gs j x (eq_sym (forall2_length F)) J) as (g & G). destruct (forall2_at F j g x G J) as (vms & _ & MF & _). apply (group_formats E g _ _ MF). }
  assert (LO' : (length (flat_map g_outlines xs) <= length (flat_map g_lines gs))%nat).
  { clear -F. induction F as [|g x gs xs (vms & EO & _) F IH]; [reflexivity|]. cbn [flat_map]. rewrite !app_length, EO. unfold kept_lines. rewrite map_length. assert (length (filter nonempty (g_lines g)) <= length (g_lines g)) by (clear; induction (g_lines g) as [|o os IH]; [reflexivity|cbn; destruct (nonempty o); cbn; lia]). lia. }
  destruct (proj1 (C36_created_iff (imesh_ops E) xs FM)) as [T _]; [eauto|].
  destruct (C36_reads_as_given (imesh_ops E) xs d' FM FG) as (A & _ & B); [rewrite <- (forall2_length F); exact LG|lia|]. rewrite <- (forall2_length F) in A. split; [exact A|].
  intros n g a G GA. destruct (same_index gs xs n g (forall2_length F) G) as (x & X). destruct (forall2_at F n g x G X) as (vms & EO & MF & EV). specialize (B (Z.of_nat n) ltac:(lia)). rewrite Nat2Z.id, X in B. destruct B as [R1 _ _ R4 R5 R6]. rewrite EO in *. unfold kept_lines in R4, R5, R6. rewrite map_length in R4.
  exists (g_meshes x), vms. split; [apply (forall2_at PK n a (g_meshes x) GA); rewrite nth_error_map, X; reflexivity|]. split; [exact MF|]. split; [exact R1|]. split; [exact R4|].
  assert (LM : (Z.of_nat (length vms) <= 65535)%Z). { rewrite <- (meshes_length E g _ _ MF). destruct (nth_error_split xs n X) as (l1 & l2 & EX & _). unfold mesh_total in T. rewrite EX, flat_map_app in T. cbn [flat_map] in T. rewrite !app_length in T. lia. }
  intros j o J. assert (JB : (Z.of_nat j < 2 ^ 32)%Z). { assert (JL : j < length (filter nonempty (g_lines g))) by (apply nth_error_Some; congruence). assert (length (filter nonempty (g_lines g)) <= length (g_lines g)) by (clear; induction (g_lines g) as [|o os IH]; [reflexivity|cbn; destruct (nonempty o); cbn; lia]). destruct (nth_error_split gs n G) as (l1 & l2 & EG & _). rewrite EG, flat_map_app in LO. cbn [flat_map] in LO. rewrite !app_length in LO. lia. }
  assert (JM : nth_error (map (partition_outline (partition_pairs (partition_triangles (2 ^ 16) (g_ts g)))) (filter nonempty (g_lines g))) j = Some (partition_outline (partition_pairs (partition_triangles (2 ^ 16) (g_ts g))) o)) by (rewrite nth_error_map, J; reflexivity).
  eexists. split; [rewrite R5 by lia; rewrite Nat2Z.id; exact JM|]. split.
  - apply outline_stored; [|lia]. destruct MF as [(Q1 & _ & Q2)|(Q1 & _)]; auto.
  - intros k p K L. destruct (R6 (Z.of_nat j) _ ltac:(lia) ltac:(rewrite Nat2Z.id; exact JM) L) as [_ RP]. specialize (RP (Z.of_nat k) ltac:(lia)). rewrite Nat2Z.id, K in RP. destruct p as [mi vi]. destruct RP as (im & IM & PO). exists im. cbn [fst snd]. split; [exact IM|exact PO].
Qed.
End All.

(** ** A case: the mesh of C56_example with an outline through a vertex in no triangle, an empty outline, and a second group without triangles *)
Definition ex_given (os : list (list Z)) : given := Given ex_l k16BitUnpacked16BitPacked ex_v ex_t os [9] ex_cu.
Definition ex_arg (os : list (list Z)) : mutable_group := MutableGroup (calls (new_mesh ex_f) ex_os) os [9] ex_cu.
Definition ex_points (os : list (list Z)) : given := Given ex_l k16BitUnpacked16BitPacked [[[f0]; [f1; f1]]] [] os [9] ex_cu.
Definition ex_points_arg (os : list (list Z)) : mutable_group := MutableGroup (calls (new_mesh ex_f) [AppendVertex f1 f1]) os [9] ex_cu.
Lemma ex_stands os : (forall o v, In o os -> In v o -> (0 <= v)%Z) -> stands_for (ex_given os) (ex_arg os).
Proof. intros H. destruct C56_example as (A & B & C & _). exists ex_f, ex_os. auto. Qed.
Lemma ex_usual os : usual (ex_given os).
Proof. destruct C56_example as (_ & _ & _ & _ & _ & nf & A & B & C). intros nf' A'. cbn [g_l g_omit g_i ex_given] in A'. rewrite A in A'. injection A' as <-. auto. Qed.
Lemma ex_packable os : ~ not_packable (ex_given os).
Proof. destruct C56_example as (_ & _ & _ & _ & P & _). intros [_ Q]. apply Q, P. Qed.
Lemma ex_points_stands os : (forall o v, In o os -> In v o -> (0 <= v)%Z) -> stands_for (ex_points os) (ex_points_arg os).
Proof.
  intros H. exists ex_f, [AppendVertex f1 f1]. split; [reflexivity|]. split; [|split; [vm_compute; discriminate|split; [exact H|reflexivity]]].
  change [AppendVertex f1 f1] with ([] ++ [AppendVertex f1 f1]). eapply step; [apply start|cbn; repeat split; lia|reflexivity].
Qed.
Lemma ex_points_usual os : usual (ex_points os).
Proof.
  intros nf H. destruct (ex_usual os nf H) as [_ PC]. split.
  - intros [|k] t T G; [discriminate G|]. destruct k; discriminate T.
  - injection H as <-. exact PC.
Qed.
Definition ex_lines : list (list Z) := [[0; 3; 1]; []; [4; 0]]%Z.
Example C58_example : Forall2 stands_for [ex_given ex_lines; ex_points [[]]] [ex_arg ex_lines; ex_points_arg [[]]] /\ (forall g, In g [ex_given ex_lines; ex_points [[]]] -> usual g) /\
  exists d, from_mutable_mesh_groups ex_E (correct ex_E) [ex_arg ex_lines; ex_points_arg [[]]] = Made d.
Proof.
  assert (P : forall o v, In o ex_lines -> In v o -> (0 <= v)%Z) by (intros o v O V; cbn in O; repeat (destruct O as [<-|O]; [cbn in V; lia|]); destruct O).
  assert (Q : forall o v, In o [[]] -> In v o -> (0 <= v)%Z) by (intros o v [<-|[]] []).
  assert (ST : Forall2 stands_for [ex_given ex_lines; ex_points [[]]] [ex_arg ex_lines; ex_points_arg [[]]]) by (constructor; [apply ex_stands, P|constructor; [apply ex_points_stands, Q|constructor]]).
  assert (US : forall g, In g [ex_given ex_lines; ex_points [[]]] -> usual g) by (intros g [<-|[<-|[]]]; [apply ex_usual|apply ex_points_usual]).
  split; [exact ST|]. split; [exact US|]. 
  assert (X : match from_mutable_mesh_groups ex_E (correct ex_E) [ex_arg ex_lines; ex_points_arg [[]]] with Made _ => true | _ => false end = true) by (vm_compute; reflexivity).
  destruct (from_mutable_mesh_groups _ _ _) as [| |d]; try discriminate. eauto.
Qed.

(** ** Where the code departs from its comments: partitioned_mesh.h 121-126 lists as errors of FromMutableMesh only a failing AsMeshes and an
    index that is not below VertexCount *)
(** An outline around vertices that are in no triangle makes the call fail; so does any outline of a mesh without triangles *)
Theorem C58_lost_outline_refuted : exists g a h b, stands_for g a /\ stands_for h b /\ g_ts g <> [] /\ g_ts h = [] /\ g_lines h = [[0%Z]] /\
  ~ no_such_vertex g /\ ~ not_packable g /\ ~ no_such_vertex h /\ ~ not_packable h /\
  forall E, from_mutable_mesh_groups E (correct E) [a] = Refused /\ from_mutable_mesh_groups E (correct E) [b] = Refused.
Proof.
  exists (ex_given [[3%Z]]), (ex_arg [[3%Z]]), (ex_points [[0%Z]]), (ex_points_arg [[0%Z]]).
  assert (SG : stands_for (ex_given [[3%Z]]) (ex_arg [[3%Z]])) by (apply ex_stands; intros o v [<-|[]] [<-|[]]; lia). assert (SH : stands_for (ex_points [[0%Z]]) (ex_points_arg [[0%Z]])) by (apply ex_points_stands; intros o v [<-|[]] [<-|[]]; lia).
  split; [exact SG|]. split; [exact SH|]. split; [discriminate|]. split; [reflexivity|]. split; [reflexivity|]. split; [intros (o & v & [<-|[]] & [<-|[]] & L); vm_compute in L; contradiction L; reflexivity|]. split; [apply ex_packable|]. split; [intros (o & v & [<-|[]] & [<-|[]] & L); vm_compute in L; contradiction L; reflexivity|]. split; [intros [N _]; apply N; reflexivity|].
  intros E. split.
  - apply (C58_refused_iff E [ex_given [[3%Z]]] [ex_arg [[3%Z]]]); [constructor; [exact SG|constructor]|intros g [<-|[]]; apply ex_usual|]. left. eexists. split; [left; reflexivity|]. right. right. exists [3%Z]. split; [left; reflexivity|]. split; [discriminate|]. intros v [<-|[]]. reflexivity.
  - apply (C58_refused_iff E [ex_points [[0%Z]]] [ex_points_arg [[0%Z]]]); [constructor; [exact SH|constructor]|intros g [<-|[]]; apply ex_points_usual|]. left. eexists. split; [left; reflexivity|]. right. right. exists [0%Z]. split; [left; reflexivity|]. split; [discriminate|]. intros v [<-|[]]. reflexivity.
Qed.
(** Vertices in no triangle are left out of an outline without notice, so the outline of the shape can have another shape than the one given *)
Theorem C58_dropped_refuted : exists g a, stands_for g a /\ usual g /\ ~ no_such_vertex g /\ g_lines g = [[0; 3; 1]]%Z /\
  exists d, from_mutable_mesh_groups ex_E (correct ex_E) [a] = Made d /\ outline_vertex_count (Some d) 0 0 = Some 2%Z.
Proof.
  exists (ex_given [[0; 3; 1]]%Z), (ex_arg [[0; 3; 1]]%Z). assert (SG : stands_for (ex_given [[0; 3; 1]]%Z) (ex_arg [[0; 3; 1]]%Z)) by (apply ex_stands; intros o v [<-|[]] V; cbn in V; lia).
  split; [exact SG|]. split; [apply ex_usual|]. split; [intros (o & v & [<-|[]] & V & L); change (count (g_vs (ex_given [[0; 3; 1]]%Z))) with 5%Z in L; cbn in V; lia|]. split; [reflexivity|].
  assert (X : match from_mutable_mesh_groups ex_E (correct ex_E) [ex_arg [[0; 3; 1]]%Z] with Made d => outline_vertex_count (Some d) 0 0 | _ => None end = Some 2%Z) by (vm_compute; reflexivity).
  destruct (from_mutable_mesh_groups _ _ _) as [| |d]; try discriminate. exists d. auto.
Qed.
Print Assumptions C58_refused_iff.
Print Assumptions C58_made.
Print Assumptions C58_lost_outline_refuted.
Print Assumptions C58_dropped_refuted.
