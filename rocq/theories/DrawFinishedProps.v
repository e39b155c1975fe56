(** C71, for finished strokes: the meshes that MutableMesh::AsMeshes makes are drawn from what they report. *)
From Coq Require Import ZArith Bool Arith Reals Lia Lra List.
From Flocq Require Import Core IEEE754.BinarySingleNaN.
From Verif Require Import F32 F32Round F32Lemmas NumModel MeshFormatModel MeshFormatProps PackModel PackProps MutableMeshModel MutableMeshSpec MutableMeshProofs MutableMeshProps MeshModel MeshSpec MeshProofs MeshProps AsMeshesModel AsMeshesSpec AsMeshesFormat AsMeshesProofs AsMeshesProps StrokeVertexModel StrokeVertexSpec ShaderUnpackModel ShaderUnpackSpec DrawSpecModel DrawSpecSpec DrawSpecProofs DrawSpecProps.
Import ListNotations.
Local Open Scope nat_scope.

Lemma same_custom x y : map (fun a => (type_byte (ty a), aid a)) x = map (fun a => (type_byte (ty a), aid a)) y -> map custom_params x = map custom_params y.
Proof.
  revert y. induction x as [|a x IH]; intros [|b y] H; try discriminate H; [reflexivity|]. cbn [map] in *. assert (HA : type_byte (ty a) = type_byte (ty b) /\ aid a = aid b) by (split; congruence). destruct HA as [HT HI]. apply byte_inj in HT.
  f_equal; [unfold custom_params; rewrite HT, HI; reflexivity|]. apply IH. congruence.
Qed.
Lemma left_custom l i f nf omit custom : create l i = Some f -> create (left_attributes l omit) i = Some nf -> custom_packing_array f omit = Some custom -> custom = map custom_params (attrs nf).
Proof.
  intros CF CN C. unfold custom_packing_array in C. destruct (Nat.leb _ _); [|discriminate]. apply some_inj in C. subst custom. apply same_custom.
  destruct (C28_layout _ _ _ CN) as (AN & _). destruct (C28_layout _ _ _ CF) as (AF & _). rewrite AN, <- AF. unfold left_attributes, stays. generalize (attrs f). intros a. induction a as [|x a IH]; [reflexivity|]. cbn [filter map snd]. destruct (existsb (Nat.eqb (aid x)) omit); cbn [negb map]; [exact IH|]. rewrite IH. reflexivity.
Qed.
(** The meshes of a stroke are made from a mesh of stroke vertices, with MakeCustomPackingArray's parameters, leaving out attributes that are
    not needed.  If a specification can be made for what is left, then for every mesh the uniforms can be set, and for every vertex of it
    the shader runs and sees what the mesh reports. *)
Theorem C71_finished : forall E l i f omit os vs ts custom nf s, create l i = Some f -> history (shape_bytes l) (pos_index f) (index_limit i) os vs ts -> (count vs * Z.of_nat (ustride f) <= 2 ^ 32)%Z ->
  ts <> [] -> custom_packing_array f omit = Some custom -> proper l omit vs ts custom -> create (left_attributes l omit) i = Some nf ->
  (forall k t, nth_error (left_types l omit) k = Some t -> spread (values_of l omit vs (used_vertices ts)) custom k t) ->
  (forall t, nth_error (left_types l omit) (pos_index nf) = Some t -> position_calm l omit vs ts custom (pos_index nf) t) ->
  create_for_stroke nf = Some s ->
  exists ms, as_meshes E (calls (new_mesh f) os) custom omit = Made ms /\
    forall im n, In im ms -> (0 <= n < ivcount im)%Z ->
      iformat im = nf /\ exists u v, mesh_uniforms s im = Some u /\ run_main in_full s u (ivdata im) (Z.to_nat n) = Some v /\ agrees im n v.
Proof.
  intros E l i f omit os vs ts custom nf s CF HI SM NE CU PR CN SP PC CS. destruct (C56_made E l i f omit os vs ts custom nf CF HI SM NE PR CN SP PC) as (ms & vms & MK & c & kx & ky & F2 & _ & _ & PS & _). exists ms. split; [exact MK|].
  intros im n I N. assert (P : exists us, piece E l i omit vs ts custom c kx ky im us).
  { clear -F2 I. induction F2 as [|x y xs ys P F2 IH]; [destruct I|]. destruct I as [->|I]; [eauto|auto]. }
  destruct P as (us & P). destruct P as (P1 & P2 & P3 & _ & P5 & _ & _ & _ & _ & _ & _ & _ & P13 & P14 & P15 & _). assert (IFM : iformat im = nf) by congruence. split; [exact IFM|]. rewrite <- IFM in CS.
  pose proof (left_custom l i f nf omit custom CF CN CU) as EC. pose proof (kept_types l i nf omit CN) as KT.
  assert (TY : forall k a, nth_error (attrs nf) k = Some a -> nth_error (left_types l omit) k = Some (ty a)) by (intros k a K; rewrite <- KT, nth_error_map, K; reflexivity).
  apply (C71_reads (left_attributes l omit) i im s n); [rewrite IFM; exact CN|exact CS| |change (2 ^ 16)%Z with 65536%Z in P5; lia|].
  - split; [rewrite P2; exact P13|]. rewrite P2, IFM. intros k a K. split; [apply P14, TY, K|]. intros ps CP. specialize (PS k (ty a) (TY k a K)). unfold params_of, given_for in PS. rewrite EC, nth_error_map, K in PS. cbn [option_map] in PS. rewrite CP in PS. exact PS.
  - intros k K. rewrite IFM in K. destruct (nth_error (attrs nf) k) as [a|] eqn:A; [|apply nth_error_None in A; lia]. destruct (P15 n k (ty a) N (TY k a A)) as (_ & T & p & PA & PP). exists p. split; [exact PA|]. rewrite T. exact PP.
Qed.

(** ** A case: a triangle of stroke vertices, the texture coordinates left out *)
Definition ex_l : list (nat * nat) := map (fun x => (type_byte (fst x), snd x)) full_attributes.
Definition ex_f : format := match full_mesh_format with Some f => f | None => build [] 0 k16BitUnpacked16BitPacked end.
Definition ex_os : list op := [AppendVertex f0 f0; AppendVertex f1 f0; AppendVertex f0 f1; SetAttribute 1 1 [f1]; AppendTriangle (0, 1, 2)%Z].
Definition ex_vertex (x y o : f32) : vertex := [[x; y]; [o]; [f0; f0; f0]; [f0; f0]; [f0]; [f0; f0]; [f0]; [f0; f0]].
Definition ex_v : list vertex := [ex_vertex f0 f0 f0; ex_vertex f1 f0 f1; ex_vertex f0 f1 f0].
Definition ex_t : list triple := [(0, 1, 2)%Z].
Definition ex_cu : list (option (list params)) := [None; Some [opacity_params]; Some [hsl_params; hsl_params; hsl_params]; None; Some [label_params]; None; Some [label_params]].
Lemma ex_happens : history (shape_bytes ex_l) 0 (index_limit k32BitUnpacked16BitPacked) ex_os ex_v ex_t.
Proof.
  change ex_os with ((((([] ++ [AppendVertex f0 f0]) ++ [AppendVertex f1 f0]) ++ [AppendVertex f0 f1]) ++ [SetAttribute 1 1 [f1]]) ++ [AppendTriangle (0, 1, 2)%Z]).
  unfold ex_v, ex_t. cbn [index_limit].
  assert (NX : forall os o vs ts vs' ts', history (shape_bytes ex_l) 0 (2 ^ 32) os vs ts -> allowed (shape_bytes ex_l) (2 ^ 32) (vs, ts) o /\ effect (shape_bytes ex_l) 0 (vs, ts) o = (vs', ts') -> history (shape_bytes ex_l) 0 (2 ^ 32) (os ++ [o]) vs' ts') by (intros os o vs ts vs' ts' Q [Q1 Q2]; eapply MutableMeshSpec.step; eassumption).
  repeat match goal with |- history _ _ _ (_ ++ _) _ _ => eapply NX end; [apply start|split; [cbn; repeat split; lia|reflexivity]..].
Qed.
Lemma ex_values c : c < 2 -> values_of ex_l [8] ex_v (used_vertices ex_t) 0 c = if Nat.eqb c 0 then [f0; f1; f0] else [f0; f0; f1].
Proof. intros C. destruct c as [|[|c]]; [reflexivity..|lia]. Qed.
Lemma ex_spread lo hi (l : list f32) : In lo l -> In hi l -> lo = f0 -> hi = f1 -> forall b, b = 12 ->
  (exists v w, In v l /\ In w l /\ (IZR (2 ^ Z.of_nat b - 1) * bpow radix2 (-125) <= B2R w - B2R v)%R).
Proof.
  intros L H -> -> b ->. exists f0, f1. split; [exact L|]. split; [exact H|]. change (B2R f0) with 0%R. assert (E : B2R f1 = 1%R) by (cbv [f1]; compute; lra). rewrite E. change (2 ^ Z.of_nat 12 - 1)%Z with 4095%Z.
  assert (bpow radix2 (-125) <= bpow radix2 (-12))%R by (apply bpow_le; lia). change (bpow radix2 (-12)) with (/ 4096)%R in *. lra.
Qed.
Example C71_finished_applies : exists nf s, create ex_l k32BitUnpacked16BitPacked = Some ex_f /\ history (shape_bytes ex_l) (pos_index ex_f) (index_limit k32BitUnpacked16BitPacked) ex_os ex_v ex_t /\
  (count ex_v * Z.of_nat (ustride ex_f) <= 2 ^ 32)%Z /\ ex_t <> [] /\ custom_packing_array ex_f [8] = Some ex_cu /\ proper ex_l [8] ex_v ex_t ex_cu /\ create (left_attributes ex_l [8]) k32BitUnpacked16BitPacked = Some nf /\
  (forall k t, nth_error (left_types ex_l [8]) k = Some t -> spread (values_of ex_l [8] ex_v (used_vertices ex_t)) ex_cu k t) /\
  (forall t, nth_error (left_types ex_l [8]) (pos_index nf) = Some t -> position_calm ex_l [8] ex_v ex_t ex_cu (pos_index nf) t) /\
  create_for_stroke nf = Some s.
Proof.
  assert (C : create ex_l k32BitUnpacked16BitPacked = Some ex_f) by reflexivity. assert (S0 : (count ex_v * Z.of_nat (ustride ex_f) <= 2 ^ 32)%Z) by (vm_compute; discriminate).
  eexists. eexists. split; [exact C|]. split; [exact ex_happens|]. split; [exact S0|]. split; [discriminate|]. split; [reflexivity|]. split.
  { destruct (as_cases ex_E ex_l k32BitUnpacked16BitPacked ex_f [8] ex_os ex_v ex_t ex_cu C ex_happens S0) as [(T & _)|[(_ & _ & Q)|(_ & P & _)]]; [discriminate| |exact P].
    exfalso. assert (X : made (as_meshes ex_E (calls (new_mesh ex_f) ex_os) ex_cu [8]) = true) by (vm_compute; reflexivity). rewrite Q in X. discriminate. }
  split; [reflexivity|]. split; [|split; [|reflexivity]].
  - intros k t T G bits b c PB B. destruct k as [|[|[|[|[|[|[|k]]]]]]]; try discriminate G.
    + right. cbn in T. injection T as <-. injection PB as <-. assert (E : b = 12 /\ c < 2) by (destruct c as [|[|c]]; cbn in B; [injection B as <-; auto..|destruct c; discriminate B]). destruct E as [-> E].
      rewrite (ex_values c E). apply (ex_spread f0 f1); try reflexivity; (destruct c as [|[|c]]; [cbn [In Nat.eqb]; auto..|lia]).
    + left. cbn in T. injection T as <-. intros v w V W. unfold values_of in V, W. apply in_map_iff in V, W. destruct V as (i & <- & I), W as (j & <- & J). cbn [used_vertices ex_t flat_map corners3 app In] in I, J. f_equal. destruct c as [|[|[|c]]]; destruct I as [<-|[<-|[<-|[]]]], J as [<-|[<-|[<-|[]]]]; reflexivity.
    + left. cbn in T. injection T as <-. intros v w V W. unfold values_of in V, W. apply in_map_iff in V, W. destruct V as (i & <- & I), W as (j & <- & J). cbn [used_vertices ex_t flat_map corners3 app In] in I, J. f_equal. destruct c as [|[|[|c]]]; destruct I as [<-|[<-|[<-|[]]]], J as [<-|[<-|[<-|[]]]]; reflexivity.
    + cbn in T. destruct k; discriminate T.
  - intros t T bits c b PB B. cbn in T. injection T as <-. injection PB as <-. assert (E : b = 12 /\ c < 2) by (destruct c as [|[|c]]; cbn in B; [injection B as <-; auto..|destruct c; discriminate B]). destruct E as [-> E]. cbn [given_for ex_cu nth_error pos_index].
    intros lo hi L H. assert (E1 : B2R f1 = 1%R) by (cbv [f1]; compute; lra). assert (F0 : B2R f0 = 0%R) by reflexivity.
    change (pos_index _) with 0 in *. rewrite (ex_values c E) in L, H. set (l := if Nat.eqb c 0 then _ else _) in *.
    assert (I0 : In f0 l /\ In f1 l /\ forall v, In v l -> v = f0 \/ v = f1) by (unfold l; destruct (Nat.eqb c 0); cbn [In]; intuition congruence). destruct I0 as (I0 & I1 & IV).
    destruct L as [LI L], H as [HI H]. apply L in I0. apply H in I1. assert (EL : B2R lo = 0%R) by (destruct (IV _ LI) as [-> | ->]; lra). assert (EH : B2R hi = 1%R) by (destruct (IV _ HI) as [-> | ->]; lra).
    rewrite EL, EH. destruct (Req_EM_T 0 1); [lra|]. change (2 ^ Z.of_nat 12 - 1)%Z with 4095%Z. unfold calm. rewrite Rabs_R0. assert (bpow radix2 (-99) <= bpow radix2 (-12))%R by (apply bpow_le; lia). assert (bpow radix2 0 <= bpow radix2 99)%R by (apply bpow_le; lia). change (bpow radix2 (-12)) with (/ 4096)%R in *. change (bpow radix2 0) with 1%R in *. split; [split; lra|lra].
Qed.

(** ** The shader relies on the fixed codings *)
(** A mesh of the same format that was made without MakeCustomPackingArray's parameters is accepted and drawn, but what the shader sees of it is
    not what it reports: nothing in the specification or in the uniforms says how the opacity is coded *)
Definition ex_default (test : imesh -> specification -> uniforms -> vertex_seen -> bool) : bool :=
  match as_meshes ex_E (calls (new_mesh ex_f) ex_os) [] [8] with
  | Made (m :: _) => match create_for_stroke (iformat m) with
                     | Some s => match mesh_uniforms s m with
                                 | Some u => match run_main in_full s u (ivdata m) 0 with Some v => test m s u v | None => false end
                                 | None => false end
                     | None => false end
  | _ => false end.
Theorem C71_coding_refuted : exists ms m s u v, as_meshes ex_E (calls (new_mesh ex_f) ex_os) [] [8] = Made ms /\ In m ms /\ create_for_stroke (iformat m) = Some s /\
  mesh_uniforms s m = Some u /\ run_main in_full s u (ivdata m) 0 = Some v /\ ~ agrees m 0 v.
Proof.
  set (opacity_at := fun m : imesh => match iattribute m 0 1, nth_error (attrs (iformat m)) 1 with Some [x], Some a => fbits_eqb x f0 && Nat.eqb (aid a) 2 && negb (is_unpacked (ty a)) | _, _ => false end).
  assert (H : ex_default (fun m s u v => opacity_at m && fbits_eqb (seen_opacity v) (fZ (-1))) = true) by (vm_compute; reflexivity).
  unfold ex_default in H. destruct (as_meshes ex_E (calls (new_mesh ex_f) ex_os) [] [8]) as [| |ms] eqn:A; try discriminate H. destruct ms as [|m ms]; [discriminate H|]. exists (m :: ms), m.
  destruct (create_for_stroke (iformat m)) as [s|] eqn:S0; [|discriminate H]. destruct (mesh_uniforms s m) as [u|] eqn:U; [|discriminate H]. destruct (run_main in_full s u (ivdata m) 0) as [v|] eqn:R0; [|discriminate H]. exists s, u, v.
  split; [reflexivity|]. split; [left; reflexivity|]. split; [reflexivity|]. split; [exact U|]. split; [exact R0|]. intros [AG _]. apply andb_prop in H. destruct H as [H HS]. unfold opacity_at in H.
  destruct (iattribute m 0 1) as [[|x [|? ?]]|] eqn:IA; try discriminate H. destruct (nth_error (attrs (iformat m)) 1) as [a|] eqn:AT; [|discriminate H]. apply andb_prop in H. destruct H as [H HU]. apply andb_prop in H. destruct H as [H HI]. apply fbits_eqb_eq in H, HS. apply Nat.eqb_eq in HI. apply negb_true_iff in HU.
  destruct (AG 1 a AT) as (_ & N & _). destruct (N HI) as (ys & Y & C). rewrite HU in C. rewrite IA in Y. apply some_inj in Y. subst ys x. rewrite HS, HI in C. cbn [length repeat all_close] in C. 
  destruct C as (_ & C & _). destruct (fZ_exact (-1)%Z) as (E1 & _); [lia|]. rewrite E1 in C. change (B2R f0) with 0%R in C. cbn [slack] in C. rewrite Rabs_left in C; lra.
Qed.
Print Assumptions C71_finished.
Print Assumptions C71_coding_refuted.
