(** C56: MutableMesh::AsMeshes *)
From Coq Require Import ZArith Bool Reals Lra Lia List.
From Flocq Require Import Core IEEE754.BinarySingleNaN.
From Verif Require Import F32 F32Lemmas NumModel GeomModel BytesModel BytesLemmas MeshFormatModel MeshFormatProps PackModel PackProps PackQuantProps PartitionModel PartitionProps MutableMeshModel MutableMeshSpec MutableMeshProofs MutableMeshProps MeshModel MeshProofs MeshSpec MeshCoding MeshProps AsMeshesModel AsMeshesSpec AsMeshesFormat AsMeshesBounds AsMeshesProofs AsMeshesPosition.
From Verif Require FlipModel.
Import ListNotations.
Local Open Scope nat_scope.

Section Run.
Variables (E : elem) (l : list (nat * nat)) (i : ifmt) (f : format) (omit : list nat) (os : list op) (vs : list vertex) (ts : list triple) (custom : list (option (list params))).
Hypothesis CF : create l i = Some f.
Hypothesis HI : history (shape_bytes l) (pos_index f) (index_limit i) os vs ts.
Hypothesis SMALL : (count vs * Z.of_nat (ustride f) <= 2 ^ 32)%Z.
Notation m := (calls (new_mesh f) os).
Notation parts := (partition_triangles (2 ^ 16) ts).
Notation bds := (fun p => partition_bounds m (vertex_indices p) omit).
Notation TB := (total_bounds (map bds parts)).
Notation values := (values_of l omit vs (used_vertices ts)).
Lemma RP : rep m vs ts.
Proof. destruct (created_shape _ _ _ CF) as [SH LI]. apply rep_history; [apply (created _ _ _ CF)|]. rewrite SH, LI. exact HI. Qed.
Lemma MF : fmt m = f. Proof. rewrite calls_fmt. reflexivity. Qed.
Lemma used_range v : (forall t, In t ts -> good_triple (count vs) t) -> In v (used_vertices ts) -> (0 <= v < count vs)%Z.
Proof.
  intros G I. unfold used_vertices in I. apply in_flat_map in I. destruct I as ([[a b] c] & T & I). specialize (G _ T). pose proof (rep_small _ _ _ RP _ T) as S. cbn in G, S, I. lia.
Qed.
Lemma part_range p : (forall t, In t ts -> good_triple (count vs) t) -> In p parts -> forall v, In v (vertex_indices p) -> (0 <= v < count vs)%Z.
Proof. intros G P v V. apply used_range; [exact G|]. apply part_used. exists p. auto. Qed.
Lemma tb_ok nf : ts <> [] -> create (left_attributes l omit) i = Some nf -> (forall t, In t ts -> good_triple (count vs) t) -> (forall v a x, In v vs -> In a (left_of l omit v) -> In x a -> is_finite x = true) ->
  bounds_of (map ty (attrs nf)) values TB /\ finite_vals (map ty (attrs nf)) values.
Proof.
  intros NE CN G F. split.
  - apply (bounds_in _ (fun k c => flat_map (fun p => values_of l omit vs (vertex_indices p) k c) parts)).
    + intros k c x. rewrite in_flat_map. unfold values_of at 2. rewrite in_map_iff. split.
      * intros (p & P & I). unfold values_of in I. apply in_map_iff in I. destruct I as (v & V & I). exists v. split; [exact V|]. apply part_used. eauto.
      * intros (v & V & I). apply part_used in I. destruct I as (p & P & I). exists p. split; [exact P|]. unfold values_of. apply in_map_iff. eauto.
    + apply (total_ok (map ty (attrs nf)) (fun p => values_of l omit vs (vertex_indices p)) bds); [apply parts_nonempty, NE|]. intros p P. destruct (part_nonempty ts p NE P) as (_ & VN & _). split.
      * apply (values_finite l i f nf omit m vs ts CF CN MF RP SMALL F). apply part_range; assumption.
      * apply (part_bounds l i f nf omit m vs ts CF CN MF RP SMALL F); [apply part_range; assumption|exact VN].
  - apply (values_finite l i f nf omit m vs ts CF CN MF RP SMALL F). intros v V. apply used_range; assumption.
Qed.
Lemma as_cases :
  (ts = [] /\ as_meshes E m custom omit = Made []) \/
  (ts <> [] /\ ~ proper l omit vs ts custom /\ as_meshes E m custom omit = Refused) \/
  (ts <> [] /\ proper l omit vs ts custom /\ exists nf c, create (left_attributes l omit) i = Some nf /\ compute_coding_array (map ty (attrs nf)) TB custom = Some c /\
    as_meshes E m custom omit =
      match gather (map (fun pb => match copy_and_pack m (vertex_indices (fst pb)) omit c (correct E m (nth (pos_index nf) c [])) with
                                       | Some vd => Some (make_mesh nf c (Some (snd pb)) vd (index_bytes (triangles (fst pb))))
                                       | None => None
                                       end) (combine parts (map bds parts))) with
          | Some ms => Made ms
          | None => Undefined
          end).
Proof.
  unfold as_meshes, as_meshes_with. pose proof RP as R. rewrite (rep_tc _ _ _ R), (all_triangles_eq _ _ _ R), MF. destruct (Z.eqb_spec (count ts) 0) as [Z0|Z0].
  { left. split; [destruct ts; [reflexivity|unfold count in Z0; cbn in Z0; lia]|reflexivity]. }
  assert (NE : ts <> []) by (intros ->; apply Z0; reflexivity). right.
  destruct (C33_validate l i f os vs ts CF HI) as [V _]. destruct (validate_triangles m) as [bad|].
  { left. split; [exact NE|]. split; [|reflexivity]. intros (G & _). apply V in G. discriminate. }
  pose proof (proj1 V eq_refl) as G. clear V. destruct (without_iff l i f omit CF) as [W1 W2]. destruct (without_attributes f omit) as [nf|].
  2: { left. split; [exact NE|]. split; [|reflexivity]. intros (_ & A & B & _). apply W1; auto. }
  pose proof (W2 nf eq_refl) as CN. assert (W : ~ In 0 omit /\ forall j, In j omit -> In j (map snd l)).
  { destruct (in_dec Nat.eq_dec 0 omit) as [I|I]; [exfalso; assert (X : Some nf = None) by (apply W1; tauto); discriminate|]. split; [exact I|]. intros j J. destruct (in_dec Nat.eq_dec j (map snd l)) as [K|K]; [exact K|]. exfalso. assert (X : Some nf = None) by (apply W1; intros [_ H]; apply K, H, J). discriminate. }
  clear W1 W2. pose proof (finite_check l i f omit m vs ts CF MF R SMALL) as FC. destruct (forallb _ (indices_upto (vcount m))); cbn [negb].
  2: { left. split; [exact NE|]. split; [|reflexivity]. intros (_ & _ & _ & F & _). apply FC in F. discriminate. }
  pose proof (proj1 FC eq_refl) as F. destruct (tb_ok nf NE CN G F) as [B1 B2]. pose proof (coding_iff (map ty (attrs nf)) values custom TB (proj1 B1) B2 (bounds_of_BB _ _ _ B1)) as CI.
  destruct (compute_coding_array (map ty (attrs nf)) TB custom) as [c|] eqn:CC.
  - right. split; [exact NE|]. split; [split; [exact G|split; [apply W|split; [apply W|split; [exact F|rewrite <- (kept_types l i nf omit CN); apply CI; eauto]]]]|]. exists nf, c. auto.
  - left. split; [exact NE|]. split; [|reflexivity]. intros (_ & _ & _ & _ & P). rewrite <- (kept_types l i nf omit CN) in P. apply CI in P. destruct P. discriminate.
Qed.
End Run.
(** An error exactly when there are triangles and one of the documented conditions is violated *)
Theorem C56_refused_iff E l i f omit os vs ts custom : create l i = Some f -> history (shape_bytes l) (pos_index f) (index_limit i) os vs ts -> (count vs * Z.of_nat (ustride f) <= 2 ^ 32)%Z ->
  (as_meshes E (calls (new_mesh f) os) custom omit = Refused <-> ts <> [] /\ ~ proper l omit vs ts custom) /\
  (ts = [] -> as_meshes E (calls (new_mesh f) os) custom omit = Made []).
Proof.
  intros CF HI SM. destruct (as_cases E l i f omit os vs ts custom CF HI SM) as [(T & ->)|[(T & P & ->)|(T & P & nf & c & _ & _ & ->)]].
  - split; [|reflexivity]. split; [discriminate|]. intros [N _]. contradiction.
  - split; [tauto|contradiction].
  - split; [|contradiction]. split; [destruct (gather _); discriminate|tauto].
Qed.

(** The triangles of a mesh, in terms of the vertices [us] its vertices were made from *)
Definition recovered (im : imesh) (us : list Z) : list triple :=
  map (fun j => let '(a, b, c) := iindices im j in (nth (Z.to_nat a) us (-1)%Z, nth (Z.to_nat b) us (-1)%Z, nth (Z.to_nat c) us (-1)%Z)) (indices_upto (itcount im)).
Lemma map_some_inj {A} (x y : list A) : map Some x = map Some y -> x = y.
Proof. revert y. induction x as [|a x IH]; intros [|b y] H; try discriminate; [reflexivity|]. injection H as -> H. f_equal. apply IH, H. Qed.
Lemma originals_some p : (forall t, In t (triangles p) -> exists t', original (vertex_indices p) t = Some t') ->
  originals p = map Some (map (fun t : tri => let '(a, b, c) := t in (nth (Z.to_nat a) (vertex_indices p) (-1)%Z, nth (Z.to_nat b) (vertex_indices p) (-1)%Z, nth (Z.to_nat c) (vertex_indices p) (-1)%Z)) (triangles p)).
Proof.
  intros H. unfold originals. rewrite map_map. apply map_ext_in. intros t I. destruct (H t I) as (t' & O). rewrite O. destruct t as [[a b] c]. cbn [original] in O. destruct (at_index _ a) as [a'|] eqn:EA; [|discriminate]. destruct (at_index _ b) as [b'|] eqn:EB; [|discriminate]. destruct (at_index _ c) as [c'|] eqn:EC; [|discriminate]. injection O as <-.
  apply at_index_nth in EA, EB, EC. destruct EA as [-> _], EB as [-> _], EC as [-> _]. reflexivity.
Qed.
Lemma Forall2_nth {A B} (P : A -> B -> Prop) : forall xs ys, length xs = length ys -> (forall j x y, nth_error xs j = Some x -> nth_error ys j = Some y -> P x y) -> Forall2 P xs ys.
Proof. induction xs as [|x xs IH]; intros [|y ys] L H; try discriminate; [constructor|]. constructor; [apply (H 0); reflexivity|]. apply IH; [injection L as L; exact L|]. intros j. apply (H (S j)). Qed.

(** What one of the meshes is, made from the vertices [us]; [c] are the parameters shared by all of them, [kx] and [ky] the packed
    integers of the positions *)
Section Piece.
Variables (E : elem) (l : list (nat * nat)) (i : ifmt) (omit : list nat) (vs : list vertex) (ts : list triple) (custom : list (option (list params))) (c : list (list params)) (kx ky : Z -> Z).
Notation values := (values_of l omit vs (used_vertices ts)).
Notation value := (value_at l omit vs).
Definition piece (im : imesh) (us : list Z) : Prop :=
  create (left_attributes l omit) i = Some (iformat im) /\ coding im = c /\
  ivcount im = Z.of_nat (length us) /\ us <> [] /\ (Z.of_nat (length us) <= 2 ^ 16)%Z /\ NoDup us /\ (0 < itcount im)%Z /\
  (forall v, In v us -> In v (used_vertices (recovered im us))) /\
  (* the triangles as bytes *)
  iidata im = concat (map (fun t : triple => let '(a, b, d) := t in concat (map (le_bytes 2) [a; b; d])) (map (iindices im) (indices_upto (itcount im)))) /\
  (forall j, (0 <= j < itcount im)%Z -> small (ivcount im) (iindices im j)) /\
  (* the values *)
  (forall n k t, (0 <= n < ivcount im)%Z -> nth_error (left_types l omit) k = Some t -> k <> pos_index (iformat im) \/ packed_bits t = None ->
     exists w, iattribute im n k = Some w /\ length w = component_count t /\ (moderate values custom k t -> read_back values custom k t (value k (nth (Z.to_nat n) us (-1)%Z)) w)) /\
  (* the position *)
  (forall n t bits, (0 <= n < ivcount im)%Z -> nth_error (left_types l omit) (pos_index (iformat im)) = Some t -> packed_bits t = Some bits ->
     exists p q, nth (pos_index (iformat im)) c [] = [p; q] /\ let v := nth (Z.to_nat n) us (-1)%Z in
       iintegers im n (pos_index (iformat im)) = Some [kx v; ky v] /\ iattribute im n (pos_index (iformat im)) = Some [at_level p (kx v); at_level q (ky v)]) /\
  (* the parameters and the bytes *)
  length c = length (attrs (iformat im)) /\ (forall k t, nth_error (left_types l omit) k = Some t -> length (nth k c []) = component_count t) /\
  (forall n k t, (0 <= n < ivcount im)%Z -> nth_error (left_types l omit) k = Some t -> k < length (attrs (iformat im)) /\ ty (attr_at (iformat im) k) = t /\ exists p, packed_attribute im n k = packed_bytes p /\ properly_packed t p) /\
  (* the bounds *)
  (forall k t, nth_error (left_types l omit) k = Some t -> exists los his, iattr_bounds im k = Some (los, his) /\ length los = component_count t /\ length his = component_count t /\
     forall j lo hi, nth_error los j = Some lo -> nth_error his j = Some hi -> least (values_of l omit vs us k j) lo /\ greatest (values_of l omit vs us k j) hi) /\
  exists r, ienvelope E im = Some r /\
     is_finite (x_min r : f32) = true /\ is_finite (y_min r : f32) = true /\ is_finite (x_max r : f32) = true /\ is_finite (y_max r : f32) = true /\
     exists x y x' y', least (values_of l omit vs us (pos_index (iformat im)) 0) x /\ least (values_of l omit vs us (pos_index (iformat im)) 1) y /\
       greatest (values_of l omit vs us (pos_index (iformat im)) 0) x' /\ greatest (values_of l omit vs us (pos_index (iformat im)) 1) y' /\
       B2R (x_min r : f32) = B2R x /\ B2R (y_min r : f32) = B2R y /\ B2R (x_max r : f32) = B2R x' /\ B2R (y_max r : f32) = B2R y'.
End Piece.
Lemma index_points n : (0 <= n)%Z -> forall x, In x (indices_upto n) <-> (0 <= x < n)%Z.
Proof. intros N x. unfold indices_upto. rewrite in_map_iff. split; [intros (k & <- & K); apply in_seq in K; lia|]. intros X. exists (Z.to_nat x). split; [lia|]. apply in_seq. lia. Qed.

(** What the meshes [ms] together are, made from the vertices [vms] *)
Definition meshes_of (E : elem) l i omit vs ts custom (nf : format) (ms : list imesh) (vms : list (list Z)) : Prop :=
  exists c kx ky,
    Forall2 (piece E l i omit vs ts custom c kx ky) ms vms /\ concat (map (fun mu => recovered (fst mu) (snd mu)) (combine ms vms)) = ts /\
    ((forall us, NoDup us -> (forall v, In v us -> In v (used_vertices ts)) -> (Z.of_nat (length us) <= 2 ^ 16)%Z) -> length ms = 1) /\
    (forall k t, nth_error (left_types l omit) k = Some t -> params_of l omit vs ts custom k t (nth k c [])) /\
    (forall t bits, nth_error (left_types l omit) (pos_index nf) = Some t -> packed_bits t = Some bits -> exists bx by_ p q, bits = [bx; by_] /\ nth (pos_index nf) c [] = [p; q] /\
      (forall v, In v (used_vertices ts) -> (0 <= kx v <= 2 ^ Z.of_nat bx - 1)%Z /\ (0 <= ky v <= 2 ^ Z.of_nat by_ - 1)%Z /\
         exists nx ny, level p (nth 0 (value_at l omit vs (pos_index nf) v) f0) nx /\ (Z.abs (kx v - nx) <= 1)%Z /\ level q (nth 1 (value_at l omit vs (pos_index nf) v) f0) ny /\ (Z.abs (ky v - ny) <= 1)%Z) /\
      ((forall v, In v (used_vertices ts) -> level p (nth 0 (value_at l omit vs (pos_index nf) v) f0) (kx v) /\ level q (nth 1 (value_at l omit vs (pos_index nf) v) f0) (ky v)) \/
       (forall a b d, In (a, b, d) ts ->
          FlipModel.negative (Tri (given_point E l nf omit vs a) (given_point E l nf omit vs b) (given_point E l nf omit vs d)) = false /\
          FlipModel.negative (Tri (V (N := fnum E) (at_level p (kx a)) (at_level q (ky a))) (V (N := fnum E) (at_level p (kx b)) (at_level q (ky b))) (V (N := fnum E) (at_level p (kx d)) (at_level q (ky d)))) = false))).
Lemma made_parts E l i f omit os vs ts custom nf : create l i = Some f -> history (shape_bytes l) (pos_index f) (index_limit i) os vs ts -> (count vs * Z.of_nat (ustride f) <= 2 ^ 32)%Z ->
  ts <> [] -> proper l omit vs ts custom -> create (left_attributes l omit) i = Some nf ->
  (forall k t, nth_error (left_types l omit) k = Some t -> spread (values_of l omit vs (used_vertices ts)) custom k t) ->
  (forall t, nth_error (left_types l omit) (pos_index nf) = Some t -> position_calm l omit vs ts custom (pos_index nf) t) ->
  exists ms vms, as_meshes E (calls (new_mesh f) os) custom omit = Made ms /\ vms = map vertex_indices (partition_triangles (2 ^ 16) ts) /\
    meshes_of E l i omit vs ts custom nf ms vms.
Proof.
  unfold meshes_of.
  intros CF HI SM NE PR CN SP PC. destruct (as_cases E l i f omit os vs ts custom CF HI SM) as [(T & _)|[(_ & P & _)|(_ & _ & nf' & c & CN' & CC & EQ)]]; [contradiction|contradiction|]. rewrite CN in CN'. injection CN' as <-.
  pose proof PR as (G & _ & _ & F & _). pose proof (RP l i f os vs ts CF HI) as R. set (m := calls (new_mesh f) os) in *. assert (MF' : fmt m = f) by apply (MF f os).
  destruct (tb_ok l i f omit os vs ts CF HI SM nf NE CN G F) as [TBO FV]. fold m in TBO. set (parts := partition_triangles (2 ^ 16) ts) in *. set (TB := total_bounds _) in *.
  pose proof (kept_types l i nf omit CN) as KT. pose proof (pcreated _ _ _ CN) as W. pose proof (kept_length l i f nf omit CF CN) as KL.
  destruct (kp_type l i nf omit CN) as (tp & TP & C2 & TY). rewrite KT in TP.
  destruct (positions E l i f nf omit m vs ts custom TB c CF CN MF' R SM G TBO FV CC tp) as [PU PP]; [rewrite KT; exact TP|apply SP, TP|apply PC, TP|].
  set (over := correct E m (nth (pos_index nf) c [])) in *. set (kp := pos_index nf) in *.
  set (value := fun vis n k => override f over m (nth n vis (-1)%Z) (nth k (kept f omit) 0)).
  assert (LEN : length c = length (attrs nf)). { destruct (coding_some _ _ custom TB (proj1 TBO) FV (bounds_of_BB _ _ _ TBO) c CC) as (LC & _). rewrite LC, map_length. reflexivity. }
  (* the integers of the position *)
  assert (PK : exists kx ky : Z -> Z, (forall bits, packed_bits tp = Some bits -> exists bx by_ p q, bits = [bx; by_] /\ nth kp c [] = [p; q] /\
     (forall v, In v (used_vertices ts) -> exists hx hy nx ny, override f over m v (nth kp (kept f omit) 0) = [hx; hy] /\
        pack_single p hx = Some (kx v) /\ (0 <= kx v <= 2 ^ Z.of_nat bx - 1)%Z /\ pack_single q hy = Some (ky v) /\ (0 <= ky v <= 2 ^ Z.of_nat by_ - 1)%Z /\
        level p (nth 0 (value_at l omit vs kp v) f0) nx /\ (Z.abs (kx v - nx) <= 1)%Z /\ level q (nth 1 (value_at l omit vs kp v) f0) ny /\ (Z.abs (ky v - ny) <= 1)%Z) /\
     ((forall v, In v (used_vertices ts) -> override f over m v (nth kp (kept f omit) 0) = value_at l omit vs kp v /\ level p (nth 0 (value_at l omit vs kp v) f0) (kx v) /\ level q (nth 1 (value_at l omit vs kp v) f0) (ky v)) \/
      (forall a b d, In (a, b, d) ts -> FlipModel.negative (Tri (given_point E l nf omit vs a) (given_point E l nf omit vs b) (given_point E l nf omit vs d)) = false /\
         FlipModel.negative (Tri (V (N := fnum E) (at_level p (kx a)) (at_level q (ky a))) (V (N := fnum E) (at_level p (kx b)) (at_level q (ky b))) (V (N := fnum E) (at_level p (kx d)) (at_level q (ky d)))) = false)))).
  { destruct (packed_bits tp) as [bits|] eqn:PB.
    - destruct (PP bits eq_refl) as (bx & by_ & p & q & B1 & B2 & kx & ky & A1 & A2). exists kx, ky. intros bits' [= <-]. exists bx, by_, p, q. auto.
    - exists (fun _ => 0%Z), (fun _ => 0%Z). intros bits'. discriminate. }
  clear PP. destruct PK as (kx & ky & PK).
  (* the attribute [k] of vertex [v] *)
  assert (ATT : forall v k t, In v (used_vertices ts) -> nth_error (left_types l omit) k = Some t -> exists p w, length (override f over m v (nth k (kept f omit) 0)) = component_count t /\
     pack_attribute t (nth k c []) (override f over m v (nth k (kept f omit) 0)) = Some p /\ unpack_attribute t (nth k c []) p = Some w /\ length w = component_count t /\
     (k <> kp \/ packed_bits t = None -> moderate (values_of l omit vs (used_vertices ts)) custom k t -> read_back (values_of l omit vs (used_vertices ts)) custom k t (value_at l omit vs k v) w) /\
     (forall bits, k = kp -> packed_bits t = Some bits -> exists q1 q2, nth kp c [] = [q1; q2] /\ unpack_ints t p = Some [kx v; ky v] /\ w = [at_level q1 (kx v); at_level q2 (ky v)])).
  { intros v k t V T. pose proof (used_range l i f os vs ts CF HI v G V) as VR. assert (K : k < length (kept f omit)) by (rewrite KL, <- (map_length ty), KT; apply nth_error_Some; congruence).
    destruct (kept_value l i f nf omit m vs ts CF CN MF' R SM k v K VR) as [KV KVL]. assert (TK : ty (attr_at nf k) = t). { destruct (type_index l i f nf omit CF CN k t) as [_ E0]; [rewrite KT; exact T|exact E0]. }
    rewrite TK in KVL.
    destruct (packs_value (map ty (attrs nf)) (values_of l omit vs (used_vertices ts)) custom TB c (proj1 TBO) FV TBO CC k t (value_at l omit vs k v)) as (p & w & A1 & A2 & AL & A3 & A4); [rewrite KT; exact T|apply SP, T|exact KVL| |].
    { intros j z Z. unfold values_of. apply in_map_iff. exists v. split; [apply nth_error_nth, Z|exact V]. }
    destruct (Nat.eq_dec k kp) as [-> |NK].
    - rewrite TP in T. injection T as <-. destruct (packed_bits tp) as [bits|] eqn:PB.
      + destruct (PK bits eq_refl) as (bx & by_ & q1 & q2 & EB & EC & PV & _). destruct (PV v V) as (hx & hy & nx & ny & EO & P1 & R1 & P2 & R2 & _). rewrite EO, C2, EC in *.
        destruct (attribute_packs tp bits [q1; q2] [hx; hy] PB) as (pk & ns & ws & E1 & E2 & E3 & L1 & L2 & E4); [symmetry; exact C2..| |].
        { subst bits. intros [|[|j]] pp bb vv H1 H2 H3; cbn in H1, H2, H3; try (destruct j; discriminate); injection H1 as <-; injection H2 as <-; injection H3 as <-; eauto. }
        exists pk, ws. split; [reflexivity|]. split; [exact E1|]. split; [exact E3|]. split; [exact L1|]. split; [intros [X|X]; [contradiction|discriminate]|]. intros bits' _ [= <-]. exists q1, q2. split; [reflexivity|].
        destruct (E4 0 q1 hx eq_refl eq_refl) as (n1 & N1 & N2 & N3). destruct (E4 1 q2 hy eq_refl eq_refl) as (n2 & N4 & N5 & N6). rewrite P1 in N2. injection N2 as <-. rewrite P2 in N5. injection N5 as <-.
        destruct ns as [|n1 [|n2 [|? ?]]]; try discriminate L2. destruct ws as [|w1 [|w2 [|? ?]]]; try discriminate L1. cbn in N1, N3, N4, N6. injection N1 as ->. injection N4 as ->. injection N3 as ->. injection N6 as ->. rewrite E2. split; reflexivity.
      + specialize (PU eq_refl v V). rewrite PU. exists p, w. split; [exact KVL|]. split; [exact A1|]. split; [exact A2|]. split; [exact AL|]. split; [intros _; exact A3|]. intros bits' _ X. discriminate.
    - assert (EO : override f over m v (nth k (kept f omit) 0) = value_at l omit vs k v).
      { unfold override. destruct (Nat.eqb_spec (nth k (kept f omit) 0) (pos_index f)) as [X|X]; [apply (kept_pos l i f nf omit CF CN k K) in X; contradiction|exact KV]. }
      rewrite EO. exists p, w. split; [exact KVL|]. split; [exact A1|]. split; [exact A2|]. split; [exact AL|]. split; [intros _; exact A3|]. intros bits' X. contradiction. }
  assert (ATP : forall v k t p, In v (used_vertices ts) -> nth_error (left_types l omit) k = Some t -> pack_attribute t (nth k c []) (override f over m v (nth k (kept f omit) 0)) = Some p -> properly_packed t p).
  { intros v k t p V T PA. destruct (ATT v k t V T) as (_ & _ & LO & _). apply (packs_properly t (nth k c []) _ p LO PA). intros bits PB. pose proof (used_range l i f os vs ts CF HI v G V) as VR.
    assert (K : k < length (kept f omit)) by (rewrite KL, <- (map_length ty), KT; apply nth_error_Some; congruence). destruct (kept_value l i f nf omit m vs ts CF CN MF' R SM k v K VR) as [KV KVL].
    assert (TK : ty (attr_at nf k) = t). { destruct (type_index l i f nf omit CF CN k t) as [_ E0]; [rewrite KT; exact T|exact E0]. } rewrite TK in KVL.
    destruct (Nat.eq_dec k kp) as [-> |NK].
    - rewrite TP in T. injection T as <-. destruct (PK bits PB) as (bx & by_ & q1 & q2 & EB & EC & PV & _). destruct (PV v V) as (hx & hy & nx & ny & EO & P1 & R1 & P2 & R2 & _). rewrite EO, EC. split; [symmetry; exact C2|].
      subst bits. intros [|[|j]] pp bb vv H1 H2 H3; cbn in H1, H2, H3; try (destruct j; discriminate); injection H1 as <-; injection H2 as <-; injection H3 as <-; eauto.
    - assert (EO : override f over m v (nth k (kept f omit) 0) = value_at l omit vs k v).
      { unfold override. destruct (Nat.eqb_spec (nth k (kept f omit) 0) (pos_index f)) as [X|X]; [apply (kept_pos l i f nf omit CF CN k K) in X; contradiction|exact KV]. }
      rewrite EO in *. destruct (packs_value (map ty (attrs nf)) (values_of l omit vs (used_vertices ts)) custom TB c (proj1 TBO) FV TBO CC k t (value_at l omit vs k v)) as (p' & w & A1 & A2 & AL & A3 & A4); [rewrite KT; exact T|apply SP, T|exact KVL| |].
      { intros j z Z. unfold values_of. apply in_map_iff. exists v. split; [apply nth_error_nth, Z|exact V]. }
      destruct (A4 bits PB) as (LP & ns & _ & _ & _ & A5). split; [exact LP|]. intros j q b z H1 H2 H3. destruct (A5 j b q z H2 H1 H3) as (n & _ & _ & N1 & N2). eauto. }
  (* each partition packs *)
  assert (PWS : forall p, In p parts -> (forall n k, n < length (vertex_indices p) -> k < length (attrs nf) -> length (value (vertex_indices p) n k) = component_count (ty (attr_at nf k))) /\ exists ws, pack_writes nf c (value (vertex_indices p)) (length (vertex_indices p)) = Some ws).
  { intros p P. assert (AL : forall n k, n < length (vertex_indices p) -> k < length (attrs nf) -> In (nth n (vertex_indices p) (-1)%Z) (used_vertices ts) /\ nth_error (left_types l omit) k = Some (ty (attr_at nf k))).
    { intros n k N K. split; [apply part_used; exists p; split; [exact P|apply nth_In, N]|]. rewrite <- KT. apply type_at, K. }
    split; [intros n k N K; destruct (AL n k N K) as [A1 A2]; destruct (ATT _ k _ A1 A2) as (pp & w & L1 & _); exact L1|].
    apply pack_writes_all. intros n k N K. destruct (AL n k N K) as [A1 A2]. destruct (ATT _ k _ A1 A2) as (pp & w & _ & P1 & _). exists pp. exact P1. }
  set (make := fun pb : part * list bounds => match copy_and_pack m (vertex_indices (fst pb)) omit c over with Some vd => Some (make_mesh nf c (Some (snd pb)) vd (index_bytes (triangles (fst pb)))) | None => None end) in *.
  set (bds := fun p => partition_bounds m (vertex_indices p) omit) in *.
  assert (MK : forall p, In p parts -> exists ws, pack_writes nf c (value (vertex_indices p)) (length (vertex_indices p)) = Some ws /\ make (p, bds p) = Some (make_mesh nf c (Some (bds p)) (write_all ws (repeat 0%Z (length (vertex_indices p) * pstride nf))) (index_bytes (triangles p)))).
  { intros p P. destruct (PWS p P) as (_ & ws & WS). exists ws. split; [exact WS|]. unfold make. cbn [fst snd]. rewrite (copy_writes l i f nf omit m CF CN MF' (vertex_indices p) c over LEN). unfold value in WS. rewrite WS. reflexivity. }
  assert (CB : combine parts (map bds parts) = map (fun p => (p, bds p)) parts) by (generalize parts; intros ps; induction ps as [|p ps IH]; [reflexivity|cbn; rewrite IH; reflexivity]).
  rewrite CB, map_map in EQ. destruct (gather_none (map (fun p => make (p, bds p)) parts)) as [ms GM]. { intros x I. apply in_map_iff in I. destruct I as (p & <- & P). destruct (MK p P) as (ws & _ & ->). discriminate. }
  rewrite GM in EQ. apply gather_some in GM. assert (LM : length ms = length parts) by (rewrite <- (map_length Some ms), <- GM, map_length; reflexivity).
  assert (REC : forall p im, In p parts -> make (p, bds p) = Some im -> (exists b vd, im = make_mesh nf c b vd (index_bytes (triangles p))) /\ ivcount im = Z.of_nat (length (vertex_indices p)) /\ itcount im = Z.of_nat (length (triangles p)) /\ originals p = map Some (recovered im (vertex_indices p)) /\ map (iindices im) (indices_upto (itcount im)) = triangles p /\ ibounds im = Some (bds p) /\
     forall n k, (0 <= n < Z.of_nat (length (vertex_indices p)))%Z -> k < length (attrs nf) -> exists pp, pack_attribute (ty (attr_at nf k)) (nth k c []) (value (vertex_indices p) (Z.to_nat n) k) = Some pp /\
       iattribute im n k = unpack_attribute (ty (attr_at nf k)) (nth k c []) pp /\ iintegers im n k = unpack_ints (ty (attr_at nf k)) pp /\ packed_attribute im n k = packed_bytes pp).
  { intros p im P M. destruct (MK p P) as (ws & WS & M'). rewrite M in M'. injection M' as ->. destruct (PWS p P) as [LV _]. destruct (part_nonempty ts p NE P) as (_ & _ & SZ & _).
    destruct (made_reads nf c (Some (bds p)) (value (vertex_indices p)) (length (vertex_indices p)) ws (triangles p) W LV WS SZ (part_small ts p NE P)) as (B1 & B2 & B3 & B4).
    { pose proof (rep_tmax _ _ _ R) as TM. pose proof (part_count ts p P). unfold count, triple, tri in *. lia. }
    split; [eauto|]. split; [exact B1|]. split; [exact B2|]. split; [|split; [exact B3|split; [reflexivity|exact B4]]].
    rewrite originals_some by (intros t TI; destruct (part_tri ts p t P TI) as (t' & O & _); eauto). f_equal. unfold recovered. set (im := make_mesh _ _ _ _ _) in *. rewrite <- B3 at 1. rewrite map_map. reflexivity. }
  exists ms, (map vertex_indices parts). split; [exact EQ|]. split; [reflexivity|]. exists c, kx, ky.
  assert (NTH : forall j im us, nth_error ms j = Some im -> nth_error (map vertex_indices parts) j = Some us -> exists p, nth_error parts j = Some p /\ us = vertex_indices p /\ make (p, bds p) = Some im).
  { intros j im us J1 J2. rewrite nth_error_map in J2. destruct (nth_error parts j) as [p|] eqn:PJ; [|discriminate]. injection J2 as <-. exists p. split; [reflexivity|]. split; [reflexivity|]. assert (X : nth_error (map Some ms) j = Some (make (p, bds p))) by (rewrite <- GM, nth_error_map, PJ; reflexivity). rewrite nth_error_map, J1 in X. injection X as X. symmetry. exact X. }
  split.
  { apply Forall2_nth; [rewrite map_length; exact LM|]. intros j im us J1 J2. destruct (NTH j im us J1 J2) as (p & PJ & -> & M). pose proof (nth_error_In _ _ PJ) as P. destruct (REC p im P M) as ((b & vd & EM) & B1 & B2 & B3 & BT & BB & B4). destruct (part_nonempty ts p NE P) as (TN & VN & SZ & ND & US).
    assert (IFM : iformat im = nf) by (rewrite EM; reflexivity). assert (ICO : coding im = c) by (rewrite EM; reflexivity). unfold piece. rewrite IFM. fold kp.
    split; [exact CN|]. split; [exact ICO|]. split; [exact B1|]. split; [exact VN|]. split; [exact SZ|]. split; [exact ND|]. split; [rewrite B2; destruct (triangles p); [contradiction|cbn; lia]|].
    pose proof (part_range l i f os vs ts CF HI p G P) as VR.
    assert (PB' : bounds_of (map ty (attrs nf)) (values_of l omit vs (vertex_indices p)) (bds p)) by apply (part_bounds l i f nf omit m vs ts CF CN MF' R SM F (vertex_indices p) VR VN).
    assert (FV' : finite_vals (map ty (attrs nf)) (values_of l omit vs (vertex_indices p))) by apply (values_finite l i f nf omit m vs ts CF CN MF' R SM F (vertex_indices p) VR).
    assert (KLT : forall k t, nth_error (left_types l omit) k = Some t -> k < length (attrs nf) /\ ty (attr_at nf k) = t).
    { intros k t T. rewrite <- KT in T. destruct (type_index l i f nf omit CF CN k t T) as [A1 A2]. rewrite <- KL. auto. }
    assert (BD : forall k t, nth_error (left_types l omit) k = Some t -> exists los his, iattr_bounds im k = Some (los, his) /\ length los = component_count t /\ length his = component_count t /\
       forall j lo hi, nth_error los j = Some lo -> nth_error his j = Some hi -> least (values_of l omit vs (vertex_indices p) k j) lo /\ greatest (values_of l omit vs (vertex_indices p) k j) hi).
    { intros k t T. rewrite <- KT in T. destruct (bnds_nth (map ty (attrs nf)) (bds p) (proj1 PB') k t T) as [[los his] BK]. exists los, his. unfold iattr_bounds. rewrite BB. split; [exact BK|]. apply (bounds_of_BB _ _ _ PB' k t (los, his) T BK). }
    split.
    { intros v V. destruct (In_nth_error _ _ V) as (n & NV). assert (NL : n < length (vertex_indices p)) by (apply nth_error_Some; congruence). destruct (US (Z.of_nat n)) as (t & TI & TC); [lia|]. destruct (part_tri ts p t P TI) as (t' & O & _).
      assert (I : In (Some t') (originals p)) by (unfold originals; rewrite <- O; apply in_map, TI). rewrite B3 in I. apply in_map_iff in I. destruct I as (t'' & [= ->] & I). unfold used_vertices. apply in_flat_map. exists t'. split; [exact I|]. rewrite corners3_eq.
      destruct t as [[a1 b1] c1]. cbn [original] in O. destruct (at_index _ a1) as [a'|] eqn:EA; [|discriminate]. destruct (at_index _ b1) as [b'|] eqn:EB; [|discriminate]. destruct (at_index _ c1) as [c'|] eqn:EC; [|discriminate]. injection O as <-.
      assert (AV : at_index (vertex_indices p) (Z.of_nat n) = Some v) by (apply at_index_some; split; [unfold size; lia|rewrite Nat2Z.id; exact NV]). cbn [corners In] in *. destruct TC as [TC|[TC|[TC|[]]]]; [left|right; left|right; right; left]; congruence. }
    split; [transitivity (concat (map (fun t : triple => let '(a, b, d) := t in concat (map (le_bytes 2) [a; b; d])) (triangles p))); [rewrite EM; cbn [make_mesh iidata]; rewrite index_bytes_eq; unfold image; f_equal|f_equal; f_equal; symmetry; exact BT]|].
    split.
    { intros j0 J0. assert (I : In (iindices im j0) (triangles p)). { rewrite <- BT. apply in_map. unfold indices_upto. apply in_map_iff. exists (Z.to_nat j0). split; [lia|]. apply in_seq. lia. }
      destruct (part_tri ts p _ P I) as (t' & O & _). destruct (iindices im j0) as [[a1 b1] c1]. cbn [original] in O. destruct (at_index _ a1) as [a'|] eqn:EA; [|discriminate]. destruct (at_index _ b1) as [b'|] eqn:EB; [|discriminate]. destruct (at_index _ c1) as [c'|] eqn:EC; [|discriminate].
      apply at_index_some in EA, EB, EC. unfold size in *. rewrite B1. unfold small. lia. }
    split.
    { intros n k t N T OK. rewrite B1 in N. destruct (KLT k t T) as [K TK]. destruct (B4 n k N K) as (pp & P1 & P2 & _). rewrite TK in P1, P2. assert (VI : In (nth (Z.to_nat n) (vertex_indices p) (-1)%Z) (used_vertices ts)) by (apply part_used; exists p; split; [exact P|apply nth_In; lia]).
      destruct (ATT _ k t VI T) as (p' & w & _ & Q1 & Q2 & QL & Q3 & _). unfold value in P1. rewrite Q1 in P1. injection P1 as <-. exists w. split; [rewrite P2; exact Q2|]. split; [exact QL|apply Q3, OK]. }
    split.
    { intros n t bits N T PB. rewrite B1 in N. destruct (KLT kp t T) as [K TK]. destruct (B4 n kp N K) as (pp & P1 & P2 & P3 & _). rewrite TK in P1, P2, P3. assert (VI : In (nth (Z.to_nat n) (vertex_indices p) (-1)%Z) (used_vertices ts)) by (apply part_used; exists p; split; [exact P|apply nth_In; lia]).
      destruct (ATT _ kp t VI T) as (p' & w & _ & Q1 & Q2 & _ & _ & Q3). unfold value in P1. rewrite Q1 in P1. injection P1 as <-. destruct (Q3 bits eq_refl PB) as (q1 & q2 & EC & I1 & EW). exists q1, q2. split; [exact EC|]. cbv zeta. rewrite P2, P3, Q2, I1, EW. split; reflexivity. }
    destruct (coding_lengths (map ty (attrs nf)) (values_of l omit vs (used_vertices ts)) custom TB c (proj1 TBO) FV TBO CC) as [CL CLK]. rewrite map_length in CL. split; [exact CL|]. split; [intros k t T; apply CLK; rewrite KT; exact T|].
    split.
    { intros n k t N T. rewrite B1 in N. destruct (KLT k t T) as [K TK]. split; [exact K|]. split; [exact TK|]. destruct (B4 n k N K) as (pp & P1 & _ & _ & P4). rewrite TK in P1. assert (VI : In (nth (Z.to_nat n) (vertex_indices p) (-1)%Z) (used_vertices ts)) by (apply part_used; exists p; split; [exact P|apply nth_In; lia]).
      exists pp. split; [exact P4|]. unfold value in P1. exact (ATP _ k t pp VI T P1). }
    split; [exact BD|]. destruct (BD kp tp TP) as (los & his & IB & LL & LH & LG). rewrite C2 in LL, LH.
    destruct los as [|x0 [|y0 [|? ?]]]; try discriminate LL. destruct his as [|x1 [|y1 [|? ?]]]; try discriminate LH. destruct (LG 0 x0 x1 eq_refl eq_refl) as [X0 X1]. destruct (LG 1 y0 y1 eq_refl eq_refl) as [Y0 Y1].
    assert (FN : forall j v, j < 2 -> In v (values_of l omit vs (vertex_indices p) kp j) -> is_finite v = true) by (intros j' v JB I; apply (FV' kp tp j' v); [rewrite KT; exact TP|lia|exact I]).
    destruct (point_envelope E x0 y0 x1 y1) as (r & Q & R1 & R2 & R3 & R4 & R5 & R6 & R7 & R8); [apply (FN 0); [lia|apply X0]|apply (FN 1); [lia|apply Y0]|apply (FN 0); [lia|apply X1]|apply (FN 1); [lia|apply Y1]|apply X0, X1|apply Y0, Y1|].
    exists r. unfold ienvelope. rewrite IFM. fold kp. rewrite IB. split; [exact Q|]. repeat (split; [assumption|]). exists x0, y0, x1, y1. repeat split; assumption || apply X0 || apply Y0 || apply X1 || apply Y1. }
  split.
  { apply map_some_inj. transitivity (concat (map originals parts)); [|exact (C31_keeps_triangles (2 ^ 16) ts max_range)]. rewrite concat_map, map_map. f_equal. apply nth_error_ext. intros j. rewrite !nth_error_map. destruct (nth_error parts j) as [p|] eqn:PJ.
    - assert (JL : j < length parts) by (apply nth_error_Some; congruence). destruct (nth_error ms j) as [im|] eqn:MJ; [|apply nth_error_None in MJ; lia]. destruct (NTH j im (vertex_indices p) MJ) as (p' & PJ' & _ & M); [rewrite nth_error_map, PJ; reflexivity|]. rewrite PJ in PJ'. injection PJ' as <-.
      assert (CJ : nth_error (combine ms (map vertex_indices parts)) j = Some (im, vertex_indices p)). { rewrite (nth_error_nth' _ (im, vertex_indices p)) by (rewrite combine_length, map_length; lia). rewrite combine_nth by (rewrite map_length; exact LM). rewrite (nth_error_nth _ _ _ MJ). rewrite (nth_error_nth (map vertex_indices parts) j (vertex_indices p) (x := vertex_indices p)) by (rewrite nth_error_map, PJ; reflexivity). reflexivity. }
      rewrite CJ. cbn [option_map fst snd]. destruct (REC p im (nth_error_In _ _ PJ) M) as (_ & _ & _ & B3 & _). rewrite B3. reflexivity.
    - apply nth_error_None in PJ. rewrite (proj2 (nth_error_None _ _)) by (rewrite combine_length, map_length; lia). reflexivity. }
  split.
  { intros FIT. rewrite LM. destruct (C31_one_partition (2 ^ 16) ts max_range) as (p & E1).
    - apply Forall_forall. intros [[a b] d] I. specialize (G _ I). cbn in G. unfold distinct_corners, corners. repeat constructor; cbn; intuition congruence.
    - intros us ND UB. apply (FIT us ND). intros v V. destruct (UB v V) as (t & T1 & T2). unfold used_vertices. apply in_flat_map. exists t. split; [exact T1|]. rewrite corners3_eq. exact T2.
    - unfold parts. rewrite E1. reflexivity. }
  split; [intros k t T; apply (coding_at l nf omit vs ts custom TB c TBO FV CC); rewrite KT; exact T|].
  intros t bits T PB. rewrite TP in T. injection T as <-. destruct (PK bits PB) as (bx & by_ & p & q & EB & EC & PV & CS). exists bx, by_, p, q. split; [exact EB|]. split; [exact EC|]. split.
  - intros v V. destruct (PV v V) as (hx & hy & nx & ny & _ & _ & R1 & _ & R2 & L1 & D1 & L2 & D2). split; [exact R1|]. split; [exact R2|]. exists nx, ny. auto.
  - destruct CS as [CS|CS]; [left; intros v V; apply (CS v V)|right; exact CS].
Qed.
(** Otherwise, for a mesh with triangles: the meshes returned hold the same triangles in the same order, over at most 2^16 different
    vertices each, all of them used; the attributes not left out read back the given values up to the precision of the packing; the
    packed positions differ from the nearest ones by at most one step, and either they are the nearest ones or no triangle is turned
    over; the bounds of each mesh are those of the given values of its vertices. *)
Theorem C56_made E l i f omit os vs ts custom nf : create l i = Some f -> history (shape_bytes l) (pos_index f) (index_limit i) os vs ts -> (count vs * Z.of_nat (ustride f) <= 2 ^ 32)%Z ->
  ts <> [] -> proper l omit vs ts custom -> create (left_attributes l omit) i = Some nf ->
  (forall k t, nth_error (left_types l omit) k = Some t -> spread (values_of l omit vs (used_vertices ts)) custom k t) ->
  (forall t, nth_error (left_types l omit) (pos_index nf) = Some t -> position_calm l omit vs ts custom (pos_index nf) t) ->
  exists ms vms, as_meshes E (calls (new_mesh f) os) custom omit = Made ms /\ meshes_of E l i omit vs ts custom nf ms vms.
Proof. intros CF HI SM NE PR CN SP PC. destruct (made_parts E l i f omit os vs ts custom nf CF HI SM NE PR CN SP PC) as (ms & vms & A & _ & B). exists ms, vms. auto. Qed.

(** ** A case: an attribute that is left out (one of its values is NaN), a position packed with given parameters, an unused vertex *)
Definition ex_l : list (nat * nat) := [(0, 9); (3, 0)].
Definition ex_f : format := build [(Float1Unpacked, 9); (Float2In1Float, 0)] 1 k16BitUnpacked16BitPacked.
Definition ex_os : list op := [AppendVertex f0 f0; AppendVertex f1 f0; AppendVertex f1 f1; AppendVertex f0 f1; AppendVertex f1 f1; SetAttribute 2 0 [fnan]; AppendTriangle (0, 1, 2)%Z; AppendTriangle (2, 4, 0)%Z].
Definition ex_v : list vertex := [[[f0]; [f0; f0]]; [[f0]; [f1; f0]]; [[fnan]; [f1; f1]]; [[f0]; [f0; f1]]; [[f0]; [f1; f1]]].
Definition ex_t : list triple := [(0, 1, 2); (2, 4, 0)]%Z.
Definition ex_cu : list (option (list params)) := [Some [Params f0 (fdy 1 (-8)); Params f0 (fdy 1 (-8))]].
Lemma ex_happens : history (shape_bytes ex_l) 1 (index_limit k16BitUnpacked16BitPacked) ex_os ex_v ex_t.
Proof.
  change ex_os with (((((((([] ++ [AppendVertex f0 f0]) ++ [AppendVertex f1 f0]) ++ [AppendVertex f1 f1]) ++ [AppendVertex f0 f1]) ++ [AppendVertex f1 f1]) ++ [SetAttribute 2 0 [fnan]]) ++ [AppendTriangle (0, 1, 2)%Z]) ++ [AppendTriangle (2, 4, 0)%Z]).
  unfold ex_v, ex_t. cbn [index_limit].
  assert (NX : forall os o vs ts vs' ts', history (shape_bytes ex_l) 1 (2 ^ 16) os vs ts -> allowed (shape_bytes ex_l) (2 ^ 16) (vs, ts) o /\ effect (shape_bytes ex_l) 1 (vs, ts) o = (vs', ts') -> history (shape_bytes ex_l) 1 (2 ^ 16) (os ++ [o]) vs' ts') by (intros os o vs ts vs' ts' Q [Q1 Q2]; eapply step; eassumption).
  repeat match goal with |- history _ _ _ (_ ++ _) _ _ => eapply NX end; [apply start|split; [cbn; repeat split; lia|reflexivity]..].
Qed.
Definition ex_E : elem := {| e_exp := fun x => x; e_sin := fun x => x; e_cos := fun x => x; e_tan := fun x => x; e_atan := fun x => x; e_atan2 := fun x _ => x; e_hypot := fun x _ => x; e_fmod := fun x _ => x |}.
Example C56_example : create ex_l k16BitUnpacked16BitPacked = Some ex_f /\ history (shape_bytes ex_l) (pos_index ex_f) (index_limit k16BitUnpacked16BitPacked) ex_os ex_v ex_t /\
  (count ex_v * Z.of_nat (ustride ex_f) <= 2 ^ 32)%Z /\ ex_t <> [] /\ proper ex_l [9] ex_v ex_t ex_cu /\
  exists nf, create (left_attributes ex_l [9]) k16BitUnpacked16BitPacked = Some nf /\
  (forall k t, nth_error (left_types ex_l [9]) k = Some t -> spread (values_of ex_l [9] ex_v (used_vertices ex_t)) ex_cu k t) /\
  (forall t, nth_error (left_types ex_l [9]) (pos_index nf) = Some t -> position_calm ex_l [9] ex_v ex_t ex_cu (pos_index nf) t).
Proof.
  assert (C : create ex_l k16BitUnpacked16BitPacked = Some ex_f) by reflexivity. assert (S : (count ex_v * Z.of_nat (ustride ex_f) <= 2 ^ 32)%Z) by (vm_compute; discriminate).
  split; [exact C|]. split; [exact ex_happens|]. split; [exact S|]. split; [discriminate|]. split.
  - destruct (as_cases ex_E ex_l k16BitUnpacked16BitPacked ex_f [9] ex_os ex_v ex_t ex_cu C ex_happens S) as [(T & _)|[(_ & _ & Q)|(_ & P & _)]]; [discriminate| |exact P].
    exfalso. assert (X : made (as_meshes ex_E (calls (new_mesh ex_f) ex_os) ex_cu [9]) = true) by (vm_compute; reflexivity). rewrite Q in X. discriminate.
  - eexists. split; [reflexivity|]. split.
    + intros [|k] t T G; [discriminate G|]. destruct k; discriminate T.
    + intros t [= <-] bits j b [= <-] B. cbn [given_for ex_cu nth_error pos_index build]. intros p P.
      assert (EP : p = Params f0 (fdy 1 (-8)) /\ b = 12) by (destruct j as [|[|j]]; cbn in P, B; [injection P as <-; injection B as <-; auto..|destruct j; discriminate P]). destruct EP as [-> ->]. cbn [offset scale].
      assert (E1 : B2R (fdy 1 (-8)) = (/ 256)%R). { destruct (fdy_exact 1 (-8)) as [A _].
        - apply generic_format_FLT. apply FLT_spec with (Float radix2 1 (-8)); [reflexivity|cbn; lia|cbn; lia].
        - unfold F2R; cbn [Fnum Fexp]. rewrite Rmult_1_l, Rabs_pos_eq by apply bpow_ge_0. apply bpow_lt. lia.
        - rewrite A. unfold F2R; cbn [Fnum Fexp]. change (bpow radix2 (-8)) with (/ 256)%R. lra. }
      rewrite E1. change (B2R f0) with 0%R. unfold calm. rewrite Rabs_R0. split; [split|].
      * change (/ 256)%R with (bpow radix2 (-8)). apply bpow_le. lia.
      * change (/ 256)%R with (bpow radix2 (-8)). apply bpow_le. lia.
      * change (2 ^ Z.of_nat 12 - 1)%Z with 4095%Z. lra.
Qed.

(** ** Where the code departs from its comments *)
(** mutable_mesh.h 254-255: "Each packing transform corresponds to the attribute at the same index in `Format()`".  When attributes are
    omitted this is not so: the list must be the one for the attributes that are left.  A list with one entry per attribute of the format is
    refused, whatever its entries, ... *)
Theorem C56_params_index_refuted : exists l i f omit os vs ts, create l i = Some f /\ history (shape_bytes l) (pos_index f) (index_limit i) os vs ts /\ ts <> [] /\
  (forall E custom, List.length custom = List.length l -> as_meshes E (calls (new_mesh f) os) custom omit = Refused) /\
  (exists custom, List.length custom + List.length omit = List.length l /\ made (as_meshes ex_E (calls (new_mesh f) os) custom omit) = true).
Proof.
  exists ex_l, k16BitUnpacked16BitPacked, ex_f, [9], ex_os, ex_v, ex_t. split; [reflexivity|]. split; [exact ex_happens|]. split; [discriminate|]. split.
  - intros E cu LE. apply (C56_refused_iff E ex_l k16BitUnpacked16BitPacked ex_f [9] ex_os ex_v ex_t cu); [reflexivity|exact ex_happens|vm_compute; discriminate|]. split; [discriminate|].
    intros (_ & _ & _ & _ & [[->|L] _]); [discriminate LE|]. rewrite LE in L. discriminate L.
  - exists ex_cu. split; [reflexivity|]. vm_compute. reflexivity.
Qed.
(** mutable_mesh.h lists "the range of any attribute value greater than max float" among the errors; the values of an unpacked attribute, and
    of vertices in no triangle, are not looked at *)
Theorem C56_range_refuted : exists f, create [(3, 0)] k16BitUnpacked16BitPacked = Some f /\
  made (as_meshes ex_E (calls (new_mesh f) [AppendVertex f0 f0; AppendVertex f1 f0; AppendVertex f1 f1; AppendVertex fmaxval f0; AppendVertex (fopp fmaxval) f0; AppendTriangle (0, 1, 2)%Z]) [] []) = true /\
  made (as_meshes ex_E (calls (new_mesh f) [AppendVertex f0 f0; AppendVertex f1 f0; AppendVertex f1 f1; AppendVertex fmaxval f0; AppendVertex (fopp fmaxval) f0; AppendTriangle (0, 1, 2)%Z; AppendTriangle (0, 3, 4)%Z]) [] []) = false /\
  fisfinite (fsub fmaxval (fopp fmaxval)) = false.
Proof. eexists. split; [reflexivity|]. repeat split; vm_compute; reflexivity. Qed.
Print Assumptions C56_refused_iff.
Print Assumptions C56_made.
Print Assumptions C56_params_index_refuted.
Print Assumptions C56_range_refuted.
