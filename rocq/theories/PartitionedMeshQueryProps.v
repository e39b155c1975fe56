(** C37: queries of a PartitionedMesh find every triangle.  C55: one PartitionedMesh as the query of another. *)
From Coq Require Import ZArith Bool Arith Reals Lra Lia Permutation List.
From Flocq Require Import Core BinarySingleNaN.
From Verif Require Import F32 F32Lemmas NumModel EasingExact BehaviorMeaning GeomModel AffineModel GeomSpec GeomReal GeomExact GeomMeet GeomOps AffineProofs AffineProps RTreeModel RTreeSpec RTreeProofs MeshFormatModel MutableMeshModel PartitionedMeshModel PartitionedMeshSpec PartitionedMeshIndex PartitionedMeshExact PartitionedMeshCross PartitionedMeshProps.
Import ListNotations.
Local Open Scope Z_scope.

Section C37.
Context {N : num} {M : Type}.
Variable MO : mesh_ops N M.
(** the list of all triangles names every triangle of every mesh, and none twice *)
Theorem C37_every_triangle_once (ms : list M) : NoDup (all_pairs MO ms) /\
  forall k t, In (k, t) (all_pairs MO ms) <-> exists m, nth_error ms (Z.to_nat k) = Some m /\ 0 <= k /\ 0 <= t < m_tcount MO m.
Proof.
  split; [|intros k t; apply pair_in].
  unfold all_pairs. assert (G : forall l a, NoDup (flat_map (fun km => map (fun t => (Z.of_nat (fst km), Z.of_nat t)) (seq 0 (Z.to_nat (m_tcount MO (snd km))))) (combine (seq a (length l)) l))).
  { induction l as [|m l IH]; intros a; [constructor|]. cbn [length seq combine flat_map fst snd].
    assert (APP : forall (u v : list ipair), NoDup u -> NoDup v -> (forall x, In x u -> ~ In x v) -> NoDup (u ++ v)).
    { clear. induction u as [|x u IH]; intros v U V H; [exact V|]. inversion U; subst. cbn. constructor; [rewrite in_app_iff; intros [Q|Q]; [contradiction|exact (H x (or_introl eq_refl) Q)]|apply IH; auto; intros y Y; apply H; right; exact Y]. }
    apply APP; [|apply IH|].
    - apply FinFun.Injective_map_NoDup; [intros x y Q; injection Q; lia|apply seq_NoDup].
    - intros [k t] I J. apply in_map_iff in I. destruct I as (u & Q & _). injection Q as <- <-. apply in_flat_map in J. destruct J as ([k m'] & J & J'). cbn [fst snd] in J'. apply in_map_iff in J'. destruct J' as (u' & Q & _). injection Q as Q _. apply Nat2Z.inj in Q. subst k. apply in_combine_l, in_seq in J. lia. }
  apply G.
Qed.
End C37.

(** ** Exact arithmetic *)
Section Exact.
Context {M : Type}.
Variable MO : mesh_ops N M.
Variable sort : (nat -> nat -> bool) -> list nat -> list nat.
Hypothesis sort_perm : forall f l, Permutation l (sort f l).
(** A query visits exactly the triangles that meet the image of the queried shape, each once, until told to stop.
    [exactly_carried] asks nothing of points, segments and triangles; of rects and quads it asks that the
    transform is invertible and does not turn their first axis to a negative angle (see C42_apply_quad). *)
Theorem C37_visits_what_meets (d : data M) (q : thing) a b c a' b' c' : real_meshes MO d -> thing_ok q -> exactly_carried a b a' b' q ->
  exists L, selects (fun i => exists u v w, triangle_at MO (d_meshes d) i = Some (tr u v w) /\
      exists p, thing_set q p /\ tri_set u v w (P (a * px p + b * py p + c) (a' * px p + b' * py p + c'))%R) (all_pairs MO (d_meshes d)) L /\
    visits_exactly (fun St v s => visit_object MO sort (fun s i => Some (v s i)) (Some d) (thing_object q) (tf a b c a' b' c') s) L.
Proof.
  intros [D1 D2 D3] K C. destruct (carried a b c a' b' c' q K C) as (q' & C1 & C2 & C3).
  destruct (visit_thing MO sort sort_perm d D1 D2 D3 (thing_object q) q' (tf a b c a' b' c') C1 C2) as (L & S1 & S2). exists L. split; [|exact S2].
  assert (EQ : forall i, shape_hit MO d (thing_set q') i <-> (exists u v w, triangle_at MO (d_meshes d) i = Some (tr u v w) /\ exists p, thing_set q p /\ tri_set u v w (P (a * px p + b * py p + c) (a' * px p + b' * py p + c'))%R)).
  { intros i. unfold shape_hit, meet. split.
    - intros (u & v & w & T & p & P1 & P2). exists u, v, w. split; [exact T|]. apply C3 in P2. destruct P2 as (p0 & P2 & ->). exists p0. split; [exact P2|exact P1].
    - intros (u & v & w & T & p & P1 & P2). exists u, v, w. split; [exact T|]. eexists. split; [exact P2|]. apply C3. exists p. split; [exact P1|reflexivity]. }
  clear -S1 EQ. induction S1; [constructor|apply sel_take; [apply EQ; assumption|assumption]|apply sel_skip; [rewrite <- EQ; assumption|assumption]].
Qed.
(** For any invertible transform, the image of a rect or quad may also be turned about its centre by the excess of kFullTurn over 2 pi *)
Theorem C37_visits_turned (d : data M) (q : thing) a b c a' b' c' : real_meshes MO d -> thing_ok q -> (a * b' <> b * a')%R ->
  exists t L, (0 <= t < 2 / 10000000)%R /\ (~ wide q -> t = 0%R) /\ (exactly_carried a b a' b' q -> t = 0%R) /\
    selects (fun i => exists u v w, triangle_at MO (d_meshes d) i = Some (tr u v w) /\
      exists p, thing_set q p /\ tri_set u v w (turned (image a b c a' b' c' (middle q)) t (image a b c a' b' c' p))) (all_pairs MO (d_meshes d)) L /\
    visits_exactly (fun St v s => visit_object MO sort (fun s i => Some (v s i)) (Some d) (thing_object q) (tf a b c a' b' c') s) L.
Proof.
  intros [D1 D2 D3] K C. destruct (carried_turned a b c a' b' c' q K C) as (q' & t & (C1 & C2 & C3 & C4 & _ & C5) & C6).
  destruct (visit_thing MO sort sort_perm d D1 D2 D3 (thing_object q) q' (tf a b c a' b' c') C1 C2) as (L & S1 & S2). exists t, L. split; [exact C3|]. split; [exact C4|]. split; [intros X; apply (C6 X)|]. split; [|exact S2].
  revert S1. apply selects_ext. intros i. unfold shape_hit, meet. split.
  - intros (u & v & w & T & p & P1 & P2). exists u, v, w. split; [exact T|]. apply C5 in P2. destruct P2 as (p0 & P2 & ->). exists p0. split; [exact P2|exact P1].
  - intros (u & v & w & T & p & P1 & P2). exists u, v, w. split; [exact T|]. eexists. split; [exact P2|]. apply C5. exists p. split; [exact P1|reflexivity].
Qed.
(** with no transform given *)
Corollary C37_identity (d : data M) (q : thing) : real_meshes MO d -> thing_ok q -> match q with TQuad _ _ _ r _ => (0 <= sin r)%R | _ => True end ->
  exists L, selects (fun i => exists u v w, triangle_at MO (d_meshes d) i = Some (tr u v w) /\ meet (tri_set u v w) (thing_set q)) (all_pairs MO (d_meshes d)) L /\
    visits_exactly (fun St v s => visit_object MO sort (fun s i => Some (v s i)) (Some d) (thing_object q) identity s) L.
Proof.
  intros D K C. destruct (C37_visits_what_meets d q 1 0 0 0 1 0 D K) as (L & S1 & S2). { destruct q; cbn in *; auto; repeat split; lra. }
  exists L. split; [|unfold identity; rewrite EasingExact.x0, x1e; exact S2].
  revert S1. apply selects_ext. intros i. split; intros (u & v & w & T & p & P1 & P2); exists u, v, w; (split; [exact T|]); exists p.
  - split; [|exact P1]. replace p with (P (1 * px p + 0 * py p + 0) (0 * px p + 1 * py p + 0))%R by (apply pt_eq; cbn; ring). exact P2.
  - split; [exact P2|]. replace (P (1 * px p + 0 * py p + 0) (0 * px p + 1 * py p + 0))%R with p by (apply pt_eq; cbn; ring). exact P1.
Qed.
End Exact.

(** ** Floats: the same, with the intersection tests as computed.  Meshes and queries without NaN coordinates. *)
Section Float.
Variable E : elem.
Context {M : Type}.
Variable MO : mesh_ops (fnum E) M.
Variable sort : (nat -> nat -> bool) -> list nat -> list nat.
Hypothesis sort_perm : forall f l, Permutation l (sort f l).
Notation number := (fun x : T (fnum E) => is_nan (x : f32) = false).
Theorem C37_float (d : data M) (q : object (fnum E)) t box : addressable MO (d_meshes d) -> d_meshes d <> [] ->
  (forall i, In i (all_pairs MO (d_meshes d)) -> exists x, triangle_at MO (d_meshes d) i = Some x /\ tri_nums (N := fnum E) number x) ->
  env_add None (apply_object t q) = Some box -> nums (fnum E) number box ->
  exists L, selects (fun i => exists x b, triangle_at MO (d_meshes d) i = Some x /\ env_add None (OTriangle x) = Some b /\ int_rects b box = true /\ intersects (apply_object t q) (OTriangle x) = true)
      (all_pairs MO (d_meshes d)) L /\
    visits_exactly (fun St v s => visit_object MO sort (fun s i => Some (v s i)) (Some d) q t s) L.
Proof.
  intros A NE RD EB NB. eexists. split; [|apply (visit_object_exact MO number fX flt_spec sort sort_perm d A NE RD q t box EB NB)].
  apply PartitionedMeshExact.filter_selects. intros i I. destruct (RD i I) as (x & R & X). unfold object_hit, pair_box. rewrite R, andb_true_iff. split.
  - intros [H1 H2]. eexists x, _. split; [reflexivity|]. split; [reflexivity|]. split; assumption.
  - intros (x' & b & Q & Eb & H1 & H2). injection Q as <-. rewrite Eb. split; assumption.
Qed.
End Float.

(** ** A mesh with 65536 triangles or more hides the meshes after it *)
Section Wrap.
Context {N0 : num} {M : Type}.
Variable MO : mesh_ops N0 M.
Lemma wrap_generate m0 rest : 2 ^ 16 <= m_tcount MO m0 -> forall n t, 0 <= t < 2 ^ 16 ->
  exists ps, generate MO (m0 :: rest) n (0, t) = Some ps /\ length ps = n /\ forall i, In i ps -> fst i = 0 /\ 0 <= snd i < 2 ^ 16.
Proof.
  intros C. induction n as [|n IH]; intros t T; [exists []; split; [reflexivity|]; split; [reflexivity|intros i []]|]. cbn [generate]. unfold next_pair. cbn [fst snd Z.to_nat nth_error].
  pose proof (Z.mod_pos_bound (t + 1) (2 ^ 16) ltac:(lia)) as B. fold (u16z (t + 1)) in B. rewrite (proj2 (Z.leb_gt _ _)) by lia. destruct (IH (u16z (t + 1)) B) as (ps & -> & L & H). exists ((0, t) :: ps). split; [reflexivity|]. split; [cbn; rewrite L; reflexivity|]. intros i [<- |I]; [cbn; lia|apply H, I].
Qed.
End Wrap.
(** meshes given as lists of triangles *)
Definition tri_mesh : Type := Z * (pt * pt * pt).
Definition tri_ops : mesh_ops N tri_mesh := Ops N tri_mesh (fun _ => default_format) (fun _ => 3) (fun m => fst m) (fun _ _ => None)
  (fun m t => if (0 <=? t) && (t <? fst m) then let '(a, b, c) := snd m in Some (tr a b c) else None) (fun m => let '(a, b, c) := snd m in env_add None (OTriangle (tr a b c))).
Theorem C37_many_triangles_refuted sort : (forall f l, Permutation l (sort f l)) -> exists (d : data tri_mesh) (q : pt) (i : ipair),
  from_mesh_groups tri_ops [Group (d_meshes d) []] = Some d /\ Z.of_nat (length (d_meshes d)) = 2 /\ (forall m, In m (d_meshes d) -> 0 < m_tcount tri_ops m <= 65536) /\
  (* the triangle exists and contains the point *)
  In i (all_pairs tri_ops (d_meshes d)) /\ shape_hit tri_ops d (point_set q) i /\
  (* but no visitor is ever called with it, and some triangle is visited twice *)
  exists order, ~ In i order /\ ~ NoDup order /\ forall St (v : St -> ipair -> St * bool) s, exists s', visit_object tri_ops sort (fun s i => Some (v s i)) (Some d) (OPoint (pv q)) identity s = Some s' /\ visits v order s s'.
Proof.
  intros SP. set (x := (P 0 0, P 1 0, P 0 1) : pt * pt * pt). exists (Data [(65536, x); (1, x)] [] [0] [0] [default_format]), (P 0 0), (1, 0). cbn [d_meshes]. split; [reflexivity|]. split; [reflexivity|]. split; [intros m [<- |[<- |[]]]; cbn; lia|].
  split; [apply pair_in; exists (1, x); split; [reflexivity|cbn; lia]|].
  split; [exists (P 0 0), (P 1 0), (P 0 1); split; [reflexivity|]; exists (P 0 0); split; [exists 1%R, 0%R, 0%R; repeat split; try lra; apply pt_eq; cbn; ring|reflexivity]|].
  destruct (wrap_generate tri_ops (65536, x) [(1, x)] ltac:(cbn; lia) (Z.to_nat 65537) 0 ltac:(lia)) as (ps & G & LG & H).
  assert (TT : triangle_total tri_ops [(65536, x); (1, x)] = 65537) by reflexivity.
  assert (TA : forall i, In i ps -> triangle_at tri_ops [(65536, x); (1, x)] i = Some (tr (P 0 0) (P 1 0) (P 0 1))).
  { intros [k t] I. destruct (H _ I) as [K T]. cbn [fst snd] in K, T. subst k. unfold triangle_at. cbn [fst snd Z.to_nat nth_error tri_ops m_triangle x]. rewrite (proj2 (Z.leb_le _ _)), (proj2 (Z.ltb_lt _ _)) by lia. reflexivity. }
  destruct (thing_box (TTriangle (P 0 0) (P 1 0) (P 0 1)) Logic.I) as (s0 & t0 & s1 & t1 & B1 & B2). cbn [thing_object] in B1.
  destruct (thing_box (TPoint (P 0 0)) Logic.I) as (u0 & v0 & u1 & v1 & C1 & C2). cbn [thing_object] in C1.
  assert (PB : forall i, In i ps -> pair_box tri_ops [(65536, x); (1, x)] i = bx s0 t0 s1 t1) by (intros i I; unfold pair_box; rewrite (TA i I), B1; reflexivity).
  destruct (query_exact N isfin xval xlt_spec (pair_box tri_ops [(65536, x); (1, x)]) branching ltac:(unfold branching; lia) sort SP ps) as (nodes & N1 & N2).
  - intros ->. cbn in LG. lia.
  - rewrite LG. lia.
  - intros i I. rewrite (PB i I). apply nums_bx.
  - destruct (N2 (bx u0 v0 u1 v1) (nums_bx _ _ _ _)) as (order & PM & V).
    assert (INT : int_rects (bx s0 t0 s1 t1) (bx u0 v0 u1 v1) = true). { apply bx_overlap with (P 0 0); [apply B2; exists 1%R, 0%R, 0%R; repeat split; try lra; apply pt_eq; cbn; ring|apply C2; reflexivity]. }
    assert (FA : filter (fun a => int_rects (pair_box tri_ops [(65536, x); (1, x)] a) (bx u0 v0 u1 v1)) ps = ps).
    { clear -PB INT. induction ps as [|i l IH]; [reflexivity|]. cbn [filter]. rewrite (PB i (or_introl eq_refl)), INT. f_equal. apply IH. intros j J. apply PB. right. exact J. }
    rewrite FA in PM. exists order. split; [intros I; apply (Permutation_in _ PM) in I; apply H in I; cbn in I; lia|].
    split.
    + intros ND. apply (Permutation_NoDup PM) in ND. assert (L : (length ps <= length (map (fun t => (0%Z, Z.of_nat t) : ipair) (seq 0 (Z.to_nat 65536))))%nat).
      { apply NoDup_incl_length; [exact ND|]. intros [k t] I. destruct (H _ I) as [K T]. cbn [fst snd] in K, T. subst k. apply in_map_iff. exists (Z.to_nat t). split; [rewrite Z2Nat.id by lia; reflexivity|apply in_seq; lia]. }
      rewrite map_length, seq_length, LG in L. lia.
    + intros St v s.
      assert (ID : apply identity (pv (P 0 0)) = pv (P 0 0)) by apply C42_identity.
      assert (SI : spatial_index tri_ops sort (Data [(65536, x); (1, x)] [] [0] [0] [default_format]) = Some (nodes, ps)).
      { unfold spatial_index. cbn [d_meshes]. rewrite TT. unfold tri_mesh in *. rewrite G. rewrite (proj2 (forallb_forall _ _)) by (intros i I; rewrite (TA i I); reflexivity). rewrite N1. reflexivity. }
      unfold visit_object. cbn [apply_object]. rewrite ID, C1. unfold visit_tree. rewrite SI. cbn [d_meshes].
      assert (MT : intersects (OPoint (pv (P 0 0))) (OTriangle (tr (P 0 0) (P 1 0) (P 0 1))) = true).
      { apply (intersects_x (TPoint (P 0 0)) (TTriangle (P 0 0) (P 1 0) (P 0 1)) Logic.I Logic.I). exists (P 0 0). split; [reflexivity|]. exists 1%R, 0%R, 0%R. repeat split; try lra. apply pt_eq; cbn; ring. }
      set (w := fun (s : St) (i : ipair) => match triangle_at tri_ops [(65536, x); (1, x)] i with Some x0 => if intersects (OPoint (pv (P 0 0))) (OTriangle x0) then Some (v s i) else Some (s, true) | None => None end).
      destruct (V (option St) (lifted w) (Some s)) as (r & V1 & V2). unfold lifted, w in V1. rewrite V1. clear V1.
      apply (lift_visits (fun _ => true) v w) in V2.
      * replace (filter (fun _ => true) order) with order in V2; [exact V2|]. clear. induction order as [|i l IH]; [reflexivity|]. cbn. f_equal. exact IH.
      * intros i t I. apply (Permutation_in _ PM) in I. unfold w. rewrite (TA i I), MT. reflexivity.
Qed.
(** ** Render groups without meshes: documented as a no-op (InitializeSpatialIndex) and as 0 (Coverage), but a check fails *)
Theorem C37_empty_groups_refuted {N0 : num} {M : Type} (MO : mesh_ops N0 M) sort n : Z.of_nat n < 2 ^ 32 -> exists d, with_empty_groups MO n = Some d /\
  spatial_index MO sort d = None /\ (forall q t, coverage MO sort (Some d) q t = None) /\
  (forall St (v : St -> ipair -> option (St * bool)) q t s, visit_object MO sort v (Some d) q t s = None).
Proof.
  intros L. destruct (C36_empty_groups MO n L) as (d & E & _ & Q & _). exists d. split; [exact E|]. cbn [meshes] in Q. unfold spatial_index, coverage, total_area. rewrite Q. split; [reflexivity|]. split; [reflexivity|].
  intros St v q t s. unfold visit_object, visit_tree, spatial_index. rewrite Q. destruct (env_add None (apply_object t q)); reflexivity.
Qed.

(** ** C55: another PartitionedMesh as the query *)
Section Meshes.
Context {M : Type}.
Variable MO : mesh_ops N M.
Variable sort : (nat -> nat -> bool) -> list nat -> list nat.
Hypothesis sort_perm : forall f l, Permutation l (sort f l).
(** For an invertible transform that does not turn the x-axis to a negative angle, exactly those triangles are visited that meet
    the image of some triangle of the query. *)
Theorem C55_visits_what_meets (d e : data M) a b c a' b' c' : real_meshes MO d -> real_meshes MO e -> boxed MO e -> (a * b' <> b * a')%R -> (0 <= a')%R ->
  exists L, selects (fun i => exists u v w, triangle_at MO (d_meshes d) i = Some (tr u v w) /\
      exists j x y z p, In j (all_pairs MO (d_meshes e)) /\ triangle_at MO (d_meshes e) j = Some (tr x y z) /\
        tri_set x y z p /\ tri_set u v w (P (a * px p + b * py p + c) (a' * px p + b' * py p + c'))%R) (all_pairs MO (d_meshes d)) L /\
    visits_exactly (fun St v s => visit_mesh MO sort (fun s i => Some (v s i)) (Some d) (Some e) (tf a b c a' b' c') s) L.
Proof.
  intros D Q B I A. destruct (visit_mesh_x MO sort sort_perm d e a b c a' b' c' D Q B I A) as (L & S1 & S2). exists L. split; [|exact S2]. revert S1. apply selects_ext. intros i. unfold mesh_hit, shape_hit, meet. split.
  - intros (j & x & y & z & J & T & u & v & w & R & p' & P1 & p & P2 & ->). exists u, v, w. split; [exact R|]. exists j, x, y, z, p. auto.
  - intros (u & v & w & R & j & x & y & z & p & J & T & P1 & P2). exists j, x, y, z. split; [exact J|]. split; [exact T|]. exists u, v, w. split; [exact R|]. eexists. split; [exact P2|]. exists p. split; [exact P1|reflexivity].
Qed.
(** A transform that is not invertible: the query is replaced by one segment. *)
Lemma visit_collapsed (d e : data M) a b c a' b' c' x0 y0 x1 y1 u v : real_meshes MO d -> real_meshes MO e -> (a * b' = b * a')%R ->
  bounds MO (Some e) = Some (bx x0 y0 x1 y1) -> collapsed_segment MO (d_meshes e) (bx x0 y0 x1 y1) (tf a b c a' b' c') = Some (sg u v) ->
  exists L, selects (shape_hit MO d (seg_set u v)) (all_pairs MO (d_meshes d)) L /\
    visits_exactly (fun St w s => visit_mesh MO sort (fun s i => Some (w s i)) (Some d) (Some e) (tf a b c a' b' c') s) L.
Proof.
  intros D Q S EB EC. unfold visit_mesh. cbn [meshes]. destruct (d_meshes e) as [|m l] eqn:E; [destruct (rm_some _ _ Q E)|]. rewrite EB, inverse_x, Req_bool_true by exact S. rewrite EC.
  apply (visit_thing MO sort sort_perm d (rm_few _ _ D) (rm_some _ _ D) (rm_read _ _ D) (OSegment (sg u v)) (TSegment u v) identity); [|exact Logic.I].
  cbn. unfold apply_segment. cbn [sg s_start s_end]. pose proof (C42_identity u) as I1. pose proof (C42_identity v) as I2. unfold maps in I1, I2. rewrite I1, I2. reflexivity.
Qed.
(** When the corners of the query's bounds are not sent to one point, that segment joins the images of two corners of triangles and
    contains the images of all of them, so it is the convex hull of the image of the query. *)
Theorem C55_collapsed (d e : data M) a b c a' b' c' x0 y0 x1 y1 : real_meshes MO d -> real_meshes MO e -> (a * b' = b * a')%R ->
  bounds MO (Some e) = Some (bx x0 y0 x1 y1) -> image a b c a' b' c' (P x0 y0) <> image a b c a' b' c' (P x1 y1) ->
  exists u v L, (exists p, corner_of MO e p /\ u = image a b c a' b' c' p) /\ (exists p, corner_of MO e p /\ v = image a b c a' b' c' p) /\
    (forall p, corner_of MO e p -> seg_set u v (image a b c a' b' c' p)) /\
    selects (fun i => exists x y z, triangle_at MO (d_meshes d) i = Some (tr x y z) /\ meet (tri_set x y z) (seg_set u v)) (all_pairs MO (d_meshes d)) L /\
    visits_exactly (fun St w s => visit_mesh MO sort (fun s i => Some (w s i)) (Some d) (Some e) (tf a b c a' b' c') s) L.
Proof.
  intros D Q S EB NZ. destruct (collapse_x MO e x0 y0 x1 y1 a b c a' b' c' Q S NZ) as (u & v & EC & U & V & H).
  destruct (visit_collapsed d e a b c a' b' c' x0 y0 x1 y1 u v D Q S EB EC) as (L & S1 & S2). exists u, v, L. auto.
Qed.
End Meshes.

(** *** Concrete meshes *)
Definition one (x : pt * pt * pt) : data tri_mesh := Data [(1, x)] [] [0] [0] [default_format].
Definition two (x y : pt * pt * pt) : data tri_mesh := Data [(1, x); (1, y)] [] [0] [0] [default_format].
Lemma one_made x : from_mesh_groups tri_ops [Group (d_meshes (one x)) []] = Some (one x). Proof. reflexivity. Qed.
Lemma two_made x y : from_mesh_groups tri_ops [Group (d_meshes (two x y)) []] = Some (two x y). Proof. reflexivity. Qed.
Lemma one_pairs x : all_pairs tri_ops (d_meshes (one x)) = [(0, 0)]. Proof. reflexivity. Qed.
Lemma two_pairs x y : all_pairs tri_ops (d_meshes (two x y)) = [(0, 0); (1, 0)]. Proof. reflexivity. Qed.
Lemma one_real x : real_meshes tri_ops (one x).
Proof.
  destruct x as [[a b] c]. split; [split; [cbn; lia|intros m [<- |[]]; cbn; lia|rewrite one_pairs; cbn; lia]|discriminate|].
  rewrite one_pairs. intros i [<- |[]]. exists a, b, c. reflexivity.
Qed.
Lemma two_real x y : real_meshes tri_ops (two x y).
Proof.
  destruct x as [[a b] c], y as [[a' b'] c']. split; [split; [cbn; lia|intros m [<- |[<- |[]]]; cbn; lia|rewrite two_pairs; cbn; lia]|discriminate|].
  rewrite two_pairs. intros i [<- |[<- |[]]]; [exists a, b, c|exists a', b', c']; reflexivity.
Qed.
Lemma tri_corner a b c p : In p [a; b; c] -> tri_set a b c p.
Proof. intros [<- |[<- |[<- |[]]]]; [exists 1%R, 0%R, 0%R|exists 0%R, 1%R, 0%R|exists 0%R, 0%R, 1%R]; repeat split; try lra; apply pt_eq; cbn; ring. Qed.
Lemma tri_boxed (d : data tri_mesh) : boxed tri_ops d.
Proof.
  intros [n [[a b] c]] _. destruct (thing_box (TTriangle a b c) Logic.I) as (x0 & y0 & x1 & y1 & E & H). exists x0, y0, x1, y1. split; [exact E|].
  intros t a' b' c' T p I. cbn [tri_ops m_triangle fst snd] in T. destruct ((0 <=? t) && (t <? n)); [|discriminate]. apply tr_inj in T. destruct T as (-> & -> & ->). apply H, tri_corner, I.
Qed.
Definition corner_tri (x : R) : pt * pt * pt := (P x 0, P (x + 1) 0, P x 1).
Lemma corner_box x : env_add None (OTriangle (let '(a, b, c) := corner_tri x in tr a b c)) = Some (bx x 0 (x + 1) 1).
Proof. cbn [corner_tri]. unfold env_add, tr. cbn [p0 p1 p2]. rewrite two_x, join_point_x. cbn [px py]. rewrite (Rmin_left x (x + 1)), (Rmax_right x (x + 1)), (Rmin_left 0 0), (Rmax_left 0 0) by lra. rewrite (Rmin_left x x), (Rmin_left 0 1), (Rmax_left (x + 1) x), (Rmax_right 0 1) by lra. reflexivity. Qed.
(** Example: of two triangles, a point query finds the one that contains it *)
Example C37_example sort : (forall f l, Permutation l (sort f l)) -> real_meshes tri_ops (two (corner_tri 0) (corner_tri 5)) /\
  visits_exactly (fun St v s => visit_object tri_ops sort (fun s i => Some (v s i)) (Some (two (corner_tri 0) (corner_tri 5))) (OPoint (pv (P 3 (/ 4)))) (tf 2 0 0 0 1 0) s) [] /\
  visits_exactly (fun St v s => visit_object tri_ops sort (fun s i => Some (v s i)) (Some (two (corner_tri 0) (corner_tri 5))) (OPoint (pv (P (11 / 4) (/ 4)))) (tf 2 0 0 0 1 0) s) [(1, 0)].
Proof.
  intros SP. split; [apply two_real|].
  assert (G : forall x, exists L, selects (fun i => exists u v w, triangle_at tri_ops (d_meshes (two (corner_tri 0) (corner_tri 5))) i = Some (tr u v w) /\
      exists p, point_set (P x (/ 4)) p /\ tri_set u v w (P (2 * px p + 0 * py p + 0) (0 * px p + 1 * py p + 0))%R) [(0, 0); (1, 0)] L /\
    visits_exactly (fun St v s => visit_object tri_ops sort (fun s i => Some (v s i)) (Some (two (corner_tri 0) (corner_tri 5))) (OPoint (pv (P x (/ 4)))) (tf 2 0 0 0 1 0) s) L).
  { intros x. apply (C37_visits_what_meets tri_ops sort SP (two (corner_tri 0) (corner_tri 5)) (TPoint (P x (/ 4))) 2 0 0 0 1 0 (two_real _ _) Logic.I Logic.I). }
  assert (T0 : forall x, (2 < x)%R -> ~ exists u v w, triangle_at tri_ops (d_meshes (two (corner_tri 0) (corner_tri 5))) (0, 0) = Some (tr u v w) /\ exists p, point_set (P x (/ 4)) p /\ tri_set u v w (P (2 * px p + 0 * py p + 0) (0 * px p + 1 * py p + 0))%R).
  { intros x X (u & v & w & T & p & -> & k & l & m & K & L & Mm & S & E). change (triangle_at tri_ops (d_meshes (two (corner_tri 0) (corner_tri 5))) (0, 0)) with (Some (tr (P 0 0) (P (0 + 1) 0) (P 0 1))) in T. apply tr_inj in T. destruct T as (<- & <- & <-). apply (f_equal px) in E. cbn in E. lra. }
  split.
  - destruct (G 3%R) as (L & S & V). inversion S as [|? ? ? A|? ? ? A S1]; subst; [destruct (T0 3%R ltac:(lra) A)|]. inversion S1 as [|? ? ? B|? ? ? B S2]; subst; [|inversion S2; subst; exact V]. exfalso.
    destruct B as (u & v & w & T & p & -> & k & l & m & K & L' & Mm & SS & E). change (triangle_at tri_ops (d_meshes (two (corner_tri 0) (corner_tri 5))) (1, 0)) with (Some (tr (P 5 0) (P (5 + 1) 0) (P 5 1))) in T. apply tr_inj in T. destruct T as (<- & <- & <-). apply (f_equal px) in E as E1. apply (f_equal py) in E as E2. cbn in E1, E2. lra.
  - destruct (G (11 / 4)%R) as (L & S & V). inversion S as [|? ? ? A|? ? ? A S1]; subst; [destruct (T0 (11 / 4)%R ltac:(lra) A)|]. inversion S1 as [|? ? ? B S2|? ? ? B S2]; subst; [inversion S2; subst; exact V|]. exfalso. apply B.
    exists (P 5 0), (P (5 + 1) 0), (P 5 1). split; [reflexivity|]. eexists. split; [reflexivity|]. exists (/ 4)%R, (/ 2)%R, (/ 4)%R. repeat split; try lra. apply pt_eq; cbn; field.
Qed.
(** A transform that collapses the diagonal of the query's bounds, but not the query, loses most of the query:
    (x, y) |-> (x - y, 0) sends the triangle (0,0) (1,0) (0,1) to the segment from (-1,0) to (1,0), but only (0,0) is searched. *)
Theorem C55_diagonal_refuted sort : (forall f l, Permutation l (sort f l)) -> exists (d e : data tri_mesh) a b c a' b' c' p,
  from_mesh_groups tri_ops [Group (d_meshes d) []] = Some d /\ from_mesh_groups tri_ops [Group (d_meshes e) []] = Some e /\
  (* a point of a triangle of the query is sent into a triangle of the mesh *)
  shape_hit tri_ops e (point_set p) (0, 0) /\ shape_hit tri_ops d (point_set (image a b c a' b' c' p)) (0, 0) /\
  (* but the visitor is not called *)
  forall St (v : St -> ipair -> St * bool) s, visit_mesh tri_ops sort (fun s i => Some (v s i)) (Some d) (Some e) (tf a b c a' b' c') s = Some s.
Proof.
  intros SP. exists (one (corner_tri 1)), (one (corner_tri 0)), 1%R, (-1)%R, 0%R, 0%R, 0%R, 0%R, (P 1 0). split; [reflexivity|]. split; [reflexivity|].
  split; [exists (P 0 0), (P (0 + 1) 0), (P 0 1); split; [reflexivity|]; exists (P 1 0); split; [exists 0%R, 1%R, 0%R; repeat split; try lra; apply pt_eq; cbn; ring|reflexivity]|].
  split; [exists (P 1 0), (P (1 + 1) 0), (P 1 1); split; [reflexivity|]; exists (P 1 0); split; [apply tri_corner; left; reflexivity|unfold image; apply pt_eq; cbn; ring]|].
  assert (EB : bounds tri_ops (Some (one (corner_tri 0))) = Some (bx 0 0 (0 + 1) 1)) by apply (corner_box 0).
  destruct (visit_collapsed tri_ops sort SP (one (corner_tri 1)) (one (corner_tri 0)) 1 (-1) 0 0 0 0 0 0 (0 + 1) 1 (P 0 0) (P 0 0) (one_real _) (one_real _) ltac:(lra) EB) as (L & S & order & PM & V).
  - unfold collapsed_segment. cbn [bx x_min y_min x_max y_max]. change (Seg (V (Fin 0 : T N) (Fin 0 : T N)) (V (Fin (0 + 1) : T N) (Fin 1 : T N))) with (sg (P 0 0) (P (0 + 1) 1)).
    change (apply_segment (tf 1 (-1) 0 0 0 0) (sg (P 0 0) (P (0 + 1) 1))) with (sg (image 1 (-1) 0 0 0 0 (P 0 0)) (image 1 (-1) 0 0 0 0 (P (0 + 1) 1))).
    replace (image 1 (-1) 0 0 0 0 (P 0 0)) with (P 0 0) by (unfold image; apply pt_eq; cbn; ring). replace (image 1 (-1) 0 0 0 0 (P (0 + 1) 1)) with (P 0 0) by (unfold image; apply pt_eq; cbn; ring).
    unfold seg_vector. cbn [sg s_start s_end]. rewrite sub_x. change (magnitude_squared (pv (sub (P 0 0) (P 0 0)))) with (Fin (dot2 (sub (P 0 0) (P 0 0)) (sub (P 0 0) (P 0 0))) : T N). rewrite EasingExact.x0, (proj2 (eq_x _ _)) by (unfold dot2, sub; cbn; ring). reflexivity.
  - rewrite one_pairs in S. inversion S as [|? ? ? A|? ? ? A S1]; subst.
    + exfalso. destruct A as (u & v & w & T & p & (k & l & m & K & Lp & Mm & SS & ->) & Q). change (triangle_at tri_ops (d_meshes (one (corner_tri 1))) (0, 0)) with (Some (tr (P 1 0) (P (1 + 1) 0) (P 1 1))) in T. apply tr_inj in T. destruct T as (<- & <- & <-).
      destruct Q as (t & B & Q). apply (f_equal px) in Q. cbn in Q. lra.
    + inversion S1; subst. apply Permutation_sym, Permutation_nil in PM. subst order. intros St v s. destruct (V St v s) as (s' & V1 & V2). rewrite V1. inversion V2. reflexivity.
Qed.
(** The parts of a collapsed query that do not touch are joined: two triangles that become [0,1] and [9,10] are
    found to meet a triangle between them. *)
Theorem C55_gap_refuted sort : (forall f l, Permutation l (sort f l)) -> exists (d e : data tri_mesh) a b c a' b' c',
  from_mesh_groups tri_ops [Group (d_meshes d) []] = Some d /\ from_mesh_groups tri_ops [Group (d_meshes e) []] = Some e /\
  (* no point of the query is sent into the mesh *)
  (forall j p, shape_hit tri_ops e (point_set p) j -> forall i, ~ shape_hit tri_ops d (point_set (image a b c a' b' c' p)) i) /\
  (* but the visitor is called *)
  visits_exactly (fun St v s => visit_mesh tri_ops sort (fun s i => Some (v s i)) (Some d) (Some e) (tf a b c a' b' c') s) [(0, 0)].
Proof.
  intros SP. exists (one (corner_tri 5)), (two (corner_tri 0) (corner_tri 9)), 1%R, 0%R, 0%R, 0%R, 0%R, 0%R. split; [reflexivity|]. split; [reflexivity|]. split.
  - intros j p (u & v & w & T & q & H1 & ->) i (u' & v' & w' & T' & q' & H2 & ->).
    assert (J : (u, v, w) = (P 0 0, P (0 + 1) 0, P 0 1)%R \/ (u, v, w) = (P 9 0, P (9 + 1) 0, P 9 1)%R).
    { destruct j as [k t]. unfold triangle_at in T. cbn [fst snd two d_meshes] in T. destruct (Z.to_nat k) as [|[|n]]; cbn [nth_error] in T; [| |destruct n; discriminate]; cbn [tri_ops m_triangle fst snd corner_tri] in T; (destruct ((0 <=? t) && (t <? 1)); [|discriminate]); apply tr_inj in T; destruct T as (<- & <- & <-); auto. }
    assert (J' : (u', v', w') = (P 5 0, P (5 + 1) 0, P 5 1)%R).
    { destruct i as [k t]. unfold triangle_at in T'. cbn [fst snd one d_meshes] in T'. destruct (Z.to_nat k) as [|n]; cbn [nth_error] in T'; [|destruct n; discriminate]; cbn [tri_ops m_triangle fst snd corner_tri] in T'; (destruct ((0 <=? t) && (t <? 1)); [|discriminate]); apply tr_inj in T'; destruct T' as (<- & <- & <-); auto. }
    injection J' as -> -> ->. destruct H2 as (k & l & m & K & L & Mm & S & E). apply (f_equal px) in E. cbn in E.
    destruct J as [J|J]; injection J as -> -> ->; destruct H1 as (k' & l' & m' & K' & L' & Mm' & S' & E'); apply (f_equal px) in E'; cbn in E'; lra.
  - destruct (bounds_cover tri_ops (two (corner_tri 0) (corner_tri 9)) ltac:(discriminate) (tri_boxed _)) as (x0 & y0 & x1 & y1 & EB & CB).
    pose proof (CB (0, 0) _ _ _ eq_refl (P 0 0) (or_introl eq_refl)) as C1. pose proof (CB (1, 0) _ _ _ eq_refl (P 9 0) (or_introl eq_refl)) as C2. unfold box_set in C1, C2. cbn [px py] in C1, C2.
    destruct (C55_collapsed tri_ops sort SP (one (corner_tri 5)) (two (corner_tri 0) (corner_tri 9)) 1 0 0 0 0 0 x0 y0 x1 y1 (one_real _) (two_real _ _) ltac:(lra) EB) as (u & v & L & U & V & H & S & W).
    { intros Q. apply (f_equal px) in Q. cbn in Q. lra. }
    rewrite one_pairs in S. inversion S as [|? ? ? A S1|? ? ? A S1]; subst; [inversion S1; subst; exact W|]. exfalso. apply A. exists (P 5 0), (P (5 + 1) 0), (P 5 1). split; [reflexivity|].
    destruct (H (P 0 0)) as (s & Bs & Es). { exists (0, 0), (P 0 0), (P (0 + 1) 0), (P 0 1). rewrite two_pairs. split; [left; reflexivity|]. split; [reflexivity|left; reflexivity]. }
    destruct (H (P 9 0)) as (t & Bt & Et). { exists (1, 0), (P 9 0), (P (9 + 1) 0), (P 9 1). rewrite two_pairs. split; [right; left; reflexivity|]. split; [reflexivity|left; reflexivity]. }
    exists (P 5 0). split; [apply tri_corner; left; reflexivity|].
    exists (s + (t - s) * (5 / 9))%R. split; [split; nra|]. unfold image, mix in *. apply (f_equal px) in Es as Es1. apply (f_equal py) in Es as Es2. apply (f_equal px) in Et as Et1. apply (f_equal py) in Et as Et2. cbn [px py] in *. apply pt_eq; cbn [px py]; lra.
Qed.
Print Assumptions C37_every_triangle_once.
Print Assumptions C37_visits_what_meets.
Print Assumptions C37_visits_turned.
Print Assumptions C37_identity.
Print Assumptions C37_float.
Print Assumptions C37_many_triangles_refuted.
Print Assumptions C37_empty_groups_refuted.
Print Assumptions C55_visits_what_meets.
Print Assumptions C55_collapsed.
Print Assumptions C55_diagonal_refuted.
Print Assumptions C55_gap_refuted.
