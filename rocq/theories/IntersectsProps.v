(** C59: Intersects with a PartitionedMesh. *)
From Coq Require Import ZArith Bool Reals Lra Lia Permutation List.
From Flocq Require Import Core BinarySingleNaN.
From Verif Require Import F32 NumModel EasingExact BehaviorMeaning GeomModel AffineModel GeomSpec GeomReal GeomExact GeomMeet GeomOps AffineProofs AffineProps RTreeModel RTreeSpec MeshFormatModel PartitionedMeshModel PartitionedMeshSpec PartitionedMeshIndex PartitionedMeshExact PartitionedMeshCross PartitionedMeshQueryProps GeomProps IntersectsModel.
Import ListNotations.
Local Open Scope R_scope.

(** ** Inverse and composition as maps of the plane *)
Lemma inverse_parts a b c a' b' c' : a * b' <> b * a' -> exists k1 k2 k3 k4 k5 k6,
  inverse (tf a b c a' b' c') = Some (tf k1 k2 k3 k4 k5 k6) /\ k1 * k5 <> k2 * k4 /\
  (forall p, image k1 k2 k3 k4 k5 k6 (image a b c a' b' c' p) = p) /\ (forall p, image a b c a' b' c' (image k1 k2 k3 k4 k5 k6 p) = p) /\
  k1 = b' / (a * b' - b * a') /\ k2 = - b / (a * b' - b * a') /\ k4 = - a' / (a * b' - b * a') /\ k5 = a / (a * b' - b * a').
Proof.
  intros H. rewrite inverse_x, Req_bool_false by exact H. assert (K : a * b' - b * a' <> 0) by lra. do 6 eexists. split; [reflexivity|]. split; [|split; [|split]].
  - intros E. apply (Rmult_eq_compat_r (a * b' - b * a')) in E. assert (Q : b' / (a * b' - b * a') * (a / (a * b' - b * a')) * (a * b' - b * a') - - b / (a * b' - b * a') * (- a' / (a * b' - b * a')) * (a * b' - b * a') = 1) by (field; exact K). lra.
  - intros p. unfold image. apply pt_eq; cbn [px py]; field; exact K.
  - intros p. unfold image. apply pt_eq; cbn [px py]; field; exact K.
  - repeat split; reflexivity.
Qed.
Lemma image_compose a b c d e f a' b' c' d' e' f' p :
  image (a * a' + b * d') (a * b' + b * e') (a * c' + b * f' + c) (d * a' + e * d') (d * b' + e * e') (d * c' + e * f' + f) p = image a b c d e f (image a' b' c' d' e' f' p).
Proof. unfold image. apply pt_eq; cbn [px py]; ring. Qed.
Lemma image_identity p : image 1 0 0 0 1 0 p = p.
Proof. unfold image. apply pt_eq; cbn [px py]; ring. Qed.
Lemma image_mix a b c d e f k u v : image a b c d e f (mix k u v) = mix k (image a b c d e f u) (image a b c d e f v).
Proof. unfold image, mix. apply pt_eq; cbn [px py]; ring. Qed.
Lemma image_seg a b c d e f u v p : seg_set u v p -> seg_set (image a b c d e f u) (image a b c d e f v) (image a b c d e f p).
Proof. intros (k & K & ->). exists k. split; [exact K|apply image_mix]. Qed.

Section Exact.
Context {M : Type}.
Variable MO : mesh_ops N M.
Variable sort : (nat -> nat -> bool) -> list nat -> list nat.
Hypothesis sort_perm : forall f l, Permutation l (sort f l).
(** the points of the shape: those of its triangles *)
Definition shape_point (d : data M) (p : pt) : Prop :=
  exists i u v w, In i (all_pairs MO (d_meshes d)) /\ triangle_at MO (d_meshes d) i = Some (tr u v w) /\ tri_set u v w p.
(** the segment from [u] to [v] is the convex hull of the image of the shape *)
Definition flat_image (d : data M) (f : pt -> pt) (u v : pt) : Prop :=
  (exists p, corner_of MO d p /\ u = f p) /\ (exists p, corner_of MO d p /\ v = f p) /\ forall p, shape_point d p -> seg_set u v (f p).

(** a visitor that stops at once tells whether anything is visited *)
Lemma found_any (run : forall St, (St -> ipair -> St * bool) -> St -> option St) (Q : ipair -> Prop) l L : selects Q l L -> visits_exactly run L ->
  exists r, run bool (fun _ _ => (true, false)) false = Some r /\ (r = true <-> exists j, In j l /\ Q j).
Proof.
  intros S (order & PM & V). destruct (V bool (fun _ _ => (true, false)) false) as (r & R1 & R2). exists r. split; [exact R1|]. rewrite (visits_any _ _ R2).
  split.
  - destruct order as [|j o]; [congruence|]. intros _. exists j. apply (selects_in _ _ _ S), (Permutation_in _ PM). left. reflexivity.
  - intros (j & J) E. apply (selects_in _ _ _ S) in J. rewrite E in PM. apply (Permutation_in _ (Permutation_sym PM)) in J. destruct J.
Qed.
Lemma hull a b c a' b' c' u v (d : data M) : (forall p, corner_of MO d p -> seg_set u v (image a b c a' b' c' p)) -> forall p, shape_point d p -> seg_set u v (image a b c a' b' c' p).
Proof.
  intros H p (i & x & y & z & I & T & k & l & m & K & L & Mm & S & ->).
  destruct (H x) as (s & S1 & S2). { exists i, x, y, z. split; [exact I|]. split; [exact T|cbn; auto 6]. } destruct (H y) as (s' & S1' & S2'). { exists i, x, y, z. split; [exact I|]. split; [exact T|cbn; auto 6]. } destruct (H z) as (s'' & S1'' & S2''). { exists i, x, y, z. split; [exact I|]. split; [exact T|cbn; auto 6]. }
  exists (k * s + l * s' + m * s''). split; [nra|].
  transitivity (P (k * px (image a b c a' b' c' x) + l * px (image a b c a' b' c' y) + m * px (image a b c a' b' c' z)) (k * py (image a b c a' b' c' x) + l * py (image a b c a' b' c' y) + m * py (image a b c a' b' c' z))).
  - replace m with (1 - k - l) by lra. unfold image. apply pt_eq; cbn [px py]; ring.
  - rewrite S2, S2', S2''. replace m with (1 - k - l) by lra. unfold mix. apply pt_eq; cbn [px py]; ring.
Qed.

(** ** Against a point, segment, triangle, rect or quad *)
Theorem C59_object (d : data M) (q : thing) a b c a' b' c' : real_meshes MO d -> thing_ok q -> a * b' <> b * a' ->
  let k := a * b' - b * a' in
  exists r t m, 0 <= t < 4 / 10000000 /\ (~ wide q -> t = 0) /\ (exactly_carried (b' / k) (- b / k) (- a' / k) (a / k) q -> t = 0) /\ image a b c a' b' c' m = middle q /\
    mesh_intersects MO sort (Some d) (tf a b c a' b' c') (thing_object q) = Some r /\
    (r = true <-> exists p, thing_set q (image a b c a' b' c' p) /\ shape_point d (turned m t p)).
Proof.
  intros D K I k. destruct (inverse_parts a b c a' b' c' I) as (k1 & k2 & k3 & k4 & k5 & k6 & EI & IK & BF & FB & E1 & E2 & E4 & E5).
  destruct (carried_turned k1 k2 k3 k4 k5 k6 q K IK) as (q' & t & (A1 & A2 & A3 & A4 & A5 & A6) & AX).
  destruct (carried_turned 1 0 0 0 1 0 q' A2 ltac:(lra)) as (q'' & t' & (B1 & B2 & B3 & B4 & B5 & B6) & BX).
  destruct (visit_thing MO sort sort_perm d (rm_few _ _ D) (rm_some _ _ D) (rm_read _ _ D) (thing_object q') q'' (tf 1 0 0 0 1 0) B1 B2) as (L & S & V).
  destruct (found_any _ _ _ _ S V) as (r & R1 & R2).
  assert (NW : ~ wide q -> t' = 0). { intros W. apply B4. intros W'. destruct q, q'; cbn in W, W'; try contradiction; try tauto; discriminate A1. }
  assert (SAME : forall p, turned (middle q') t' (turned (image k1 k2 k3 k4 k5 k6 (middle q)) t p) = turned (image k1 k2 k3 k4 k5 k6 (middle q)) (t + t') p).
  { intros p. destruct q; try (rewrite NW, A4 by (cbn; tauto); rewrite Rplus_0_r, !turned_0; reflexivity); (destruct A5 as [_ ->]; [exact Logic.I|]; apply turned_add). }
  exists r, (t + t'), (image k1 k2 k3 k4 k5 k6 (middle q)). split; [lra|]. split; [intros W; rewrite (A4 W), (NW W); ring|]. split.
  { subst k. rewrite <- E1, <- E2, <- E4, <- E5. intros X. destruct (AX X) as [-> UP]. destruct BX as [-> _]; [|ring]. destruct q'; cbn in *; try exact Logic.I; lra. }
  split; [apply FB|]. split.
  { unfold mesh_intersects. cbn [meshes]. destruct (d_meshes d) as [|m0 l0] eqn:E; [destruct (rm_some _ _ D E)|]. rewrite EI, A1. unfold identity. rewrite EasingExact.x0, x1e. exact R1. }
  rewrite R2. clear R1 R2 V S. split.
  - intros (j & J & u & v & w & T & p & P1 & P2). apply B6 in P2. destruct P2 as (p1 & P2 & ->). apply A6 in P2. destruct P2 as (p2 & P2 & ->). rewrite !image_identity, SAME in P1.
    exists (image k1 k2 k3 k4 k5 k6 p2). rewrite FB. split; [exact P2|]. exists j, u, v, w. auto.
  - intros (p & P1 & j & u & v & w & J & T & P2). exists j. split; [exact J|]. exists u, v, w. split; [exact T|]. exists (turned (image k1 k2 k3 k4 k5 k6 (middle q)) (t + t') p). split; [exact P2|].
    apply B6. exists (turned (image k1 k2 k3 k4 k5 k6 (middle q)) t p). split; [|rewrite !image_identity, SAME; reflexivity]. apply A6. exists (image a b c a' b' c' p). split; [exact P1|rewrite BF; reflexivity].
Qed.
(** a transform that is not invertible, and does not send the corners of the bounds to one point *)
Theorem C59_object_collapsed (d : data M) (q : thing) a b c a' b' c' x0 y0 x1 y1 : real_meshes MO d -> thing_ok q -> a * b' = b * a' ->
  bounds MO (Some d) = Some (bx x0 y0 x1 y1) -> image a b c a' b' c' (P x0 y0) <> image a b c a' b' c' (P x1 y1) ->
  exists r u v, flat_image d (image a b c a' b' c') u v /\ mesh_intersects MO sort (Some d) (tf a b c a' b' c') (thing_object q) = Some r /\
    (r = true <-> meet (seg_set u v) (thing_set q)).
Proof.
  intros D K S EB NZ. destruct (collapse_x MO d x0 y0 x1 y1 a b c a' b' c' D S NZ) as (u & v & EC & U & V & H).
  exists (intersects (OSegment (sg u v)) (thing_object q)), u, v. split; [split; [exact U|]; split; [exact V|apply hull, H]|]. split.
  - unfold mesh_intersects, collapse. cbn [meshes]. rewrite EB. destruct (d_meshes d) as [|m0 l0] eqn:E; [destruct (rm_some _ _ D E)|]. rewrite inverse_x, Req_bool_true by exact S. rewrite EC. reflexivity.
  - apply (C45_intersects (TSegment u v) q Logic.I K).
Qed.

(** ** Two shapes *)
Lemma one_way_x (d e : data M) a b c a' b' c' g h k g' h' k' : real_meshes MO d -> real_meshes MO e -> boxed MO d -> a * b' <> b * a' -> g * h' <> h * g' ->
  0 <= (g * a' - g' * a) / (g * h' - h * g') -> exists r, one_way MO sort (Some d) (tf a b c a' b' c') (Some e) (tf g h k g' h' k') = Some (Some r) /\
    (r = true <-> exists p q, shape_point d p /\ shape_point e q /\ image a b c a' b' c' p = image g h k g' h' k' q).
Proof.
  intros D Q B I J A. destruct (inverse_parts g h k g' h' k' J) as (k1 & k2 & k3 & k4 & k5 & k6 & EI & IK & BF & FB & E1 & E2 & E4 & E5).
  unfold one_way. rewrite EI, compose_x.
  destruct (C55_visits_what_meets MO sort sort_perm e d (k1 * a + k2 * a') (k1 * b + k2 * b') (k1 * c + k2 * c' + k3) (k4 * a + k5 * a') (k4 * b + k5 * b') (k4 * c + k5 * c' + k6) Q D B) as (L & S & V).
  - intros X. assert (Y : (k1 * k5 - k2 * k4) * (a * b' - b * a') = 0) by lra. apply Rmult_integral in Y. lra.
  - rewrite E4, E5. replace (- g' / (g * h' - h * g') * a + g / (g * h' - h * g') * a') with ((g * a' - g' * a) / (g * h' - h * g')) by (field; lra). exact A.
  - destruct (found_any _ _ _ _ S V) as (r & R1 & R2). exists r. split; [f_equal; exact R1|]. rewrite R2. clear R1 R2 V S. split.
    + intros (i & Ii & u & v & w & T & j & x & y & z & p & Jj & T' & P1 & P2). exists p. change (P _ _) with (image (k1 * a + k2 * a') (k1 * b + k2 * b') (k1 * c + k2 * c' + k3) (k4 * a + k5 * a') (k4 * b + k5 * b') (k4 * c + k5 * c' + k6) p) in P2. rewrite image_compose in P2.
      eexists. split; [exists j, x, y, z; auto|]. split; [exists i, u, v, w; split; [exact Ii|]; split; [exact T|exact P2]|]. rewrite FB. reflexivity.
    + intros (p & q & (j & x & y & z & Jj & T' & P1) & (i & u & v & w & Ii & T & P2) & E). exists i. split; [exact Ii|]. exists u, v, w. split; [exact T|]. exists j, x, y, z, p. split; [exact Jj|]. split; [exact T'|]. split; [exact P1|].
      change (P _ _) with (image (k1 * a + k2 * a') (k1 * b + k2 * b') (k1 * c + k2 * c' + k3) (k4 * a + k5 * a') (k4 * b + k5 * b') (k4 * c + k5 * c' + k6) p). rewrite image_compose, E, BF. exact P2.
Qed.
Theorem C59_meshes (d e : data M) a b c a' b' c' g h k g' h' k' : real_meshes MO d -> real_meshes MO e -> boxed MO d -> a * b' <> b * a' -> g * h' <> h * g' ->
  (* seen from the second shape, the x-axis of the first is not turned to a negative angle *)
  0 <= (g * a' - g' * a) / (g * h' - h * g') ->
  exists r, meshes_intersect MO sort (Some d) (tf a b c a' b' c') (Some e) (tf g h k g' h' k') = Some r /\
    (r = true <-> exists p q, shape_point d p /\ shape_point e q /\ image a b c a' b' c' p = image g h k g' h' k' q).
Proof.
  intros D Q B I J A. destruct (one_way_x d e a b c a' b' c' g h k g' h' k' D Q B I J A) as (r & E & H). exists r. split; [|exact H].
  unfold meshes_intersect. cbn [meshes]. destruct (d_meshes d) as [|m0 l0] eqn:E0; [destruct (rm_some _ _ D E0)|]. destruct (d_meshes e) as [|m1 l1] eqn:E1; [destruct (rm_some _ _ Q E1)|]. rewrite E. reflexivity.
Qed.
Corollary C59_symmetric (d e : data M) a b c a' b' c' g h k g' h' k' : real_meshes MO d -> real_meshes MO e -> boxed MO d -> boxed MO e -> a * b' <> b * a' -> g * h' <> h * g' ->
  0 <= (g * a' - g' * a) / (g * h' - h * g') -> 0 <= (a * g' - a' * g) / (a * b' - b * a') ->
  meshes_intersect MO sort (Some d) (tf a b c a' b' c') (Some e) (tf g h k g' h' k') = meshes_intersect MO sort (Some e) (tf g h k g' h' k') (Some d) (tf a b c a' b' c').
Proof.
  intros D Q B B' I J A A'. destruct (C59_meshes d e a b c a' b' c' g h k g' h' k' D Q B I J A) as (r & -> & H). destruct (C59_meshes e d g h k g' h' k' a b c a' b' c' Q D B' J I A') as (r' & -> & H'). f_equal. apply eq_true_iff_eq. rewrite H, H'. split; intros (p & q & X & Y & Z); exists q, p; auto.
Qed.
(** One transform is not invertible: that shape is replaced by the convex hull of its image *)
Lemma one_way_collapsed (d e : data M) a b c a' b' c' g h k g' h' k' x0 y0 x1 y1 : real_meshes MO d -> real_meshes MO e -> a * b' = b * a' -> g * h' <> h * g' ->
  bounds MO (Some d) = Some (bx x0 y0 x1 y1) -> image a b c a' b' c' (P x0 y0) <> image a b c a' b' c' (P x1 y1) ->
  exists r u v, flat_image d (image a b c a' b' c') u v /\ one_way MO sort (Some d) (tf a b c a' b' c') (Some e) (tf g h k g' h' k') = Some (Some r) /\
    (r = true <-> exists q, shape_point e q /\ seg_set u v (image g h k g' h' k' q)).
Proof.
  intros D Q I J EB NZ. destruct (inverse_parts g h k g' h' k' J) as (k1 & k2 & k3 & k4 & k5 & k6 & EI & IK & BF & FB & _).
  destruct (C55_collapsed MO sort sort_perm e d (k1 * a + k2 * a') (k1 * b + k2 * b') (k1 * c + k2 * c' + k3) (k4 * a + k5 * a') (k4 * b + k5 * b') (k4 * c + k5 * c' + k6) x0 y0 x1 y1 Q D) as (u & v & L & (pu & U1 & U2) & (pv' & V1 & V2) & H & S & V).
  - assert (Y : (k1 * k5 - k2 * k4) * (a * b' - b * a') = 0) by (rewrite I; ring). lra.
  - exact EB.
  - rewrite !image_compose. intros X. apply NZ. rewrite <- (FB (image a b c a' b' c' (P x0 y0))), X, FB. reflexivity.
  - destruct (found_any _ _ _ _ S V) as (r & R1 & R2). exists r, (image g h k g' h' k' u), (image g h k g' h' k' v).
    assert (HU : forall p, corner_of MO d p -> seg_set (image g h k g' h' k' u) (image g h k g' h' k' v) (image a b c a' b' c' p)).
    { intros p C. rewrite <- (FB (image a b c a' b' c' p)). apply image_seg. rewrite <- image_compose. apply H, C. }
    split; [split; [exists pu; split; [exact U1|]; rewrite U2, image_compose, FB; reflexivity|]; split; [exists pv'; split; [exact V1|]; rewrite V2, image_compose, FB; reflexivity|apply hull, HU]|].
    split; [unfold one_way; rewrite EI, compose_x; f_equal; exact R1|]. rewrite R2. clear R1 R2 V S. split.
    + intros (i & Ii & x & y & z & T & p & P1 & P2). exists p. split; [exists i, x, y, z; auto|apply image_seg, P2].
    + intros (p & (i & x & y & z & Ii & T & P1) & P2). exists i. split; [exact Ii|]. exists x, y, z. split; [exact T|]. exists p. split; [exact P1|]. apply (image_seg k1 k2 k3 k4 k5 k6) in P2. rewrite !BF in P2. exact P2.
Qed.
Theorem C59_first_collapsed (d e : data M) a b c a' b' c' g h k g' h' k' x0 y0 x1 y1 : real_meshes MO d -> real_meshes MO e -> a * b' = b * a' -> g * h' <> h * g' ->
  bounds MO (Some d) = Some (bx x0 y0 x1 y1) -> image a b c a' b' c' (P x0 y0) <> image a b c a' b' c' (P x1 y1) ->
  exists r u v, flat_image d (image a b c a' b' c') u v /\
    meshes_intersect MO sort (Some d) (tf a b c a' b' c') (Some e) (tf g h k g' h' k') = Some r /\
    meshes_intersect MO sort (Some e) (tf g h k g' h' k') (Some d) (tf a b c a' b' c') = Some r /\
    (r = true <-> exists q, shape_point e q /\ seg_set u v (image g h k g' h' k' q)).
Proof.
  intros D Q I J EB NZ. destruct (one_way_collapsed d e a b c a' b' c' g h k g' h' k' x0 y0 x1 y1 D Q I J EB NZ) as (r & u & v & F & E & H). exists r, u, v. split; [exact F|].
  unfold meshes_intersect. cbn [meshes]. destruct (d_meshes d) as [|m0 l0] eqn:E0; [destruct (rm_some _ _ D E0)|]. destruct (d_meshes e) as [|m1 l1] eqn:E1; [destruct (rm_some _ _ Q E1)|]. rewrite E.
  split; [reflexivity|]. split; [|exact H]. unfold one_way at 1. rewrite inverse_x, Req_bool_true by exact I. reflexivity.
Qed.
Theorem C59_both_collapsed (d e : data M) a b c a' b' c' g h k g' h' k' x0 y0 x1 y1 z0 w0 z1 w1 : real_meshes MO d -> real_meshes MO e -> a * b' = b * a' -> g * h' = h * g' ->
  bounds MO (Some d) = Some (bx x0 y0 x1 y1) -> image a b c a' b' c' (P x0 y0) <> image a b c a' b' c' (P x1 y1) ->
  bounds MO (Some e) = Some (bx z0 w0 z1 w1) -> image g h k g' h' k' (P z0 w0) <> image g h k g' h' k' (P z1 w1) ->
  exists r u v s t, flat_image d (image a b c a' b' c') u v /\ flat_image e (image g h k g' h' k') s t /\
    meshes_intersect MO sort (Some d) (tf a b c a' b' c') (Some e) (tf g h k g' h' k') = Some r /\ (r = true <-> meet (seg_set u v) (seg_set s t)).
Proof.
  intros D Q I J EB NZ EB' NZ'. destruct (collapse_x MO d x0 y0 x1 y1 a b c a' b' c' D I NZ) as (u & v & EC & U & V & H). destruct (collapse_x MO e z0 w0 z1 w1 g h k g' h' k' Q J NZ') as (s & t & EC' & U' & V' & H').
  exists (intersects (OSegment (sg u v)) (OSegment (sg s t))), u, v, s, t. split; [split; [exact U|]; split; [exact V|apply hull, H]|]. split; [split; [exact U'|]; split; [exact V'|apply hull, H']|]. split.
  - unfold meshes_intersect, one_way, collapse. rewrite !inverse_x, !Req_bool_true by assumption. cbn [meshes]. destruct (d_meshes d) as [|m0 l0] eqn:E0; [destruct (rm_some _ _ D E0)|]. destruct (d_meshes e) as [|m1 l1] eqn:E1; [destruct (rm_some _ _ Q E1)|]. rewrite EB, EB', EC, EC'. reflexivity.
  - apply (C45_intersects (TSegment u v) (TSegment s t) Logic.I Logic.I).
Qed.
End Exact.
(** A shape without meshes intersects nothing, in any arithmetic *)
Theorem C59_empty {N0 : num} {M : Type} (MO : mesh_ops N0 M) sort (p : pmesh M) : meshes p = [] ->
  (forall t o, mesh_intersects MO sort p t o = Some false) /\
  (forall tp q tq, meshes_intersect MO sort p tp q tq = Some false /\ meshes_intersect MO sort q tq p tp = Some false).
Proof.
  intros E. split; [intros t o; unfold mesh_intersects; rewrite E; reflexivity|]. intros tp q tq. unfold meshes_intersect. rewrite E. split; [reflexivity|]. destruct (meshes q); reflexivity.
Qed.

(** ** A transform that is not invertible *)
Lemma one_points x y z p : shape_point tri_ops (one (x, y, z)) p <-> tri_set x y z p.
Proof.
  split.
  - intros (i & u & v & w & J & T & H). rewrite one_pairs in J. destruct J as [<- |[]]. change (triangle_at tri_ops (d_meshes (one (x, y, z))) (0%Z, 0%Z)) with (Some (tr x y z)) in T. apply tr_inj in T. destruct T as (<- & <- & <-). exact H.
  - intros H. exists (0%Z, 0%Z), x, y, z. split; [left; reflexivity|]. split; [reflexivity|exact H].
Qed.
(** When the corners of the bounds are sent to one point, most of the shape is lost: (x, y) |-> (x - y, 0) sends (1, 0) to (1, 0),
    but the triangle (0,0) (1,0) (0,1) is not found to intersect the point (1, 0). *)
Theorem C59_diagonal_refuted sort : exists (d : data tri_mesh) a b c a' b' c' p,
  from_mesh_groups tri_ops [Group (d_meshes d) []] = Some d /\ shape_point tri_ops d p /\
  mesh_intersects tri_ops sort (Some d) (tf a b c a' b' c') (OPoint (pv (image a b c a' b' c' p))) = Some false.
Proof.
  exists (one (corner_tri 0)), 1, (-1), 0, 0, 0, 0, (P (0 + 1) 0). split; [reflexivity|]. split; [apply one_points, tri_corner; right; left; reflexivity|].
  unfold mesh_intersects. cbn [meshes one d_meshes]. rewrite inverse_x, Req_bool_true by ring. unfold collapse. rewrite (corner_box 0 : bounds tri_ops (Some (one (corner_tri 0))) = Some (bx 0 0 (0 + 1) 1)).
  unfold collapsed_segment. cbn [bx x_min y_min x_max y_max]. change (Seg (V (Fin 0 : T N) (Fin 0 : T N)) (V (Fin (0 + 1) : T N) (Fin 1 : T N))) with (sg (P 0 0) (P (0 + 1) 1)).
  change (apply_segment (tf 1 (-1) 0 0 0 0) (sg (P 0 0) (P (0 + 1) 1))) with (sg (image 1 (-1) 0 0 0 0 (P 0 0)) (image 1 (-1) 0 0 0 0 (P (0 + 1) 1))).
  replace (image 1 (-1) 0 0 0 0 (P 0 0)) with (P 0 0) by (unfold image; apply pt_eq; cbn; ring). replace (image 1 (-1) 0 0 0 0 (P (0 + 1) 1)) with (P 0 0) by (unfold image; apply pt_eq; cbn; ring).
  unfold seg_vector. cbn [sg s_start s_end]. rewrite sub_x. change (magnitude_squared (pv (sub (P 0 0) (P 0 0)))) with (Fin (dot2 (sub (P 0 0) (P 0 0)) (sub (P 0 0) (P 0 0))) : T N). rewrite EasingExact.x0, (proj2 (eq_x _ _)) by (unfold dot2, sub; cbn; ring).
  cbn [option_map]. f_equal. apply not_true_is_false. intros H. apply (C45_intersects (TSegment (P 0 0) (P 0 0)) (TPoint (image 1 (-1) 0 0 0 0 (P (0 + 1) 0))) Logic.I Logic.I) in H.
  destruct H as (p & (k & K & ->) & E). apply (f_equal px) in E. cbn in E. lra.
Qed.
(** Parts that do not touch are joined: two triangles that become [0,1] and [9,10] are found to intersect the point (5, 0). *)
Theorem C59_gap_refuted sort : exists (d : data tri_mesh) a b c a' b' c' x,
  from_mesh_groups tri_ops [Group (d_meshes d) []] = Some d /\ (forall p, shape_point tri_ops d p -> image a b c a' b' c' p <> x) /\
  mesh_intersects tri_ops sort (Some d) (tf a b c a' b' c') (OPoint (pv x)) = Some true.
Proof.
  exists (two (corner_tri 0) (corner_tri 9)), 1, 0, 0, 0, 0, 0, (P 5 0). split; [reflexivity|]. split.
  - intros p (i & u & v & w & J & T & k & l & m & K & L & Mm & S & ->) E. apply (f_equal px) in E. cbn in E. rewrite two_pairs in J. destruct J as [<- |[<- |[]]].
    + change (triangle_at tri_ops (d_meshes (two (corner_tri 0) (corner_tri 9))) (0%Z, 0%Z)) with (Some (tr (P 0 0) (P (0 + 1) 0) (P 0 1))) in T. apply tr_inj in T. destruct T as (<- & <- & <-). cbn in E. lra.
    + change (triangle_at tri_ops (d_meshes (two (corner_tri 0) (corner_tri 9))) (1%Z, 0%Z)) with (Some (tr (P 9 0) (P (9 + 1) 0) (P 9 1))) in T. apply tr_inj in T. destruct T as (<- & <- & <-). cbn in E. lra.
  - destruct (bounds_cover tri_ops (two (corner_tri 0) (corner_tri 9)) ltac:(discriminate) (tri_boxed _)) as (x0 & y0 & x1 & y1 & EB & CB).
    pose proof (CB (0%Z, 0%Z) _ _ _ eq_refl (P 0 0) (or_introl eq_refl)) as C1. pose proof (CB (1%Z, 0%Z) _ _ _ eq_refl (P 9 0) (or_introl eq_refl)) as C2. unfold box_set in C1, C2. cbn [px py] in C1, C2.
    destruct (C59_object_collapsed tri_ops sort (two (corner_tri 0) (corner_tri 9)) (TPoint (P 5 0)) 1 0 0 0 0 0 x0 y0 x1 y1 (two_real _ _) Logic.I ltac:(lra) EB) as (r & u & v & (_ & _ & H) & R1 & R2).
    { intros Q. apply (f_equal px) in Q. cbn in Q. lra. }
    cbn [thing_object] in R1. rewrite R1. f_equal. apply R2.
    destruct (H (P 0 0)) as (s & Bs & Es). { exists (0%Z, 0%Z), (P 0 0), (P (0 + 1) 0), (P 0 1). rewrite two_pairs. split; [left; reflexivity|]. split; [reflexivity|apply tri_corner; left; reflexivity]. }
    destruct (H (P 9 0)) as (t & Bt & Et). { exists (1%Z, 0%Z), (P 9 0), (P (9 + 1) 0), (P 9 1). rewrite two_pairs. split; [right; left; reflexivity|]. split; [reflexivity|apply tri_corner; left; reflexivity]. }
    exists (P 5 0). split; [|reflexivity].
    exists (s + (t - s) * (5 / 9)). split; [split; nra|]. unfold image, mix in *. apply (f_equal px) in Es as Es1. apply (f_equal py) in Es as Es2. apply (f_equal px) in Et as Et1. apply (f_equal py) in Et as Et2. cbn [px py] in *. apply pt_eq; cbn [px py]; lra.
Qed.
(** ** Examples *)
Lemma tri_points x p : tri_set (P x 0) (P (x + 1) 0) (P x 1) p <-> x <= px p /\ 0 <= py p /\ (px p - x) + py p <= 1.
Proof.
  split.
  - intros (k & l & m & K & L & Mm & S & ->). cbn [px py]. replace k with (1 - l - m) by lra. repeat split; nra.
  - intros (A & B & C). exists (1 - (px p - x) - py p), (px p - x), (py p). repeat split; try lra. destruct p. apply pt_eq; cbn; ring.
Qed.
(** the triangle (0,0) (1,0) (0,1), moved to the right by 3, meets the point (3,0), the rect [3,4]x[0,1] and itself moved up, but not the point (1,0) *)
Example C59_example sort : (forall f l, Permutation l (sort f l)) ->
  mesh_intersects tri_ops sort (Some (one (corner_tri 0))) (tf 1 0 3 0 1 0) (OPoint (pv (P 3 0))) = Some true /\
  mesh_intersects tri_ops sort (Some (one (corner_tri 0))) (tf 1 0 3 0 1 0) (OPoint (pv (P 1 0))) = Some false /\
  mesh_intersects tri_ops sort (Some (one (corner_tri 0))) (tf 1 0 3 0 1 0) (thing_object (TRect 3 0 4 1)) = Some true /\
  meshes_intersect tri_ops sort (Some (one (corner_tri 0))) (tf 1 0 3 0 1 0) (Some (one (corner_tri 0))) (tf 1 0 3 0 1 1) = Some true /\
  meshes_intersect tri_ops sort (Some (one (corner_tri 0))) (tf 1 0 3 0 1 0) (Some (one (corner_tri 0))) (tf 1 0 3 0 1 2) = Some false.
Proof.
  intros SP.
  assert (MM : forall k', exists r, meshes_intersect tri_ops sort (Some (one (corner_tri 0))) (tf 1 0 3 0 1 0) (Some (one (corner_tri 0))) (tf 1 0 3 0 1 k') = Some r /\
    (r = true <-> exists p q, shape_point tri_ops (one (corner_tri 0)) p /\ shape_point tri_ops (one (corner_tri 0)) q /\ image 1 0 3 0 1 0 p = image 1 0 3 0 1 k' q)).
  { intros k'. apply C59_meshes; [exact SP|apply one_real|apply one_real|apply tri_boxed|lra|lra|]. replace ((1 * 0 - 0 * 1) / (1 * 1 - 0 * 0)) with 0 by field. lra. }
  assert (PP : forall x, mesh_intersects tri_ops sort (Some (one (corner_tri 0))) (tf 1 0 3 0 1 0) (OPoint (pv (P x 0))) = Some true <-> 3 <= x <= 4).
  { intros x. destruct (C59_object tri_ops sort SP (one (corner_tri 0)) (TPoint (P x 0)) 1 0 3 0 1 0 (one_real _) Logic.I ltac:(lra)) as (r & t & m & _ & T0 & _ & _ & E & H). cbn [thing_object] in E. rewrite E. rewrite T0 in H by tauto.
    split.
    - intros Q. injection Q as ->. destruct (proj1 H eq_refl) as (p & P1 & P2). rewrite turned_0 in P2. apply one_points, (tri_points 0) in P2. cbn in P1. unfold point_set, image in P1. injection P1 as Q1 Q2. lra.
    - intros Q. f_equal. apply H. exists (P (x - 3) 0). split; [cbn; unfold point_set, image; apply pt_eq; cbn; ring|]. rewrite turned_0. apply one_points, (tri_points 0). cbn. lra. }
  split; [apply PP; lra|]. split.
  { destruct (C59_object tri_ops sort SP (one (corner_tri 0)) (TPoint (P 1 0)) 1 0 3 0 1 0 (one_real _) Logic.I ltac:(lra)) as (r & t & m & _ & _ & _ & _ & E & _). cbn [thing_object] in E. rewrite E. destruct r; [|reflexivity]. apply PP in E. lra. }
  split.
  { destruct (C59_object tri_ops sort SP (one (corner_tri 0)) (TRect 3 0 4 1) 1 0 3 0 1 0 (one_real _) ltac:(cbn; lra) ltac:(lra)) as (r & t & m & _ & _ & T0 & _ & E & H). rewrite E. f_equal. apply H. rewrite T0 by (cbn; lra).
    exists (P 0 0). rewrite turned_0. split; [cbn; unfold box_set, image; cbn; lra|apply one_points, (tri_points 0); cbn; lra]. }
  split.
  - destruct (MM 1) as (r & -> & H). f_equal. apply H. exists (P 0 1), (P 0 0). split; [apply one_points, (tri_points 0); cbn; lra|]. split; [apply one_points, (tri_points 0); cbn; lra|]. unfold image. apply pt_eq; cbn; ring.
  - destruct (MM 2) as (r & -> & H). destruct r; [|reflexivity]. destruct (proj1 H eq_refl) as (p & q & H1 & H2 & E). apply one_points, (tri_points 0) in H1. apply one_points, (tri_points 0) in H2. apply (f_equal py) in E. cbn in E. lra.
Qed.
Print Assumptions C59_object.
Print Assumptions C59_object_collapsed.
Print Assumptions C59_meshes.
Print Assumptions C59_symmetric.
Print Assumptions C59_first_collapsed.
Print Assumptions C59_both_collapsed.
Print Assumptions C59_empty.
Print Assumptions C59_diagonal_refuted.
Print Assumptions C59_gap_refuted.
