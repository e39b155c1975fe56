(** Queries of one PartitionedMesh with another, in exact arithmetic. *)
From Coq Require Import ZArith Bool Arith Reals Lra Psatz Permutation List.
From Flocq Require Import Core.
From Verif Require Import NumModel EasingExact BehaviorMeaning GeomModel AffineModel GeomSpec GeomReal GeomExact GeomMeet GeomOps AffineProofs AffineProps RTreeModel RTreeSpec RTreeProofs PartitionedMeshModel PartitionedMeshSpec PartitionedMeshIndex PartitionedMeshExact.
Import ListNotations.
Local Open Scope R_scope.

Section Cross.
Context {M : Type}.
Variable MO : mesh_ops N M.
Variable sort : (nat -> nat -> bool) -> list nat -> list nat.
Hypothesis sort_perm : forall f l, Permutation l (sort f l).
(** meshes whose triangles have real coordinates and lie in the boxes that the meshes report *)
Record real_meshes (d : data M) : Prop := {
  rm_few : addressable MO (d_meshes d);
  rm_some : d_meshes d <> [];
  rm_read : forall i, In i (all_pairs MO (d_meshes d)) -> exists a b c, triangle_at MO (d_meshes d) i = Some (tr a b c) }.
Definition boxed (d : data M) : Prop := forall m, In m (d_meshes d) -> exists x0 y0 x1 y1, m_bounds MO m = Some (bx x0 y0 x1 y1) /\
  forall t a b c, m_triangle MO m t = Some (tr a b c) -> forall p, In p [a; b; c] -> box_set x0 y0 x1 y1 p.
Lemma join_x x0 y0 x1 y1 u0 v0 u1 v1 : rect_join (bx x0 y0 x1 y1) (bx u0 v0 u1 v1) = bx (Rmin x0 u0) (Rmin y0 v0) (Rmax x1 u1) (Rmax y1 v1).
Proof. unfold rect_join. cbn [bx x_min y_min x_max y_max]. rewrite !min_x, !max_x. reflexivity. Qed.
Lemma bounds_cover d : d_meshes d <> [] -> boxed d -> exists x0 y0 x1 y1, bounds MO (Some d) = Some (bx x0 y0 x1 y1) /\
  forall i a b c, triangle_at MO (d_meshes d) i = Some (tr a b c) -> forall p, In p [a; b; c] -> box_set x0 y0 x1 y1 p.
Proof.
  intros NE B. unfold bounds, meshes.
  assert (G : forall l e, (forall m, In m l -> exists x0 y0 x1 y1, m_bounds MO m = Some (bx x0 y0 x1 y1) /\
      forall t a b c, m_triangle MO m t = Some (tr a b c) -> forall p, In p [a; b; c] -> box_set x0 y0 x1 y1 p) ->
    match e with None => l <> [] | Some r => exists x0 y0 x1 y1, r = bx x0 y0 x1 y1 end ->
    exists x0 y0 x1 y1, fold_left (fun e m => env_add e (OEnvelope (m_bounds MO m))) l e = Some (bx x0 y0 x1 y1) /\
      (forall m, In m l -> forall t a b c, m_triangle MO m t = Some (tr a b c) -> forall p, In p [a; b; c] -> box_set x0 y0 x1 y1 p) /\
      forall u0 v0 u1 v1, e = Some (bx u0 v0 u1 v1) -> forall p, box_set u0 v0 u1 v1 p -> box_set x0 y0 x1 y1 p).
  { induction l as [|m l IH]; intros e H E.
    - destruct e as [r|]; [|congruence]. destruct E as (x0 & y0 & x1 & y1 & ->). exists x0, y0, x1, y1. split; [reflexivity|]. split; [intros m []|]. intros u0 v0 u1 v1 Q. injection Q as <- <- <- <-. auto.
    - cbn [fold_left]. destruct (H m (or_introl eq_refl)) as (x0 & y0 & x1 & y1 & Em & Hm). rewrite Em.
      destruct e as [r|]; cbn [env_add].
      + destruct E as (u0 & v0 & u1 & v1 & ->). rewrite join_x. edestruct (IH (Some (bx (Rmin u0 x0) (Rmin v0 y0) (Rmax u1 x1) (Rmax v1 y1)))) as (a0 & b0 & a1 & b1 & Q & Q1 & Q2); [intros m' I; apply H; right; exact I|repeat eexists|].
        exists a0, b0, a1, b1. split; [exact Q|]. specialize (Q2 _ _ _ _ eq_refl). split.
        * intros m' [<- |I]; [|apply Q1, I]. intros t a b c T p Ip. apply Q2. specialize (Hm t a b c T p Ip). unfold box_set in *. mm. lra.
        * intros u0' v0' u1' v1' W. injection W as <- <- <- <-. intros p Hp. apply Q2. unfold box_set in *. mm. lra.
      + edestruct (IH (Some (bx x0 y0 x1 y1))) as (a0 & b0 & a1 & b1 & Q & Q1 & Q2); [intros m' I; apply H; right; exact I|repeat eexists|].
        exists a0, b0, a1, b1. split; [exact Q|]. specialize (Q2 _ _ _ _ eq_refl). split; [|discriminate].
        intros m' [<- |I]; [|apply Q1, I]. intros t a b c T p Ip. apply Q2, (Hm t a b c T p Ip). }
  destruct (G (d_meshes d) None B NE) as (x0 & y0 & x1 & y1 & Q & Q1 & _). exists x0, y0, x1, y1. split; [exact Q|].
  intros [k t] a b c T. unfold triangle_at in T. cbn [fst snd] in T. destruct (nth_error (d_meshes d) (Z.to_nat k)) as [m|] eqn:Em; [|discriminate]. apply (Q1 m (nth_error_In _ _ Em) t a b c T).
Qed.
Lemma selects_in {A} (P : A -> Prop) l L : selects P l L -> forall x, In x L <-> In x l /\ P x.
Proof. induction 1 as [|a l L H S IH|a l L H S IH]; intros x; cbn; [tauto| |]; rewrite IH; split; intuition (subst; auto); contradiction. Qed.
Lemma selects_ext {A} (P R : A -> Prop) l L : (forall x, P x <-> R x) -> selects P l L -> selects R l L.
Proof. intros H. induction 1 as [|x l L X S IH|x l L X S IH]; [constructor|apply sel_take; [apply H, X|exact IH]|apply sel_skip; [rewrite <- H; exact X|exact IH]]. Qed.
Lemma visits_any {A} (order : list A) r : visits (fun (_ : bool) _ => (true, false)) order false r -> (r = true <-> order <> []).
Proof. intros H. inversion H; subst; try congruence. - split; [discriminate|congruence]. - injection H0 as <-. split; [discriminate|reflexivity]. Qed.
Section Two.
Variables d e : data M.
Hypothesis D : real_meshes d.
Hypothesis Q : real_meshes e.
Variables a b c a' b' c' : R.
(** some triangle of the other mesh meets [x], moved by the transform *)
Lemma meets_triangle_x u v w : exists r, meets_triangle MO sort (Some e) (tr u v w) (tf a b c a' b' c') = Some r /\
  (r = true <-> exists j, In j (all_pairs MO (d_meshes e)) /\ shape_hit MO e (fun p => exists p0, tri_set u v w p0 /\ p = image a b c a' b' c' p0) j).
Proof.
  destruct (C42_apply_triangle a b c a' b' c' u v w) as (u' & v' & w' & E & H).
  destruct (visit_thing MO sort sort_perm e (rm_few _ Q) (rm_some _ Q) (rm_read _ Q) (OTriangle (tr u v w)) (TTriangle u' v' w') (tf a b c a' b' c')) as (L & S & order & PM & V).
  { cbn. rewrite E. reflexivity. } { exact Logic.I. }
  destruct (V bool (fun _ _ => (true, false)) false) as (r & R1 & R2). exists r. split; [exact R1|]. rewrite (visits_any _ _ R2).
  assert (K : order <> [] <-> exists j, In j L).
  { split; [destruct order as [|j o]; [congruence|]; intros _; exists j; apply (Permutation_in _ PM); left; reflexivity|intros (j & J) ->; apply (Permutation_in _ (Permutation_sym PM)) in J; destruct J]. }
  rewrite K. cbn [thing_set] in S. assert (W : forall j, shape_hit MO e (tri_set u' v' w') j <-> shape_hit MO e (fun p => exists p0, tri_set u v w p0 /\ p = image a b c a' b' c' p0) j).
  { intros j. unfold shape_hit. split; intros (x & y & z & T & p & P1 & P2); exists x, y, z; (split; [exact T|]); exists p; (split; [exact P1|]); apply H; exact P2. }
  split; intros (j & J); exists j; [apply (selects_in _ _ _ S) in J; rewrite <- W; exact J|apply (selects_in _ _ _ S); rewrite W; exact J].
Qed.
End Two.
Definition mesh_hit (d e : data M) (a b c a' b' c' : R) (i : ipair) : Prop :=
  exists j u v w, In j (all_pairs MO (d_meshes e)) /\ triangle_at MO (d_meshes e) j = Some (tr u v w) /\ shape_hit MO d (fun p => exists p0, tri_set u v w p0 /\ p = image a b c a' b' c' p0) i.
Lemma box_convex x0 y0 x1 y1 u v w p : (forall q, In q [u; v; w] -> box_set x0 y0 x1 y1 q) -> tri_set u v w p -> box_set x0 y0 x1 y1 p.
Proof.
  intros H (k & l & m & A & B & C & E & ->). pose proof (H u (or_introl eq_refl)) as U. pose proof (H v (or_intror (or_introl eq_refl))) as V. pose proof (H w (or_intror (or_intror (or_introl eq_refl)))) as W. unfold box_set in *. cbn [px py].
  repeat split; (apply conv3 || apply conv3'); lra.
Qed.
Theorem visit_mesh_x d e a b c a' b' c' : real_meshes d -> real_meshes e -> boxed e -> a * b' <> b * a' -> 0 <= a' ->
  exists L, selects (mesh_hit d e a b c a' b' c') (all_pairs MO (d_meshes d)) L /\
    visits_exactly (fun St v s => visit_mesh MO sort (fun s i => Some (v s i)) (Some d) (Some e) (tf a b c a' b' c') s) L.
Proof.
  intros D Q BX I A'. destruct (bounds_cover e (rm_some _ Q) BX) as (x0 & y0 & x1 & y1 & EB & CB).
  assert (OK : x0 <= x1 /\ y0 <= y1).
  { destruct (d_meshes e) as [|m l] eqn:E; [destruct (rm_some _ Q E)|]. pose proof (a_counts _ _ (rm_few _ Q) m) as CT. rewrite E in CT. specialize (CT (or_introl eq_refl)). destruct (rm_read _ Q (0%Z, 0%Z)) as (p & q & r & R1). { rewrite E. apply pair_in. exists m. cbn. split; [reflexivity|lia]. } rewrite E in R1. pose proof (CB (0%Z, 0%Z) p q r R1 p (or_introl eq_refl)) as X. unfold box_set in X. lra. }
  destruct (inverse (tf a b c a' b' c')) as [back|] eqn:EI; [|rewrite inverse_x, Req_bool_false in EI by exact I; discriminate].
  assert (EI' : exists k1 k2 k3 k4 k5 k6, back = tf k1 k2 k3 k4 k5 k6) by (rewrite inverse_x, Req_bool_false in EI by exact I; injection EI as <-; repeat eexists).
  destruct EI' as (k1 & k2 & k3 & k4 & k5 & k6 & EI'). symmetry in EI'.
  pose proof (C42_inverse (tf a b c a' b' c') ltac:(repeat eexists)) as INV. rewrite EI in INV. destruct INV as [_ INV].
  destruct (carried a b c a' b' c' (TRect x0 y0 x1 y1) OK (conj I A')) as (q' & C1 & C2 & C3). cbn [apply_object thing_object] in C1.
  destruct (thing_box q' C2) as (u0 & v0 & u1 & v1 & B1 & B2). rewrite <- C1 in B1.
  set (hit := fun i => match triangle_at MO (d_meshes d) i with Some x => match meets_triangle MO sort (Some e) x back with Some r => r | None => false end | None => false end).
  exists (filter (fun i => int_rects (pair_box MO (d_meshes d) i) (bx u0 v0 u1 v1) && hit i) (all_pairs MO (d_meshes d))). split.
  - apply filter_selects. intros i Ii. destruct (rm_read _ D i Ii) as (u & v & w & R). unfold hit. rewrite R, <- EI'.
    destruct (meets_triangle_x e Q k1 k2 k3 k4 k5 k6 u v w) as (r & M1 & M2). rewrite M1, andb_true_iff, M2. clear M1 M2.
    assert (W : (exists j, In j (all_pairs MO (d_meshes e)) /\ shape_hit MO e (fun p => exists p0, tri_set u v w p0 /\ maps back p0 p) j) <-> mesh_hit d e a b c a' b' c' i).
    { unfold mesh_hit, shape_hit. split.
      - intros (j & J & x & y & z & T & p & P1 & p0 & P2 & P3). exists j, x, y, z. split; [exact J|]. split; [exact T|]. exists u, v, w. split; [exact R|]. exists p0. split; [exact P2|]. exists p. split; [exact P1|]. apply INV in P3. unfold maps in P3. rewrite apply_x in P3. apply pv_inj in P3. symmetry. exact P3.
      - intros (j & x & y & z & J & T & u2 & v2 & w2 & R' & p0 & P1 & p & P2 & ->). rewrite R in R'. apply tr_inj in R'. destruct R' as (<- & <- & <-). exists j. split; [exact J|]. exists x, y, z. split; [exact T|]. exists p. split; [exact P2|]. eexists. split; [exact P1|]. apply INV. reflexivity. }
    rewrite <- W. rewrite <- EI'. split.
    + intros [_ (j & J & H)]. exists j. split; [exact J|]. destruct H as (x & y & z & T & p & P1 & p0 & P2 & P3). exists x, y, z. split; [exact T|]. exists p. split; [exact P1|]. exists p0. split; [exact P2|]. unfold maps. rewrite apply_x, P3. reflexivity.
    + intros (j & J & x & y & z & T & p & P1 & p0 & P2 & P3). split.
      * unfold pair_box. rewrite R. destruct (thing_box (TTriangle u v w) Logic.I) as (s0 & t0 & s1 & t1 & B1' & B2'). cbn [thing_object] in B1'. rewrite B1'. apply bx_overlap with p0; [apply B2', P2|]. apply B2, C3. exists p. split; [cbn [thing_set]; apply (box_convex _ _ _ _ x y z); [apply (CB j x y z T)|exact P1]|].
        rewrite EI' in P3. apply INV in P3. unfold maps in P3. rewrite apply_x in P3. apply pv_inj in P3. symmetry. exact P3.
      * exists j. split; [exact J|]. exists x, y, z. split; [exact T|]. exists p. split; [exact P1|]. exists p0. split; [exact P2|]. unfold maps in P3. rewrite apply_x in P3. apply pv_inj in P3. symmetry. exact P3.
  - unfold visit_mesh. cbn [meshes]. destruct (d_meshes e) as [|m0 l0] eqn:E; [destruct (rm_some _ Q E)|]. rewrite EB, EI, B1.
    apply (visit_tree_exact MO isfin xval xlt_spec sort sort_perm d (rm_few _ D) (rm_some _ D)) with (hit := hit) (W := fun St v s i => match triangle_at MO (d_meshes d) i with None => None | Some x => match meets_triangle MO sort (Some e) x back with None => None | Some true => Some (v s i) | Some false => Some (s, true) end end).
    + apply RD'. apply (rm_read _ D).
    + apply nums_bx.
    + intros St v s i Ii. unfold hit. destruct (rm_read _ D i Ii) as (u & u' & w & R). rewrite R, <- EI'. destruct (meets_triangle_x e Q k1 k2 k3 k4 k5 k6 u u' w) as (r & M1 & _). rewrite M1. destruct r; reflexivity.
Qed.

(** ** Transforms that are not invertible *)
Lemma lin_diff a b c d e f p q : sub (image a b c d e f p) (image a b c d e f q) = lin a b d e (sub p q).
Proof. unfold sub, image, lin. apply pt_eq; cbn [px py]; ring. Qed.
Lemma rank_one a b c d e f o q p : a * e = b * d -> det2 (sub (image a b c d e f p) (image a b c d e f o)) (sub (image a b c d e f q) (image a b c d e f o)) = 0.
Proof. intros H. rewrite !lin_diff, det_lin. rewrite H. ring. Qed.
Definition grow (diagonal : segment N) (t : affine N) (r : T N * T N) (v : vec N) : T N * T N :=
  match seg_project diagonal (apply t v) with Some k => (nmin (fst r) k, nmax (snd r) k) | None => r end.
Lemma grow_all a b c d e f o q (S : a * e = b * d) (NZ : image a b c d e f o <> image a b c d e f q) : forall l k0 k1 v0 v1, k0 <= k1 ->
  image a b c d e f v0 = mix k0 (image a b c d e f o) (image a b c d e f q) -> image a b c d e f v1 = mix k1 (image a b c d e f o) (image a b c d e f q) ->
  exists k2 k3 v2 v3, fold_left (grow (sg (image a b c d e f o) (image a b c d e f q)) (tf a b c d e f)) (map pv l) (Fin k0 : T N, Fin k1 : T N) = (Fin k2 : T N, Fin k3 : T N) /\
    k2 <= k0 /\ k1 <= k3 /\ image a b c d e f v2 = mix k2 (image a b c d e f o) (image a b c d e f q) /\ image a b c d e f v3 = mix k3 (image a b c d e f o) (image a b c d e f q) /\
    (v2 = v0 \/ In v2 l) /\ (v3 = v1 \/ In v3 l) /\ forall v, In v l -> exists k, k2 <= k <= k3 /\ image a b c d e f v = mix k (image a b c d e f o) (image a b c d e f q).
Proof.
  induction l as [|v l IH]; intros k0 k1 v0 v1 K H0 H1; cbn [map fold_left].
  - exists k0, k1, v0, v1. split; [reflexivity|]. do 4 (split; [lra || assumption|]). split; [auto|]. split; [auto|]. intros v [].
  - unfold grow at 2. rewrite apply_x. destruct (project_x _ _ (image a b c d e f v) NZ) as [_ ->]. pose proof (project_mix _ _ (image a b c d e f v) NZ (rank_one a b c d e f o q v S)) as Hk.
    set (k := dot2 _ _ / dot2 _ _) in *. clearbody k. cbn [fst snd]. rewrite min_x, max_x.
    destruct (IH (Rmin k0 k) (Rmax k1 k) (if Rle_dec k0 k then v0 else v) (if Rle_dec k k1 then v1 else v)) as (k2 & k3 & v2 & v3 & E & L0 & L1 & E2 & E3 & I2 & I3 & H).
    + mm. lra.
    + unfold Rmin. destruct (Rle_dec k0 k); assumption.
    + unfold Rmax. destruct (Rle_dec k1 k) as [A|A], (Rle_dec k k1) as [B|B]; try assumption; try lra. replace k with k1 by lra. exact H1.
    + exists k2, k3, v2, v3. split; [exact E|]. pose proof (Rmin_l k0 k). pose proof (Rmin_r k0 k). pose proof (Rmax_l k1 k). pose proof (Rmax_r k1 k). do 4 (split; [lra || assumption|]).
      split; [destruct I2 as [-> |I2]; [destruct (Rle_dec k0 k); [auto|right; left; reflexivity]|right; right; exact I2]|].
      split; [destruct I3 as [-> |I3]; [destruct (Rle_dec k k1); [auto|right; left; reflexivity]|right; right; exact I3]|].
      intros v' [<- |I]; [exists k; split; [lra|exact Hk]|apply H, I].
Qed.
(** the corners of the triangles *)
Definition corner_of (d : data M) (p : pt) : Prop := exists i x y z, In i (all_pairs MO (d_meshes d)) /\ triangle_at MO (d_meshes d) i = Some (tr x y z) /\ In p [x; y; z].
Theorem collapse_x d x0 y0 x1 y1 a b c a' b' c' : real_meshes d -> a * b' = b * a' -> image a b c a' b' c' (P x0 y0) <> image a b c a' b' c' (P x1 y1) ->
  exists u v, collapsed_segment MO (d_meshes d) (bx x0 y0 x1 y1) (tf a b c a' b' c') = Some (sg u v) /\
    (exists p, corner_of d p /\ u = image a b c a' b' c' p) /\ (exists p, corner_of d p /\ v = image a b c a' b' c' p) /\
    forall p, corner_of d p -> seg_set u v (image a b c a' b' c' p).
Proof.
  intros D S NZ. unfold collapsed_segment. cbn [bx x_min y_min x_max y_max]. set (o := P x0 y0) in *. set (q := P x1 y1) in *.
  change (apply_segment (tf a b c a' b' c') (Seg (V (Fin x0 : T N) (Fin y0 : T N)) (V (Fin x1 : T N) (Fin y1 : T N)))) with (sg (image a b c a' b' c' o) (image a b c a' b' c' q)).
  destruct (project_x _ _ o NZ) as [Q _]. unfold seg_vector. cbn [sg s_start s_end]. rewrite sub_x. change (magnitude_squared (pv (sub (image a b c a' b' c' q) (image a b c a' b' c' o)))) with (Fin (dot2 (sub (image a b c a' b' c' q) (image a b c a' b' c' o)) (sub (image a b c a' b' c' q) (image a b c a' b' c' o))) : T N).
  rewrite EasingExact.x0, (proj2 (eq_xf _ _)) by lra. cbv zeta. change (Seg (pv (image a b c a' b' c' o)) (pv (image a b c a' b' c' q))) with (sg (image a b c a' b' c' o) (image a b c a' b' c' q)).
  rewrite <- pair_triangles. destruct (all_some_map (triangle_at MO (d_meshes d)) (all_pairs MO (d_meshes d))) as (ts & T1 & T2); [intros i I; destruct (rm_read _ D i I) as (x & y & z & ->); eexists; reflexivity|]. rewrite T1.
  assert (X : exists l, flat_map (fun x : triangle N => [p0 x; p1 x; p2 x]) ts = map pv l /\ forall p, In p l <-> corner_of d p).
  { unfold corner_of. pose proof (rm_read _ D) as RD. clear T1 D. revert ts T2. induction (all_pairs MO (d_meshes d)) as [|i l IH]; intros ts T2.
    - destruct ts; [|discriminate]. exists []. split; [reflexivity|]. intros p. split; [intros []|intros (i & x & y & z & [] & _)].
    - destruct ts as [|t ts]; [discriminate|]. cbn [map] in T2. injection T2 as E T2. destruct (IH (fun j J => RD j (or_intror J)) ts T2) as (pl & P1 & P2). destruct (RD i (or_introl eq_refl)) as (x & y & z & R). rewrite R in E. injection E as <-.
      exists (x :: y :: z :: pl). cbn [flat_map map app]. rewrite P1. split; [reflexivity|]. intros p. split.
      + intros H. assert (H' : In p [x; y; z] \/ In p pl) by (cbn in *; tauto). destruct H' as [H'|H']; [exists i, x, y, z; cbn; auto|]. apply P2 in H'. destruct H' as (j & x' & y' & z' & J & R'). exists j, x', y', z'. split; [right; exact J|exact R'].
      + intros (j & x' & y' & z' & [<- |J] & R' & I); [rewrite R in R'; apply tr_inj in R'; destruct R' as (<- & <- & <-); cbn in *; tauto|]. right. right. right. apply P2. exists j, x', y', z'. auto. }
  destruct X as (l & EL & HL). rewrite EL.
  assert (NL : l <> []).
  { intros ->. destruct (d_meshes d) as [|m ms] eqn:E; [destruct (rm_some _ D E)|]. pose proof (a_counts _ _ (rm_few _ D) m) as CT. rewrite E in CT. specialize (CT (or_introl eq_refl)). assert (In (0%Z, 0%Z) (all_pairs MO (d_meshes d))) as I by (rewrite E; apply pair_in; exists m; cbn; split; [reflexivity|lia]).
    destruct (rm_read _ D _ I) as (p & r & s & R1). assert (C : corner_of d p) by (exists (0%Z, 0%Z), p, r, s; cbn; auto). apply HL in C. destruct C. }
  destruct l as [|v0 l]; [congruence|]. cbn [map fold_left]. fold (grow (sg (image a b c a' b' c' o) (image a b c a' b' c' q)) (tf a b c a' b' c')).
  rewrite apply_x. destruct (project_x _ _ (image a b c a' b' c' v0) NZ) as [_ ->]. pose proof (project_mix _ _ (image a b c a' b' c' v0) NZ (rank_one a b c a' b' c' o q v0 S)) as Hk.
  set (k := dot2 (sub (image a b c a' b' c' v0) _) _ / _) in *. clearbody k. cbn [fst snd].
  replace (nmin (nInf N) (Fin k : T N)) with (Fin k : T N) by reflexivity. replace (nmax (nopp N (nInf N)) (Fin k : T N)) with (Fin k : T N) by reflexivity.
  destruct (grow_all a b c a' b' c' o q S NZ l k k v0 v0 ltac:(lra) Hk Hk) as (k2 & k3 & v2 & v3 & E & L0 & L1 & E2 & E3 & I2 & I3 & H). rewrite E. cbn [fst snd]. rewrite !lerp_x.
  assert (MX : forall t, P (px (image a b c a' b' c' o) * (1 - t) + px (image a b c a' b' c' q) * t) (py (image a b c a' b' c' o) * (1 - t) + py (image a b c a' b' c' q) * t) = mix t (image a b c a' b' c' o) (image a b c a' b' c' q)) by (intros; unfold mix; apply pt_eq; cbn; ring).
  rewrite !MX. exists (image a b c a' b' c' v2), (image a b c a' b' c' v3). split; [rewrite E2, E3; reflexivity|].
  split; [exists v2; split; [apply HL; destruct I2 as [-> |I2]; [left; reflexivity|right; exact I2]|reflexivity]|].
  split; [exists v3; split; [apply HL; destruct I3 as [-> |I3]; [left; reflexivity|right; exact I3]|reflexivity]|].
  intros p C. apply HL in C. assert (W : exists j, k2 <= j <= k3 /\ image a b c a' b' c' p = mix j (image a b c a' b' c' o) (image a b c a' b' c' q)) by (destruct C as [<- |C]; [exists k; split; [lra|exact Hk]|apply H, C]).
  destruct W as (j & B & W). rewrite W, E2, E3. destruct (Req_dec k2 k3) as [Z|Z].
  - exists 0. split; [lra|]. assert (j = k2) as -> by lra. rewrite Z. unfold mix. apply pt_eq; cbn; ring.
  - exists ((j - k2) / (k3 - k2)). split; [split; [apply Rmult_le_reg_r with (k3 - k2); [lra|]; unfold Rdiv; rewrite Rmult_assoc, Rinv_l by lra; lra|apply Rmult_le_reg_r with (k3 - k2); [lra|]; unfold Rdiv; rewrite Rmult_assoc, Rinv_l by lra; lra]|].
    unfold mix. apply pt_eq; cbn; field; lra.
Qed.
End Cross.
