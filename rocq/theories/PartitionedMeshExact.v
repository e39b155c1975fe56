(** Queries of a PartitionedMesh in exact arithmetic. *)
From Coq Require Import ZArith Bool Arith Reals Lra Psatz Permutation List.
From Flocq Require Import Core.
From Verif Require Import NumModel EasingExact BehaviorMeaning GeomModel AffineModel GeomSpec GeomReal GeomExact GeomMeet GeomOps AffineProofs AffineProps RTreeModel RTreeSpec RTreeProofs PartitionedMeshModel PartitionedMeshSpec PartitionedMeshIndex.
Import ListNotations.
Local Open Scope R_scope.

Definition isfin (x : T N) : Prop := exists r, x = Fin r.
Definition xval (x : T N) : R := match x : ereal with Fin r => r | _ => 0 end.
Lemma xlt_spec a b : isfin a -> isfin b -> (nlt N a b = true <-> xval a < xval b).
Proof. intros (x & ->) (y & ->). apply lt_x. Qed.
(** ** Boxes around shapes *)
Lemma bx_overlap x0 y0 x1 y1 u0 v0 u1 v1 p : box_set x0 y0 x1 y1 p -> box_set u0 v0 u1 v1 p -> int_rects (bx x0 y0 x1 y1) (bx u0 v0 u1 v1) = true.
Proof.
  unfold box_set, int_rects. cbn [bx x_min y_min x_max y_max]. intros [A B] [C D].
  rewrite !(proj2 (lt_xf _ _)) by lra. reflexivity.
Qed.
Lemma conv2 m t a b : m <= a -> m <= b -> 0 <= t <= 1 -> m <= (1 - t) * a + t * b. Proof. intros. nra. Qed.
Lemma conv2' m t a b : a <= m -> b <= m -> 0 <= t <= 1 -> (1 - t) * a + t * b <= m. Proof. intros. nra. Qed.
Lemma conv3 m u v w a b c : m <= a -> m <= b -> m <= c -> 0 <= u -> 0 <= v -> 0 <= w -> u + v + w = 1 -> m <= u * a + v * b + w * c.
Proof. intros. replace m with (u * m + v * m + w * m) by (rewrite <- !Rmult_plus_distr_r, H5; ring). nra. Qed.
Lemma conv3' m u v w a b c : a <= m -> b <= m -> c <= m -> 0 <= u -> 0 <= v -> 0 <= w -> u + v + w = 1 -> u * a + v * b + w * c <= m.
Proof. intros. replace m with (u * m + v * m + w * m) by (rewrite <- !Rmult_plus_distr_r, H5; ring). nra. Qed.
Lemma conv4 m c u v s t : m <= c - u - v -> m <= c + u - v -> m <= c + u + v -> m <= c - u + v -> -1 <= s <= 1 -> -1 <= t <= 1 -> m <= c + s * u + t * v.
Proof. intros. destruct (Rle_dec 0 u), (Rle_dec 0 v); nra. Qed.
Lemma conv4' m c u v s t : c - u - v <= m -> c + u - v <= m -> c + u + v <= m -> c - u + v <= m -> -1 <= s <= 1 -> -1 <= t <= 1 -> c + s * u + t * v <= m.
Proof. intros. destruct (Rle_dec 0 u), (Rle_dec 0 v); nra. Qed.
Lemma two_x a b : rect_from_two (pv a) (pv b) = bx (Rmin (px a) (px b)) (Rmin (py a) (py b)) (Rmax (px a) (px b)) (Rmax (py a) (py b)).
Proof. unfold rect_from_two. cbn [pv vx vy]. rewrite !min_x, !max_x. reflexivity. Qed.
Lemma join_point_x x0 y0 x1 y1 p : rect_join_point (bx x0 y0 x1 y1) (pv p) = bx (Rmin x0 (px p)) (Rmin y0 (py p)) (Rmax x1 (px p)) (Rmax y1 (py p)).
Proof. unfold rect_join_point. cbn [pv vx vy bx x_min y_min x_max y_max]. rewrite !min_x, !max_x. reflexivity. Qed.
Ltac mm := repeat match goal with
  | |- context [Rmin ?a ?b] => lazymatch goal with H : Rmin a b <= a |- _ => fail | _ => pose proof (Rmin_l a b); pose proof (Rmin_r a b) end
  | |- context [Rmax ?a ?b] => lazymatch goal with H : a <= Rmax a b |- _ => fail | _ => pose proof (Rmax_l a b); pose proof (Rmax_r a b) end
  end.
Theorem thing_box a : thing_ok a -> exists x0 y0 x1 y1, env_add None (thing_object a) = Some (bx x0 y0 x1 y1) /\ forall p, thing_set a p -> box_set x0 y0 x1 y1 p.
Proof.
  intros K. destruct a as [a|a b|a b c|x0 y0 x1 y1|c w h r s]; cbn [thing_object env_add thing_set].
  - unfold env_add_point. destruct a as [ax ay]. rewrite EasingExact.x0. rewrite (from_center_x (P ax ay) 0 0). rewrite !Rle_bool_true by lra. cbn [andb px py]. eexists _, _, _, _. split; [reflexivity|]. intros p ->. unfold box_set. cbn. lra.
  - unfold sg. cbn [s_start s_end]. rewrite two_x. eexists _, _, _, _. split; [reflexivity|]. intros p (t & B & ->). unfold box_set, mix. cbn [px py].
    mm. repeat split; (apply conv2 || apply conv2'); assumption.
  - unfold tr. cbn [p0 p1 p2]. rewrite two_x, join_point_x. eexists _, _, _, _. split; [reflexivity|]. intros p (u & v & w & A & B & C & E & ->). unfold box_set. cbn [px py].
    mm. repeat split; (apply conv3 || apply conv3'); lra.
  - eexists _, _, _, _. split; [reflexivity|]. auto.
  - rewrite quad_corner_list. cbn [map fst snd]. rewrite two_x, !join_point_x. eexists _, _, _, _. split; [reflexivity|]. intros p (i & j & A & B & ->). unfold box_set, qcorner. cbn [px py].
    mm. repeat split; (apply conv4 || apply conv4'); lra.
Qed.
Lemma tr_inj a b c a' b' c' : Some (tr a b c) = Some (tr a' b' c') -> a = a' /\ b = b' /\ c = c'.
Proof. destruct a, b, c, a', b', c'. unfold tr, pv. cbn [GeomSpec.px GeomSpec.py]. intros H. injection H as -> -> -> -> -> ->. auto. Qed.
(** ** When the image of a quad is exact: its first axis is not turned to a negative angle *)
Lemma atan2_nonneg y x : 0 <= y -> 0 <= atan2R y x.
Proof.
  intros Y. unfold atan2R. pose proof PI_RGT_0. destruct (Rlt_bool_spec 0 x) as [X|X].
  - rewrite <- atan_0. assert (0 <= y / x) by (apply Rmult_le_pos; [exact Y|left; apply Rinv_0_lt_compat; exact X]). destruct H0 as [L|<-]; [left; apply atan_increasing, L|right; reflexivity].
  - destruct (Rlt_bool_spec x 0) as [X'|X'].
    + rewrite Rle_bool_true by exact Y. pose proof (atan_bound (y / x)). lra.
    + destruct (Rlt_bool_spec 0 y); [lra|]. rewrite Rlt_bool_false by exact Y. lra.
Qed.
Lemma quad_image_angle a b c d e f m w h r s : 0 <= w -> exists k x, 0 < k /\ snd (fst (quad_image (tf a b c d e f) (qd m w h r s))) = Fin (atan2R (k * (d * cos r + e * sin r)) x).
Proof.
  intros W. unfold quad_image. change (qd m w h r s) with (Quad (pv m) (Fin w : T N) (Fin h : T N) (Fin r : T N) (Fin s : T N)). cbn [q_center q_width q_height q_rotation q_shear]. change (Quad (pv m) (Fin w : T N) (Fin h : T N) (Fin r : T N) (Fin s : T N)) with (qd m w h r s). rewrite semi_axes_x. rewrite EasingExact.x0, x1e.
  destruct (Req_dec w 0) as [Z|Z].
  - rewrite (proj2 (eq_x w 0) Z). cbn [snd fst]. exists 1. eexists. split; [lra|]. unfold direction, apply_vec. cbn. f_equal. f_equal. ring.
  - rewrite (proj2 (eq_xf w 0) Z). cbn [snd fst]. exists (/ 2 * w). eexists. split; [lra|]. unfold direction, apply_vec. cbn. f_equal. f_equal. ring.
Qed.
Theorem apply_quad_up a b c d e f m w h r s : a * e <> b * d -> 0 <= w -> 0 <= d * cos r + e * sin r ->
  exists w' h' r' s', 0 <= w' /\ 0 <= sin r' /\ apply_quad (tf a b c d e f) (qd m w h r s) = qd (image a b c d e f m) w' h' r' s' /\
    forall p, quad_set (image a b c d e f m) w' h' r' s' p <-> exists q, quad_set m w h r s q /\ p = image a b c d e f q.
Proof.
  intros I W U. destruct (quad_image_x a b c d e f m w h r s I W) as (w' & h' & r' & s' & E & W' & B & H). exists w', h', r', s'. split; [exact W'|].
  destruct (quad_image_angle a b c d e f m w h r s W) as (k & x & K & A). rewrite E in A. cbn [fst snd] in A. injection A as A.
  assert (0 <= r') by (rewrite A; apply atan2_nonneg; nra). split; [apply sin_ge_0; lra|]. split; [|exact H].
  unfold apply_quad. rewrite E. unfold quad_make, quad_normalize. cbn [q_width]. rewrite EasingExact.x0, (proj2 (lt_xf w' 0)) by lra. rewrite normalized_x by exact B. rewrite Rlt_bool_false by assumption. reflexivity.
Qed.
(** [q'] is the image of [q] *)
Definition carries (a b c d e f : R) (q q' : thing) : Prop :=
  apply_object (tf a b c d e f) (thing_object q) = thing_object q' /\ thing_ok q' /\
  forall p, thing_set q' p <-> exists p0, thing_set q p0 /\ p = image a b c d e f p0.
Definition exactly_carried (a b d e : R) (q : thing) : Prop :=
  match q with
  | TRect _ _ _ _ => a * e <> b * d /\ 0 <= d
  | TQuad _ w _ r _ => a * e <> b * d /\ 0 <= w /\ 0 <= d * cos r + e * sin r
  | _ => True
  end.
Definition upright (q : thing) : Prop := match q with TQuad _ _ _ r _ => 0 <= sin r | _ => True end.
Theorem carried_up a b c d e f q : thing_ok q -> exactly_carried a b d e q -> exists q', carries a b c d e f q q' /\ upright q'.
Proof.
  intros K C. destruct q as [x|x y|x y z|x0 y0 x1 y1|m w h r s]; cbn in C.
  - exists (TPoint (image a b c d e f x)). split; [|exact Logic.I]. split; [reflexivity|]. split; [exact Logic.I|]. intros p. cbn. split; [intros ->; exists x; split; reflexivity|intros (q & -> & ->); reflexivity].
  - destruct (C42_apply_segment a b c d e f x y) as (s & t & E & H). exists (TSegment s t). split; [|exact Logic.I]. split; [cbn; rewrite E; reflexivity|]. split; [exact Logic.I|exact H].
  - destruct (C42_apply_triangle a b c d e f x y z) as (s & t & u & E & H). exists (TTriangle s t u). split; [|exact Logic.I]. split; [cbn; rewrite E; reflexivity|]. split; [exact Logic.I|exact H].
  - destruct C as [C D]. destruct K as [X Y]. destruct (apply_quad_up a b c d e f (P ((x0 + x1) / 2) ((y0 + y1) / 2)) (x1 - x0) (y1 - y0) 0 0 C) as (w' & h' & r' & s' & W & UP & E & H); [lra|rewrite cos_0, sin_0; lra|].
    exists (TQuad (image a b c d e f (P ((x0 + x1) / 2) ((y0 + y1) / 2))) w' h' r' s'). split; [|exact UP]. split; [cbn [apply_object thing_object]; unfold apply_rect; rewrite (quad_of_box x0 y0 x1 y1 X), E; reflexivity|]. split; [exact W|].
    intros p. cbn [thing_set]. rewrite H. split; intros (q & Q & ->); exists q; (split; [apply (quad_box x0 y0 x1 y1 q X Y); exact Q|reflexivity]).
  - destruct C as (C & W & D). destruct (apply_quad_up a b c d e f m w h r s C W D) as (w' & h' & r' & s' & W' & UP & E & H). exists (TQuad (image a b c d e f m) w' h' r' s'). split; [|exact UP]. split; [cbn [apply_object thing_object]; rewrite E; reflexivity|]. split; [exact W'|exact H].
Qed.
Theorem carried a b c d e f q : thing_ok q -> exactly_carried a b d e q -> exists q', carries a b c d e f q q'.
Proof. intros K C. destruct (carried_up a b c d e f q K C) as (q' & H & _). exists q'. exact H. Qed.
(** ** In general the image of a quad is turned about its centre, by the excess of kFullTurn over 2 pi or not at all *)
Definition turned (m : pt) (t : R) (p : pt) : pt :=
  P (px m + (cos t * (px p - px m) - sin t * (py p - py m))) (py m + (sin t * (px p - px m) + cos t * (py p - py m))).
Lemma turned_0 m p : turned m 0 p = p.
Proof. unfold turned. rewrite cos_0, sin_0. apply pt_eq; cbn; ring. Qed.
Lemma turned_add m s t p : turned m s (turned m t p) = turned m (t + s) p.
Proof. unfold turned. rewrite (cos_plus t s), (sin_plus t s). apply pt_eq; cbn [px py]; ring. Qed.
Lemma quad_turned m w h r s t p : quad_set m w h (r + t) s p <-> exists q, quad_set m w h r s q /\ p = turned m t q.
Proof.
  unfold quad_set, par_set, quad_u, quad_v, turned. cbn [px py]. rewrite (cos_plus r t), (sin_plus r t). split.
  - intros (i & j & A & B & ->). eexists. split; [exists i, j; split; [exact A|]; split; [exact B|reflexivity]|]. apply pt_eq; cbn [px py]; ring.
  - intros (q & (i & j & A & B & ->) & ->). exists i, j. split; [exact A|]. split; [exact B|]. apply pt_eq; cbn [px py]; ring.
Qed.
Lemma quad_full_turn m w h r s p : quad_set m w h (r + turn) s p <-> quad_set m w h (r + (turn - 2 * PI)) s p.
Proof.
  replace (r + turn) with (r + (turn - 2 * PI) + 2 * PI) by ring. set (x := r + (turn - 2 * PI)).
  assert (C : cos (x + 2 * PI) = cos x) by (rewrite cos_plus, cos_2PI, sin_2PI; ring). assert (S : sin (x + 2 * PI) = sin x) by (rewrite sin_plus, cos_2PI, sin_2PI; ring).
  unfold quad_set, quad_u, quad_v. rewrite C, S. reflexivity.
Qed.
Definition wide (q : thing) : Prop := match q with TRect _ _ _ _ => True | TQuad _ _ _ _ _ => True | _ => False end.
Definition middle (q : thing) : pt := match q with TRect x0 y0 x1 y1 => P ((x0 + x1) / 2) ((y0 + y1) / 2) | TQuad c _ _ _ _ => c | _ => P 0 0 end.
Definition carries_turned (a b c d e f : R) (q q' : thing) (t : R) : Prop :=
  apply_object (tf a b c d e f) (thing_object q) = thing_object q' /\ thing_ok q' /\ 0 <= t < 2 / 10000000 /\ (~ wide q -> t = 0) /\ (wide q -> wide q' /\ middle q' = image a b c d e f (middle q)) /\
  forall p, thing_set q' p <-> exists p0, thing_set q p0 /\ p = turned (image a b c d e f (middle q)) t (image a b c d e f p0).
Theorem carried_turned a b c d e f q : thing_ok q -> a * e <> b * d ->
  exists q' t, carries_turned a b c d e f q q' t /\ (exactly_carried a b d e q -> t = 0 /\ upright q').
Proof.
  intros K I. assert (SMALL : ~ wide q -> exists q' t, carries_turned a b c d e f q q' t /\ (exactly_carried a b d e q -> t = 0 /\ upright q')).
  { intros NW. destruct (carried_up a b c d e f q K) as (q' & (A & B & C) & U); [destruct q; cbn in *; tauto|]. exists q', 0. split; [|auto]. split; [exact A|]. split; [exact B|]. split; [lra|]. split; [reflexivity|]. split; [contradiction|].
    intros p. rewrite C. split; intros (p0 & P0 & ->); exists p0; rewrite turned_0; auto. }
  assert (QUAD : forall m w h r s, 0 <= w -> exists w' h' r' s' t, apply_quad (tf a b c d e f) (qd m w h r s) = qd (image a b c d e f m) w' h' r' s' /\ 0 <= w' /\ 0 <= t < 2 / 10000000 /\
     (forall p, quad_set (image a b c d e f m) w' h' r' s' p <-> exists p0, quad_set m w h r s p0 /\ p = turned (image a b c d e f m) t (image a b c d e f p0)) /\
     (0 <= d * cos r + e * sin r -> t = 0 /\ 0 <= sin r')).
  { intros m w h r s W. destruct (Rle_dec 0 (d * cos r + e * sin r)) as [U|U].
    - destruct (apply_quad_up a b c d e f m w h r s I W U) as (w' & h' & r' & s' & W' & UP & E & H). exists w', h', r', s', 0. split; [exact E|]. split; [exact W'|]. split; [lra|]. split; [|auto]. intros p. rewrite H. split; intros (p0 & P0 & ->); exists p0; rewrite turned_0; auto.
    - destruct (apply_quad_x a b c d e f m w h r s I W) as (w' & h' & r' & s' & W' & [E|[N E]] & H).
      + exists w', h', r', s', 0. split; [exact E|]. split; [exact W'|]. split; [lra|]. split; [|intros X; contradiction]. intros p. rewrite H. split; intros (p0 & P0 & ->); exists p0; rewrite turned_0; auto.
      + pose proof turn_pi as TP. exists w', h', (r' + turn), s', (turn - 2 * PI). split; [exact E|]. split; [exact W'|]. split; [lra|]. split; [|intros X; contradiction]. intros p. rewrite quad_full_turn, quad_turned. split.
        * intros (q0 & Q0 & ->). apply H in Q0. destruct Q0 as (p0 & P0 & ->). eauto.
        * intros (p0 & P0 & ->). exists (image a b c d e f p0). split; [apply H; eauto|reflexivity]. }
  destruct q as [x|x y|x y z|x0 y0 x1 y1|m w h r s]; [apply SMALL; intros []..| |].
  - destruct K as [X Y]. destruct (QUAD (P ((x0 + x1) / 2) ((y0 + y1) / 2)) (x1 - x0) (y1 - y0) 0 0) as (w' & h' & r' & s' & t & E & W & T & H & Z); [lra|]. exists (TQuad (image a b c d e f (P ((x0 + x1) / 2) ((y0 + y1) / 2))) w' h' r' s'), t. split.
    + split; [cbn [apply_object thing_object]; unfold apply_rect; rewrite (quad_of_box x0 y0 x1 y1 X), E; reflexivity|]. split; [exact W|]. split; [exact T|]. split; [intros NW; exfalso; apply NW; exact Logic.I|]. split; [intros _; split; [exact Logic.I|reflexivity]|].
      intros p. cbn [thing_set middle]. rewrite H. split; intros (p0 & P0 & ->); exists p0; (split; [apply (quad_box x0 y0 x1 y1 p0 X Y); exact P0|reflexivity]).
    + intros [_ D]. cbn [upright]. apply Z. rewrite cos_0, sin_0. lra.
  - destruct (QUAD m w h r s K) as (w' & h' & r' & s' & t & E & W & T & H & Z). exists (TQuad (image a b c d e f m) w' h' r' s'), t. split.
    + split; [cbn [apply_object thing_object]; rewrite E; reflexivity|]. split; [exact W|]. split; [exact T|]. split; [intros NW; exfalso; apply NW; exact Logic.I|]. split; [intros _; split; [exact Logic.I|reflexivity]|exact H].
    + intros (_ & _ & D). apply Z, D.
Qed.
Section Queries.
Context {M : Type}.
Variable MO : mesh_ops N M.
Variable sort : (nat -> nat -> bool) -> list nat -> list nat.
Hypothesis sort_perm : forall f l, Permutation l (sort f l).
Section One.
Variable d : data M.
Notation ms := (d_meshes d).
Hypothesis AD : addressable MO ms.
Hypothesis NE : ms <> [].
Hypothesis RD : forall i, In i (all_pairs MO ms) -> exists a b c, triangle_at MO ms i = Some (tr a b c).
Lemma RD' i : In i (all_pairs MO ms) -> exists x, triangle_at MO ms i = Some x /\ tri_nums isfin x.
Proof. intros I. destruct (RD i I) as (a & b & c & E). eexists. split; [exact E|]. intros v. cbn. intros [<- |[<- |[<- |[]]]]; split; eexists; reflexivity. Qed.
Definition shape_hit (S : shape) (i : ipair) : Prop := exists a b c, triangle_at MO ms i = Some (tr a b c) /\ meet (tri_set a b c) S.
Lemma filter_selects {A} (P : A -> Prop) (f : A -> bool) l : (forall i, In i l -> (f i = true <-> P i)) -> selects P l (filter f l).
Proof.
  induction l as [|i l IH]; intros H; [constructor|]. cbn [filter]. pose proof (H i (or_introl eq_refl)) as Hi. specialize (IH (fun j J => H j (or_intror J))). destruct (f i); [constructor; [apply Hi; reflexivity|exact IH]|constructor; [intros Q; apply Hi in Q; discriminate|exact IH]].
Qed.
Lemma nums_bx x0 y0 x1 y1 : nums N isfin (bx x0 y0 x1 y1). Proof. repeat split; eexists; reflexivity. Qed.
Lemma visit_thing q q' t : apply_object t q = thing_object q' -> thing_ok q' ->
  exists L, selects (shape_hit (thing_set q')) (all_pairs MO ms) L /\ visits_exactly (fun St v s => visit_object MO sort (fun s i => Some (v s i)) (Some d) q t s) L.
Proof.
  intros E K. destruct (thing_box q' K) as (x0 & y0 & x1 & y1 & B & C). rewrite <- E in B.
  eexists. split; [|apply (visit_object_exact MO isfin xval xlt_spec sort sort_perm d AD NE RD' q t _ B (nums_bx _ _ _ _))].
  apply filter_selects. intros i I. destruct (RD i I) as (a & b & c & R). unfold object_hit. rewrite R, E. unfold pair_box. rewrite R.
  destruct (thing_box (TTriangle a b c) Logic.I) as (u0 & v0 & u1 & v1 & B' & C'). cbn [thing_object] in B'. rewrite B'. rewrite andb_true_iff.
  pose proof (intersects_x q' (TTriangle a b c) K Logic.I) as X. cbn [thing_object thing_set] in X. rewrite X. rewrite (meet_sym (thing_set q')). split.
  - intros [_ H]. exists a, b, c. auto.
  - intros (a' & b' & c' & Q & H). rewrite R in Q. apply tr_inj in Q. destruct Q as (<- & <- & <-). split; [|exact H]. destruct H as (p & H1 & H2). apply bx_overlap with p; [apply C', H1|apply C, H2].
Qed.
End One.
End Queries.
