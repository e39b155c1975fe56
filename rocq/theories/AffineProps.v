(** C42: AffineTransform represents affine maps.  Exact arithmetic, except where floats are named. *)
From Coq Require Import ZArith Reals Lra Psatz Bool List.
From Flocq Require Import Core BinarySingleNaN.
From Verif Require Import F32 NumModel EasingExact BehaviorMeaning GeomModel AffineModel GeomSpec GeomReal GeomExact GeomMeet AffineProofs.
Import ListNotations.
Local Open Scope R_scope.

(** the transform with the given six coefficients sends (x, y) to (a x + b y + c, d x + e y + f) *)
Theorem C42_apply a b c d e f x y :
  maps (tf a b c d e f) (P x y) (P (a * x + b * y + c) (d * x + e * y + f)).
Proof. reflexivity. Qed.
Theorem C42_compose t u p q r : affine_map t -> affine_map u -> maps u p q -> maps t q r -> maps (compose t u) p r.
Proof.
  intros (a & b & c & d & e & f & ->) (a' & b' & c' & d' & e' & f' & ->). unfold maps. rewrite compose_x, !apply_x. intros A B. apply pv_inj in A, B. subst q r.
  f_equal. apply pt_eq; unfold image; cbn [px py]; ring.
Qed.
(** Inverse is absent exactly when the map is not one to one, and otherwise undoes it *)
Theorem C42_inverse t : affine_map t ->
  match inverse t with
  | Some u => affine_map u /\ (forall p q, maps t p q <-> maps u q p)
  | None => exists p p' q, p <> p' /\ maps t p q /\ maps t p' q
  end.
Proof.
  intros (a & b & c & d & e & f & ->). rewrite inverse_x. destruct (Req_bool_spec (a * e) (b * d)) as [H|H].
  - destruct (Req_dec a 0) as [A|A].
    + destruct (Req_dec b 0) as [B|B].
      * destruct (Req_dec d 0) as [D|D].
        -- exists (P 0 0), (P 1 0), (P c f). split; [intros Q; injection Q; lra|]. unfold maps. rewrite !apply_x. subst. split; f_equal; apply pt_eq; unfold image; cbn; ring.
        -- exists (P 0 0), (P e (- d)), (P c f). split; [intros Q; injection Q; lra|]. unfold maps. rewrite !apply_x. subst. split; f_equal; apply pt_eq; unfold image; cbn; ring.
      * exists (P 0 0), (P b (- a)), (P c f). split; [intros Q; injection Q; lra|]. unfold maps. rewrite !apply_x. split; f_equal; apply pt_eq; unfold image; cbn; lra.
    + exists (P 0 0), (P b (- a)), (P c f). split; [intros Q; injection Q; lra|]. unfold maps. rewrite !apply_x. split; f_equal; apply pt_eq; unfold image; cbn; lra.
  - split; [repeat eexists|]. assert (K : a * e - b * d <> 0) by lra. intros p q. unfold maps. rewrite !apply_x. split; intros E; apply pv_inj in E; subst; f_equal; apply pt_eq; unfold image; cbn [px py]; field; exact K.
Qed.
(** ** The named transforms *)
Theorem C42_identity p : maps identity p p.
Proof. unfold maps, identity. rewrite x0, x1e. fold (tf 1 0 0 0 1 0). rewrite apply_x. f_equal. apply pt_eq; unfold image; cbn; ring. Qed.
Theorem C42_translate v p : maps (translate (pv v)) p (P (px p + px v) (py p + py v)).
Proof. unfold maps, translate. rewrite x0, x1e. fold (tf 1 0 (px v) 0 1 (py v)). change (Affine _ _ _ _ _ _) with (tf 1 0 (px v) 0 1 (py v)). rewrite apply_x. f_equal. apply pt_eq; unfold image; cbn; ring. Qed.
Definition fin (r : R) : T N := Fin r.
Theorem C42_scale s t x y : maps (scale (fin s)) (P x y) (P (s * x) (s * y)) /\ maps (scale_xy (fin s) (fin t)) (P x y) (P (s * x) (t * y)) /\
  maps (scale_x (fin s)) (P x y) (P (s * x) y) /\ maps (scale_y (fin s)) (P x y) (P x (s * y)).
Proof.
  unfold maps, scale, scale_x, scale_y, scale_xy, fin. rewrite x0, x1e. fold (tf s 0 0 0 s 0). fold (tf s 0 0 0 t 0). fold (tf s 0 0 0 1 0). fold (tf 1 0 0 0 s 0). rewrite !apply_x.
  repeat split; f_equal; apply pt_eq; unfold image; cbn; ring.
Qed.
Theorem C42_rotate a r t : maps (rotate (fin a)) (P (r * cos t) (r * sin t)) (P (r * cos (t + a)) (r * sin (t + a))).
Proof.
  unfold maps, rotate, fin. rewrite x0. change (Affine _ _ _ _ _ _) with (tf (cos a) (- sin a) 0 (sin a) (cos a) 0). rewrite apply_x. f_equal. rewrite cos_plus, sin_plus. apply pt_eq; unfold image; cbn; ring.
Qed.
Theorem C42_shear s x y : maps (shear_x (fin s)) (P x y) (P (x + s * y) y) /\ maps (shear_y (fin s)) (P x y) (P x (s * x + y)).
Proof. unfold maps, shear_x, shear_y, fin. rewrite x0, x1e. fold (tf 1 s 0 0 1 0). fold (tf 1 0 0 s 1 0). rewrite !apply_x. split; f_equal; apply pt_eq; unfold image; cbn; ring. Qed.
(** transforms about a point: move the point to the origin, transform, move back *)
Theorem C42_about c s t a :
  scale_about (fin s) (pv c) = compose (translate (pv c)) (compose (scale (fin s)) (translate (pv (P (- px c) (- py c))))) /\
  scale_xy_about (fin s) (fin t) (pv c) = compose (translate (pv c)) (compose (scale_xy (fin s) (fin t)) (translate (pv (P (- px c) (- py c))))) /\
  rotate_about (fin a) (pv c) = compose (translate (pv c)) (compose (rotate (fin a)) (translate (pv (P (- px c) (- py c))))).
Proof.
  unfold scale_about, scale_xy_about, rotate_about, translate, scale, scale_xy, rotate, fin. rewrite x0, x1e. cbn [pv vx vy px py].
  repeat split; unfold compose; cbn [ma mb mc md me mf]; cbn; f_equal; f_equal; ring.
Qed.
(** ** Images of segments, triangles, quads and rects are the images of their point sets *)
Theorem C42_apply_segment a b c d e f s t : exists s' t', apply_segment (tf a b c d e f) (sg s t) = sg s' t' /\
  forall p, seg_set s' t' p <-> exists q, seg_set s t q /\ p = image a b c d e f q.
Proof.
  exists (image a b c d e f s), (image a b c d e f t). split; [reflexivity|]. intros p.
  assert (M : forall k, image a b c d e f (mix k s t) = mix k (image a b c d e f s) (image a b c d e f t)) by (intros; apply pt_eq; unfold image; cbn; ring).
  split; [intros (k & B & ->); exists (mix k s t); split; [exists k; auto|symmetry; apply M]|intros (q & (k & B & ->) & ->); exists k; split; [exact B|apply M]].
Qed.
Theorem C42_apply_triangle a b c d e f s t u : exists s' t' u', apply_triangle (tf a b c d e f) (tr s t u) = tr s' t' u' /\
  forall p, tri_set s' t' u' p <-> exists q, tri_set s t u q /\ p = image a b c d e f q.
Proof.
  exists (image a b c d e f s), (image a b c d e f t), (image a b c d e f u). split; [reflexivity|]. intros p.
  assert (M : forall k l m, k + l + m = 1 -> image a b c d e f (P (k * px s + l * px t + m * px u) (k * py s + l * py t + m * py u)) =
    P (k * px (image a b c d e f s) + l * px (image a b c d e f t) + m * px (image a b c d e f u)) (k * py (image a b c d e f s) + l * py (image a b c d e f t) + m * py (image a b c d e f u))).
  { intros k l m E. replace k with (1 - l - m) by lra. apply pt_eq; unfold image; cbn; ring. }
  split.
  - intros (k & l & m & A & B & C & E & ->). eexists. split; [exists k, l, m; auto|]. symmetry. apply M. exact E.
  - intros (q & (k & l & m & A & B & C & E & ->) & ->). exists k, l, m. repeat (split; [assumption|]). apply M. exact E.
Qed.
(** For an invertible transform the result's parameters describe the image exactly, apart from one step:
    a negative angle has the float constant kFullTurn added, which exceeds 2 pi by less than 2e-7. *)
Theorem C42_apply_quad a b c d e f m w h r s : a * e <> b * d -> 0 <= w ->
  exists w' h' r' s', 0 <= w' /\ (apply_quad (tf a b c d e f) (qd m w h r s) = qd (image a b c d e f m) w' h' r' s' \/
    r' < 0 /\ apply_quad (tf a b c d e f) (qd m w h r s) = qd (image a b c d e f m) w' h' (r' + turn) s') /\
    forall p, quad_set (image a b c d e f m) w' h' r' s' p <-> exists q, quad_set m w h r s q /\ p = image a b c d e f q.
Proof. apply apply_quad_x. Qed.
Theorem C42_full_turn : 2 * PI < turn < 2 * PI + 2 / 10000000.
Proof. exact turn_pi. Qed.
Theorem C42_apply_rect a b c d e f x0 y0 x1 y1 : a * e <> b * d -> x0 <= x1 -> y0 <= y1 ->
  exists m w' h' r' s', 0 <= w' /\ (apply_rect (tf a b c d e f) (bx x0 y0 x1 y1) = qd m w' h' r' s' \/ r' < 0 /\ apply_rect (tf a b c d e f) (bx x0 y0 x1 y1) = qd m w' h' (r' + turn) s') /\
    forall p, quad_set m w' h' r' s' p <-> exists q, box_set x0 y0 x1 y1 q /\ p = image a b c d e f q.
Proof.
  intros I X Y. unfold apply_rect. rewrite (quad_of_box x0 y0 x1 y1 X). destruct (apply_quad_x a b c d e f (P ((x0 + x1) / 2) ((y0 + y1) / 2)) (x1 - x0) (y1 - y0) 0 0 I) as (w' & h' & r' & s' & W & E & H); [lra|].
  eexists _, w', h', r', s'. split; [exact W|]. split; [exact E|]. intros p. rewrite H. split; intros (q & Q & ->); exists q; (split; [apply (quad_box x0 y0 x1 y1 q X Y); exact Q|reflexivity]).
Qed.
(** A transform that is not invertible can lose part of a quad: flattening the sheared square with
    corners (-2,-1), (0,-1), (2,1), (0,1) onto the x-axis gives only half of the image. *)
Theorem C42_apply_quad_singular_refuted : exists t m w h r s p q, affine_map t /\ 0 <= w /\ quad_set m w h r s p /\ maps t p q /\
  exists m' w' h' r' s', apply_quad t (qd m w h r s) = qd m' w' h' r' s' /\ ~ quad_set m' w' h' r' s' q.
Proof.
  exists (tf 1 0 0 0 0 0), (P 0 0), 2, 2, 0, 1, (P 2 1), (P 2 0). split; [repeat eexists|]. split; [lra|].
  split; [exists 1, 1; split; [lra|split; [lra|]]; unfold quad_u, quad_v; cbn [px py]; rewrite cos_0, sin_0; apply pt_eq; cbn [px py]; lra|].
  split; [unfold maps; rewrite apply_x; f_equal; apply pt_eq; unfold image; cbn; ring|].
  exists (P 0 0), 2, 0, 0, 0. split; [exact flatten|]. intros (s & t & A & B & E). apply (f_equal px) in E. unfold quad_u, quad_v in E. cbn [px py] in E. rewrite cos_0, sin_0 in E. lra.
Qed.
(** ** Find *)
Theorem C42_find_triangle a b c p q r :
  match find_triangle (tr a b c) (tr p q r) with
  | None => exists u v w, (u <> 0 \/ v <> 0) /\ forall x, In x [a; b; c] -> u * px x + v * py x = w
  | Some t => affine_map t /\ maps t a p /\ maps t b q /\ maps t c r /\
      forall t', affine_map t' -> maps t' a p -> maps t' b q -> maps t' c r -> t' = t
  end.
Proof.
  destruct (find_triangle_x a b c p q r) as [A B]. destruct (Req_dec (det3 a b c) 0) as [D|D].
  - rewrite (A D). apply collinear. exact D.
  - destruct (B D) as (t & E & M & H1 & H2 & H3). rewrite E. repeat (split; [assumption|]). intros t' M' K1 K2 K3. eapply find_unique; eassumption.
Qed.
Theorem C42_find_rect x0 y0 x1 y1 x2 y2 x3 y3 :
  match find_rect (bx x0 y0 x1 y1) (bx x2 y2 x3 y3) with
  | None => x0 = x1 \/ y0 = y1
  | Some t => affine_map t /\ maps t (P x0 y0) (P x2 y2) /\ maps t (P x1 y0) (P x3 y2) /\ maps t (P x1 y1) (P x3 y3) /\ maps t (P x0 y1) (P x2 y3)
  end.
Proof.
  destruct (find_rect_x x0 y0 x1 y1 x2 y2 x3 y3) as [A B]. destruct (Req_dec x0 x1) as [D|D]; [rewrite A by auto; auto|]. destruct (Req_dec y0 y1) as [D'|D']; [rewrite A by auto; auto|].
  destruct (B D D') as (t & E & H). rewrite E. exact H.
Qed.
(** [qcorner c w h r s i j]: center + i * first semi-axis + j * second semi-axis *)
Theorem C42_find_quad c w h r s c' w' h' r' s' :
  match find_quad (qd c w h r s) (qd c' w' h' r' s') with
  | None => w = 0 \/ h = 0
  | Some t => affine_map t /\ forall i j, i = -1 \/ i = 1 -> j = -1 \/ j = 1 -> maps t (qcorner c w h r s i j) (qcorner c' w' h' r' s' i j)
  end.
Proof.
  destruct (find_quad_x c w h r s c' w' h' r' s') as [A B]. destruct (Req_dec w 0) as [D|D]; [rewrite A by auto; auto|]. destruct (Req_dec h 0) as [D'|D']; [rewrite A by auto; auto|].
  destruct (B D D') as (t & E & H). rewrite E. exact H.
Qed.
(** Find for segments: a rotation with uniform scaling and translation, absent only when a single point would
    have to become two *)
Theorem C42_find_segment a b c d :
  match find_segment (N := N) xacos (sg a b) (sg c d) with
  | None => False
  | Some None => a = b /\ c <> d
  | Some (Some t) => (exists p q s u, t = tf p (- q) s q p u) /\ maps t a c /\ maps t b d
  end.
Proof.
  destruct (find_segment_x a b c d) as (o & E & H1 & H2). rewrite E. destruct (Classical_Prop.classic (a = b /\ c <> d)) as [[Q1 Q2]|Q].
  - rewrite (H1 Q1 Q2). auto.
  - destruct H2 as (p & q & s & u & -> & M1 & M2); [destruct (Classical_Prop.classic (a = b)); [right; apply Classical_Prop.NNPP; tauto|left; assumption]|]. split; [repeat eexists|auto].
Qed.
(** In floats AsUnitVec divides by the length of half the vector, which is zero for the shortest vector;
    dividing by zero fails an ABSL_CHECK and ends the process. *)
Definition shortest : f32 := fdy 1 (-149).
Theorem C42_unit_vec_refuted (E : elem) : e_hypot E f0 f0 = f0 ->
  unit_vec (N := fnum E) (V (shortest : T (fnum E)) (f0 : T (fnum E))) = None.
Proof.
  intros H. assert (H1 : fmul (fdy 1 (-1)) shortest = f0) by (apply B2SF_inj; vm_compute; reflexivity). assert (H2 : fmul (fdy 1 (-1)) f0 = f0) by (apply B2SF_inj; vm_compute; reflexivity).
  unfold unit_vec, isinf. cbn [vx vy]. change (nnan (fnum E) shortest) with false. change (nnan (fnum E) f0) with false. change (nfin (fnum E) shortest) with true. change (nfin (fnum E) f0) with true.
  replace (neqb (fnum E) shortest n0) with false by (symmetry; vm_compute; reflexivity). cbn [orb andb negb].
  unfold vec_div, magnitude, vscale. cbn [vx vy]. change (nmul (fnum E) half shortest) with (fmul (fdy 1 (-1)) shortest). change (nmul (fnum E) half f0) with (fmul (fdy 1 (-1)) f0).
  rewrite H1, H2. change (nhypot (fnum E) f0 f0) with (e_hypot E f0 f0). rewrite H. replace (neqb (fnum E) f0 n0) with true by (symmetry; vm_compute; reflexivity). reflexivity.
Qed.

Print Assumptions C42_compose.
Print Assumptions C42_inverse.
Print Assumptions C42_about.
Print Assumptions C42_rotate.
Print Assumptions C42_apply_quad.
Print Assumptions C42_apply_rect.
Print Assumptions C42_apply_quad_singular_refuted.
Print Assumptions C42_find_triangle.
Print Assumptions C42_find_rect.
Print Assumptions C42_find_quad.
Print Assumptions C42_find_segment.
Print Assumptions C42_unit_vec_refuted.

(** Concrete cases: the inverse of a shear with scaling exists and sends (5, 6) back to (1, 2); the transform found
    from three points to their images under it is the transform itself. *)
Example ex_inverse : exists u, inverse (tf 1 2 0 0 3 0) = Some u /\ maps (tf 1 2 0 0 3 0) (P 1 2) (P 5 6) /\ maps u (P 5 6) (P 1 2).
Proof.
  pose proof (C42_inverse (tf 1 2 0 0 3 0) ltac:(repeat eexists)) as H. rewrite inverse_x in *. rewrite Req_bool_false in * by lra. destruct H as [_ H]. eexists. split; [reflexivity|].
  assert (M : maps (tf 1 2 0 0 3 0) (P 1 2) (P 5 6)) by (unfold maps; rewrite apply_x; f_equal; apply pt_eq; unfold image; cbn; ring). split; [exact M|apply H; exact M].
Qed.
Example ex_find : find_triangle (tr (P 0 0) (P 1 0) (P 0 1)) (tr (P 0 0) (P 1 0) (P 2 3)) = Some (tf 1 2 0 0 3 0).
Proof.
  pose proof (C42_find_triangle (P 0 0) (P 1 0) (P 0 1) (P 0 0) (P 1 0) (P 2 3)) as H. destruct (find_triangle _ _) as [t|] eqn:E.
  - destruct H as (_ & _ & _ & _ & U). f_equal. symmetry. apply U; [repeat eexists|..]; unfold maps; rewrite apply_x; f_equal; apply pt_eq; unfold image; cbn; ring.
  - destruct (find_triangle_x (P 0 0) (P 1 0) (P 0 1) (P 0 0) (P 1 0) (P 2 3)) as [_ B]. destruct B as (t & E' & _); [unfold det3; cbn; lra|]. congruence.
Qed.
Example ex_find_segment : exists t, find_segment (N := N) xacos (sg (P 0 0) (P 1 0)) (sg (P 2 2) (P 2 5)) = Some (Some t) /\ maps t (P 1 0) (P 2 5).
Proof.
  pose proof (C42_find_segment (P 0 0) (P 1 0) (P 2 2) (P 2 5)) as H. destruct (find_segment _ _ _) as [[t|]|]; [|destruct H as [Q _]; injection Q; lra|contradiction].
  exists t. split; [reflexivity|apply H].
Qed.
