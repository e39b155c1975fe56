(** C60: Distance between geometric objects. *)
From Coq Require Import ZArith Reals Lra Lia Bool List.
From Flocq Require Import Core BinarySingleNaN.
From Verif Require Import F32 NumModel EasingExact GeomModel GeomSpec GeomReal GeomExact GeomMeet GeomOps DistanceModel DistanceSpec DistanceProofs.
Import ListNotations.
Local Open Scope R_scope.

(** ** Exact arithmetic *)
(** the result is the smallest distance of a point of one object from a point of the other *)
Theorem C60_distance a b : thing_ok a -> thing_ok b -> exists d, distance (thing_object a) (thing_object b) = Some (Fin d : T N) /\ apart (thing_set a) (thing_set b) d.
Proof. apply distance_x. Qed.
Theorem C60_symmetric a b : thing_ok a -> thing_ok b -> distance (thing_object a) (thing_object b) = distance (thing_object b) (thing_object a).
Proof.
  intros A B. destruct (C60_distance a b A B) as (d & -> & H). destruct (C60_distance b a B A) as (e & -> & H'). do 2 f_equal. apply (apart_unique (thing_set a) (thing_set b)); [exact H|apply apart_sym, H'].
Qed.
(** zero exactly when the objects intersect *)
Theorem C60_zero a b : thing_ok a -> thing_ok b -> (distance (thing_object a) (thing_object b) = Some (Fin 0 : T N) <-> intersects (thing_object a) (thing_object b) = true).
Proof.
  intros A B. rewrite intersects_x by assumption. destruct (C60_distance a b A B) as (d & -> & H). split.
  - intros E. injection E as ->. destruct H as (_ & (p & q & Hp & Hq & Q) & _). exists p. split; [exact Hp|]. rewrite Rmult_0_l in Q. symmetry in Q. apply dist2_same in Q. subst. exact Hq.
  - intros M. do 2 f_equal. apply (apart_unique (thing_set a) (thing_set b)); [exact H|apply apart_meet, M].
Qed.
(** ** Any arithmetic *)
(** the result is never below zero if that of hypot never is *)
Theorem C60_never_negative {N0 : num} : (forall x y : T N0, nlt N0 (nhypot N0 x y) n0 = false) -> nlt N0 n0 n0 = false -> nlt N0 (nNaN N0) n0 = false ->
  forall (a b : object N0) d, distance a b = Some d -> nlt N0 d n0 = false.
Proof.
  intros H Z NN. set (good := fun d : T N0 => nlt N0 d n0 = false).
  assert (LE : forall l d, good d -> (forall x, In x l -> good x) -> good (least d l)).
  { induction l as [|x l IH]; intros d D L; [exact D|]. apply IH; [|intros y Y; apply L; right; exact Y]. unfold nmin. destruct (nlt N0 x d); [apply L; left; reflexivity|exact D]. }
  assert (LO : forall f l, (forall e, good (f e)) -> good (least_of f l)).
  { intros f [|e l] F; [exact NN|]. apply LE; [apply F|]. intros x X. apply in_map_iff in X. destruct X as (e' & <- & _). apply F. }
  assert (PP : forall a b, good (dist_points a b)) by (intros a b; apply H).
  assert (PS : forall p s, good (dist_point_segment p s)).
  { intros p s. unfold dist_point_segment. destruct (veq _ _); [apply PP|]. destruct (seg_project s p); [destruct (nle N0 n1 t); [apply PP|]; destruct (nle N0 t n0); apply PP|]. unfold nmin. destruct (nlt N0 (dist_points (s_end s) p) (dist_points (s_start s) p)); apply PP. }
  assert (SS : forall a b, good (dist_segments a b)).
  { intros a b. unfold dist_segments. destruct (veq _ _); [apply PS|]. destruct (veq _ _); [apply PS|]. destruct (int_segments a b); [exact Z|]. apply LE; [apply PS|]. intros x [<- |[<- |[<- |[]]]]; apply PS. }
  assert (PT : forall p t, good (dist_point_triangle p t)) by (intros p t; unfold dist_point_triangle; destruct (tri_one_point t); [apply PP|]; destruct (tri_contains t p); [exact Z|apply LO, PS]).
  assert (PR : forall p t, good (dist_point_rect p t)) by (intros p t; unfold dist_point_rect; destruct (rect_point_like t); [apply PP|]; destruct (rect_contains t p); [exact Z|apply LO, PS]).
  assert (PQ : forall p t, good (dist_point_quad p t)) by (intros p t; unfold dist_point_quad; destruct (quad_point_like t); [apply PP|]; destruct (quad_contains t p); [exact Z|apply LO, PS]).
  assert (ST : forall s t, good (dist_segment_triangle s t)) by (intros s t; unfold dist_segment_triangle; destruct (veq _ _); [apply PT|]; destruct (tri_one_point t); [apply PS|]; destruct (int_segment_triangle s t); [exact Z|apply LO, SS]).
  assert (SR : forall s t, good (dist_segment_rect s t)) by (intros s t; unfold dist_segment_rect; destruct (veq _ _); [apply PR|]; destruct (rect_point_like t); [apply PS|]; destruct (int_segment_rect s t); [exact Z|apply LO, SS]).
  assert (SQ : forall s t, good (dist_segment_quad s t)) by (intros s t; unfold dist_segment_quad; destruct (veq _ _); [apply PQ|]; destruct (quad_point_like t); [apply PS|]; destruct (int_segment_quad s t); [exact Z|apply LO, SS]).
  intros a b d E. change (good d). destruct a, b; cbn [distance] in E; try discriminate; injection E as <-; try (apply PP || apply PS || apply PT || apply PR || apply PQ || apply SS || apply ST || apply SR || apply SQ).
  - unfold dist_triangles. destruct (tri_one_point t); [apply PT|]. destruct (tri_one_point t0); [apply PT|]. destruct (int_triangles t t0); [exact Z|apply LO; intros e; apply ST].
  - unfold dist_triangle_rect. destruct (tri_one_point t); [apply PR|]. destruct (rect_point_like r); [apply PT|]. destruct (int_triangle_rect t r); [exact Z|apply LO; intros e; apply SR].
  - unfold dist_triangle_quad. destruct (tri_one_point t); [apply PQ|]. destruct (quad_point_like q); [apply PT|]. destruct (int_triangle_quad t q); [exact Z|apply LO; intros e; apply SQ].
  - unfold dist_triangle_rect. destruct (tri_one_point t); [apply PR|]. destruct (rect_point_like r); [apply PT|]. destruct (int_triangle_rect t r); [exact Z|apply LO; intros e; apply SR].
  - unfold dist_rects. destruct (rect_point_like r); [apply PR|]. destruct (rect_point_like r0); [apply PR|]. destruct (int_rects r r0); [exact Z|apply LO; intros e; apply SR].
  - unfold dist_rect_quad. destruct (rect_point_like r); [apply PQ|]. destruct (quad_point_like q); [apply PR|]. destruct (int_rect_quad r q); [exact Z|apply LO; intros e; apply SQ].
  - unfold dist_triangle_quad. destruct (tri_one_point t); [apply PQ|]. destruct (quad_point_like q); [apply PT|]. destruct (int_triangle_quad t q); [exact Z|apply LO; intros e; apply SQ].
  - unfold dist_rect_quad. destruct (rect_point_like r); [apply PQ|]. destruct (quad_point_like q); [apply PR|]. destruct (int_rect_quad r q); [exact Z|apply LO; intros e; apply SQ].
  - unfold dist_quads. destruct (quad_point_like q); [apply PQ|]. destruct (quad_point_like q0); [apply PQ|]. destruct (int_quads q q0); [exact Z|apply LO; intros e; apply SQ].
Qed.

(** in particular with 32-bit floats *)
Corollary C60_float (E : elem) : (forall x y, flt (e_hypot E x y) (fZ 0) = false) -> forall (a b : object (fnum E)) d, distance a b = Some d -> flt d (fZ 0) = false.
Proof. intros H. apply (@C60_never_negative (fnum E)); [exact H|reflexivity|reflexivity]. Qed.
(** objects of different kinds may be exchanged in any arithmetic *)
Definition kind {N0 : num} (o : object N0) : nat := match o with OPoint _ => 0 | OSegment _ => 1 | OTriangle _ => 2 | ORect _ => 3 | OQuad _ => 4 | OEnvelope _ => 5 end.
Theorem C60_kinds {N0 : num} (a b : object N0) : kind a <> kind b -> distance a b = distance b a.
Proof. destruct a, b; cbn; intros H; try reflexivity; destruct (H eq_refl). Qed.
(** With 32-bit floats, and objects of one kind, Distance(a, b) is not always Distance(b, a), though it is documented to be: the segments
    (1,2) (2,2) and (5,2) (2 + 2^-22, 2) are 2^-22 apart, or 0, depending on their order.  The same holds for Intersects. *)
Definition fp (x y : f32) {E : elem} : vec (fnum E) := V (x : T (fnum E)) (y : T (fnum E)).
Theorem C60_symmetric_refuted (E : elem) : (forall x, e_hypot E x (fZ 0) = fabs x) -> exists a b : segment (fnum E),
  distance (OSegment a) (OSegment b) = Some (fZ 0 : T (fnum E)) /\ (exists d : f32, distance (OSegment b) (OSegment a) = Some (d : T (fnum E)) /\ feq d (fdy 1 (-22)) = true) /\
  intersects (OSegment a) (OSegment b) = true /\ intersects (OSegment b) (OSegment a) = false.
Proof.
  intros H. exists (Seg (fp (fZ 1) (fZ 2)) (fp (fZ 2) (fZ 2))), (Seg (fp (fZ 5) (fZ 2)) (fp (fdy 8388609 (-22)) (fZ 2))).
  assert (HY : forall (x y : f32), fsub (fZ 2) (fZ 2) = fZ 0) by reflexivity.
  assert (I1 : intersects (N := fnum E) (OSegment (Seg (fp (fZ 1) (fZ 2)) (fp (fZ 2) (fZ 2)))) (OSegment (Seg (fp (fZ 5) (fZ 2)) (fp (fdy 8388609 (-22)) (fZ 2)))) = true).
  { cbn [intersects]. unfold int_segments, seg_length, seg_vector, magnitude. cbn [s_start s_end fp vsub vx vy nsub fnum nhypot]. rewrite (HY (fZ 0) (fZ 0)), H. vm_compute. reflexivity. }
  assert (I2 : intersects (N := fnum E) (OSegment (Seg (fp (fZ 5) (fZ 2)) (fp (fdy 8388609 (-22)) (fZ 2)))) (OSegment (Seg (fp (fZ 1) (fZ 2)) (fp (fZ 2) (fZ 2)))) = false).
  { cbn [intersects]. unfold int_segments, seg_length, seg_vector, magnitude. cbn [s_start s_end fp vsub vx vy nsub fnum nhypot]. rewrite (HY (fZ 0) (fZ 0)), H. vm_compute. reflexivity. }
  split; [|split; [|split; [exact I1|exact I2]]].
  - cbn [distance]. cbn [intersects] in I1. unfold dist_segments. rewrite I1. vm_compute. reflexivity.
  - cbn [distance]. cbn [intersects] in I2. unfold dist_segments. rewrite I2.
    assert (G : forall x a b : f32, let s : segment (fnum E) := Seg (fp a (fZ 2)) (fp b (fZ 2)) in
      negb (veq (s_start s) (s_end s)) && match seg_project s (fp x (fZ 2)) with Some k => nle (fnum E) n1 k | None => false end = true -> dist_point_segment (N := fnum E) (fp x (fZ 2)) s = fabs (fsub x b)).
    { intros x a b s C. apply andb_true_iff in C as (C1 & C2). unfold dist_point_segment. destruct (veq (s_start s) (s_end s)); [discriminate|]. destruct (seg_project s (fp x (fZ 2))) as [k|]; [|discriminate]. rewrite C2.
      unfold dist_points, magnitude, s. cbn [s_start s_end fp vsub vx vy nsub fnum nhypot]. rewrite (HY (fZ 0) (fZ 0)). apply H. }
    assert (D1 : dist_point_segment (N := fnum E) (fp (fZ 5) (fZ 2)) (Seg (fp (fZ 1) (fZ 2)) (fp (fZ 2) (fZ 2))) = fabs (fsub (fZ 5) (fZ 2))) by (apply (G (fZ 5) (fZ 1) (fZ 2)); vm_compute; reflexivity).
    assert (D2 : dist_point_segment (N := fnum E) (fp (fdy 8388609 (-22)) (fZ 2)) (Seg (fp (fZ 1) (fZ 2)) (fp (fZ 2) (fZ 2))) = fabs (fsub (fdy 8388609 (-22)) (fZ 2))) by (apply (G (fdy 8388609 (-22)) (fZ 1) (fZ 2)); vm_compute; reflexivity).
    assert (D3 : dist_point_segment (N := fnum E) (fp (fZ 1) (fZ 2)) (Seg (fp (fZ 5) (fZ 2)) (fp (fdy 8388609 (-22)) (fZ 2))) = fabs (fsub (fZ 1) (fdy 8388609 (-22)))) by (apply (G (fZ 1) (fZ 5) (fdy 8388609 (-22))); vm_compute; reflexivity).
    assert (D4 : dist_point_segment (N := fnum E) (fp (fZ 2) (fZ 2)) (Seg (fp (fZ 5) (fZ 2)) (fp (fdy 8388609 (-22)) (fZ 2))) = fabs (fsub (fZ 2) (fdy 8388609 (-22)))) by (apply (G (fZ 2) (fZ 5) (fdy 8388609 (-22))); vm_compute; reflexivity).
    cbn [s_start s_end]. rewrite D1, D2, D3, D4. clear.
    eexists. split; [reflexivity|]. vm_compute. reflexivity.
Qed.
(** ** Examples *)
(** the rect [0,1]x[0,1] and the point (4,5), the quad of the same extent and the triangle (4,5) (9,5) (4,9): the nearest points are (1,1) and (4,5) *)
Example C60_example : distance (thing_object (TRect 0 0 1 1)) (thing_object (TPoint (P 4 5))) = Some (Fin 5 : T N) /\
  distance (thing_object (TTriangle (P 4 5) (P 9 5) (P 4 9))) (thing_object (TRect 0 0 1 1)) = Some (Fin 5 : T N) /\
  distance (thing_object (TSegment (P 0 0) (P 2 2))) (thing_object (TRect 0 0 1 1)) = Some (Fin 0 : T N).
Proof.
  split; [|split].
  - destruct (C60_distance (TRect 0 0 1 1) (TPoint (P 4 5))) as (d & -> & H); [cbn; lra|exact Logic.I|]. do 2 f_equal. apply (apart_unique (box_set 0 0 1 1) (point_set (P 4 5))); [exact H|]. split; [lra|]. split.
    + exists (P 1 1), (P 4 5). unfold box_set, point_set, dist2. cbn. repeat split; lra.
    + intros p q (X & Y) ->. unfold dist2. cbn. nra.
  - destruct (C60_distance (TTriangle (P 4 5) (P 9 5) (P 4 9)) (TRect 0 0 1 1)) as (d & -> & H); [exact Logic.I|cbn; lra|]. do 2 f_equal. apply (apart_unique (tri_set (P 4 5) (P 9 5) (P 4 9)) (box_set 0 0 1 1)); [exact H|]. split; [lra|]. split.
    + exists (P 4 5), (P 1 1). split; [apply tri_0|]. unfold box_set, dist2. cbn. repeat split; lra.
    + intros p q (u & v & w & U & Vv & W & S & ->) (X & Y). unfold dist2. cbn [px py] in *. replace u with (1 - v - w) by lra. assert (3 <= (1 - v - w) * 4 + v * 9 + w * 4 - px q) by lra. assert (4 <= (1 - v - w) * 5 + v * 5 + w * 9 - py q) by lra. nra.
  - apply C60_zero; [exact Logic.I|cbn; lra|]. apply intersects_x; [exact Logic.I|cbn; lra|]. exists (P 0 0). split; [apply seg_start|unfold thing_set, box_set; cbn; lra].
Qed.
Print Assumptions C60_distance.
Print Assumptions C60_symmetric.
Print Assumptions C60_zero.
Print Assumptions C60_never_negative.
Print Assumptions C60_float.
Print Assumptions C60_kinds.
Print Assumptions C60_symmetric_refuted.
