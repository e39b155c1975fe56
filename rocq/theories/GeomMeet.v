(** Intersection of all pairs of segments, triangles, rectangles and quads, in exact arithmetic. *)
From Coq Require Import ZArith Reals Lra Psatz Bool List.
From Flocq Require Import Core.
From Verif Require Import NumModel EasingExact GeomModel GeomSpec GeomReal GeomExact.
Import ListNotations.
Local Open Scope R_scope.

(** ** Rectangles *)
Theorem box_contains x0 y0 x1 y1 p : rect_contains (bx x0 y0 x1 y1) (pv p) = true <-> box_set x0 y0 x1 y1 p.
Proof. unfold rect_contains, box_set. cbn [bx x_min y_min x_max y_max pv vx vy]. rewrite !andb_true_iff, !le_x. tauto. Qed.
Lemma center_x x0 y0 x1 y1 : rect_center (bx x0 y0 x1 y1) = pv (P ((x0 + x1) / 2) ((y0 + y1) / 2)).
Proof. unfold rect_center. rewrite half_x. cbn [bx x_min y_min x_max y_max nmul nadd N xmul xadd nnan]. unfold pv. cbn [px py]. f_equal; f_equal; lra. Qed.
Lemma box_center x0 y0 x1 y1 : x0 <= x1 -> y0 <= y1 -> box_set x0 y0 x1 y1 (P ((x0 + x1) / 2) ((y0 + y1) / 2)).
Proof. intros. unfold box_set. cbn. lra. Qed.
Lemma box_point_like x0 y0 x1 y1 : rect_point_like (bx x0 y0 x1 y1) = true <-> x0 = x1 /\ y0 = y1.
Proof. unfold rect_point_like, rect_width, rect_height. rewrite EasingExact.x0. cbn [bx x_min y_min x_max y_max nsub N xsub xadd xopp]. rewrite andb_true_iff. rewrite !eq_x. split; intros []; split; lra. Qed.
Lemma box_point x y p : box_set x y x y p <-> p = P x y.
Proof. unfold box_set. split; [intros [A B]; apply pt_eq; cbn; lra|intros ->; cbn; lra]. Qed.

(** ** Quads *)
Lemma unit_axes_x c w h r s : quad_unit_axes (qd c w h r s) = (pv (P (cos r) (sin r)), pv (P (s * cos r - sin r) (s * sin r + cos r))).
Proof. reflexivity. Qed.
Lemma semi_axes_x c w h r s : quad_semi_axes (qd c w h r s) = (pv (quad_u w r), pv (quad_v h r s)).
Proof. unfold quad_semi_axes. rewrite half_x. reflexivity. Qed.
Lemma unit1 r : cos r * cos r + sin r * sin r = 1.
Proof. pose proof (sin2_cos2 r) as H. unfold Rsqr in H. lra. Qed.
Lemma unit_pos r a : a * a * (cos r * cos r + sin r * sin r) = a * a. Proof. rewrite unit1. ring. Qed.
(** coordinates along the two unit axes *)
Lemma axes_coords r s x y : exists A B, x = A * cos r + B * (s * cos r - sin r) /\ y = A * sin r + B * (s * sin r + cos r) /\ B = cos r * y - sin r * x /\ A = cos r * x + sin r * y - s * (cos r * y - sin r * x).
Proof.
  pose proof (unit1 r) as U. exists (cos r * x + sin r * y - s * (cos r * y - sin r * x)), (cos r * y - sin r * x). split; [|split; [|auto]].
  - replace ((cos r * x + sin r * y - s * (cos r * y - sin r * x)) * cos r + (cos r * y - sin r * x) * (s * cos r - sin r)) with (x * (cos r * cos r + sin r * sin r)) by ring. rewrite U. ring.
  - replace ((cos r * x + sin r * y - s * (cos r * y - sin r * x)) * sin r + (cos r * y - sin r * x) * (s * sin r + cos r)) with (y * (cos r * cos r + sin r * sin r)) by ring. rewrite U. ring.
Qed.
Lemma axes_inv r s A B : let x := A * cos r + B * (s * cos r - sin r) in let y := A * sin r + B * (s * sin r + cos r) in
  cos r * y - sin r * x = B /\ cos r * x + sin r * y - s * (cos r * y - sin r * x) = A.
Proof.
  pose proof (unit1 r) as U. cbn zeta. split.
  - replace (cos r * (A * sin r + B * (s * sin r + cos r)) - sin r * (A * cos r + B * (s * cos r - sin r))) with (B * (cos r * cos r + sin r * sin r)) by ring. rewrite U. ring.
  - replace (cos r * (A * cos r + B * (s * cos r - sin r)) + sin r * (A * sin r + B * (s * sin r + cos r)) - s * (cos r * (A * sin r + B * (s * sin r + cos r)) - sin r * (A * cos r + B * (s * cos r - sin r)))) with (A * (cos r * cos r + sin r * sin r)) by ring. rewrite U. ring.
Qed.
Lemma scaled a k : 0 <= a -> (Rabs k <= a <-> exists t, -1 <= t <= 1 /\ k = t * a).
Proof.
  intros Ha. split.
  - intros H. destruct (Req_dec a 0) as [->|N]; [exists 0; assert (k = 0) by (unfold Rabs in H; destruct (Rcase_abs k); lra); lra|].
    exists (k / a). assert (G : k / a * a = k) by (field; exact N). unfold Rabs in H. destruct (Rcase_abs k); split; nra.
  - intros (t & Ht & ->). unfold Rabs. destruct (Rcase_abs (t * a)); nra.
Qed.
Lemma quad_coords c w h r s p : 0 <= w -> (quad_set c w h r s p <->
  exists A B, Rabs A <= / 2 * w /\ Rabs B <= / 2 * Rabs h /\ px p - px c = A * cos r + B * (s * cos r - sin r) /\ py p - py c = A * sin r + B * (s * sin r + cos r)).
Proof.
  intros Hw. unfold quad_set, par_set, quad_u, quad_v. cbn [px py]. split.
  - intros (a & b & Ha & Hb & ->). exists (a * (/ 2 * w)), (b * (/ 2 * h)). cbn [px py]. split; [apply scaled; [lra|eauto]|]. split; [|split; ring].
    rewrite !Rabs_mult, (Rabs_pos_eq (/ 2)) by lra. assert (Rabs b <= 1) by (unfold Rabs; destruct (Rcase_abs b); lra). assert (0 <= Rabs h) by apply Rabs_pos. nra.
  - intros (A & B & HA & HB & E1 & E2). apply scaled in HA; [|lra]. destruct HA as (a & Ha & ->). apply scaled in HB; [|pose proof (Rabs_pos h); lra]. destruct HB as (b & Hb & ->).
    destruct (Rle_dec 0 h) as [Hh|Hh]; [exists a, b|exists a, (- b)]; (split; [lra|]; split; [lra|]); apply pt_eq; cbn [px py]; [rewrite Rabs_pos_eq in * by lra; lra|rewrite Rabs_pos_eq in * by lra; lra|rewrite Rabs_left in * by lra; lra|rewrite Rabs_left in * by lra; lra].
Qed.
Theorem quad_contains_x c w h r s p : 0 <= w -> (quad_contains (qd c w h r s) (pv p) = true <-> quad_set c w h r s p).
Proof.
  intros Hw. rewrite (quad_coords c w h r s p Hw). unfold quad_contains. rewrite unit_axes_x. cbn [qd q_center q_height q_shear q_width]. rewrite sub_x, det_x, dot_x, half_x. cbn [nabs N nmul xmul nsub xsub xopp xadd].
  destruct (axes_coords r s (px p - px c) (py p - py c)) as (A & B & Ex & Ey & EB & EA).
  assert (D1 : det2 (P (cos r) (sin r)) (sub p c) = B) by (unfold det2, sub; cbn; lra). rewrite D1.
  assert (D2 : dot2 (P (cos r) (sin r)) (sub p c) + - (s * B) = A) by (unfold dot2, sub; cbn; rewrite EA, <- EB; ring). rewrite D2.
  destruct (nlt N (Fin (/ 2 * Rabs h)) (Fin (Rabs B))) eqn:L.
  - apply lt_x in L. split; [discriminate|]. intros (A' & B' & _ & HB & E1 & E2). destruct (axes_inv r s A' B') as [I1 I2]. cbn zeta in I1. rewrite <- E1, <- E2 in I1. rewrite <- EB in I1. subst B'. lra.
  - apply lt_xf in L. rewrite le_x. split.
    + intros H. exists A, B. auto.
    + intros (A' & B' & HA & HB & E1 & E2). destruct (axes_inv r s A' B') as [I1 I2]. cbn zeta in I1, I2. rewrite <- E1, <- E2 in I1, I2. rewrite <- EA in I2. subst A'. exact HA.
Qed.
Lemma quad_det w h r s : det2 (quad_u w r) (quad_v h r s) = / 4 * w * h.
Proof. unfold det2, quad_u, quad_v. cbn. replace (_ - _) with (/ 4 * w * h * (cos r * cos r + sin r * sin r)) by field. rewrite unit1. ring. Qed.
Lemma quad_solid c w h r s : solid (quad_set c w h r s) (par_rim c (quad_u w r) (quad_v h r s)).
Proof.
  apply par_solid. destruct (Req_dec w 0) as [->|Nw]; [right; left; apply pt_eq; cbn; ring|]. destruct (Req_dec h 0) as [->|Nh]; [right; right; apply pt_eq; cbn; ring|].
  left. rewrite quad_det. assert (w * h <> 0) by (apply Rmult_integral_contrapositive; auto). lra.
Qed.
Lemma quad_point_like_x c w h r s : quad_point_like (qd c w h r s) = true <-> w = 0 /\ h = 0.
Proof. unfold quad_point_like. rewrite x0. cbn [qd q_width q_height]. rewrite andb_true_iff, !eq_x. reflexivity. Qed.
Lemma quad_center c w h r s : quad_set c w h r s c.
Proof. exists 0, 0. split; [lra|]. split; [lra|]. apply pt_eq; cbn; ring. Qed.
Lemma quad_point c r s p : quad_set c 0 0 r s p <-> p = c.
Proof. split; [intros (a & b & _ & _ & ->); apply pt_eq; cbn; ring|intros ->; apply quad_center]. Qed.

(** ** Edges *)
Definition sgs (es : list edge) : list (segment N) := map (fun e => sg (fst e) (snd e)) es.
Lemma tri_edges_x a b c : tri_edges (tr a b c) = sgs (tri_rim a b c). Proof. reflexivity. Qed.
Lemma box_edges_x x0 y0 x1 y1 : rect_edges (bx x0 y0 x1 y1) = sgs (box_rim x0 y0 x1 y1). Proof. reflexivity. Qed.
Lemma quad_corners_x c w h r s : quad_corners (qd c w h r s) =
  map pv [corner c (quad_u w r) (quad_v h r s) (-1) (-1); corner c (quad_u w r) (quad_v h r s) 1 (-1); corner c (quad_u w r) (quad_v h r s) 1 1; corner c (quad_u w r) (quad_v h r s) (-1) 1].
Proof.
  unfold quad_corners. rewrite semi_axes_x. cbn [qd q_center]. rewrite ?padd_x, ?sub_x, ?padd_x, ?sub_x. cbn [map].
  set (u := quad_u w r). set (v := quad_v h r s). unfold corner. f_equal; [|f_equal; [|f_equal; [|f_equal]]]; apply f_equal; apply pt_eq; unfold sub; cbn [px py]; ring.
Qed.
Lemma quad_edges_x c w h r s : quad_edges (qd c w h r s) = sgs (par_rim c (quad_u w r) (quad_v h r s)).
Proof. unfold quad_edges. rewrite quad_corners_x. reflexivity. Qed.
Lemma edges_cross_x ea eb : edges_cross (sgs ea) (sgs eb) = true <-> cross ea eb.
Proof.
  unfold edges_cross, sgs, cross. rewrite existsb_exists. split.
  - intros (x & Hx & H). apply in_map_iff in Hx. destruct Hx as (e & <- & He). apply existsb_exists in H. destruct H as (y & Hy & H). apply in_map_iff in Hy. destruct Hy as (f & <- & Hf). apply segments in H. exists e, f. auto.
  - intros (e & f & He & Hf & H). exists (sg (fst e) (snd e)). split; [apply in_map_iff; eauto|]. apply existsb_exists. exists (sg (fst f) (snd f)). split; [apply in_map_iff; eauto|]. apply segments. exact H.
Qed.
Lemma tri_point_like_x a b c : tri_point_like (tr a b c) = true <-> a = b /\ a = c.
Proof. unfold tri_point_like. cbn [tr p0 p1 p2]. rewrite andb_true_iff, !veq_x. reflexivity. Qed.
Lemma tri_point a p : tri_set a a a p <-> p = a.
Proof. split; [|intros ->; apply tri_0]. intros (u & v & w & U1 & V1 & W1 & S1 & ->). assert (u = 1 - v - w) as -> by lra. apply pt_eq; cbn; ring. Qed.

(** ** Pairs *)
Lemma meet_ext (S S' U : shape) : (forall p, S p <-> S' p) -> (meet S U <-> meet S' U).
Proof. intros H. split; intros (p & A & B); exists p; (split; [apply H, A|exact B]). Qed.
Lemma meet_single (S U : shape) a : (forall p, S p <-> p = a) -> (meet S U <-> U a).
Proof. intros H. split; [intros (p & A & B); apply H in A; subst; exact B|intros B; exists a; split; [apply H; reflexivity|exact B]]. Qed.
Theorem segment_triangle a b c d e : int_segment_triangle (sg a b) (tr c d e) = true <-> meet (seg_set a b) (tri_set c d e).
Proof.
  unfold int_segment_triangle. cbn [sg s_start s_end]. destruct (veq (pv a) (pv b)) eqn:E1; [|destruct (tri_point_like (tr c d e)) eqn:E2].
  - apply veq_x in E1. subst b. rewrite triangle_contains. symmetry. apply meet_single, seg_point.
  - apply tri_point_like_x in E2. destruct E2; subst. cbn [tr p0]. change (Seg (pv a) (pv b)) with (sg a b). rewrite point_segment, meet_sym. symmetry. apply meet_single, tri_point.
  - rewrite orb_true_iff, triangle_contains, tri_edges_x. change [sg a b] with (sgs [(a, b)]). rewrite edges_cross_x. symmetry. apply seg_meets, tri_solid.
Qed.
Theorem segment_box a b x0 y0 x1 y1 : x0 <= x1 -> y0 <= y1 -> (int_segment_rect (sg a b) (bx x0 y0 x1 y1) = true <-> meet (seg_set a b) (box_set x0 y0 x1 y1)).
Proof.
  intros Hx Hy. unfold int_segment_rect. cbn [sg s_start s_end]. destruct (veq (pv a) (pv b)) eqn:E1; [|destruct (rect_point_like (bx x0 y0 x1 y1)) eqn:E2].
  - apply veq_x in E1. subst b. rewrite box_contains. symmetry. apply meet_single, seg_point.
  - apply box_point_like in E2. destruct E2; subst. rewrite center_x. replace ((x1 + x1) / 2) with x1 by lra. replace ((y1 + y1) / 2) with y1 by lra. change (Seg (pv a) (pv b)) with (sg a b). rewrite point_segment, meet_sym. symmetry. apply meet_single, box_point.
  - rewrite orb_true_iff, box_contains, box_edges_x. change [sg a b] with (sgs [(a, b)]). rewrite edges_cross_x. symmetry. apply seg_meets, box_solid; assumption.
Qed.
Theorem segment_quad a b c w h r s : 0 <= w -> (int_segment_quad (sg a b) (qd c w h r s) = true <-> meet (seg_set a b) (quad_set c w h r s)).
Proof.
  intros Hw. unfold int_segment_quad. cbn [sg s_start s_end]. destruct (veq (pv a) (pv b)) eqn:E1; [|destruct (quad_point_like (qd c w h r s)) eqn:E2].
  - apply veq_x in E1. subst b. rewrite quad_contains_x by exact Hw. symmetry. apply meet_single, seg_point.
  - apply quad_point_like_x in E2. destruct E2; subst. cbn [qd q_center]. change (Seg (pv a) (pv b)) with (sg a b). rewrite point_segment, meet_sym. symmetry. apply meet_single, quad_point.
  - rewrite orb_true_iff, quad_contains_x, quad_edges_x by exact Hw. change [sg a b] with (sgs [(a, b)]). rewrite edges_cross_x. symmetry. apply seg_meets, quad_solid.
Qed.
Theorem triangles a b c d e f : int_triangles (tr a b c) (tr d e f) = true <-> meet (tri_set a b c) (tri_set d e f).
Proof.
  unfold int_triangles. destruct (tri_point_like (tr a b c)) eqn:E1; [|destruct (tri_point_like (tr d e f)) eqn:E2].
  - apply tri_point_like_x in E1. destruct E1; subst. cbn [tr p0]. rewrite triangle_contains. symmetry. apply meet_single, tri_point.
  - apply tri_point_like_x in E2. destruct E2; subst. cbn [tr p0]. rewrite triangle_contains, meet_sym. symmetry. apply meet_single, tri_point.
  - rewrite !orb_true_iff, !tri_edges_x, edges_cross_x. cbn [p0 tr]. rewrite !triangle_contains, or_assoc. symmetry. apply solids_meet; auto using tri_solid, tri_0.
Qed.
Theorem triangle_box a b c x0 y0 x1 y1 : x0 <= x1 -> y0 <= y1 -> (int_triangle_rect (tr a b c) (bx x0 y0 x1 y1) = true <-> meet (tri_set a b c) (box_set x0 y0 x1 y1)).
Proof.
  intros Hx Hy. unfold int_triangle_rect. destruct (tri_point_like (tr a b c)) eqn:E1; [|destruct (rect_point_like (bx x0 y0 x1 y1)) eqn:E2].
  - apply tri_point_like_x in E1. destruct E1; subst. cbn [tr p0]. rewrite box_contains. symmetry. apply meet_single, tri_point.
  - apply box_point_like in E2. destruct E2; subst. rewrite center_x. replace ((x1 + x1) / 2) with x1 by lra. replace ((y1 + y1) / 2) with y1 by lra. rewrite triangle_contains, meet_sym. symmetry. apply meet_single, box_point.
  - rewrite !orb_true_iff, tri_edges_x, box_edges_x, edges_cross_x, center_x. cbn [p0 tr]. rewrite triangle_contains, box_contains, or_assoc. symmetry. apply solids_meet; auto using tri_solid, tri_0, box_solid, box_center.
Qed.
Theorem triangle_quad a b c m w h r s : 0 <= w -> (int_triangle_quad (tr a b c) (qd m w h r s) = true <-> meet (tri_set a b c) (quad_set m w h r s)).
Proof.
  intros Hw. unfold int_triangle_quad. destruct (tri_point_like (tr a b c)) eqn:E1; [|destruct (quad_point_like (qd m w h r s)) eqn:E2].
  - apply tri_point_like_x in E1. destruct E1; subst. cbn [tr p0]. rewrite quad_contains_x by exact Hw. symmetry. apply meet_single, tri_point.
  - apply quad_point_like_x in E2. destruct E2; subst. cbn [qd q_center]. rewrite triangle_contains, meet_sym. symmetry. apply meet_single, quad_point.
  - rewrite !orb_true_iff, tri_edges_x, quad_edges_x, edges_cross_x. cbn [p0 tr]. rewrite quad_contains_x by exact Hw. cbn [qd q_center]. rewrite triangle_contains, or_assoc. symmetry. apply solids_meet; auto using tri_solid, tri_0, quad_solid, quad_center.
Qed.
Theorem boxes x0 y0 x1 y1 x2 y2 x3 y3 : x0 <= x1 -> y0 <= y1 -> x2 <= x3 -> y2 <= y3 ->
  (int_rects (bx x0 y0 x1 y1) (bx x2 y2 x3 y3) = true <-> meet (box_set x0 y0 x1 y1) (box_set x2 y2 x3 y3)).
Proof.
  intros Hx Hy Hx' Hy'. unfold int_rects. cbn [bx x_min y_min x_max y_max].
  destruct (nlt N (Fin x3) (Fin x0) || nlt N (Fin x1) (Fin x2)) eqn:E1; [|destruct (nlt N (Fin y3) (Fin y0) || nlt N (Fin y1) (Fin y2)) eqn:E2].
  - apply orb_true_iff in E1. rewrite !lt_x in E1. split; [discriminate|]. intros (p & [A B] & [C D]). lra.
  - apply orb_true_iff in E2. rewrite !lt_x in E2. split; [discriminate|]. intros (p & [A B] & [C D]). lra.
  - apply orb_false_iff in E1, E2. rewrite !lt_xf in E1, E2. split; [intros _|reflexivity]. exists (P (Rmax x0 x2) (Rmax y0 y2)). unfold box_set. cbn. unfold Rmax. destruct (Rle_dec x0 x2), (Rle_dec y0 y2); lra.
Qed.
Theorem box_quad x0 y0 x1 y1 m w h r s : x0 <= x1 -> y0 <= y1 -> 0 <= w -> (int_rect_quad (bx x0 y0 x1 y1) (qd m w h r s) = true <-> meet (box_set x0 y0 x1 y1) (quad_set m w h r s)).
Proof.
  intros Hx Hy Hw. unfold int_rect_quad. destruct (rect_point_like (bx x0 y0 x1 y1)) eqn:E1; [|destruct (quad_point_like (qd m w h r s)) eqn:E2].
  - apply box_point_like in E1. destruct E1; subst. rewrite center_x. replace ((x1 + x1) / 2) with x1 by lra. replace ((y1 + y1) / 2) with y1 by lra. rewrite quad_contains_x by exact Hw. symmetry. apply meet_single, box_point.
  - apply quad_point_like_x in E2. destruct E2; subst. cbn [qd q_center]. rewrite box_contains, meet_sym. symmetry. apply meet_single, quad_point.
  - rewrite !orb_true_iff, box_edges_x, quad_edges_x, edges_cross_x, center_x. rewrite quad_contains_x by exact Hw. cbn [qd q_center]. rewrite box_contains, or_assoc. symmetry. apply solids_meet; auto using box_solid, box_center, quad_solid, quad_center.
Qed.
Theorem quads m w h r s m' w' h' r' s' : 0 <= w -> 0 <= w' -> (int_quads (qd m w h r s) (qd m' w' h' r' s') = true <-> meet (quad_set m w h r s) (quad_set m' w' h' r' s')).
Proof.
  intros Hw Hw'. unfold int_quads. destruct (quad_point_like (qd m w h r s)) eqn:E1; [|destruct (quad_point_like (qd m' w' h' r' s')) eqn:E2].
  - apply quad_point_like_x in E1. destruct E1; subst. cbn [qd q_center]. rewrite quad_contains_x by exact Hw'. symmetry. apply meet_single, quad_point.
  - apply quad_point_like_x in E2. destruct E2; subst. cbn [qd q_center]. rewrite quad_contains_x by exact Hw. rewrite meet_sym. symmetry. apply meet_single, quad_point.
  - rewrite !orb_true_iff, !quad_edges_x, edges_cross_x. cbn [qd q_center]. rewrite !quad_contains_x by assumption. rewrite or_assoc. symmetry. apply solids_meet; auto using quad_solid, quad_center.
Qed.
