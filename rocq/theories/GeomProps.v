(** Plane geometry: C40 (Envelope), C43 (Rect), C44 (Triangle::Contains), C45 (Intersects), C47 (Quad) and C50
    (Segment).  [fnum E]: the float code, for any math library [E].  [xnum]: the same code in exact arithmetic. *)
From Coq Require Import ZArith Reals Lra Psatz Bool List Permutation.
From Flocq Require Import Core BinarySingleNaN.
From Verif Require Import F32 F32Lemmas NumModel EasingExact GeomModel GeomSpec GeomReal GeomExact GeomMeet GeomOps GeomBox GeomLerp AffineModel AffineProofs.
Import ListNotations.
Local Open Scope R_scope.

(** ** C40: Envelope *)
Section Floats.
Variable E : elem.
Notation F := (fnum E).
(** [encloses e S]: [e] is the smallest box around the point set [S], empty iff [S] is. *)
Theorem C40_smallest l : Forall (object_ok E) l -> encloses E (env_add_all None l) (objects_set E l).
Proof.
  intros H. pose proof (add_all_encloses E l None (fun _ => False) (fun p K => K) H) as Q. destruct (env_add_all None l) as [r|]; cbn [encloses] in *.
  - destruct Q as [R Q]. split; [exact R|]. eapply hugs_ext; [|exact Q]. intros p. cbn. tauto.
  - intros p K. apply (Q p). auto.
Qed.
Theorem C40_grows e l : env_ok E e -> Forall (object_ok E) l -> encloses E (env_add_all e l) (fun p => env_set E e p \/ objects_set E l p).
Proof.
  intros He H. apply add_all_encloses; [|exact H]. destruct e as [r|]; cbn [env_ok encloses env_set] in *; [split; [exact He|apply hugs_self]|auto].
Qed.
Theorem C40_order l l' : Forall (object_ok E) l -> Permutation l l' -> same_env E (env_add_all None l) (env_add_all None l').
Proof.
  intros H Pm. pose proof (C40_smallest l H) as A. assert (H' : Forall (object_ok E) l') by (rewrite <- Pm; exact H). pose proof (C40_smallest l' H') as B.
  eapply encloses_unique; [exact A|]. assert (X : forall p, objects_set E l' p <-> objects_set E l p).
  { intros p. split; intros (o & I & K); exists o; (split; [|exact K]); [eapply Permutation_in; [symmetry; exact Pm|exact I]|eapply Permutation_in; [exact Pm|exact I]]. }
  destruct (env_add_all None l') as [r|]; cbn [encloses] in *; [destruct B as [R B]; split; [exact R|eapply hugs_ext; [exact X|exact B]]|intros p K; apply (B p), X, K].
Qed.
(** ** C43: Rect operations that only compare, in floats *)
Theorem C43_contains r p : rect_ok E r -> point_ok E p -> (rect_contains (N := F) r p = true <-> fb E r (fp E p)).
Proof.
  intros ((A1 & A2 & A3 & A4) & _) [B1 B2]. unfold rect_contains, fb, box_set, fp. cbn [px py]. rewrite !andb_true_iff. change (nle F) with fle. rewrite !fle_fin by assumption. tauto.
Qed.
Theorem C43_contains_rect r q : rect_ok E r -> rect_ok E q -> (rect_contains_rect (N := F) r q = true <-> forall p, fb E q p -> fb E r p).
Proof.
  intros Hr Hq. pose proof Hr as ((A1 & A2 & A3 & A4) & _). pose proof Hq as ((B1 & B2 & B3 & B4) & _). unfold rect_contains_rect. rewrite !andb_true_iff. change (nle F) with fle. rewrite !fle_fin by assumption. split.
  - intros (((L1 & L2) & L3) & L4) p. unfold fb, box_set. lra.
  - intros H. pose proof (H _ (fb_low E q Hq)) as L. pose proof (H _ (fb_high E q Hq)) as K. unfold fb, box_set, low, high in L, K. cbn [px py] in *. lra.
Qed.
Theorem C43_join r q : rect_ok E r -> rect_ok E q -> rect_ok E (rect_join r q) /\ hugs E (rect_join r q) (fun p => fb E r p \/ fb E q p).
Proof. intros A B. split; [apply join_ok; assumption|]. apply join_hugs; auto using hugs_self. Qed.
Theorem C43_join_point r p : rect_ok E r -> point_ok E p -> rect_ok E (rect_join_point r p) /\ hugs E (rect_join_point r p) (fun q => fb E r q \/ q = fp E p).
Proof. intros A B. apply add_point_ok; auto using hugs_self. Qed.
Theorem C43_from_two a b : point_ok E a -> point_ok E b -> rect_ok E (rect_from_two a b) /\ hugs E (rect_from_two a b) (fun p => p = fp E a \/ p = fp E b).
Proof. apply two_ok. Qed.
(** setting one side: the side is where it was asked to be; the opposite side gives way only when it must *)
Definition sides (r : rect F) : R * R * R * R := (fR (x_min r : f32), fR (y_min r : f32), fR (x_max r : f32), fR (y_max r : f32)).
Theorem C43_resize r (z : f32) : rect_ok E r -> is_finite z = true ->
  let '(x0, y0, x1, y1) := sides r in
  rect_ok E (rect_resize_x_min (N := F) r z) /\ sides (rect_resize_x_min (N := F) r z) = (fR z, y0, Rmax x1 (fR z), y1) /\
  rect_ok E (rect_resize_y_min (N := F) r z) /\ sides (rect_resize_y_min (N := F) r z) = (x0, fR z, x1, Rmax y1 (fR z)) /\
  rect_ok E (rect_resize_x_max (N := F) r z) /\ sides (rect_resize_x_max (N := F) r z) = (Rmin x0 (fR z), y0, fR z, y1) /\
  rect_ok E (rect_resize_y_max (N := F) r z) /\ sides (rect_resize_y_max (N := F) r z) = (x0, Rmin y0 (fR z), x1, fR z).
Proof.
  intros ((A1 & A2 & A3 & A4) & A5 & A6) Z. destruct (max_fin E _ _ A3 Z) as [P1 P2], (max_fin E _ _ A4 Z) as [P3 P4], (min_fin E _ _ A1 Z) as [P5 P6], (min_fin E _ _ A2 Z) as [P7 P8].
  unfold sides, rect_ok, rect_resize_x_min, rect_resize_y_min, rect_resize_x_max, rect_resize_y_max. cbn [x_min y_min x_max y_max].
  split; [repeat split; try assumption; eapply Rle_trans; [apply Rmax_r|right; symmetry; exact P2]|]. split; [exact (f_equal (fun t => (fR z, fR (y_min r : f32), t, fR (y_max r : f32))) P2)|].
  split; [repeat split; try assumption; eapply Rle_trans; [apply Rmax_r|right; symmetry; exact P4]|]. split; [exact (f_equal (fun t => (fR (x_min r : f32), fR z, fR (x_max r : f32), t)) P4)|].
  split; [repeat split; try assumption; eapply Rle_trans; [right; exact P6|apply Rmin_r]|]. split; [exact (f_equal (fun t => (t, fR (y_min r : f32), fR z, fR (y_max r : f32))) P6)|].
  split; [repeat split; try assumption; eapply Rle_trans; [right; exact P8|apply Rmin_r]|exact (f_equal (fun t => (fR (x_min r : f32), t, fR (x_max r : f32), fR z)) P8)].
Qed.
(** SemiWidth, SemiHeight and Center cannot overflow *)
Theorem C43_semi_finite (r : rect F) : rect_ok E r ->
  is_finite (rect_semi_width (N := F) r : f32) = true /\ is_finite (rect_semi_height (N := F) r : f32) = true /\ point_ok E (rect_center r).
Proof.
  intros ((A1 & A2 & A3 & A4) & _). destruct (semi_finite _ _ A3 A1) as [W1 W2], (semi_finite _ _ A4 A2) as [H1 H2]. destruct (semi_finite _ _ A1 A3) as [_ C1]. destruct (semi_finite _ _ A2 A4) as [_ C2].
  split; [exact W1|]. split; [exact H1|]. unfold point_ok, rect_center. cbn [vx vy].
  change (nadd F (nmul F half (x_min r)) (nmul F half (x_max r))) with (fadd (fmul (fdy 1 (-1)) (x_min r)) (fmul (fdy 1 (-1)) (x_max r))).
  change (nadd F (nmul F half (y_min r)) (nmul F half (y_max r))) with (fadd (fmul (fdy 1 (-1)) (y_min r)) (fmul (fdy 1 (-1)) (y_max r))).
  assert (K : forall x : f32, is_finite x = true -> is_finite ((if nnan F x then n0 (N := F) else x) : f32) = true) by (intros x Fx; destruct (nnan F x); [reflexivity|exact Fx]).
  split; [exact (K _ C1)|exact (K _ C2)].
Qed.
(** ** C50: Lerp in floats is exact at the ends and cannot overflow in between *)
Theorem C50_lerp_finite (s : segment F) (r : f32) : point_ok E (s_start s) -> point_ok E (s_end s) -> is_finite r = true -> 0 <= fR r <= 1 -> point_ok E (seg_lerp s r).
Proof. intros [A1 A2] [B1 B2] R B. split; apply lerp_finite; assumption. Qed.
Theorem C50_lerp_ends (s : segment F) : point_ok E (s_start s) -> point_ok E (s_end s) -> fp E (seg_lerp s n0) = fp E (s_start s) /\ fp E (seg_lerp s n1) = fp E (s_end s).
Proof.
  intros [A1 A2] [B1 B2]. destruct (lerp_ends _ _ A1 B1) as [X0 X1]. destruct (lerp_ends _ _ A2 B2) as [Y0 Y1]. split; apply pt_eq; assumption.
Qed.
Definition fv (x y : f32) : vec F := V (N := F) x y.
Definition seg_big : segment F := Seg (fv (fopp (fdy 1 127)) f0) (fv (fdy 1 127) (fZ 3)).
Example ex_lerp : exists p, seg_lerp seg_big (fdy 1 (-2) : T F) = p /\ feq (vx p) (fopp (fdy 1 126)) = true /\ feq (vy p) (fdy 3 (-2)) = true.
Proof. eexists. split; [reflexivity|]. split; vm_compute; reflexivity. Qed.
Definition ex_objects : list (object F) :=
  [OPoint (fv (fZ 1) (fZ 5)); OSegment (Seg (fv (fZ (-2)) f0) (fv f0 f1)); OEnvelope None; ORect (Rect (N := F) f0 f0 (fZ 7) f1)].
Example ex_envelope : exists r, env_add_all None ex_objects = Some r /\ feq (x_min r) (fZ (-2)) = true /\ feq (y_min r) f0 = true /\ feq (x_max r) (fZ 7) = true /\ feq (y_max r) (fZ 5) = true.
Proof. eexists. split; [reflexivity|]. repeat split; vm_compute; reflexivity. Qed.
Lemma ex_0 : is_finite f0 = true /\ fR f0 = 0. Proof. split; [reflexivity|exact f0_R]. Qed.
Example ex_objects_ok : Forall (object_ok E) ex_objects.
Proof.
  destruct (fZ_exact 7 ltac:(lia)) as [Z1 Z2]. unfold ex_objects. repeat constructor; cbn [object_ok point_ok vx vy s_start s_end x_min y_min x_max y_max]; try (vm_compute; reflexivity).
  - rewrite Z1, f0_R. lra.
  - rewrite f1_R, f0_R. lra.
Qed.
End Floats.
Print Assumptions C40_smallest.
Print Assumptions C40_grows.
Print Assumptions C40_order.
Print Assumptions C43_contains.
Print Assumptions C43_contains_rect.
Print Assumptions C43_join.
Print Assumptions C43_join_point.
Print Assumptions C43_from_two.
Print Assumptions C43_resize.
Print Assumptions C43_semi_finite.
Print Assumptions C50_lerp_finite.
Print Assumptions C50_lerp_ends.

(** ** C43: the remaining Rect operations, exact.  [bx x0 y0 x1 y1] is the rect with those sides. *)
Definition num_ (r : R) : T N := Fin r.
(** each side moves by [d] away from the middle; an inset that would cross sides leaves them both in the middle *)
Definition moved (a b d a' b' : R) : Prop := (0 <= (b - a) + 2 * d -> a' = a - d /\ b' = b + d) /\ ((b - a) + 2 * d < 0 -> a' = (a + b) / 2 /\ b' = (a + b) / 2).
Theorem C43_offset x0 y0 x1 y1 h v : exists x0' y0' x1' y1', rect_offset (bx x0 y0 x1 y1) (num_ h) (num_ v) = bx x0' y0' x1' y1' /\ moved x0 x1 h x0' x1' /\ moved y0 y1 v y0' y1'.
Proof.
  eexists _, _, _, _. split; [apply offset_x|]. unfold moved, side_low, side_high. destruct (Rlt_bool_spec (x1 + h) (x0 - h)), (Rlt_bool_spec (y1 + v) (y0 - v)); split; split; intros; lra.
Qed.
Theorem C43_scale x0 y0 x1 y1 s t : x0 <= x1 -> y0 <= y1 -> 0 <= s -> 0 <= t -> exists x0' y0' x1' y1', rect_scale (bx x0 y0 x1 y1) (num_ s) (num_ t) = Some (bx x0' y0' x1' y1') /\
  x0' + x1' = x0 + x1 /\ y0' + y1' = y0 + y1 /\ x1' - x0' = s * (x1 - x0) /\ y1' - y0' = t * (y1 - y0).
Proof. intros X Y S0 T0. eexists _, _, _, _. split; [apply GeomOps.scale_x; assumption|]. repeat split; lra. Qed.
Theorem C43_scale_negative x0 y0 x1 y1 s t : s < 0 \/ t < 0 -> rect_scale (bx x0 y0 x1 y1) (num_ s) (num_ t) = None.
Proof. intros H. unfold rect_scale, num_. rewrite EasingExact.x0. destruct H as [H|H]; [rewrite (proj2 (le_xf 0 s)) by exact H; reflexivity|rewrite (proj2 (le_xf 0 t)) by exact H; rewrite andb_false_r; reflexivity]. Qed.
Theorem C43_translate x0 y0 x1 y1 v : exists x0' y0' x1' y1', rect_translate (bx x0 y0 x1 y1) (pv v) = bx x0' y0' x1' y1' /\
  forall p, box_set x0' y0' x1' y1' p <-> box_set x0 y0 x1 y1 (P (px p - px v) (py p - py v)).
Proof. eexists _, _, _, _. split; [reflexivity|]. intros p. unfold box_set. cbn [px py]. lra. Qed.
Theorem C43_translate_setting x0 y0 x1 y1 z :
  rect_translate_x_min (bx x0 y0 x1 y1) (num_ z) = bx z y0 (z + (x1 - x0)) y1 /\ rect_translate_x_max (bx x0 y0 x1 y1) (num_ z) = bx (z - (x1 - x0)) y0 z y1 /\
  rect_translate_y_min (bx x0 y0 x1 y1) (num_ z) = bx x0 z x1 (z + (y1 - y0)) /\ rect_translate_y_max (bx x0 y0 x1 y1) (num_ z) = bx x0 (z - (y1 - y0)) x1 z.
Proof.
  unfold rect_translate_x_min, rect_translate_x_max, rect_translate_y_min, rect_translate_y_max, rect_translate, num_. rewrite EasingExact.x0. cbn. unfold bx. repeat split; f_equal; f_equal; lra.
Qed.
Theorem C43_set_center x0 y0 x1 y1 c : exists x0' y0' x1' y1', rect_set_center (bx x0 y0 x1 y1) (pv c) = bx x0' y0' x1' y1' /\ rect_center (bx x0' y0' x1' y1') = pv c /\ x1' - x0' = x1 - x0 /\ y1' - y0' = y1 - y0.
Proof.
  unfold rect_set_center, rect_semi_width, rect_semi_height. rewrite half_x. cbn [bx x_min y_min x_max y_max pv vx vy nmul nsub nadd N xmul xsub xadd xopp]. eexists _, _, _, _. split; [reflexivity|]. rewrite center_x. split; [|split; lra].
  f_equal. apply pt_eq; cbn; lra.
Qed.
Theorem C43_set_size x0 y0 x1 y1 z :
  (z < 0 -> rect_set_width (bx x0 y0 x1 y1) (num_ z) = None /\ rect_set_height (bx x0 y0 x1 y1) (num_ z) = None) /\
  (0 <= z -> (exists a b, rect_set_width (bx x0 y0 x1 y1) (num_ z) = Some (bx a y0 b y1) /\ a + b = x0 + x1 /\ b - a = z) /\
             (exists a b, rect_set_height (bx x0 y0 x1 y1) (num_ z) = Some (bx x0 a x1 b) /\ a + b = y0 + y1 /\ b - a = z)).
Proof.
  unfold num_. rewrite set_width_x, set_height_x. split; intros H.
  - rewrite Rle_bool_false by exact H. auto.
  - rewrite Rle_bool_true by exact H. split; (eexists _, _; split; [reflexivity|split; lra]).
Qed.
Theorem C43_from_center c w h : (0 <= w -> 0 <= h -> exists x0 y0 x1 y1, rect_from_center (pv c) (num_ w) (num_ h) = Some (bx x0 y0 x1 y1) /\ rect_center (bx x0 y0 x1 y1) = pv c /\ x1 - x0 = w /\ y1 - y0 = h) /\
  (w < 0 \/ h < 0 -> rect_from_center (pv c) (num_ w) (num_ h) = None).
Proof.
  unfold num_. rewrite from_center_x. split.
  - intros W H. rewrite !Rle_bool_true by assumption. eexists _, _, _, _. split; [reflexivity|]. rewrite center_x. split; [|split; lra]. f_equal. apply pt_eq; cbn; lra.
  - intros [W|H]; [rewrite Rle_bool_false by exact W; reflexivity|rewrite (Rle_bool_false 0 h) by exact H; rewrite andb_false_r; reflexivity].
Qed.
Theorem C43_center_inside x0 y0 x1 y1 : x0 <= x1 -> y0 <= y1 -> exists c, rect_center (bx x0 y0 x1 y1) = pv c /\ box_set x0 y0 x1 y1 c /\ px c - x0 = x1 - px c /\ py c - y0 = y1 - py c.
Proof. intros X Y. eexists. split; [apply center_x|]. split; [apply box_center; assumption|]. cbn. lra. Qed.
(** the containing rect of a given aspect ratio is the smallest one, the interior rect the largest *)
Theorem C43_containing_ratio x0 y0 x1 y1 a : x0 <= x1 -> y0 < y1 -> 0 < a -> exists x0' y0' x1' y1', rect_containing_ratio (bx x0 y0 x1 y1) (num_ a) = Some (bx x0' y0' x1' y1') /\
  (forall p, box_set x0 y0 x1 y1 p -> box_set x0' y0' x1' y1' p) /\ x1' - x0' = a * (y1' - y0') /\ x0' + x1' = x0 + x1 /\ y0' + y1' = y0 + y1 /\
  (x1' - x0' = x1 - x0 \/ y1' - y0' = y1 - y0) /\
  forall u0 v0 u1 v1, (forall p, box_set x0 y0 x1 y1 p -> box_set u0 v0 u1 v1 p) -> u1 - u0 = a * (v1 - v0) -> x1' - x0' <= u1 - u0.
Proof.
  intros X Y A. unfold rect_containing_ratio. unfold num_. rewrite EasingExact.x0, (proj2 (lt_x 0 a)) by exact A. rewrite ratio_x, Req_bool_false by lra. rewrite center_x.
  change (rect_height (bx x0 y0 x1 y1)) with (Fin (y1 - y0) : T N). change (rect_width (bx x0 y0 x1 y1)) with (Fin (x1 - x0) : T N).
  assert (RT : (x1 - x0) / (y1 - y0) * (y1 - y0) = x1 - x0) by (field; lra).
  assert (MIN : forall u0 v0 u1 v1, (forall p, box_set x0 y0 x1 y1 p -> box_set u0 v0 u1 v1 p) -> u0 <= x0 /\ x1 <= u1 /\ v0 <= y0 /\ y1 <= v1).
  { intros u0 v0 u1 v1 H. assert (L := H (P x0 y0)). assert (K := H (P x1 y1)). unfold box_set in L, K. cbn in L, K. specialize (L ltac:(lra)). specialize (K ltac:(lra)). lra. }
  destruct (nlt N (Fin ((x1 - x0) / (y1 - y0))) (Fin a)) eqn:Q; [apply lt_x in Q|apply lt_xf in Q]; cbn [nmul ndiv N xmul xdiv].
  - assert (L : x1 - x0 < (y1 - y0) * a) by nra. rewrite from_center_x, !Rle_bool_true by lra. cbn [andb]. eexists _, _, _, _. split; [reflexivity|]. cbn [px py].
    split; [intros p; unfold box_set; lra|]. repeat (split; [lra|]). intros u0 v0 u1 v1 H E1. apply MIN in H. rewrite E1. nra.
  - rewrite Req_bool_false by lra. assert (L : (y1 - y0) * a <= x1 - x0) by nra. assert (D : (x1 - x0) / a * a = x1 - x0) by (field; lra). set (k := (x1 - x0) / a) in *.
    assert (y1 - y0 <= k) by nra. rewrite from_center_x, !Rle_bool_true by lra. cbn [andb]. eexists _, _, _, _. split; [reflexivity|]. cbn [px py].
    split; [intros p; unfold box_set; lra|]. repeat (split; [lra|]). intros u0 v0 u1 v1 H' E1. apply MIN in H'. lra.
Qed.
Theorem C43_interior_ratio x0 y0 x1 y1 a : x0 <= x1 -> y0 < y1 -> 0 <= a -> exists x0' y0' x1' y1', rect_interior_ratio (bx x0 y0 x1 y1) (num_ a) = Some (bx x0' y0' x1' y1') /\
  x0' <= x1' /\ y0' <= y1' /\ (forall p, box_set x0' y0' x1' y1' p -> box_set x0 y0 x1 y1 p) /\ x1' - x0' = a * (y1' - y0') /\ x0' + x1' = x0 + x1 /\ y0' + y1' = y0 + y1 /\
  (x1' - x0' = x1 - x0 \/ y1' - y0' = y1 - y0) /\
  forall u0 v0 u1 v1, u0 <= u1 -> v0 <= v1 -> (forall p, box_set u0 v0 u1 v1 p -> box_set x0 y0 x1 y1 p) -> u1 - u0 = a * (v1 - v0) -> v1 - v0 <= y1' - y0'.
Proof.
  intros X Y A. unfold rect_interior_ratio. unfold num_. rewrite EasingExact.x0, (proj2 (le_x 0 a)) by exact A. rewrite ratio_x, Req_bool_false by lra. rewrite center_x.
  change (rect_height (bx x0 y0 x1 y1)) with (Fin (y1 - y0) : T N). change (rect_width (bx x0 y0 x1 y1)) with (Fin (x1 - x0) : T N).
  assert (RT : (x1 - x0) / (y1 - y0) * (y1 - y0) = x1 - x0) by (field; lra). assert (RP : 0 <= (x1 - x0) / (y1 - y0)) by (apply Rmult_le_pos; [lra|left; apply Rinv_0_lt_compat; lra]).
  assert (MIN : forall u0 v0 u1 v1, u0 <= u1 -> v0 <= v1 -> (forall p, box_set u0 v0 u1 v1 p -> box_set x0 y0 x1 y1 p) -> x0 <= u0 /\ u1 <= x1 /\ y0 <= v0 /\ v1 <= y1).
  { intros u0 v0 u1 v1 U V H. assert (L := H (P u0 v0)). assert (K := H (P u1 v1)). unfold box_set in L, K. cbn in L, K. specialize (L ltac:(lra)). specialize (K ltac:(lra)). lra. }
  destruct (nlt N (Fin ((x1 - x0) / (y1 - y0))) (Fin a)) eqn:Q; [apply lt_x in Q|apply lt_xf in Q]; cbn [nmul ndiv N xmul xdiv].
  - assert (L : x1 - x0 < (y1 - y0) * a) by nra. rewrite Req_bool_false by lra. assert (D : (x1 - x0) / a * a = x1 - x0) by (field; lra). set (k := (x1 - x0) / a) in *.
    assert (k <= y1 - y0) by nra. assert (0 <= k) by nra. rewrite from_center_x, !Rle_bool_true by lra. cbn [andb]. eexists _, _, _, _. split; [reflexivity|]. cbn [px py].
    split; [lra|]. split; [lra|]. split; [intros p; unfold box_set; lra|]. repeat (split; [lra|]). intros u0 v0 u1 v1 U V H' E1. apply MIN in H'; [|assumption..]. nra.
  - assert (L : (y1 - y0) * a <= x1 - x0) by nra. assert (0 <= (y1 - y0) * a) by nra. rewrite from_center_x, !Rle_bool_true by lra. cbn [andb]. eexists _, _, _, _. split; [reflexivity|]. cbn [px py].
    split; [lra|]. split; [lra|]. split; [intros p; unfold box_set; lra|]. repeat (split; [lra|]). intros u0 v0 u1 v1 U V H' E1. apply MIN in H'; [|assumption..]. lra.
Qed.
(** ** C44, C45 *)
Theorem C44_contains a b c p : tri_contains (tr a b c) (pv p) = true <-> tri_set a b c p.
Proof. apply triangle_contains. Qed.
Theorem C45_intersects a b : thing_ok a -> thing_ok b -> (intersects (thing_object a) (thing_object b) = true <-> exists p, thing_set a p /\ thing_set b p).
Proof. apply intersects_x. Qed.
Theorem C45_symmetric a b : thing_ok a -> thing_ok b -> intersects (thing_object a) (thing_object b) = intersects (thing_object b) (thing_object a).
Proof.
  intros A B. apply eq_true_iff_eq. rewrite !C45_intersects by assumption. split; intros (p & H1 & H2); exists p; auto.
Qed.
(** ** C47: Quad *)
Theorem C47_contains c w h r s p : 0 <= w -> (quad_contains (qd c w h r s) (pv p) = true <-> quad_set c w h r s p).
Proof. apply quad_contains_x. Qed.
(** the corners are center -/+ u -/+ v, in the documented order; edge i joins corner i to corner i + 1 *)
Theorem C47_corners c w h r s : quad_corners (qd c w h r s) = map (fun ij => pv (qcorner c w h r s (fst ij) (snd ij))) [(-1, -1); (1, -1); (1, 1); (-1, 1)].
Proof. apply quad_corner_list. Qed.
Theorem C47_from_rect x0 y0 x1 y1 : x0 <= x1 -> quad_corners (quad_from_rect (bx x0 y0 x1 y1)) = rect_corners (bx x0 y0 x1 y1).
Proof.
  intros X. rewrite quad_of_box by exact X. rewrite quad_corner_list. cbn [map fst snd]. unfold qcorner, quad_u, quad_v. cbn [px py]. rewrite cos_0, sin_0. unfold rect_corners, pv. cbn [bx x_min y_min x_max y_max px py].
  repeat (f_equal; try (f_equal; lra)).
Qed.
(** a negative width cannot be stored: it flips the quad instead *)
Theorem C47_width c w h r s : exists w' h' r', quad_make (pv c) (num_ w) (num_ h) (num_ r) (num_ s) = qd c w' h' r' s /\ w' = Rabs w /\ (0 <= w -> h' = h) /\ (w < 0 -> h' = - h).
Proof.
  unfold quad_make, quad_normalize, num_. cbn [q_width]. rewrite x0. destruct (BehaviorExact.normalized_spec r) as (r1 & E1 & _). rewrite E1. destruct (Rlt_or_le w 0) as [L|L].
  - rewrite (proj2 (lt_x w 0)) by exact L. cbn [q_center q_width q_height q_rotation q_shear]. rewrite BehaviorExact.x_half. cbn [nadd N xadd]. destruct (BehaviorExact.normalized_spec (r1 + BehaviorMeaning.turn / 2)) as (r2 & E2 & _). rewrite E2.
    exists (- w), (- h), r2. split; [reflexivity|]. rewrite Rabs_left by exact L. repeat split; lra.
  - rewrite (proj2 (lt_xf w 0)) by exact L. exists w, h, r1. split; [reflexivity|]. rewrite Rabs_pos_eq by exact L. repeat split; lra.
Qed.
(** Join gives the smallest quad with the same rotation and shear that contains the quad and the point *)
Theorem C47_join c w h r s p : 0 <= w -> exists c' w' h', quad_join (qd c w h r s) (pv p) = qd c' w' h' r s /\ 0 <= w' /\
  (forall q, quad_set c w h r s q -> quad_set c' w' h' r s q) /\ quad_set c' w' h' r s p /\
  (quad_set c w h r s p -> c' = c /\ w' = w /\ h' = h) /\
  (forall c2 w2 h2, 0 <= w2 -> (forall q, quad_set c w h r s q -> quad_set c2 w2 h2 r s q) -> quad_set c2 w2 h2 r s p -> forall q, quad_set c' w' h' r s q -> quad_set c2 w2 h2 r s q).
Proof. apply join_grows. Qed.
(** ** C50: Lerp and Project, exact *)
Theorem C50_lerp a b t : seg_lerp (sg a b) (num_ t) = pv (mix t a b).
Proof. unfold num_. rewrite lerp_x. f_equal. apply pt_eq; cbn; ring. Qed.
(** Project is absent only for a single point, undoes Lerp, and finds the closest point of the line *)
Theorem C50_project a b p : match seg_project (sg a b) (pv p) with
  | None => a = b
  | Some t => exists r, t = num_ r /\ a <> b /\ forall r', dist2 p (mix r a b) <= dist2 p (mix r' a b)
  end.
Proof.
  destruct (Classical_Prop.classic (a = b)) as [->|H]; [rewrite project_same; reflexivity|]. destruct (project_x a b p H) as [Q E]. rewrite E. eexists. split; [reflexivity|]. split; [exact H|]. intros r'.
  set (m := dot2 (sub b a) (sub b a)) in *. set (k := dot2 (sub p a) (sub b a)) in *. set (r := k / m). assert (R1 : r * m = k) by (unfold r; field; lra).
  assert (D : forall t, dist2 p (mix t a b) = dot2 (sub p a) (sub p a) - 2 * t * k + t * t * m) by (intros t; unfold dist2, mix, k, m, dot2, sub; cbn [px py]; ring).
  rewrite !D. rewrite <- R1. assert (0 <= (r - r') * (r - r') * m) by (apply Rmult_le_pos; [apply Rle_0_sqr|lra]). nra.
Qed.
Theorem C50_inverse a b t : a <> b -> exists p, seg_lerp (sg a b) (num_ t) = pv p /\ seg_project (sg a b) (pv p) = Some (num_ t).
Proof. intros H. exists (mix t a b). split; [apply C50_lerp|]. destruct (project_x a b (mix t a b) H) as [_ ->]. rewrite project_of_mix by exact H. reflexivity. Qed.
Theorem C50_lerp_inverse a b p t : a <> b -> (exists k, p = mix k a b) -> seg_project (sg a b) (pv p) = Some (num_ t) -> seg_lerp (sg a b) (num_ t) = pv p.
Proof.
  intros H (k & ->) E. destruct (project_x a b (mix k a b) H) as [_ E']. rewrite E' in E. rewrite project_of_mix in E by exact H. injection E as <-. apply C50_lerp.
Qed.
Print Assumptions C43_offset.
Print Assumptions C43_scale.
Print Assumptions C43_translate.
Print Assumptions C43_translate_setting.
Print Assumptions C43_set_center.
Print Assumptions C43_set_size.
Print Assumptions C43_containing_ratio.
Print Assumptions C43_interior_ratio.
Print Assumptions C44_contains.
Print Assumptions C45_intersects.
Print Assumptions C47_contains.
Print Assumptions C47_from_rect.
Print Assumptions C47_join.
Print Assumptions C50_project.
Print Assumptions C50_inverse.

(** Concrete cases: a clockwise triangle contains its centroid, a flat one a point between its corners; a segment
    that only touches a rect's corner meets it; a joined quad. *)
Example ex_clockwise : tri_contains (tr (P 0 0) (P 0 3) (P 3 0)) (pv (P 1 1)) = true.
Proof. apply C44_contains. exists (/ 3), (/ 3), (/ 3). repeat split; try lra. apply pt_eq; cbn; lra. Qed.
Example ex_flat : tri_contains (tr (P 0 0) (P 4 4) (P 2 2)) (pv (P 3 3)) = true /\ tri_contains (tr (P 0 0) (P 4 4) (P 2 2)) (pv (P 5 5)) = false.
Proof.
  split; [apply C44_contains; exists (/ 4), (3 / 4), 0; repeat split; try lra; apply pt_eq; cbn; lra|].
  apply not_true_iff_false. rewrite C44_contains. intros (u & v & w & U & V & W & S1 & Q). apply (f_equal px) in Q. cbn in Q. lra.
Qed.
Example ex_touch : intersects (thing_object (TSegment (P 0 2) (P 2 0))) (thing_object (TRect 1 1 2 2)) = true.
Proof. apply C45_intersects; [exact I|cbn; lra|]. exists (P 1 1). split; [exists (/ 2); split; [lra|apply pt_eq; cbn; lra]|unfold thing_set, box_set; cbn; lra]. Qed.
