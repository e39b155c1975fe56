(** The flip correction in exact arithmetic *)
From Coq Require Import ZArith Bool Arith Reals Lra Lia List.
From Flocq Require Import Core.
From Verif Require Import NumModel EasingExact GeomModel GeomSpec GeomReal GeomExact AffineProofs PartitionModel FlipModel FlipProofs FlipSound.
Import ListNotations.
Local Open Scope R_scope.

Record axis := Axis { a_off : R; a_scale : R; a_max : Z }.
(** The values that a packed component can take *)
Definition level (a : axis) (k : Z) : R := a_off a + IZR k * a_scale a.
Definition axis_ok (a : axis) : Prop := 0 < a_scale a /\ (0 <= a_max a)%Z.
Definition comp_of (a : axis) : comp N := Comp (Fin (a_off a) : T N) (Fin (a_scale a) : T N) (Fin (IZR (a_max a)) : T N).
Definition nearest (a : axis) (x : R) : Z := ZnearestA ((x - a_off a) / a_scale a).

Lemma nearest_half a x : axis_ok a -> Rabs (level a (nearest a x) - x) <= a_scale a / 2.
Proof.
  intros [Hs _]. unfold level, nearest. set (z := (x - a_off a) / a_scale a). assert (E : x = a_off a + z * a_scale a) by (unfold z; field; lra). pose proof (Znearest_half (Zle_bool 0) z) as H. change (Znearest (Zle_bool 0) z) with (ZnearestA z) in H.
  rewrite E. replace (a_off a + IZR (ZnearestA z) * a_scale a - (a_off a + z * a_scale a)) with (- ((z - IZR (ZnearestA z)) * a_scale a)) by ring. rewrite Rabs_Ropp, Rabs_mult, (Rabs_pos_eq (a_scale a)) by lra. assert (Rabs (z - IZR (ZnearestA z)) * a_scale a <= /2 * a_scale a); [|lra]. apply Rmult_le_compat_r; [lra|exact H].
Qed.
Lemma nearest_level a k : axis_ok a -> nearest a (level a k) = k.
Proof. intros [Hs _]. unfold nearest, level. replace ((a_off a + IZR k * a_scale a - a_off a) / a_scale a) with (IZR k) by (field; lra). apply Znearest_imp. rewrite Rminus_diag_eq by reflexivity. rewrite Rabs_R0. lra. Qed.
Lemma near_level a k x : axis_ok a -> Rabs (x - level a k) < a_scale a / 2 -> nearest a x = k.
Proof.
  intros [Hs _] H. unfold nearest, level in *. apply Znearest_imp. replace ((x - a_off a) / a_scale a - IZR k) with ((x - (a_off a + IZR k * a_scale a)) / a_scale a) by (field; lra). unfold Rdiv. rewrite Rabs_mult, Rabs_inv, (Rabs_pos_eq (a_scale a)) by lra. apply Rmult_lt_reg_r with (a_scale a); [lra|]. rewrite Rmult_assoc, Rinv_l by lra. lra.
Qed.
Lemma level_le a j k : axis_ok a -> (level a j <= level a k <-> (j <= k)%Z).
Proof. intros [Hs _]. unfold level. split; intros H; [apply le_IZR; nra|apply IZR_le in H; nra]. Qed.
Lemma nearest_in a x : axis_ok a -> level a 0 <= x <= level a (a_max a) -> (0 <= nearest a x <= a_max a)%Z.
Proof.
  intros A [H1 H2]. pose proof (nearest_half a x A) as H. apply Rabs_le_inv in H. destruct A as [Hs Hm]. unfold level in *. split.
  - assert (-1 < nearest a x)%Z; [|lia]. apply lt_IZR. change (IZR (-1)) with (-1). nra.
  - assert (nearest a x < a_max a + 1)%Z; [|lia]. apply lt_IZR. rewrite plus_IZR. nra.
Qed.
Lemma quantize_x a x : axis_ok a -> quantize (comp_of a) (Fin x : T N) = Fin (level a (nearest a x)).
Proof.
  intros [Hs _]. unfold quantize, comp_of. cbn [c_offset c_scale nsub ndiv nround nmul nadd N xnum]. rewrite xsub_fin, xdiv_fin by lra. cbn [xmul xadd]. unfold level, nearest. f_equal. ring.
Qed.

Section Exact.
Variables (ax ay : axis) (Hx : axis_ok ax) (Hy : axis_ok ay).
Variable at_ : Z -> pt.
Variable ts : list tri.
Definition code : coding N := Coding (comp_of ax) (comp_of ay).
Definition pos (v : Z) : vec N := pv (at_ v).
Hypothesis Distinct : forall t, In t ts -> distinct t.
Hypothesis Inside : forall v, used ts v -> level ax 0 <= px (at_ v) <= level ax (a_max ax) /\ level ay 0 <= py (at_ v) <= level ay (a_max ay).
Definition on_grid (j k : Z) : pt := P (level ax j) (level ay k).
Definition good (q : vec N) : Prop := exists j k, (0 <= j <= a_max ax)%Z /\ (0 <= k <= a_max ay)%Z /\ q = pv (on_grid j k).
Lemma quantize_point_x p : quantize_point code (pv p) = pv (on_grid (nearest ax (px p)) (nearest ay (py p))).
Proof. unfold quantize_point, code. cbn [cx cy pv vx vy]. rewrite !quantize_x by assumption. reflexivity. Qed.
Lemma settled q : good q -> quantize_point code q = q.
Proof. intros (j & k & _ & _ & ->). rewrite quantize_point_x. cbn [on_grid px py]. rewrite !nearest_level by assumption. reflexivity. Qed.
Lemma plus_zero p : padd (pv p) (V n0 n0) = pv p.
Proof. change (V n0 n0) with (V (@n0 N) (@n0 N)). rewrite x0. change (V (Fin 0 : T N) (Fin 0)) with (pv (P 0 0)). rewrite padd_x. cbn [px py]. rewrite !Rplus_0_l. destruct p; reflexivity. Qed.
Lemma good_start v : used ts v -> good (quantize_point code (pos v)).
Proof. intros U. destruct (Inside v U) as [A B]. unfold pos. rewrite quantize_point_x. exists (nearest ax (px (at_ v))), (nearest ay (py (at_ v))). split; [apply nearest_in; assumption|]. split; [apply nearest_in; assumption|reflexivity]. Qed.
Lemma bounds_x : bounds code = bx (level ax 0) (level ay 0) (level ax (a_max ax)) (level ay (a_max ay)).
Proof.
  unfold bounds, rect_from_two, code. cbn [cx cy comp_of c_offset c_scale c_max vx vy nmul nadd N xnum xmul xadd]. change (nmin (N := xnum)) with (nmin (N := N)). change (nmax (N := xnum)) with (nmax (N := N)). rewrite !min_x, !max_x. unfold bx, level. destruct Hx as [X1 X2], Hy as [Y1 Y2]. apply IZR_le in X2, Y2.
  rewrite !Rmin_left, !Rmax_right by nra. f_equal; f_equal; ring.
Qed.
Lemma nudge_x v : is_nudge code v -> exists p, v = pv p.
Proof.
  intros (s & t & ->). unfold code. cbn [cx cy comp_of c_scale]. rewrite x1e. cbn [nmul N xnum xmul]. unfold copysign. cbn [nabs nopp nsign N xnum xopp]. destruct (xneg s), (xneg t); eexists (P _ _); reflexivity.
Qed.
Lemma nudged_x q v mx my m : (exists p, q = pv p) -> (exists p, v = pv p) -> exists j k, nudged code q v mx my m = pv (on_grid j k).
Proof.
  intros [p ->] [w ->]. unfold nudged. change (@n0 N) with (@n0 xnum). replace (V (if hits mx m then vx (pv w) else n0) (if hits my m then vy (pv w) else n0)) with (pv (P (if hits mx m then px w else 0) (if hits my m then py w else 0))) by (rewrite x0; destruct (hits mx m), (hits my m); reflexivity).
  rewrite padd_x, quantize_point_x. eexists _, _. reflexivity.
Qed.
Lemma good_step : forall qa qb qc va vb vc m r, good qa -> good qb -> good qc -> is_nudge code va -> is_nudge code vb -> is_nudge code vc ->
  let n := nudged_triangle code (Tri qa qb qc) va vb vc m in
  env_add None (OTriangle n) = Some r -> rect_contains_rect (bounds code) r = true -> good (p0 n) /\ good (p1 n) /\ good (p2 n).
Proof.
  intros qa qb qc va vb vc m r Ga Gb Gc Na Nb Nc n. assert (K : forall q, good q -> exists p, q = pv p) by (intros q (j & k & _ & _ & ->); eexists; reflexivity).
  destruct (nudged_x qa va 32 16 m (K _ Ga) (nudge_x _ Na)) as (ja & ka & Ea). destruct (nudged_x qb vb 8 4 m (K _ Gb) (nudge_x _ Nb)) as (jb & kb & Eb). destruct (nudged_x qc vc 2 1 m (K _ Gc) (nudge_x _ Nc)) as (jc & kc & Ec).
  unfold n, nudged_triangle. cbn [p0 p1 p2]. rewrite Ea, Eb, Ec. clear - Hx Hy. cbn [env_add p0 p1 p2]. intros H. injection H as <-. rewrite bounds_x. unfold rect_contains_rect, rect_join_point, rect_from_two, bx, on_grid. cbn [pv vx vy x_min x_max y_min y_max px py].
  rewrite !min_x, !max_x. rewrite !andb_true_iff, !le_x. intros H.
  assert (G : forall j k, level ax 0 <= level ax j <= level ax (a_max ax) -> level ay 0 <= level ay k <= level ay (a_max ay) -> good (pv (P (level ax j) (level ay k)))).
  { intros j k A B. exists j, k. rewrite !level_le in A by assumption. rewrite !level_le in B by assumption. split; [exact A|]. split; [exact B|reflexivity]. }
  pose proof (Rmin_l (level ax ja) (level ax jb)). pose proof (Rmin_r (level ax ja) (level ax jb)). pose proof (Rmax_l (level ax ja) (level ax jb)). pose proof (Rmax_r (level ax ja) (level ax jb)).
  pose proof (Rmin_l (level ay ka) (level ay kb)). pose proof (Rmin_r (level ay ka) (level ay kb)). pose proof (Rmax_l (level ay ka) (level ay kb)). pose proof (Rmax_r (level ay ka) (level ay kb)).
  repeat match type of H with context [Rmin ?x ?y] => lazymatch goal with K : Rmin x y <= x |- _ => fail | _ => pose proof (Rmin_l x y); pose proof (Rmin_r x y) end end.
  repeat match type of H with context [Rmax ?x ?y] => lazymatch goal with K : x <= Rmax x y |- _ => fail | _ => pose proof (Rmax_l x y); pose proof (Rmax_r x y) end end.
  split; [apply G; lra|split; apply G; lra].
Qed.
End Exact.
