(** Distances to the arcs and segments of a convex arrangement of discs. *)
From Coq Require Import ZArith Reals Lra Lia Psatz Bool List.
From Flocq Require Import Core.
From Verif Require Import NumModel EasingExact BehaviorMeaning BehaviorExact GeomModel AffineModel GeomSpec GeomReal GeomExact AffineProofs CircleModel CircleSpec CircleProofs RoundedModel RoundedSpec.
Import ListNotations.
Local Open Scope R_scope.

(** ** Angles *)
Lemma toward_turns x k : toward (x + IZR k * (2 * PI)) = toward x.
Proof.
  assert (Nn : forall (n : nat) y, cos (y + INR n * (2 * PI)) = cos y /\ sin (y + INR n * (2 * PI)) = sin y).
  { intros n y. replace (y + INR n * (2 * PI)) with (y + 2 * INR n * PI) by ring. split; [apply cos_period|apply sin_period]. }
  unfold toward. destruct (Z_le_gt_dec 0 k) as [K|K].
  - destruct (Nn (Z.to_nat k) x) as [A B]. rewrite INR_IZR_INZ, Z2Nat.id in A, B by lia. rewrite A, B. reflexivity.
  - destruct (Nn (Z.to_nat (- k)) (x + IZR k * (2 * PI))) as [A B]. rewrite INR_IZR_INZ, Z2Nat.id, opp_IZR in A, B by lia.
    replace (x + IZR k * (2 * PI) + - IZR k * (2 * PI)) with x in A, B by ring. rewrite A, B. reflexivity.
Qed.
(** a vector and its angle in the turn that starts at [a] *)
Lemma polar a v : exists beta, a <= beta < a + 2 * PI /\ v = P (len v * cos beta) (len v * sin beta) /\ (len v = 0 -> beta = a).
Proof.
  pose proof PI_RGT_0 as PP. destruct (Req_dec (len v) 0) as [Z|Z].
  - exists a. split; [lra|]. split; [|reflexivity]. apply len_zero in Z as V. rewrite V at 1. rewrite Z. apply pt_eq; cbn; ring.
  - destruct (atan2_x (px v) (py v)) as (_ & A & B). { intros [A B]. apply Z. unfold len, inner. rewrite A, B. replace (0 * 0 + 0 * 0) with 0 by ring. apply sqrt_0. }
    change (sqrt (px v * px v + py v * py v)) with (len v) in A, B. set (t := atan2R (py v) (px v)) in *. set (k := Zfloor ((t - a) / (2 * PI))).
    exists (t + IZR (- k) * (2 * PI)). split; [|split; [|intros; contradiction]].
    + rewrite opp_IZR. pose proof (Zfloor_lb ((t - a) / (2 * PI))) as L. pose proof (Zfloor_ub ((t - a) / (2 * PI))) as U. fold k in L, U.
      assert (E : t - a = (t - a) / (2 * PI) * (2 * PI)) by (field; lra). set (q := (t - a) / (2 * PI)) in *. clearbody q. nra.
    + pose proof (toward_turns t (- k)) as T. unfold toward in T. injection T as -> ->. apply pt_eq; cbn; assumption.
Qed.
Lemma sin_sign_pos x : 0 < x < PI -> 0 < sin x. Proof. intros [A B]. apply sin_gt_0; assumption. Qed.
Lemma sin_sign_neg x : PI < x < 2 * PI -> sin x < 0. Proof. intros [A B]. apply sin_lt_0; assumption. Qed.
Lemma inner_toward2 m b x : inner (P (m * cos b) (m * sin b)) (toward x) = m * cos (b - x).
Proof. unfold inner, toward. cbn. rewrite cos_minus. ring. Qed.
(** between two angles, the cosine is at most its larger value at the ends unless the top is between *)
Lemma cos_ends lo hi y : 0 <= lo -> hi <= 2 * PI -> lo <= y <= hi -> cos y <= cos lo \/ cos y <= cos hi.
Proof.
  intros L H Y. destruct (Rle_dec y PI) as [Q|Q].
  - left. destruct (Req_dec lo y) as [->|D]; [lra|]. apply Rlt_le, cos_decreasing_1; lra.
  - right. destruct (Req_dec y hi) as [->|D]; [lra|]. apply Rlt_le, cos_increasing_1; lra.
Qed.

(** ** The arc *)
Definition tol : R := 2748779 / 549755813888.
Lemma no_arc_x : no_arc (N := N) = Fin tol.
Proof. unfold no_arc. rewrite xdy. f_equal. unfold tol. change (bpow radix2 (-41)) with (/ 2199023255552). lra. Qed.
Lemma direction_unit t : from_direction (N := N) (Fin t) n1 = pv (toward t).
Proof. unfold from_direction, pv, toward. rewrite x1e. cbn. rewrite !Rmult_1_l. reflexivity. Qed.
Lemma det_toward a m b : det2 (toward a) (P (m * cos b) (m * sin b)) = m * sin (b - a).
Proof. unfold det2, toward. cbn. rewrite sin_minus. ring. Qed.
Definition xarc (b : ball) (x y : R) : arc N := Arc (circ (fst b) (snd b)) (pv (toward x)) (pv (toward y)).
Lemma arc_x c r x y beta p : x < y < x + 2 * PI -> tol < Rabs (sin (y - x)) -> x <= beta < x + 2 * PI ->
  minus p c = P (len (minus p c) * cos beta) (len (minus p c) * sin beta) -> (len (minus p c) = 0 -> beta = x) ->
  arc_distance (xarc (c, r) x y) (pv p) = if Rle_bool beta y then Some (Fin (len (minus p c) - r) : T N) else None.
Proof.
  intros XY D B E Z. pose proof PI_RGT_0 as PP. unfold arc_distance. cbn [xarc a_circle a_from a_to circ center radius fst snd].
  rewrite minus_x, magnitude_x. rewrite !(f_equal pv E). set (m := len (minus p c)) in *. assert (M : 0 <= m) by apply len_pos. clearbody m. rewrite !det_x, !det_toward, no_arc_x, !x0.
  replace (det2 (toward x) (toward y)) with (sin (y - x)) by (unfold det2, toward; cbn; rewrite sin_minus; ring).
  cbn [nabs N]. rewrite (proj2 (le_xf _ _)) by exact D. cbn [nsub N xsub xopp xadd]. change (m + - r) with (m - r).
  assert (NE : y - x <> PI). { intros Q. rewrite Q, sin_PI, Rabs_R0 in D. unfold tol in D. lra. }
  destruct (Rle_dec (y - x) PI) as [S|S].
  - rewrite (proj2 (lt_xf _ _)) by (apply Rlt_le, sin_sign_pos; lra). destruct (Rle_bool_spec beta y) as [Q|Q].
    + rewrite !(proj2 (lt_xf _ _)); [reflexivity| |].
      * assert (0 <= sin (y - beta)) by (apply sin_ge_0; lra). replace (beta - y) with (- (y - beta)) by ring. rewrite sin_neg. nra.
      * assert (0 <= sin (beta - x)) by (apply sin_ge_0; lra). nra.
    + assert (0 < m). { destruct (Rle_lt_or_eq_dec 0 m M) as [H|H]; [exact H|]. rewrite Z in Q by (symmetry; exact H). lra. }
      destruct (Rlt_dec PI (beta - x)) as [G|G].
      * rewrite (proj2 (lt_x _ 0)); [reflexivity|]. assert (sin (beta - x) < 0) by (apply sin_sign_neg; lra). nra.
      * rewrite (proj2 (lt_x 0 _)); [rewrite orb_true_r; reflexivity|]. assert (0 < sin (beta - y)) by (apply sin_sign_pos; lra). nra.
  - rewrite (proj2 (lt_x _ 0)) by (apply sin_sign_neg; lra). destruct (Rle_bool_spec beta y) as [Q|Q].
    + destruct (Rle_dec (beta - x) PI) as [G|G].
      * rewrite (proj2 (lt_xf _ 0)); [reflexivity|]. assert (0 <= sin (beta - x)) by (apply sin_ge_0; lra). nra.
      * rewrite (proj2 (lt_xf 0 _)); [rewrite andb_false_r; reflexivity|]. assert (0 <= sin (y - beta)) by (apply sin_ge_0; lra). replace (beta - y) with (- (y - beta)) by ring. rewrite sin_neg. nra.
    + assert (0 < m). { destruct (Rle_lt_or_eq_dec 0 m M) as [H|H]; [exact H|]. rewrite Z in Q by (symmetry; exact H). lra. }
      rewrite (proj2 (lt_x _ 0)), (proj2 (lt_x 0 _)); [reflexivity| |].
      * assert (0 < sin (beta - y)) by (apply sin_sign_pos; lra). nra.
      * assert (sin (beta - x) < 0) by (apply sin_sign_neg; lra). nra.
Qed.

(** ** The segment *)
Definition perp (u : pt) : pt := P (- py u) (px u).
Lemma segment_x c r d s u p : unit u -> inner c u + r = inner d u + s -> 0 < inner (minus d c) (perp u) ->
  segment_distance (sg (rim c r u) (rim d s u)) (pv p) =
  if Rle_bool 0 (inner (minus p c) (perp u)) && Rle_bool 0 (inner (minus d p) (perp u)) then Some (Fin (inner p u - (inner c u + r)) : T N) else None.
Proof.
  intros U E T0. unfold unit in U. set (tau := inner (minus d c) (perp u)) in *. set (a := rim c r u). set (b := rim d s u).
  assert (AB : sub b a = P (tau * px (perp u)) (tau * py (perp u))).
  { assert (W : inner (minus d c) u = r - s) by (unfold inner, minus in *; cbn in *; lra). unfold sub, a, b, rim. cbn [px py].
    assert (X : px (minus d c) = inner (minus d c) u * px u - tau * py u) by (unfold tau, inner, perp; cbn [px py]; transitivity (px (minus d c) * (px u * px u + py u * py u)); [rewrite U; ring|ring]).
    assert (Y : py (minus d c) = inner (minus d c) u * py u + tau * px u) by (unfold tau, inner, perp; cbn [px py]; transitivity (py (minus d c) * (px u * px u + py u * py u)); [rewrite U; ring|ring]).
    rewrite W in X, Y. cbn [minus px py] in X, Y. apply pt_eq; cbn [perp px py]; lra. }
  assert (D : dot2 (sub b a) (sub b a) = tau * tau). { rewrite AB. unfold dot2, perp. cbn [px py]. transitivity (tau * tau * (px u * px u + py u * py u)); [ring|rewrite U; ring]. }
  assert (AneB : a <> b). { intros Q. assert (dot2 (sub b a) (sub b a) = 0) by (rewrite Q; unfold dot2, sub; cbn; ring). nra. }
  destruct (project_x a b p AneB) as [_ PR]. unfold segment_distance. rewrite PR, D. cbn [sg s_start s_end]. unfold seg_vector. cbn [sg s_start s_end].
  assert (SL : seg_length (sg a b) = Fin tau). { rewrite length_x, D. rewrite sqrt_square by lra. reflexivity. }
  rewrite SL, !sub_x, det_x, x0, x1e.
  assert (I : dot2 (sub p a) (sub b a) = tau * inner (minus p c) (perp u)). { rewrite AB. unfold dot2, sub, a, rim, inner, minus, perp. cbn [px py]. ring. }
  rewrite I. replace (tau * inner (minus p c) (perp u) / (tau * tau)) with (inner (minus p c) (perp u) / tau) by (field; lra).
  assert (J : inner (minus d p) (perp u) = tau - inner (minus p c) (perp u)) by (unfold tau, inner, minus; cbn; ring). rewrite J. set (q := inner (minus p c) (perp u)). assert (Q : q = q / tau * tau) by (field; lra). set (w := q / tau) in *. clearbody w.
  assert (Dt : det2 (sub b a) (sub p a) = - (tau * (inner p u - (inner c u + r)))).
  { rewrite AB. unfold det2, sub, a, rim, inner, perp. cbn [px py]. transitivity (- (tau * (px p * px u + py p * py u - (px c * px u + py c * py u) - r * (px u * px u + py u * py u)))); [ring|rewrite U; ring]. }
  rewrite Dt. destruct (Rle_bool_spec 0 q) as [A|A]; cbn [andb].
  - rewrite (proj2 (lt_xf w 0)) by nra. destruct (Rle_bool_spec 0 (tau - q)) as [B|B].
    + rewrite (proj2 (lt_xf 1 w)) by nra. cbn [orb nopp ndiv N xopp xdiv]. rewrite Req_bool_false by lra. apply f_equal, f_equal. field. lra.
    + rewrite (proj2 (lt_x 1 w)) by nra. reflexivity.
  - rewrite (proj2 (lt_x w 0)) by nra. reflexivity.
Qed.
