(** Discs and tangents. *)
From Coq Require Import ZArith Reals Lra Lia Psatz Bool List.
From Flocq Require Import Core.
From Verif Require Import NumModel EasingExact BehaviorMeaning BehaviorExact GeomModel AffineModel GeomSpec GeomReal GeomExact AffineProofs CircleModel CircleSpec.
Import ListNotations.
Local Open Scope R_scope.

Definition len (a : pt) : R := sqrt (inner a a).
Lemma inner_pos a : 0 <= inner a a. Proof. unfold inner. nra. Qed.
Lemma len_sq a : len a * len a = inner a a. Proof. apply sqrt_sqrt, inner_pos. Qed.
Lemma len_pos a : 0 <= len a. Proof. apply sqrt_pos. Qed.
Lemma cauchy a b : inner a b <= len a * len b.
Proof.
  destruct (Rle_dec (inner a b) 0) as [H|H]; [pose proof (len_pos a); pose proof (len_pos b); nra|]. unfold len. rewrite <- sqrt_mult by apply inner_pos.
  rewrite <- (sqrt_square (inner a b)) by lra. apply sqrt_le_1_alt. unfold inner. pose proof (Rle_0_sqr (px a * py b - py a * px b)) as S. unfold Rsqr in S. nra.
Qed.
Lemma disc_len c r p : 0 <= r -> disc c r p <-> len (minus p c) <= r.
Proof.
  intros R. unfold disc. change (dist2 p c) with (inner (minus p c) (minus p c)). rewrite <- len_sq. pose proof (len_pos (minus p c)). split; intros H'; nra.
Qed.
Lemma len_triangle a b c : len (minus a c) <= len (minus a b) + len (minus b c).
Proof.
  pose proof (cauchy (minus a b) (minus b c)) as C. pose proof (len_pos (minus a b)). pose proof (len_pos (minus b c)). pose proof (len_pos (minus a c)).
  pose proof (len_sq (minus a b)) as A1. pose proof (len_sq (minus b c)) as A2. pose proof (len_sq (minus a c)) as A3.
  assert (I : inner (minus a c) (minus a c) = inner (minus a b) (minus a b) + inner (minus b c) (minus b c) + 2 * inner (minus a b) (minus b c)) by (unfold inner, minus; cbn; ring).
  set (x := len (minus a b)) in *. set (y := len (minus b c)) in *. set (z := len (minus a c)) in *. clearbody x y z. apply Rsqr_incr_0_var; [unfold Rsqr|lra]. nra.
Qed.
Lemma len_zero a : len a = 0 -> a = P 0 0.
Proof. intros H. pose proof (len_sq a) as S. rewrite H in S. unfold inner in S. apply pt_eq; cbn; nra. Qed.
Lemma unit_along v : exists u, unit u /\ inner v u = len v.
Proof.
  destruct (Req_dec (len v) 0) as [Z|Z].
  - exists (P 1 0). apply len_zero in Z as V. subst v. rewrite Z. split; unfold unit, inner; cbn; ring.
  - exists (P (px v / len v) (py v / len v)). pose proof (len_sq v) as S. split.
    + unfold unit. cbn. unfold inner in S. replace (px v / len v * (px v / len v) + py v / len v * (py v / len v)) with ((px v * px v + py v * py v) / (len v * len v)) by (field; exact Z). rewrite <- S. field. exact Z.
    + unfold inner in *. cbn. replace (px v * (px v / len v) + py v * (py v / len v)) with ((px v * px v + py v * py v) / len v) by (field; exact Z). rewrite <- S. field. exact Z.
Qed.
Lemma rim_disc c r u : unit u -> disc c r (rim c r u).
Proof. unfold unit, disc, dist2, rim. cbn. intros U. replace _ with (r * r * (px u * px u + py u * py u)) by ring. rewrite U. lra. Qed.
Theorem within_disc c d r s : 0 <= r -> 0 <= s -> within (disc d s) (disc c r) <-> len (minus d c) + s <= r.
Proof.
  intros R S. split.
  - intros W. destruct (unit_along (minus d c)) as (u & U & I). pose proof (W _ (rim_disc d s u U)) as Q. apply disc_len in Q; [|exact R].
    pose proof (cauchy (minus (rim d s u) c) u) as C. assert (len u = 1) as L by (unfold len; unfold unit, inner in *; rewrite U; apply sqrt_1). rewrite L, Rmult_1_r in C.
    replace (inner (minus (rim d s u) c) u) with (inner (minus d c) u + s * (px u * px u + py u * py u)) in C by (unfold inner, minus, rim; cbn; ring). unfold unit in U. rewrite I, U in C. lra.
  - intros L p Q. apply disc_len in Q; [|exact S]. apply disc_len; [exact R|]. pose proof (len_triangle p d c). lra.
Qed.
Lemma supports_disc c r u h : 0 <= r -> unit u -> supports (disc c r) u h <-> h = inner c u + r.
Proof.
  intros R U. assert (Lu : len u = 1) by (unfold len; unfold unit, inner in *; rewrite U; apply sqrt_1).
  assert (B : forall p, disc c r p -> inner p u <= inner c u + r).
  { intros p D. apply disc_len in D; [|exact R]. pose proof (cauchy (minus p c) u) as C. rewrite Lu in C. replace (inner (minus p c) u) with (inner p u - inner c u) in C by (unfold inner, minus; cbn; ring). lra. }
  assert (I : inner (rim c r u) u = inner c u + r) by (unfold unit in U; transitivity (inner c u + r * (px u * px u + py u * py u)); [unfold inner, rim; cbn; ring|rewrite U; ring]).
  split.
  - intros (A & p & D & H). pose proof (B p D). pose proof (A _ (rim_disc c r u U)). lra.
  - intros ->. split; [exact B|]. exists (rim c r u). split; [apply rim_disc; exact U|exact I].
Qed.
Lemma tangent_disc c r d s u : 0 <= r -> 0 <= s -> unit u -> tangent (disc c r) (disc d s) u <-> inner (minus d c) u = r - s.
Proof.
  intros R S U. assert (I : inner (minus d c) u = inner d u - inner c u) by (unfold inner, minus; cbn; ring). rewrite I. split.
  - intros (h & A & B). apply supports_disc in A, B; try assumption. lra.
  - intros H. exists (inner c u + r). split; apply supports_disc; try assumption; lra.
Qed.
Lemma toward_unit a : unit (toward a).
Proof. unfold unit, toward. cbn. pose proof (sin2_cos2 a) as H. unfold Rsqr in H. lra. Qed.

(** ** The code in exact arithmetic *)
Definition circ (c : pt) (r : R) : circle N := Circle (pv c) (Fin r : T N).
Lemma point_x c r a : get_point (N := N) (circ c r) (Fin a) = pv (rim c r (toward a)).
Proof. unfold get_point, from_direction, padd, pv, rim. cbn. f_equal; f_equal; ring. Qed.
Lemma magnitude_x v : magnitude (pv v) = Fin (len v). Proof. reflexivity. Qed.
Lemma minus_x a b : vsub (pv a) (pv b) = pv (minus a b). Proof. reflexivity. Qed.
Lemma contains_x c r d s : contains (N := N) (circ c r) (circ d s) = true <-> len (minus d c) + s <= r.
Proof. unfold contains. cbn [circ center radius]. rewrite minus_x, magnitude_x. cbn [nadd N xadd]. apply le_x. Qed.
Lemma len_sym a b : len (minus a b) = len (minus b a).
Proof. unfold len. f_equal. unfold inner, minus. cbn. ring. Qed.
Lemma minus_zero a b : minus a b = P 0 0 -> a = b.
Proof. intros H. apply (f_equal px) in H as H1. apply (f_equal py) in H as H2. cbn in *. apply pt_eq; lra. Qed.
Definition alpha (c d : pt) (r s : R) : R := acos ((r - s) / len (minus d c)).
Definition theta (c d : pt) : R := atan2R (py d - py c) (px d - px c).
Lemma alpha_ok c d r s : Rabs (r - s) < len (minus d c) -> 0 < alpha c d r s < PI /\ cos (alpha c d r s) * len (minus d c) = r - s /\ 0 < sin (alpha c d r s).
Proof.
  intros H. unfold alpha. set (l := len (minus d c)) in *. assert (L : 0 < l) by (pose proof (Rabs_pos (r - s)); lra). assert (B : -1 < (r - s) / l < 1).
  { apply Rabs_lt_inv. unfold Rdiv. rewrite Rabs_mult, Rabs_inv, (Rabs_pos_eq l) by lra. apply (Rmult_lt_reg_r l); [exact L|]. rewrite Rmult_assoc, Rinv_l by lra. lra. }
  assert (A : 0 < acos ((r - s) / l) < PI).
  { split; apply Rnot_le_lt; intros Q; pose proof (acos_bound ((r - s) / l)); pose proof (cos_acos ((r - s) / l) ltac:(lra)) as C.
    - assert (E : acos ((r - s) / l) = 0) by lra. rewrite E, cos_0 in C. lra.
    - assert (E : acos ((r - s) / l) = PI) by lra. rewrite E, cos_PI in C. lra. }
  split; [exact A|]. split; [rewrite cos_acos by lra; field; lra|]. apply sin_gt_0; lra.
Qed.
Lemma theta_ok c d : 0 < len (minus d c) -> - PI < theta c d <= PI /\ px d - px c = len (minus d c) * cos (theta c d) /\ py d - py c = len (minus d c) * sin (theta c d).
Proof. intros H. apply (atan2_x (px d - px c) (py d - py c)). intros [A B]. unfold len, inner, minus in H. cbn in H. rewrite A, B in H. replace (0 * 0 + 0 * 0) with 0 in H by ring. rewrite sqrt_0 in H. lra. Qed.
Lemma tangent_x c d r s : tangent_angles (N := N) xacos (circ c r) (circ d s) =
  if Rle_bool (len (minus d c)) (Rabs (r - s)) then None
  else Some (normalized_about_zero (N := N) (Fin (theta c d + alpha c d r s)), normalized_about_zero (N := N) (Fin (theta c d - alpha c d r s))).
Proof.
  unfold tangent_angles. cbn [circ center radius]. rewrite minus_x, magnitude_x. cbn [nsub N xsub xopp xadd nabs].
  destruct (nle N (Fin (len (minus d c))) (Fin (Rabs (r + - s)))) eqn:L.
  - rewrite orb_true_r. apply le_x in L. rewrite Rle_bool_true by exact L. reflexivity.
  - apply le_xf in L. rewrite Rle_bool_false by exact L. replace (veq (pv c) (pv d)) with false.
    2:{ symmetry. apply veq_xf. intros ->. pose proof (Rabs_pos (r + - s)). replace (minus d d) with (P 0 0) in L by (apply pt_eq; cbn; ring). unfold len, inner in L. cbn in L. replace (0 * 0 + 0 * 0) with 0 in L by ring. rewrite sqrt_0 in L. lra. }
    cbn [orb]. destruct (alpha_ok c d r s L) as (A & C & _). pose proof (Rabs_pos (r + - s)) as Ra. cbn [ndiv N xdiv]. rewrite Req_bool_false by lra. unfold xacos.
    assert (B : -1 <= (r + - s) / len (minus d c) <= 1). { pose proof (COS_bound (alpha c d r s)) as B. rewrite (Rmult_comm (cos _)) in C. replace ((r + - s) / len (minus d c)) with (cos (alpha c d r s)); [lra|]. change (r + - s) with (r - s). rewrite <- C. field. lra. }
    rewrite !Rle_bool_true by lra. reflexivity.
Qed.
Lemma right_x c d r s : Rabs (r - s) < len (minus d c) -> right_tangent_angle (N := N) xacos (circ c r) (circ d s) = normalized_about_zero (N := N) (Fin (theta c d - alpha c d r s)).
Proof.
  intros L. pose proof (tangent_x c d r s) as H. rewrite Rle_bool_false in H by exact L. unfold tangent_angles in H. unfold right_tangent_angle. cbn [circ center radius] in *.
  destruct (_ || _); [discriminate H|]. exact (f_equal (fun o => match o with Some x => snd x | None => Nan end) H).
Qed.
Lemma inner_toward c d x : 0 < len (minus d c) -> inner (minus d c) (toward x) = len (minus d c) * cos (x - theta c d) /\ cross (minus d c) (toward x) = len (minus d c) * sin (x - theta c d).
Proof.
  intros H. destruct (theta_ok c d H) as (_ & A & B). unfold inner, cross, toward. cbn [px py minus]. rewrite A, B, cos_minus, sin_minus. split; ring.
Qed.

(** ** Chords *)
Lemma sagitta_eq c r a b : 0 <= r -> sagitta c r a b = r * (1 - cos ((b - a) / 2)).
Proof.
  intros R. unfold sagitta, distance. set (m := (a + b) / 2). set (d := (b - a) / 2). replace a with (m - d) by (unfold m, d; field). replace b with (m + d) by (unfold m, d; field).
  rewrite <- (sqrt_square (r * (1 - cos d))) by (pose proof (COS_bound d); nra). f_equal. unfold dist2, rim, mix, toward. cbn [px py]. rewrite cos_minus, sin_minus, cos_plus, sin_plus.
  pose proof (sin2_cos2 m) as S. unfold Rsqr in S. transitivity (r * (1 - cos d) * (r * (1 - cos d)) * (sin m * sin m + cos m * cos m)); [field|rewrite S; ring].
Qed.
Definition clip (x : R) : R := if Rlt_bool x (-1) then -1 else if Rlt_bool 1 x then 1 else x.
Lemma clip_ok x : -1 <= clip x <= 1 /\ (x <= 1 -> forall y, -1 <= y <= 1 -> (x <= y <-> clip x <= y)) /\ (-1 <= x <= 1 -> clip x = x).
Proof. unfold clip. destruct (Rlt_bool_spec x (-1)); [|destruct (Rlt_bool_spec 1 x)]; (split; [lra|split; [intros X y Y; lra|lra]]). Qed.
Lemma arc_angle_x c r h : 0 < r -> arc_angle (N := N) xacos (circ c r) (Fin h) = Fin (2 * acos (clip (1 - h / r))).
Proof.
  intros H. unfold arc_angle. cbn [circ radius]. rewrite x0, (proj2 (eq_xf _ _)) by lra. rewrite x1e, xZ. cbn [ndiv nsub N xdiv xsub xopp xadd nopp]. rewrite Req_bool_false by lra. cbn [xopp xadd].
  change (1 + - (h / r)) with (1 - h / r). unfold nclamp. destruct (clip_ok (1 - h / r)) as (B & _). revert B. unfold clip. cbn [nlt N xlt].
  change (IZR (-1)) with (- (1)). intros B. unfold xacos. destruct (Rlt_bool (1 - h / r) (- (1))); [|destruct (Rlt_bool 1 (1 - h / r))]; rewrite !Rle_bool_true by lra; reflexivity.
Qed.
(** the largest step allowed for a chord height *)
Definition step_of (r h : R) : R := 2 * acos (clip (1 - h / r)).
Lemma step_pos r h : 0 < r -> 0 < h -> 0 < step_of r h <= 2 * PI.
Proof.
  intros R H. unfold step_of. destruct (clip_ok (1 - h / r)) as (B & C & _). assert (0 < h / r) by (apply Rdiv_lt_0_compat; lra). assert (Q : clip (1 - h / r) < 1).
  { unfold clip. destruct (Rlt_bool_spec (1 - h / r) (-1)); [lra|]. destruct (Rlt_bool_spec 1 (1 - h / r)); lra. }
  pose proof (acos_bound (clip (1 - h / r))). pose proof (cos_acos _ B) as CA. split; [|lra]. destruct (Rle_lt_or_eq_dec 0 (acos (clip (1 - h / r)))) as [L|L]; [lra|lra|]. rewrite <- L, cos_0 in CA. lra.
Qed.
Lemma chord_step r h s : 0 < r -> 0 < h -> 0 <= s <= 2 * PI -> r * (1 - cos (s / 2)) <= h <-> s <= step_of r h.
Proof.
  intros R H S. destruct (clip_ok (1 - h / r)) as (B & C & _). assert (0 < h / r) by (apply Rdiv_lt_0_compat; lra). specialize (C ltac:(lra) (cos (s / 2)) (COS_bound _)).
  assert (E : r * (1 - cos (s / 2)) <= h <-> 1 - h / r <= cos (s / 2)).
  { assert (h = r * (h / r)) by (field; lra). set (q := h / r) in *. clearbody q. subst h. split; intros; nra. }
  rewrite E, C. unfold step_of. pose proof (acos_bound (clip (1 - h / r))) as AB. pose proof (cos_acos _ B) as CA. set (a := acos (clip (1 - h / r))) in *. set (y := clip (1 - h / r)) in *. clearbody a y. subst y. split.
  - intros L. apply Rnot_lt_le. intros G. pose proof (cos_decreasing_1 a (s / 2) ltac:(lra) ltac:(lra) ltac:(lra) ltac:(lra) ltac:(lra)). lra.
  - intros L. destruct (Rle_lt_or_eq_dec (s / 2) a) as [G|G]; [lra| |rewrite G; lra]. apply Rlt_le. apply cos_decreasing_1; lra.
Qed.
Lemma ceil_x x : nceil (N := N) (Fin x) = Fin (IZR (Zceil x)).
Proof. unfold nceil. cbn. unfold Zceil. rewrite opp_IZR. reflexivity. Qed.
Lemma clamp_Z z : nclamp (N := N) (Fin (IZR z)) n1 (nZ 32767) = Fin (IZR (Z.max 1 (Z.min z 32767))).
Proof.
  unfold nclamp. rewrite x1e, xZ. destruct (nlt N (Fin (IZR z)) (Fin 1)) eqn:A; [apply lt_x in A; apply (lt_IZR z 1) in A|apply lt_xf in A; apply (le_IZR 1 z) in A; destruct (nlt N (Fin 32767) (Fin (IZR z))) eqn:B; [apply lt_x in B; apply (lt_IZR 32767 z) in B|apply lt_xf in B; apply (le_IZR z 32767) in B]]; f_equal; f_equal; lia.
Qed.
Definition steps_of (r h arc : R) : Z := Z.max 1 (Z.min (Zceil (Rabs (arc / step_of r h))) 32767).
Lemma append_x c r start arc h poly : 0 < r -> 0 < h -> let n := Z.to_nat (steps_of r h arc) in
  append_arc (N := N) xacos (circ c r) (Fin start) (Fin arc) (Fin h) poly = Done (poly ++ map (fun i => pv (rim c r (toward (start + INR i / INR n * arc)))) (seq 0 (S n))).
Proof.
  intros R H n. destruct (step_pos r h R H) as [P _]. assert (SB : (1 <= steps_of r h arc <= 32767)%Z) by (unfold steps_of; lia).
  unfold append_arc. rewrite x0. rewrite (proj2 (lt_x _ _)) by exact H. cbn [negb]. cbn [circ radius]. rewrite (proj2 (eq_xf _ _)) by lra. change (Circle (pv c) (Fin r : T N)) with (circ c r).
  rewrite arc_angle_x by exact R. fold (step_of r h). cbn [ndiv N xdiv]. rewrite Req_bool_false by lra. cbn [nabs N]. rewrite ceil_x, clamp_Z. fold (steps_of r h arc). cbn [nnan N ntrunc]. rewrite Ztrunc_IZR.
  rewrite !xZ. cbn [ndiv N xdiv]. assert (0 < IZR (steps_of r h arc)) by (apply IZR_lt; lia). rewrite Req_bool_false by lra. f_equal. f_equal.
  assert (Nn : IZR (steps_of r h arc) = INR n) by (unfold n; rewrite INR_IZR_INZ, Z2Nat.id by lia; reflexivity). rewrite Nn.
  assert (N1 : (1 <= n)%nat) by (unfold n; lia). assert (0 < INR n) by (apply lt_0_INR; lia). replace (Z.to_nat (steps_of r h arc)) with n by reflexivity.
  change (seq 0 (S n)) with (0%nat :: seq 1 n). cbn [map]. f_equal.
  - rewrite point_x. f_equal. f_equal. f_equal. cbn [INR]. field. lra.
  - destruct n as [|m]; [lia|]. replace (S m - 1)%nat with m by lia. rewrite seq_S, map_app. cbn [map Nat.add]. f_equal.
    + apply map_ext. intros i. rewrite xZ. cbn [nmul nadd N xmul xadd]. rewrite point_x. f_equal. f_equal. f_equal. rewrite <- INR_IZR_INZ. field. lra.
    + f_equal. cbn [nadd N xadd]. rewrite point_x. f_equal. f_equal. f_equal. field. lra.
Qed.
