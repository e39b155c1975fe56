(** C76: circles. *)
From Coq Require Import ZArith Reals Lra Lia Psatz Bool List.
From Flocq Require Import Core.
From Flocq.IEEE754 Require Import BinarySingleNaN.
From Verif Require Import F32 F32Lemmas EasingBezier NumModel EasingExact BehaviorMeaning BehaviorExact GeomModel AffineModel GeomSpec GeomReal GeomExact AffineProofs CircleModel CircleSpec CircleProofs.
Import ListNotations.
Local Open Scope R_scope.

(** ** Exact arithmetic *)
(** one circle contains another if and only if its disc does *)
Theorem C76_contains c r d s : 0 <= r -> 0 <= s -> contains (N := N) (circ c r) (circ d s) = true <-> within (disc d s) (disc c r).
Proof. intros R S. rewrite contains_x, within_disc by assumption. reflexivity. Qed.
(** there are tangents if and only if neither disc is within the other *)
Theorem C76_none c r d s : 0 <= r -> 0 <= s ->
  tangent_angles (N := N) xacos (circ c r) (circ d s) = None <-> within (disc d s) (disc c r) \/ within (disc c r) (disc d s).
Proof.
  intros R S. rewrite !within_disc, (len_sym c d), tangent_x by assumption. destruct (Rle_bool_spec (len (minus d c)) (Rabs (r - s))) as [L|L].
  - split; [intros _|reflexivity]. unfold Rabs in L. destruct (Rcase_abs (r - s)); lra.
  - split; [discriminate 1|]. intros Q. exfalso. unfold Rabs in L. destruct (Rcase_abs (r - s)); lra.
Qed.
Lemma about_zero phi : Rabs phi < turn -> exists x, normalized_about_zero (N := N) (Fin phi) = Fin x /\ - (turn / 2) < x <= turn / 2 /\ (x = phi - turn \/ x = phi \/ x = phi + turn).
Proof.
  intros H. apply Rabs_lt_inv in H. destruct (about_zero_spec phi) as (x & E & B & k & K). exists x. split; [exact E|]. split; [exact B|].
  assert (T0 : 0 < turn) by (unfold turn, pi32; lra). assert (-2 < IZR k < 2) as [K1 K2] by nra. apply (lt_IZR (-2)) in K1. apply (lt_IZR k 2) in K2.
  assert (k = -1 \/ k = 0 \/ k = 1)%Z as [Q|[Q|Q]] by lia; subst k; [left|right; left|right; right]; lra.
Qed.
(** otherwise there are two, and the angles of both are reported: exactly, except that a turn that is taken off or added is the float nearest to a turn *)
Theorem C76_tangents c r d s : 0 <= r -> 0 <= s -> ~ within (disc d s) (disc c r) -> ~ within (disc c r) (disc d s) ->
  exists left right phi_l phi_r,
  tangent_angles (N := N) xacos (circ c r) (circ d s) = Some (Fin left, Fin right) /\
  right_tangent_angle (N := N) xacos (circ c r) (circ d s) = Fin right /\
  (forall u, unit u -> (tangent (disc c r) (disc d s) u <-> u = toward phi_l \/ u = toward phi_r)) /\
  0 < cross (minus d c) (toward phi_l) /\ cross (minus d c) (toward phi_r) < 0 /\
  (left = phi_l - turn \/ left = phi_l \/ left = phi_l + turn) /\ - (turn / 2) < left <= turn / 2 /\
  (right = phi_r - turn \/ right = phi_r \/ right = phi_r + turn) /\ - (turn / 2) < right <= turn / 2.
Proof.
  intros R S W1 W2. rewrite within_disc in W1, W2 by assumption. rewrite (len_sym c d) in W2. assert (L : Rabs (r - s) < len (minus d c)) by (apply Rabs_def1; lra).
  pose proof (Rabs_pos (r - s)) as Ra. assert (L0 : 0 < len (minus d c)) by lra. destruct (alpha_ok c d r s L) as (AB & CA & SA). destruct (theta_ok c d L0) as (TB & TX & TY).
  pose proof PI_upper as PU. assert (TP : 2 * PI < turn) by (unfold turn, pi32; lra).
  destruct (about_zero (theta c d + alpha c d r s)) as (x & EX & BX & KX); [apply Rabs_lt; lra|].
  destruct (about_zero (theta c d - alpha c d r s)) as (y & EY & BY & KY); [apply Rabs_lt; lra|].
  exists x, y, (theta c d + alpha c d r s), (theta c d - alpha c d r s). rewrite tangent_x, Rle_bool_false by exact L. rewrite right_x, EX, EY by exact L. split; [reflexivity|]. split; [reflexivity|].
  destruct (inner_toward c d (theta c d + alpha c d r s) L0) as [I1 C1]. destruct (inner_toward c d (theta c d - alpha c d r s) L0) as [I2 C2].
  replace (theta c d + alpha c d r s - theta c d) with (alpha c d r s) in I1, C1 by ring. replace (theta c d - alpha c d r s - theta c d) with (- alpha c d r s) in I2, C2 by ring. rewrite cos_neg in I2. rewrite sin_neg in C2.
  split; [|repeat split; try assumption; try (rewrite ?C1, ?C2; nra); tauto].
  intros u U. rewrite tangent_disc by assumption. split.
  - intros I. set (l := len (minus d c)) in *. set (w := cross (minus d c) u).
    assert (Q : w * w = (l * sin (alpha c d r s)) * (l * sin (alpha c d r s))).
    { assert (w * w + inner (minus d c) u * inner (minus d c) u = l * l). { unfold l. rewrite len_sq. unfold unit in U. transitivity (inner (minus d c) (minus d c) * (px u * px u + py u * py u)); [unfold w, cross, inner; ring|rewrite U; ring]. }
      pose proof (sin2_cos2 (alpha c d r s)) as SC. unfold Rsqr in SC. rewrite I, <- CA in H. nra. }
    assert (Sol : forall v, unit v -> inner (minus d c) v = inner (minus d c) u -> cross (minus d c) v = w -> u = v).
    { intros v V E1 E2. unfold w in E2. unfold inner, cross in E1, E2. assert (LL : px (minus d c) * px (minus d c) + py (minus d c) * py (minus d c) = l * l) by (symmetry; apply len_sq). set (m := minus d c) in *. assert (0 < l * l) by nra.
      apply pt_eq; apply (Rmult_eq_reg_l (l * l)); try lra; rewrite <- LL; [transitivity (px m * (px m * px u + py m * py u) - py m * (px m * py u - py m * px u)); [ring|rewrite <- E1, <- E2; ring]|transitivity (py m * (px m * px u + py m * py u) + px m * (px m * py u - py m * px u)); [ring|rewrite <- E1, <- E2; ring]]. }
    assert (P : (w - l * sin (alpha c d r s)) * (w + l * sin (alpha c d r s)) = 0) by (ring_simplify; nra). apply Rmult_integral in P. destruct P as [P|P]; [left|right]; apply Sol; try apply toward_unit; rewrite ?I1, ?I2, ?C1, ?C2, ?I; lra.
  - intros [EU|EU]; rewrite EU; rewrite ?I1, ?I2; lra.
Qed.
(** GetPoint is the point at that angle *)
Theorem C76_point c r a : 0 <= r -> exists p, get_point (N := N) (circ c r) (Fin a) = pv p /\ distance p c = r /\ minus p c = P (r * cos a) (r * sin a).
Proof.
  intros R. exists (rim c r (toward a)). split; [apply point_x|]. split.
  - unfold distance. rewrite <- (sqrt_square r) at 2 by exact R. f_equal. unfold dist2, rim, toward. cbn. pose proof (sin2_cos2 a) as S. unfold Rsqr in S. transitivity (r * r * (sin a * sin a + cos a * cos a)); [ring|rewrite S; ring].
  - unfold minus, rim, toward. apply pt_eq; cbn; ring.
Qed.
(** the arc angle of a chord height is the angle of the arc that is that high *)
Theorem C76_chord c r h : 0 < r -> exists m, arc_angle (N := N) xacos (circ c r) (Fin h) = Fin m /\ 0 <= m <= 2 * PI /\
  (h <= 0 -> m = 0) /\ (0 <= h <= 2 * r -> forall a, sagitta c r a (a + m) = h) /\ (2 * r <= h -> m = 2 * PI) /\ (r < h -> PI < m).
Proof.
  intros R. exists (2 * acos (clip (1 - h / r))). split; [apply arc_angle_x; exact R|]. destruct (clip_ok (1 - h / r)) as (B & _ & I). pose proof (acos_bound (clip (1 - h / r))) as AB. split; [lra|].
  assert (E : h = r * (h / r)) by (field; lra). set (q := h / r) in *. clearbody q. split; [|split; [|split]].
  - intros H. assert (clip (1 - q) = 1) as ->; [|rewrite acos_1; ring]. assert (q <= 0) by nra. unfold clip. destruct (Rlt_bool_spec (1 - q) (-1)); [lra|]. destruct (Rlt_bool_spec 1 (1 - q)); lra.
  - intros H a. rewrite sagitta_eq by lra. replace ((a + 2 * acos (clip (1 - q)) - a) / 2) with (acos (clip (1 - q))) by field. rewrite cos_acos by exact B. rewrite I by nra. rewrite E. ring.
  - intros H. assert (clip (1 - q) = - (1)) as ->; [|rewrite acos_opp, acos_1; ring]. assert (2 <= q) by nra. unfold clip. destruct (Rlt_bool_spec (1 - q) (-1)); [reflexivity|]. destruct (Rlt_bool_spec 1 (1 - q)); lra.
  - intros H. assert (1 < q) by nra. assert (C : clip (1 - q) < 0) by (unfold clip; destruct (Rlt_bool_spec (1 - q) (-1)); [lra|]; destruct (Rlt_bool_spec 1 (1 - q)); lra).
    pose proof (cos_acos _ B) as CA. apply Rnot_le_lt. intros G. pose proof (cos_ge_0 (acos (clip (1 - q))) ltac:(lra) ltac:(lra)). lra.
Qed.
(** the documentation says that the angle is less than a whole turn *)
Theorem C76_full_refuted : exists c r h, 0 < r /\ arc_angle (N := N) xacos (circ c r) (Fin h) = Fin (2 * PI).
Proof. exists (P 0 0), 1, 2. split; [lra|]. destruct (C76_chord (P 0 0) 1 2 ltac:(lra)) as (m & -> & _ & _ & _ & M & _). rewrite M by lra. reflexivity. Qed.
(** [k] equal steps cover the arc without exceeding the chord height *)
Definition fits (c : pt) (r start arc h : R) (k : nat) : Prop := (1 <= k)%nat /\ Rabs arc <= INR k * (2 * PI) /\
  forall i, (i < k)%nat -> sagitta c r (start + INR i / INR k * arc) (start + INR (S i) / INR k * arc) <= h.
Lemma fits_step c r start arc h k : 0 < r -> 0 < h -> fits c r start arc h k <-> (1 <= k)%nat /\ Rabs arc <= INR k * step_of r h.
Proof.
  intros R H. unfold fits. destruct (step_pos r h R H) as [P PP].
  assert (Q : (1 <= k)%nat -> Rabs arc <= INR k * (2 * PI) -> forall i, sagitta c r (start + INR i / INR k * arc) (start + INR (S i) / INR k * arc) <= h <-> Rabs arc <= INR k * step_of r h).
  { intros K A i. assert (K0 : 0 < INR k) by (apply lt_0_INR; lia). rewrite sagitta_eq by lra. replace ((start + INR (S i) / INR k * arc - (start + INR i / INR k * arc)) / 2) with (arc / INR k / 2) by (rewrite S_INR; field; lra).
    assert (E : cos (arc / INR k / 2) = cos (Rabs arc / INR k / 2)). { unfold Rabs. destruct (Rcase_abs arc); [|reflexivity]. rewrite <- cos_neg. f_equal. field. lra. }
    rewrite E. assert (M : Rabs arc = INR k * (Rabs arc / INR k)) by (field; lra). pose proof (Rabs_pos arc). set (q := Rabs arc / INR k) in *. clearbody q. rewrite M in *. assert (0 <= q <= 2 * PI) by nra. rewrite chord_step by assumption. split; intros; nra. }
  split.
  - intros (K & A & F). split; [exact K|]. apply (Q K A 0%nat), F. lia.
  - intros (K & A). assert (A' : Rabs arc <= INR k * (2 * PI)). { pose proof (pos_INR k). nra. } split; [exact K|]. split; [exact A'|]. intros i _. apply Q; assumption.
Qed.
(** an arc is appended as the fewest equal steps that fit, but never more than 32767 steps *)
Theorem C76_arc c r start arc h poly : 0 < r -> 0 < h -> exists n, (1 <= Z.of_nat n <= 32767)%Z /\
  append_arc (N := N) xacos (circ c r) (Fin start) (Fin arc) (Fin h) poly = Done (poly ++ map (fun i => pv (rim c r (toward (start + INR i / INR n * arc)))) (seq 0 (S n))) /\
  (forall k, fits c r start arc h k -> (Z.of_nat k <= 32767)%Z -> fits c r start arc h n /\ (n <= k)%nat) /\
  ((forall k, fits c r start arc h k -> (32767 < Z.of_nat k)%Z) -> Z.of_nat n = 32767%Z).
Proof.
  intros R H. exists (Z.to_nat (steps_of r h arc)). assert (SB : (1 <= steps_of r h arc <= 32767)%Z) by (unfold steps_of; lia). split; [lia|]. split; [apply append_x; assumption|].
  destruct (step_pos r h R H) as [P _]. set (q := Rabs (arc / step_of r h)). assert (M : Rabs arc = q * step_of r h).
  { unfold q, Rdiv. rewrite Rabs_mult, Rabs_inv, (Rabs_pos_eq (step_of r h)) by lra. field. lra. }
  assert (K : forall k, fits c r start arc h k <-> (1 <= k)%nat /\ (Zceil q <= Z.of_nat k)%Z).
  { intros k. rewrite fits_step, M, INR_IZR_INZ by assumption. split; intros (A & B); (split; [exact A|]).
    - apply Zceil_glb. apply (Rmult_le_reg_r (step_of r h)); assumption.
    - apply Rmult_le_compat_r; [lra|]. apply Rle_trans with (IZR (Zceil q)); [apply Zceil_ub|apply IZR_le; exact B]. }
  unfold steps_of in *. fold q in SB |- *. split.
  - intros k F B. rewrite K in F |- *. lia.
  - intros F. destruct (Z_le_gt_dec (Zceil q) 32767) as [G|G]; [|lia]. pose proof (F (Z.to_nat (Z.max 1 (Zceil q)))) as F1. rewrite K in F1. specialize (F1 ltac:(lia)). lia.
Qed.
(** a circle that is a point is appended as that point, twice *)
Theorem C76_arc_point c start arc h poly : 0 < h -> append_arc (N := N) xacos (circ c 0) (Fin start) (Fin arc) (Fin h) poly = Done (poly ++ [pv c; pv c]).
Proof. intros H. unfold append_arc. rewrite x0, (proj2 (lt_x _ _)) by exact H. cbn [negb circ radius center]. rewrite (proj2 (eq_x _ _)) by reflexivity. reflexivity. Qed.

(** ** Floats *)
Section Floats.
Variable E : elem.
Notation F := (fnum E).
Variable acos : f32 -> f32.
(** whatever the floats: the call fails only if the height is not positive, is undefined only if the number of steps is not a number, and otherwise appends from 2 to 32768 points, the first and the last of which are those of the ends of the arc *)
Theorem C76_count (c : circle F) (start arc h : f32) poly :
  match append_arc (N := F) acos c start arc h poly with
  | CheckFails => flt f0 h = false
  | Undefined => flt f0 h = true /\ feq (radius c) f0 = false /\ fisnan (fdiv arc (arc_angle (N := F) acos c h)) = true
  | Done out => flt f0 h = true /\ exists added, out = poly ++ added /\ (2 <= Z.of_nat (length added) <= 32768)%Z /\
      (feq (radius c) f0 = true -> added = [center c; center c]) /\
      (feq (radius c) f0 = false -> hd_error added = Some (get_point (N := F) c start) /\ nth_error added (length added - 1) = Some (get_point (N := F) c (fadd start arc)))
  end.
Proof.
  unfold append_arc. change (nlt F n0 h) with (flt f0 h). change (neqb F (radius c) n0) with (feq (radius c) f0). destruct (flt f0 h) eqn:H; cbn [negb]; [|reflexivity].
  destruct (feq (radius c) f0) eqn:R.
  - split; [reflexivity|]. eexists. split; [reflexivity|]. split; [cbn; lia|]. split; [reflexivity|]. intros Q. discriminate Q.
  - change (ndiv F arc (arc_angle (N := F) acos c h)) with (fdiv arc (arc_angle (N := F) acos c h)). set (d := fdiv arc (arc_angle (N := F) acos c h)). clearbody d.
    change (nceil (N := F) (nabs F d)) with (fopp (ffloor (fopp (fabs d)))). change (nclamp (N := F) (fopp (ffloor (fopp (fabs d)))) n1 (nZ 32767)) with (fclamp (fopp (ffloor (fopp (fabs d)))) f1 (fZ 32767)).
    set (v := fopp (ffloor (fopp (fabs d)))). change (nnan F (fclamp v f1 (fZ 32767))) with (fisnan (fclamp v f1 (fZ 32767))).
    assert (Nv : is_nan v = is_nan d).
    { unfold v, fopp, fabs. rewrite is_nan_Bopp. destruct d as [s|s| |s m e B]; try reflexivity; apply finite_not_nan; rewrite (proj2 (ffloor_R _)), is_finite_Bopp, is_finite_Babs; reflexivity. }
    destruct (is_nan d) eqn:Nd.
    + assert (fisnan (fclamp v f1 (fZ 32767)) = true) as ->. { destruct v; try discriminate Nv. reflexivity. } split; [reflexivity|]. split; [reflexivity|]. exact Nd.
    + destruct (fZ_exact 32767) as [RZ FZ]; [lia|]. destruct (fclamp_range v f1 (fZ 32767)) as [FC RC]; [exact Nv|reflexivity|exact FZ| |].
      { rewrite RZ. change f1 with (fZ 1). rewrite (proj1 (fZ_exact 1 ltac:(cbn; lia))). lra. }
      unfold fisnan. rewrite (finite_not_nan _ FC). change f1 with (fZ 1) in RC at 1. rewrite RZ, (proj1 (fZ_exact 1 ltac:(cbn; lia))) in RC. set (w := fclamp v f1 (fZ 32767)) in *. clearbody w. change (ntrunc F w) with (ftoZ w).
      destruct (ftoZ_spec w) as [Z1 Z2]; [lra|]. assert (ZB : (1 <= ftoZ w <= 32767)%Z). { split; [apply Z.lt_succ_r; apply lt_IZR; rewrite succ_IZR; lra|apply le_IZR; lra]. }
      split; [reflexivity|]. eexists. split; [reflexivity|]. cbn [length]. rewrite app_length, map_length, seq_length. cbn [length]. split; [lia|]. split; [intros Q; discriminate Q|]. intros _. split; [reflexivity|].
      match goal with |- nth_error (?x :: ?l ++ [?y]) ?k = _ => replace k with (S (length l)) by (rewrite map_length, seq_length; lia); cbn [nth_error]; rewrite nth_error_app2, Nat.sub_diag by lia end. reflexivity.
Qed.
(** the documentation excludes none of these arguments: for an empty arc of a large circle the number of steps is not a number *)
Theorem C76_undefined_refuted : acos f1 = f0 -> exists (c : circle F) (start h : f32),
  make_circle (center c) (radius c) = Some c /\ flt f0 h = true /\ append_arc (N := F) acos c start f0 h [] = Undefined.
Proof.
  intros A. exists (Circle (V (f0 : T F) (f0 : T F)) (fdy 1 26 : T F)), f0, f1. split; [reflexivity|]. split; [reflexivity|].
  unfold append_arc. change (nlt F n0 f1) with (flt f0 f1). replace (flt f0 f1) with true by (vm_compute; reflexivity). cbn [negb radius]. replace (neqb F (fdy 1 26) n0) with false by (vm_compute; reflexivity).
  unfold arc_angle. cbn [radius]. replace (neqb F (fdy 1 26) n0) with false by (vm_compute; reflexivity).
  assert (K : nclamp (N := F) (nsub F n1 (ndiv F f1 (fdy 1 26))) (nopp F n1) n1 = f1) by (apply (B2SF_inj 24 128); vm_compute; reflexivity). rewrite K, A. clear K.
  replace (nnan F (nclamp (N := F) (nceil (N := F) (nabs F (ndiv F f0 (nmul F (nZ 2) f0)))) n1 (nZ 32767))) with true by (vm_compute; reflexivity). reflexivity.
Qed.
End Floats.

(** ** Examples *)
(** two circles with tangents: the hypotheses of C76_tangents can hold *)
Example ex_apart : ~ within (disc (P 10 0) 1) (disc (P 0 0) 2) /\ ~ within (disc (P 0 0) 2) (disc (P 10 0) 1).
Proof.
  assert (L : len (minus (P 10 0) (P 0 0)) = 10) by (unfold len, inner, minus; cbn; replace ((10 - 0) * (10 - 0) + (0 - 0) * (0 - 0)) with (10 * 10) by ring; apply sqrt_square; lra).
  rewrite !within_disc by lra. rewrite (len_sym (P 0 0)), L. lra.
Qed.
Example ex_inside : within (disc (P 1 0) 1) (disc (P 0 0) 2).
Proof. apply within_disc; try lra. unfold len, inner, minus. cbn. replace ((1 - 0) * (1 - 0) + (0 - 0) * (0 - 0)) with 1 by ring. rewrite sqrt_1. lra. Qed.
(** a half circle of radius 1 to within 1 is one step; two steps are needed for less *)
Example ex_fits : fits (P 0 0) 1 0 PI 1 1 /\ ~ fits (P 0 0) 1 0 PI (1 / 2) 1 /\ fits (P 0 0) 1 0 PI (1 / 2) 2.
Proof.
  pose proof PI_RGT_0 as P0. assert (A : Rabs PI = PI) by (apply Rabs_pos_eq; lra).
  assert (C4 : 1 / 2 < cos (PI / 4)) by (rewrite <- cos_PI3; apply cos_decreasing_1; lra).
  split; [|split].
  - split; [lia|]. split; [cbn; lra|]. intros i H. rewrite sagitta_eq by lra. replace i with 0%nat by lia. replace ((0 + INR 1 / INR 1 * PI - (0 + INR 0 / INR 1 * PI)) / 2) with (PI / 2) by (cbn; field). rewrite cos_PI2. lra.
  - intros (_ & _ & H). specialize (H 0%nat ltac:(lia)). rewrite sagitta_eq in H by lra. replace ((0 + INR 1 / INR 1 * PI - (0 + INR 0 / INR 1 * PI)) / 2) with (PI / 2) in H by (cbn; field). rewrite cos_PI2 in H. lra.
  - split; [lia|]. split; [cbn; lra|]. intros i H. rewrite sagitta_eq by lra. rewrite S_INR. replace ((0 + (INR i + 1) / INR 2 * PI - (0 + INR i / INR 2 * PI)) / 2) with (PI / 4) by (cbn [INR]; field). lra.
Qed.
Print Assumptions C76_contains.
Print Assumptions C76_none.
Print Assumptions C76_tangents.
Print Assumptions C76_point.
Print Assumptions C76_chord.
Print Assumptions C76_full_refuted.
Print Assumptions C76_arc.
Print Assumptions C76_arc_point.
Print Assumptions C76_count.
Print Assumptions C76_undefined_refuted.
