(** C64: barycentric coordinates, projections and intersection ratios mean what they say. *)
From Coq Require Import ZArith Reals Lra Psatz Bool List.
From Flocq Require Import Core.
From Verif Require BehaviorExact AngleProps.
From Verif Require Import NumModel EasingExact GeomModel GeomSpec GeomReal GeomExact AlgorithmsModel AlgorithmsSpec AlgorithmsProofs.
Import ListNotations.
Local Open Scope R_scope.
Notation N := xnum.

(** Two segments get ratios exactly when they share a point *)
Theorem C64_ratio_none a b c d : segment_ratio (sg a b) (sg c d) = None <-> ~ meet (seg_set a b) (seg_set c d).
Proof.
  pose proof (ratio_spec a b c d) as R. destruct (segment_ratio (sg a b) (sg c d)) as [[t s]|]; [|tauto].
  destruct R as (rt & rs & _ & _ & F & _). split; [discriminate|]. intros H. elim H. exact (first_in _ _ _ _ F).
Qed.
(** and then each ratio is the smallest one at which that segment is in the other *)
Theorem C64_ratio_first a b c d t s : segment_ratio (sg a b) (sg c d) = Some (t, s) ->
  exists rt rs, t = Fin rt /\ s = Fin rs /\ first_at a b (seg_set c d) rt /\ first_at c d (seg_set a b) rs.
Proof. intros E. pose proof (ratio_spec a b c d) as R. rewrite E in R. exact R. Qed.
(** it agrees with the test for intersection *)
Theorem C64_ratio_test a b c d : (exists r, segment_ratio (sg a b) (sg c d) = Some r) <-> int_segments (sg a b) (sg c d) = true.
Proof.
  rewrite segments. pose proof (C64_ratio_none a b c d) as NN. pose proof (ratio_spec a b c d) as R.
  destruct (segment_ratio (sg a b) (sg c d)) as [[t s]|].
  - destruct R as (rt & rs & _ & _ & F & _). split; [intros _; exact (first_in _ _ _ _ F)|]. intros _. eexists. reflexivity.
  - split; [intros [r H]; discriminate|]. intros H. elim R. exact H.
Qed.
(** segments that are not parallel: both ratios give the same point *)
Theorem C64_ratio_cross a b c d rt rs : ~ parallel a b c d -> segment_ratio (sg a b) (sg c d) = Some (Fin rt : T N, Fin rs : T N) -> mix rt a b = mix rs c d.
Proof.
  intros NP E. apply C64_ratio_first in E. destruct E as (t & s & E1 & E2 & (_ & (u & _ & F) & _) & (_ & (v & _ & G) & _)). injection E1 as <-. injection E2 as <-.
  assert (D : det2 (sub b a) (sub d c) <> 0) by (unfold parallel in NP; unfold det2, sub; cbn; lra).
  apply crossing in F; [|exact D]. symmetry in G. apply crossing in G; [|exact D]. apply crossing; [exact D|tauto].
Qed.
(** a segment without length gets the ratio 0 *)
Lemma mix_same t a : mix t a a = a. Proof. apply pt_eq; cbn; ring. Qed.
Theorem C64_ratio_degenerate a c d t s : segment_ratio (sg a a) (sg c d) = Some (t, s) \/ segment_ratio (sg c d) (sg a a) = Some (s, t) -> t = Fin 0.
Proof.
  intros E. assert (exists rt S, t = Fin rt /\ first_at a a S rt) as (rt & S & -> & (B & Hs & F)).
  { destruct E as [E|E]; apply C64_ratio_first in E; destruct E as (x & y & -> & -> & F & G); eauto. }
  f_equal. assert (L : rt <= 0); [|lra]. apply F; [lra|]. rewrite mix_same in *. exact Hs.
Qed.
(** the intersection point is the first point of the first segment that is in the second *)
Theorem C64_intersection a b c d :
  match segment_intersection (sg a b) (sg c d) with
  | None => ~ meet (seg_set a b) (seg_set c d)
  | Some q => exists t, q = pv (mix t a b) /\ first_at a b (seg_set c d) t
  end.
Proof.
  unfold segment_intersection. pose proof (ratio_spec a b c d) as R. destruct (segment_ratio (sg a b) (sg c d)) as [[t s]|]; [|exact R].
  destruct R as (rt & rs & -> & _ & F & _). exists rt. split; [|exact F]. rewrite lerp_x. f_equal. apply pt_eq; cbn; ring.
Qed.
(** lines: a ratio pair exists exactly when the directions are not parallel, and it is the only
    pair of ratios at which the two lines agree *)
Theorem C64_line_none a b c d : line_ratio (sg a b) (sg c d) = None <-> parallel a b c d.
Proof.
  unfold line_ratio, seg_vector. cbn [sg s_start s_end]. rewrite !sub_x, !det_x, x0. unfold parallel.
  destruct (neqb N (Fin (det2 (sub b a) (sub d c))) (Fin 0)) eqn:D; [apply eq_x in D|apply eq_xf in D]; unfold det2, sub in D; cbn in D; split; intros; try reflexivity; try discriminate; lra.
Qed.
Theorem C64_line_only a b c d t s : line_ratio (sg a b) (sg c d) = Some (t, s) ->
  exists rt rs, t = Fin rt /\ s = Fin rs /\ forall rt' rs', mix rt' a b = mix rs' c d <-> rt' = rt /\ rs' = rs.
Proof.
  unfold line_ratio, seg_vector. cbn [sg s_start s_end]. rewrite !sub_x, !det_x, x0.
  destruct (neqb N (Fin (det2 (sub b a) (sub d c))) (Fin 0)) eqn:D; [discriminate|]. apply eq_xf in D. rewrite !div_x by exact D.
  intros E. injection E as <- <-. do 2 eexists. split; [reflexivity|]. split; [reflexivity|]. intros. apply crossing. exact D.
Qed.

(** barycentric coordinates: none exactly for collinear corners; otherwise the only weights with
    sum one that give the point back *)
Theorem C64_barycentric_none a b c p : barycentric (tr a b c) (pv p) = None <-> parallel a b a c.
Proof.
  unfold barycentric. cbn [tr GeomModel.p0 GeomModel.p1 GeomModel.p2]. rewrite !sub_x, !det_x, x0. unfold parallel.
  destruct (neqb N (Fin (det2 (sub c a) (sub b c))) (Fin 0)) eqn:D; [apply eq_x in D|apply eq_xf in D]; unfold det2, sub in D; cbn in D; split; intros; try reflexivity; try discriminate; lra.
Qed.
Theorem C64_barycentric a b c p x y z : barycentric (tr a b c) (pv p) = Some (x, y, z) ->
  exists u v w, x = Fin u /\ y = Fin v /\ z = Fin w /\
  forall u' v' w', (u' + v' + w' = 1 /\ p = P (u' * px a + v' * px b + w' * px c) (u' * py a + v' * py b + w' * py c)) <-> (u' = u /\ v' = v /\ w' = w).
Proof.
  unfold barycentric. cbn [tr GeomModel.p0 GeomModel.p1 GeomModel.p2]. rewrite !sub_x, !det_x, x0, x1e.
  destruct (neqb N (Fin (det2 (sub c a) (sub b c))) (Fin 0)) eqn:D; [discriminate|]. apply eq_xf in D. rewrite !div_x by exact D.
  intros E. injection E as <- <- <-. do 3 eexists. split; [reflexivity|]. split; [reflexivity|]. split; [reflexivity|]. intros u' v' w'. split.
  - intros [S ->]. assert (w' = 1 - u' - v') as -> by lra. unfold det2, sub in *. cbn in *. split; [|split]; field; exact D.
  - intros (-> & -> & ->). split; [ring|]. unfold det2, sub in *. cbn in *. apply pt_eq; cbn; field; exact D.
Qed.
(** the point is in the triangle exactly when none of its coordinates is negative *)
Theorem C64_barycentric_inside a b c p u v w : barycentric (tr a b c) (pv p) = Some (Fin u : T N, Fin v : T N, Fin w : T N) ->
  (tri_set a b c p <-> 0 <= u /\ 0 <= v /\ 0 <= w).
Proof.
  intros E. apply C64_barycentric in E. destruct E as (u' & v' & w' & E1 & E2 & E3 & U). injection E1 as <-. injection E2 as <-. injection E3 as <-. split.
  - intros (u' & v' & w' & A & B & C & S & Q). destruct (proj1 (U u' v' w') (conj S Q)) as (-> & -> & ->). auto.
  - intros (A & B & C). destruct (proj2 (U u v w)) as [S Q]; [auto|]. exists u, v, w. auto.
Qed.

(** the vector from a point to a line: none exactly for a segment without length; otherwise it ends
    on the line, is orthogonal to it and no point of the line is nearer *)
Theorem C64_projection_none p a b : to_projection (pv p) (sg a b) = None <-> a = b.
Proof.
  unfold to_projection, seg_vector. cbn [sg s_start s_end]. rewrite !sub_x. change (magnitude_squared (pv (sub b a))) with (Fin (dot2 (sub b a) (sub b a)) : T N). rewrite x0.
  destruct (neqb N (Fin (dot2 (sub b a) (sub b a))) (Fin 0)) eqn:D; [apply eq_x in D|apply eq_xf in D]; split; intros H; try reflexivity; try discriminate.
  - symmetry. apply sub_zero, dot_zero. exact D.
  - elim D. subst. unfold dot2, sub. cbn. ring.
Qed.
Theorem C64_projection p a b v : to_projection (pv p) (sg a b) = Some v ->
  exists w k, v = pv w /\ P (px p + px w) (py p + py w) = mix k a b /\
  px w * (px b - px a) + py w * (py b - py a) = 0 /\
  (forall k', px w * px w + py w * py w <= dist2 p (mix k' a b)) /\
  (exists r, seg_project (sg a b) (pv p) = Some r /\ v = vsub (seg_lerp (sg a b) r) (pv p)).
Proof.
  unfold to_projection, seg_vector. cbn [sg s_start s_end]. rewrite !sub_x. change (magnitude_squared (pv (sub b a))) with (Fin (dot2 (sub b a) (sub b a)) : T N). rewrite x0, det_x.
  destruct (neqb N (Fin (dot2 (sub b a) (sub b a))) (Fin 0)) eqn:D; [discriminate|]. apply eq_xf in D. rewrite div_x by exact D. intros E. injection E as <-.
  assert (NE : a <> b) by (intros ->; apply D; unfold dot2, sub; cbn; ring).
  destruct (project_x a b p NE) as [Q PR]. change (Seg (pv a) (pv b)) with (sg a b) in *. set (m := dot2 (sub b a) (sub b a)) in *. set (k := dot2 (sub p a) (sub b a) / m) in *.
  set (c := det2 (sub b a) (sub a p) / m). assert (Km : k * m = dot2 (sub p a) (sub b a)) by (unfold k; field; lra). assert (Cm : c * m = det2 (sub b a) (sub a p)) by (unfold c; field; lra).
  exists (P (c * - (py b - py a)) (c * (px b - px a))), k. split; [reflexivity|].
  assert (OL : P (px p + c * - (py b - py a)) (py p + c * (px b - px a)) = mix k a b).
  { apply pt_eq; apply Rmult_eq_reg_r with m; try lra; cbn.
    - replace ((px p + c * - (py b - py a)) * m) with (px p * m - (c * m) * (py b - py a)) by ring. replace (((1 - k) * px a + k * px b) * m) with (px a * m + (k * m) * (px b - px a)) by ring. rewrite Cm, Km. unfold m, dot2, det2, sub. cbn. ring.
    - replace ((py p + c * (px b - px a)) * m) with (py p * m + (c * m) * (px b - px a)) by ring. replace (((1 - k) * py a + k * py b) * m) with (py a * m + (k * m) * (py b - py a)) by ring. rewrite Cm, Km. unfold m, dot2, det2, sub. cbn. ring. }
  split; [exact OL|]. split; [cbn; ring|]. split.
  - intros k'. apply (f_equal px) in OL as O1. apply (f_equal py) in OL as O2. cbn in O1, O2.
    assert (P1 : px p = px (mix k a b) + c * (py b - py a)) by (cbn; lra). assert (P2 : py p = py (mix k a b) - c * (px b - px a)) by (cbn; lra).
    unfold dist2. rewrite P1, P2. cbn. 
    match goal with |- ?l <= ?r => replace r with (l + (Rsqr (k - k') * (Rsqr (px b - px a) + Rsqr (py b - py a)))) by (unfold Rsqr; ring) end.
    pose proof (Rle_0_sqr (k - k')). pose proof (Rle_0_sqr (px b - px a)). pose proof (Rle_0_sqr (py b - py a)). nra.
  - exists (Fin k). split; [exact PR|]. rewrite lerp_x, sub_x. apply (f_equal px) in OL as O1. apply (f_equal py) in OL as O2. cbn in O1, O2.
    unfold vscale, orthogonal_vec. cbn [pv vx vy sub px py nmul nopp N xmul xopp]. unfold pv. cbn [px py sub]. f_equal; f_equal; lra.
Qed.

(** SpiralLerp: the length goes linearly from one to the other while the direction turns by the
    same share of the angle between them *)
Definition xacos : T N -> T N := xmap acos.
Lemma norm_origin : norm origin = 0.
Proof. unfold norm, origin. cbn. replace (0 * 0 + 0 * 0) with 0 by ring. apply sqrt_0. Qed.
Lemma norm_pos a : a <> origin -> 0 < norm a.
Proof.
  intros H. unfold norm. apply sqrt_lt_R0. destruct (Req_dec (px a) 0) as [X|X]; [destruct (Req_dec (py a) 0) as [Y|Y]|]; [|nra|nra].
  elim H. apply pt_eq; assumption.
Qed.
Lemma heading_norm a h : heading a h -> a <> origin -> h = scaled (/ norm a) a.
Proof. intros (E & _) H. pose proof (norm_pos a H) as P. set (n := norm a) in *. rewrite E. apply pt_eq; cbn; field; lra. Qed.
Lemma heading_unique a h k : heading a h -> heading a k -> h = k.
Proof.
  intros H K. destruct (veq (pv a) (pv origin)) eqn:Q; [apply veq_x in Q|apply veq_xf in Q].
  - destruct H as (_ & _ & H), K as (_ & _ & K). rewrite H, K by exact Q. reflexivity.
  - rewrite (heading_norm a h H Q), (heading_norm a k K Q). reflexivity.
Qed.
Lemma unit_x a h : heading a h -> unit_vec (pv a) = Some (pv h).
Proof.
  intros H. unfold unit_vec. cbn [pv vx vy nnan nfin N orb negb]. rewrite x0.
  change ((neqb N (Fin (px a)) (Fin 0) && neqb N (Fin (py a)) (Fin 0))%bool) with (veq (pv a) (pv origin)).
  destruct (veq (pv a) (pv origin)) eqn:Q; [apply veq_x in Q|apply veq_xf in Q].
  - destruct H as (_ & _ & H). rewrite (H Q), Q. unfold sign1. cbn [nsign N xneg origin px py]. rewrite Rlt_bool_false by lra. rewrite x1e. reflexivity.
  - rewrite (heading_norm a h H Q). rewrite half_x. unfold vscale, magnitude. cbn [pv vx vy nmul N xmul nhypot xmap2].
    pose proof (norm_pos a Q) as P. replace (sqrt (/ 2 * px a * (/ 2 * px a) + / 2 * py a * (/ 2 * py a))) with (norm a / 2).
    2:{ unfold norm. replace (/ 2 * px a * (/ 2 * px a) + / 2 * py a * (/ 2 * py a)) with ((px a * px a + py a * py a) * (/ 2 * / 2)) by field.
        rewrite sqrt_mult_alt by nra. rewrite sqrt_square by lra. field. }
    rewrite (proj2 (eq_xf _ _)) by lra. rewrite !div_x by lra. unfold pv, scaled. cbn [px py]. do 2 f_equal; f_equal; field; lra.
Qed.
Lemma norm_1 h : norm h = 1 -> px h * px h + py h * py h = 1.
Proof. unfold norm. intros H. rewrite <- (sqrt_sqrt (px h * px h + py h * py h)) by nra. rewrite H. ring. Qed.
Lemma half_turn_x : half_turn (N := N) = Fin (13176795 / 4194304).
Proof. reflexivity. Qed.
Lemma signed_x a b ha hb r : heading a ha -> heading b hb -> - PI < r <= PI -> hb = turned r ha -> signed_angle xacos (pv a) (pv b) = Some (Fin r).
Proof.
  intros Ha Hb R ->. unfold signed_angle. rewrite (unit_x a _ Ha), (unit_x b _ Hb), dot_x, det_x.
  pose proof (norm_1 ha (proj1 (proj2 Ha))) as U. pose proof (COS_bound r) as CB. pose proof AngleProps.T_pi as TP. unfold AngleProps.T in TP. pose proof PI_RGT_0 as PP.
  assert (D : dot2 ha (turned r ha) = cos r). { unfold dot2, turned. cbn. replace (_ + _) with ((px ha * px ha + py ha * py ha) * cos r) by ring. rewrite U. ring. }
  assert (D' : det2 ha (turned r ha) = sin r). { unfold det2, turned. cbn. replace (_ - _) with ((px ha * px ha + py ha * py ha) * sin r) by ring. rewrite U. ring. }
  rewrite D, D', x1e, x0. unfold nclamp. cbn [nopp N xopp]. rewrite (proj2 (lt_xf _ _)) by lra. rewrite (proj2 (lt_xf _ _)) by lra.
  unfold xacos. cbn [xmap]. rewrite half_turn_x. f_equal.
  assert (A : acos (cos r) = Rabs r).
  { unfold Rabs. destruct (Rcase_abs r); [rewrite <- cos_neg|]; apply acos_cos; lra. }
  rewrite A. assert (B : Rabs r <= PI) by (apply Rabs_le; lra). rewrite (proj2 (eq_xf _ _)) by lra. cbn [orb].
  destruct (nle N (Fin 0) (Fin (sin r))) eqn:L; [apply le_x in L|apply le_xf in L].
  - f_equal. apply Rabs_pos_eq. destruct (Rle_or_lt 0 r) as [G|G]; [exact G|]. exfalso. assert (S : 0 < sin (- r)) by (apply sin_gt_0; lra). rewrite sin_neg in S. lra.
  - cbn [nopp N xopp]. f_equal. rewrite Rabs_left; [ring|]. destruct (Rle_or_lt 0 r) as [G|G]; [|exact G]. exfalso. pose proof (sin_ge_0 r G). lra.
Qed.
Lemma direction_x a h : heading a h -> exists f, direction (pv a) = Fin f /\ h = P (cos f) (sin f).
Proof.
  intros H. exists (atan2R (py a) (px a)). split; [reflexivity|]. destruct (veq (pv a) (pv origin)) eqn:Q; [apply veq_x in Q|apply veq_xf in Q].
  - rewrite (proj2 (proj2 H) Q), Q. unfold origin. cbn [px py]. unfold atan2R. rewrite !Rlt_bool_false by lra. rewrite cos_0, sin_0. reflexivity.
  - destruct (BehaviorExact.atan2_x (px a) (py a)) as (_ & X & Y); [intros [X Y]; apply Q; apply pt_eq; assumption|]. change (sqrt (px a * px a + py a * py a)) with (norm a) in X, Y.
    pose proof (norm_pos a Q) as P. rewrite (heading_norm a h H Q). apply pt_eq; cbn; apply Rmult_eq_reg_l with (norm a); try lra; rewrite <- Rmult_assoc, Rinv_r, Rmult_1_l by lra; assumption.
Qed.
Theorem C64_spiral a b ha hb r t : heading a ha -> heading b hb -> - PI < r <= PI -> hb = turned r ha ->
  spiral_lerp xacos (pv a) (pv b) (Fin t : T N) = Some (pv (scaled ((1 - t) * norm a + t * norm b) (turned (t * r) ha))).
Proof.
  intros Ha Hb R E. unfold spiral_lerp. rewrite x0, x1e. destruct (neqb N (Fin t) (Fin 0)) eqn:Z.
  { apply eq_x in Z. subst t. do 2 f_equal. rewrite (proj1 Ha) at 1. rewrite !Rmult_0_l. unfold turned, scaled. cbn. rewrite cos_0, sin_0. apply pt_eq; cbn; ring. }
  destruct (neqb N (Fin t) (Fin 1)) eqn:O.
  { apply eq_x in O. subst t. do 2 f_equal. rewrite (proj1 Hb) at 1. rewrite E. replace (1 * r) with r by ring. apply pt_eq; cbn; ring. }
  rewrite (signed_x a b ha hb r Ha Hb R E). destruct (direction_x a ha Ha) as (f & -> & F).
  unfold magnitude. cbn [pv vx vy nhypot N xmap2 nmul nadd nsub xmul xadd xsub xopp nsin ncos xmap]. change (sqrt (px a * px a + py a * py a)) with (norm a). change (sqrt (px b * px b + py b * py b)) with (norm b).
  f_equal. unfold pv, scaled, turned. cbn [px py]. rewrite F. cbn [px py]. rewrite cos_plus, sin_plus. do 2 f_equal; ring.
Qed.
(** the directions and the angle exist *)
Theorem C64_spiral_total a b : exists ha hb r, heading a ha /\ heading b hb /\ - PI < r <= PI /\ hb = turned r ha.
Proof.
  assert (HE : forall a, exists f, heading a (P (cos f) (sin f))).
  { intros c. destruct (veq (pv c) (pv origin)) eqn:Q; [apply veq_x in Q|apply veq_xf in Q].
    - exists 0. rewrite cos_0, sin_0, Q. split; [rewrite norm_origin; apply pt_eq; cbn; ring|]. split; [|reflexivity]. unfold norm. cbn. replace (1 * 1 + 0 * 0) with 1 by ring. apply sqrt_1.
    - exists (atan2R (py c) (px c)). destruct (BehaviorExact.atan2_x (px c) (py c)) as (_ & X & Y); [intros [X Y]; apply Q; apply pt_eq; assumption|]. split; [apply pt_eq; assumption|]. split; [|contradiction].
      unfold norm. cbn. pose proof (sin2_cos2 (atan2R (py c) (px c))) as S. unfold Rsqr in S. replace (_ + _) with 1 by lra. apply sqrt_1. }
  destruct (HE a) as (f & Ha), (HE b) as (g & Hb). exists (P (cos f) (sin f)), (P (cos g) (sin g)).
  set (x := cos f * cos g + sin f * sin g). set (y := cos f * sin g - sin f * cos g).
  assert (XY : x * x + y * y = 1). { pose proof (sin2_cos2 f) as F. pose proof (sin2_cos2 g) as G. unfold Rsqr in *. unfold x, y. replace (_ + _) with ((sin f * sin f + cos f * cos f) * (sin g * sin g + cos g * cos g)) by ring. rewrite F, G. ring. }
  destruct (BehaviorExact.atan2_x x y) as (R & X & Y); [intros [X Y]; rewrite X, Y in XY; lra|]. rewrite XY, sqrt_1, Rmult_1_l in X, Y.
  exists (atan2R y x). split; [exact Ha|]. split; [exact Hb|]. split; [exact R|]. unfold turned. cbn [px py]. rewrite <- X, <- Y. pose proof (sin2_cos2 f) as F. unfold Rsqr in F. unfold x, y. apply pt_eq; cbn [px py].
  - replace (_ - _) with ((sin f * sin f + cos f * cos f) * cos g) by ring. rewrite F. ring.
  - replace (_ + _) with ((sin f * sin f + cos f * cos f) * sin g) by ring. rewrite F. ring.
Qed.
(** for vectors of the same direction it is the linear interpolation *)
Theorem C64_spiral_straight a k t : 0 < k -> spiral_lerp xacos (pv a) (pv (scaled k a)) (Fin t : T N) = Some (pv (mix t a (scaled k a))).
Proof.
  intros K. destruct (C64_spiral_total a a) as (h & h' & _ & Ha & _ & _ & _). pose proof PI_RGT_0.
  assert (NK : norm (scaled k a) = k * norm a).
  { unfold norm, scaled. cbn. replace (k * px a * (k * px a) + k * py a * (k * py a)) with ((k * k) * (px a * px a + py a * py a)) by ring. rewrite sqrt_mult_alt by nra. rewrite sqrt_square by lra. reflexivity. }
  assert (Hb : heading (scaled k a) h).
  { destruct Ha as (A & B & C). split; [|split; [exact B|]].
    - rewrite NK. set (n := norm a) in *. rewrite A. apply pt_eq; cbn; ring.
    - intros Z. apply C. apply (f_equal px) in Z as Z1. apply (f_equal py) in Z as Z2. cbn in Z1, Z2. apply pt_eq; cbn; nra. }
  rewrite (C64_spiral a (scaled k a) h h 0 t); [|exact Ha|exact Hb|lra|unfold turned; rewrite cos_0, sin_0; apply pt_eq; cbn; ring].
  do 2 f_equal. rewrite NK, Rmult_0_r. destruct Ha as (A & _ & _). set (n := norm a) in *. rewrite A. unfold turned. rewrite cos_0, sin_0. apply pt_eq; cbn; ring.
Qed.

(** NormalizedAngleLerp: from the first angle in the shorter direction to the second, up to whole
    turns, and reported in [0, turn) *)
Lemma turn_x : full_turn (N := N) = Fin AngleProps.T. Proof. reflexivity. Qed.
Lemma normalized_x a : exists k : Z, normalized (N := N) (Fin a) = Fin (a - IZR k * AngleProps.T) /\ 0 <= a - IZR k * AngleProps.T < AngleProps.T.
Proof.
  unfold normalized. rewrite turn_x. cbn [nfmod N xmap2]. destruct (AngleProps.fmodT a) as (B & P0 & N0 & k & K). rewrite K in *. rewrite x0. set (T := AngleProps.T) in *.
  assert (0 < T) by (unfold T, AngleProps.T; lra).
  destruct (nlt N (Fin (a - IZR k * T)) (Fin 0)) eqn:L; [apply lt_x in L|apply lt_xf in L].
  - cbn [nadd N xadd]. rewrite (proj2 (eq_xf _ _)) by lra. exists (k - 1)%Z. rewrite minus_IZR. split; [f_equal; ring|]. lra.
  - exists k. split; [reflexivity|]. lra.
Qed.
Lemma about_zero_x a : exists k : Z, normalized_about_zero (N := N) (Fin a) = Fin (a - IZR k * AngleProps.T) /\ - AngleProps.T / 2 < a - IZR k * AngleProps.T <= AngleProps.T / 2.
Proof.
  unfold normalized_about_zero. rewrite turn_x, half_turn_x. replace (13176795 / 4194304) with (AngleProps.T / 2) by (unfold AngleProps.T; field).
  cbn [nfmod N xmap2]. destruct (AngleProps.fmodT a) as (B & P0 & N0 & k & K). rewrite K in *. set (T := AngleProps.T) in *. assert (0 < T) by (unfold T, AngleProps.T; lra).
  destruct (nlt N (Fin (T / 2)) (Fin (a - IZR k * T))) eqn:L; [apply lt_x in L|apply lt_xf in L].
  - exists (k + 1)%Z. rewrite plus_IZR. split; [cbn [nsub N]; rewrite xsub_fin; f_equal; ring|]. lra.
  - cbn [nopp N xopp]. destruct (nle N (Fin (a - IZR k * T)) (Fin (- (T / 2)))) eqn:M; [apply le_x in M|apply le_xf in M].
    + exists (k - 1)%Z. rewrite minus_IZR. split; [cbn [nadd N xadd]; f_equal; ring|]. lra.
    + exists k. split; [reflexivity|]. lra.
Qed.
Theorem C64_angle_lerp a b t : let turn := AngleProps.T in
  exists delta r, normalized_angle_lerp (N := N) (Fin a) (Fin b) (Fin t) = Fin r /\ 0 <= r < turn /\
  (exists k : Z, b - a = delta + IZR k * turn) /\ (forall k : Z, Rabs delta <= Rabs (b - a - IZR k * turn)) /\
  (exists k : Z, r = a + t * delta + IZR k * turn).
Proof.
  intros turn. unfold normalized_angle_lerp. cbn [nsub N]. rewrite xsub_fin. destruct (about_zero_x (b - a)) as (k & -> & B). set (delta := b - a - IZR k * AngleProps.T) in *. fold turn in B.
  unfold angle_lerp. rewrite x0, x1e. cbn [nadd nsub nmul N xsub xopp xadd xmul].
  destruct (normalized_x (a + ((1 + - t) * 0 + t * delta))) as (m & -> & M). exists delta. eexists. split; [reflexivity|]. split; [exact M|]. split; [|split].
  - exists k. unfold delta, turn. ring.
  - intros j. replace (b - a - IZR j * turn) with (delta + IZR (k - j) * turn) by (unfold delta, turn; rewrite minus_IZR; ring). set (i := (k - j)%Z). clearbody i. clearbody delta.
    assert (0 < turn) by (unfold turn, AngleProps.T; lra). destruct (Z.eq_dec i 0) as [->|NZ]; [rewrite Rmult_0_l, Rplus_0_r; lra|].
    assert (H1 : Rabs (IZR i) >= 1). { rewrite <- abs_IZR. apply Rle_ge, IZR_le. lia. }
    assert (H2 : Rabs (IZR i * turn) >= turn) by (rewrite Rabs_mult, (Rabs_pos_eq turn) by lra; nra).
    assert (H3 : Rabs delta <= turn / 2) by (apply Rabs_le; lra).
    pose proof (Rabs_triang_inv (IZR i * turn) (- delta)) as Q. rewrite Rabs_Ropp in Q. replace (IZR i * turn - - delta) with (delta + IZR i * turn) in Q by ring. lra.
  - exists (- m)%Z. rewrite opp_IZR. unfold turn. ring.
Qed.

(** ** Cases *)
(** crossing, overlapping in opposite directions (the ratios belong to different points), touching
    in a point, apart *)
Example ex_cross : exists r, segment_ratio (sg (P 0 0) (P 2 2)) (sg (P 0 2) (P 2 0)) = Some r.
Proof. apply C64_ratio_test, segments. exists (P 1 1). split; exists (/ 2); (split; [lra|]); apply pt_eq; cbn; lra. Qed.
Example ex_overlap : exists t s, segment_ratio (sg (P 0 0) (P 4 0)) (sg (P 6 0) (P 2 0)) = Some (Fin t : T N, Fin s : T N) /\ t = / 2 /\ s = / 2 /\ mix t (P 0 0) (P 4 0) <> mix s (P 6 0) (P 2 0).
Proof.
  assert (S : forall a b t, 0 <= a -> a < b -> seg_set (P a 0) (P b 0) (P t 0) <-> a <= t <= b).
  { intros a b t A B. split; [intros (s & Hs & E); apply (f_equal px) in E; cbn in E; nra|]. intros H. exists ((t - a) / (b - a)). assert (E : (t - a) / (b - a) * (b - a) = t - a) by (field; lra). set (s := (t - a) / (b - a)) in *. clearbody s. split; [nra|]. apply pt_eq; cbn; lra. }
  assert (M1 : forall t, mix t (P 0 0) (P 4 0) = P (4 * t) 0) by (intros; apply pt_eq; cbn; ring).
  assert (M2 : forall t, mix t (P 6 0) (P 2 0) = P (6 - 4 * t) 0) by (intros; apply pt_eq; cbn; ring).
  pose proof (ratio_spec (P 0 0) (P 4 0) (P 6 0) (P 2 0)) as R. destruct (segment_ratio (sg (P 0 0) (P 4 0)) (sg (P 6 0) (P 2 0))) as [[t s]|].
  - destruct R as (rt & rs & -> & -> & (A1 & A2 & A3) & (B1 & B2 & B3)). exists rt, rs. split; [reflexivity|]. rewrite M1, M2 in *.
    apply seg_sym in A2. apply S in A2; [|lra|lra]. apply S in B2; [|lra|lra].
    assert (rt <= / 2). { apply A3; [lra|]. apply seg_sym. rewrite M1. apply S; lra. }
    assert (rs <= / 2). { apply B3; [lra|]. rewrite M2. apply S; lra. }
    split; [lra|]. split; [lra|]. intros E. apply (f_equal px) in E. cbn in E. lra.
  - elim R. exists (P 3 0). split; [apply S; lra|]. apply seg_sym. apply S; lra.
Qed.
Example ex_barycentric : barycentric (tr (P 0 0) (P 1 0) (P 0 1)) (pv (P (/ 4) (/ 4))) <> None /\ ~ parallel (P 0 0) (P 1 0) (P 0 0) (P 0 1).
Proof. rewrite C64_barycentric_none. unfold parallel. cbn. split; lra. Qed.
Example ex_projection : to_projection (pv (P 3 4)) (sg (P 0 0) (P 1 0)) <> None.
Proof. rewrite C64_projection_none. intros E. apply (f_equal px) in E. cbn in E. lra. Qed.
Example ex_spiral : heading (P 2 0) (P 1 0) /\ heading (P 0 3) (P 0 1) /\ P 0 1 = turned (PI / 2) (P 1 0).
Proof.
  assert (norm (P 2 0) = 2) by (unfold norm; cbn; replace (2 * 2 + 0 * 0) with (2 * 2) by ring; apply sqrt_square; lra).
  assert (norm (P 0 3) = 3) by (unfold norm; cbn; replace (0 * 0 + 3 * 3) with (3 * 3) by ring; apply sqrt_square; lra).
  assert (norm (P 1 0) = 1) by (unfold norm; cbn; replace (1 * 1 + 0 * 0) with (1 * 1) by ring; apply sqrt_square; lra).
  assert (norm (P 0 1) = 1) by (unfold norm; cbn; replace (0 * 0 + 1 * 1) with (1 * 1) by ring; apply sqrt_square; lra).
  repeat split; auto.
  - rewrite H. apply pt_eq; cbn; ring.
  - rewrite H0. apply pt_eq; cbn; ring.
  - intros E. apply (f_equal py) in E. cbn in E. lra.
  - unfold turned. rewrite cos_PI2, sin_PI2. apply pt_eq; cbn; ring.
Qed.

Print Assumptions C64_ratio_none.
Print Assumptions C64_ratio_first.
Print Assumptions C64_ratio_test.
Print Assumptions C64_ratio_cross.
Print Assumptions C64_ratio_degenerate.
Print Assumptions C64_intersection.
Print Assumptions C64_line_none.
Print Assumptions C64_line_only.
Print Assumptions C64_barycentric_none.
Print Assumptions C64_barycentric.
Print Assumptions C64_barycentric_inside.
Print Assumptions C64_projection_none.
Print Assumptions C64_projection.
Print Assumptions C64_spiral.
Print Assumptions C64_spiral_total.
Print Assumptions C64_spiral_straight.
Print Assumptions C64_angle_lerp.
