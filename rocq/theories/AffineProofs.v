(** Affine transforms in exact arithmetic. *)
From Coq Require Import ZArith Reals Machin Lra Psatz Bool List.
From Flocq Require Import Core.
From Verif Require Import NumModel EasingExact BehaviorMeaning BehaviorExact GeomModel AffineModel GeomSpec GeomReal GeomExact GeomMeet.
Import ListNotations.
Local Open Scope R_scope.

(** std::acos *)
Definition xacos (a : ereal) : ereal := match a with Fin x => if Rle_bool (-1) x && Rle_bool x 1 then Fin (acos x) else Nan | _ => Nan end.
Definition tf (a b c d e f : R) : affine N := Affine (Fin a : T N) (Fin b : T N) (Fin c : T N) (Fin d : T N) (Fin e : T N) (Fin f : T N).
Definition image (a b c d e f : R) (p : pt) : pt := P (a * px p + b * py p + c) (d * px p + e * py p + f).
Lemma apply_x a b c d e f p : apply (tf a b c d e f) (pv p) = pv (image a b c d e f p). Proof. reflexivity. Qed.
Lemma compose_x a b c d e f a' b' c' d' e' f' : compose (tf a b c d e f) (tf a' b' c' d' e' f') =
  tf (a * a' + b * d') (a * b' + b * e') (a * c' + b * f' + c) (d * a' + e * d') (d * b' + e * e') (d * c' + e * f' + f).
Proof. reflexivity. Qed.
Lemma inverse_x a b c d e f : inverse (tf a b c d e f) = if Req_bool (a * e) (b * d) then None else
  Some (tf (e / (a * e - b * d)) (- b / (a * e - b * d)) ((b * f - c * e) / (a * e - b * d)) (- d / (a * e - b * d)) (a / (a * e - b * d)) ((c * d - a * f) / (a * e - b * d))).
Proof.
  unfold inverse. cbn [tf ma mb mc md me mf nmul nsub N xmul xsub xopp xadd neqb xeq nopp]. destruct (Req_bool_spec (a * e) (b * d)) as [H|H]; [reflexivity|].
  cbn [ndiv N xdiv]. assert (a * e + - (b * d) <> 0) by lra. rewrite Req_bool_false by assumption. reflexivity.
Qed.
(** ** Unit vectors and angles *)
Lemma unit_x v : v <> P 0 0 -> exists m, 0 < m /\ m * m = dot2 v v /\ unit_vec (pv v) = Some (pv (P (px v / m) (py v / m))).
Proof.
  intros H. set (m := sqrt (dot2 v v)). assert (Q : 0 < dot2 v v). { destruct (Rle_lt_or_eq_dec _ _ (dot_pos v)) as [L|L]; [exact L|]. elim H. apply dot_zero. lra. }
  assert (Pm : 0 < m) by (apply sqrt_lt_R0; exact Q). assert (Mm : m * m = dot2 v v) by (apply sqrt_sqrt; lra). exists m. split; [exact Pm|]. split; [exact Mm|].
  unfold unit_vec, isinf. cbn [pv vx vy nnan nfin N orb negb andb]. rewrite x0.
  destruct (neqb N (Fin (px v)) (Fin 0) && neqb N (Fin (py v)) (Fin 0)) eqn:Z.
  - apply andb_true_iff in Z. rewrite !eq_x in Z. elim H. apply pt_eq; cbn; lra.
  - clear Z. unfold vec_div, magnitude, vscale. rewrite half_x, x0. cbn [pv vx vy nmul N xmul nhypot xmap2].
    assert (S : sqrt (/ 2 * px v * (/ 2 * px v) + / 2 * py v * (/ 2 * py v)) = m / 2).
    { replace (/ 2 * px v * (/ 2 * px v) + / 2 * py v * (/ 2 * py v)) with ((m / 2) * (m / 2)) by (unfold dot2 in Mm; nra). apply sqrt_square. lra. }
    rewrite S. rewrite (proj2 (eq_xf _ _)) by lra. cbn [ndiv N xdiv]. rewrite Req_bool_false by lra. unfold pv. cbn [px py]. f_equal. f_equal; f_equal; field; lra.
Qed.
Lemma unit_zero : unit_vec (pv (P 0 0)) = Some (pv (P 1 0)).
Proof.
  unfold unit_vec, isinf. cbn [pv vx vy px py nnan nfin N orb negb andb]. rewrite x0. cbn [neqb N xeq]. rewrite Req_bool_true by reflexivity. cbn [andb].
  unfold with_sign. cbn [nsign N xneg]. rewrite Rlt_bool_false by lra. rewrite x1e. reflexivity.
Qed.
Lemma PI_upper : PI < 13176795 / 4194304.
Proof.
  pose proof (PI_2_3_7_ineq 4) as [_ H]. cbn [Nat.mul Nat.add] in H. unfold sum_f_R0, tg_alt, PI_2_3_7_tg, Ratan_seq in H. cbn [Nat.mul Nat.add] in H.
  rewrite !INR_IZR_INZ in H. cbn [Z.of_nat Pos.of_succ_nat Pos.succ] in H. lra.
Qed.
Lemma half_turn_x : half_turn (N := N) = Fin (13176795 / 4194304).
Proof. unfold half_turn. rewrite xdy. f_equal. Qed.
Lemma clamp_in x : -1 <= x <= 1 -> nclamp (N := N) (Fin x) (nopp N n1) n1 = Fin x.
Proof.
  intros H. unfold nclamp. rewrite x1e. cbn [nopp N xopp]. rewrite (proj2 (lt_xf _ _)) by lra. rewrite (proj2 (lt_xf _ _)) by lra. reflexivity.
Qed.
Lemma signed_units a b u v : unit_vec (pv a) = Some (pv u) -> unit_vec (pv b) = Some (pv v) -> dot2 u u = 1 -> dot2 v v = 1 ->
  exists r, signed_angle (N := N) xacos (pv a) (pv b) = Some (Fin r) /\ - PI < r <= PI /\ cos r = dot2 u v /\ sin r = det2 u v /\ absolute_angle (N := N) xacos (pv a) (pv b) = Some (Fin (Rabs r)).
Proof.
  intros Ha Hb Uu Uv. unfold signed_angle, absolute_angle. rewrite Ha, Hb, dot_x, det_x, x0. set (d := dot2 u v). set (k := det2 u v).
  assert (Id : d * d + k * k = 1) by (unfold d, k, dot2, det2 in *; transitivity ((px u * px u + py u * py u) * (px v * px v + py v * py v)); [ring|rewrite Uu, Uv; ring]).
  assert (Bd : -1 <= d <= 1) by nra. rewrite clamp_in by exact Bd. unfold xacos. rewrite !Rle_bool_true by lra. cbn [andb].
  pose proof (acos_bound d) as AB. pose proof (cos_acos d Bd) as CA. pose proof (sin_acos d Bd) as SA. rewrite half_turn_x. pose proof PI_upper as PU. pose proof PI_RGT_0 as P0.
  assert (S2 : 1 - d² = k * k) by (unfold Rsqr; lra). rewrite S2 in SA.
  rewrite (proj2 (eq_xf (acos d) _)) by lra. cbn [orb].
  destruct (nle N (Fin 0) (Fin k)) eqn:L.
  - apply le_x in L. exists (acos d). split; [reflexivity|]. split; [lra|]. split; [exact CA|]. split; [rewrite SA; apply sqrt_square; exact L|]. rewrite Rabs_pos_eq by lra. reflexivity.
  - apply le_xf in L. exists (- acos d). cbn [nopp N xopp]. split; [reflexivity|]. assert (SK : sin (acos d) = - k) by (rewrite SA; replace (k * k) with (- k * - k) by ring; apply sqrt_square; lra).
    assert (acos d <> PI) by (intros Q; rewrite Q, sin_PI in SK; lra).
    split; [lra|]. rewrite cos_neg, sin_neg, SK. split; [exact CA|]. split; [ring|]. rewrite Rabs_Ropp, Rabs_pos_eq by lra. reflexivity.
Qed.
Lemma unit_some v : exists u, unit_vec (pv v) = Some (pv u) /\ dot2 u u = 1 /\ (v <> P 0 0 -> exists m, 0 < m /\ m * m = dot2 v v /\ u = P (px v / m) (py v / m)) /\ (v = P 0 0 -> u = P 1 0).
Proof.
  destruct (Classical_Prop.classic (v = P 0 0)) as [->|H].
  - exists (P 1 0). split; [apply unit_zero|]. split; [unfold dot2; cbn; ring|]. split; [congruence|reflexivity].
  - destruct (unit_x v H) as (m & Pm & Mm & E). exists (P (px v / m) (py v / m)). split; [exact E|]. split; [|split; [intros _; exists m; auto|congruence]].
    unfold dot2 in *. cbn. replace (px v / m * (px v / m) + py v / m * (py v / m)) with ((px v * px v + py v * py v) / (m * m)) by (field; lra). rewrite <- Mm. field. lra.
Qed.
(** ** Find *)
Definition maps (t : affine N) (p q : pt) : Prop := apply t (pv p) = pv q.
Lemma length_x a b : seg_length (sg a b) = Fin (sqrt (dot2 (sub b a) (sub b a))).
Proof. reflexivity. Qed.
Theorem find_segment_x a b c d : exists o, find_segment (N := N) xacos (sg a b) (sg c d) = Some o /\
  (a = b -> c <> d -> o = None) /\
  (a <> b \/ c = d -> exists p q s t, o = Some (tf p (- q) s q p t) /\ maps (tf p (- q) s q p t) a c /\ maps (tf p (- q) s q p t) b d).
Proof.
  unfold find_segment. destruct (neqb N (seg_length (sg a b)) n0) eqn:L.
  - apply length_zero in L. subst b. eexists. split; [reflexivity|]. destruct (neqb N (seg_length (sg c d)) n0) eqn:L'.
    + apply length_zero in L'. subst d. split; [congruence|]. intros _. exists 1, 0, (px c - px a), (py c - py a). split; [|split].
      * unfold translate. cbn [sg s_start]. rewrite sub_x, x0, x1e. cbn [pv vx vy sub px py]. unfold tf. rewrite Ropp_0. reflexivity.
      * unfold maps. rewrite apply_x. f_equal. apply pt_eq; cbn; ring.
      * unfold maps. rewrite apply_x. f_equal. apply pt_eq; cbn; ring.
    + assert (c <> d) by (intros ->; rewrite (proj2 (length_zero d d) eq_refl) in L'; discriminate). split; [reflexivity|]. intros [?|?]; congruence.
  - assert (Hab : a <> b) by (intros ->; rewrite (proj2 (length_zero b b) eq_refl) in L; discriminate). clear L.
    unfold seg_vector. cbn [sg s_start s_end]. rewrite !sub_x. change (Seg (pv a) (pv b)) with (sg a b). change (Seg (pv c) (pv d)) with (sg c d).
    destruct (unit_some (sub b a)) as (u & Hu & Uu & Nu & _). destruct (unit_some (sub d c)) as (v & Hv & Uv & Nv & Zv).
    destruct Nu as (m & Pm & Mm & Eu); [intros Q; apply sub_zero in Q; congruence|].
    destruct (signed_units _ _ _ _ Hu Hv Uu Uv) as (r & -> & _ & Cr & Sr & _). rewrite !length_x.
    assert (Lm : sqrt (dot2 (sub b a) (sub b a)) = m) by (rewrite <- Mm; apply sqrt_square; lra). rewrite Lm. set (l := sqrt (dot2 (sub d c) (sub d c))).
    assert (Ev : sub d c = P (l * px v) (l * py v)).
    { destruct (Classical_Prop.classic (sub d c = P 0 0)) as [Q|Q].
      - unfold l. rewrite Q. replace (dot2 (P 0 0) (P 0 0)) with 0 by (unfold dot2; cbn; ring). rewrite sqrt_0. apply pt_eq; cbn; ring.
      - destruct (Nv Q) as (k & Pk & Kk & ->). assert (l = k) as -> by (unfold l; rewrite <- Kk; apply sqrt_square; lra). apply pt_eq; cbn; field; lra. }
    cbn [ndiv N xdiv]. rewrite Req_bool_false by lra. cbn [nsin ncos N xmap nmul xmul pv vx vy vneg nopp xopp nsub xsub xadd nadd].
    eexists. split; [reflexivity|]. split; [congruence|]. intros _. exists (l / m * cos r), (l / m * sin r). eexists _, _. split; [reflexivity|].
    assert (E1 : px b = px a + m * px u) by (rewrite Eu; cbn; field; lra). assert (E2 : py b = py a + m * py u) by (rewrite Eu; cbn; field; lra).
    assert (F1 : px d = px c + l * px v) by (apply (f_equal px) in Ev; cbn in Ev; lra). assert (F2 : py d = py c + l * py v) by (apply (f_equal py) in Ev; cbn in Ev; lra).
    split; unfold maps; rewrite apply_x; f_equal; unfold image; apply pt_eq; cbn [px py]; rewrite ?Ropp_mult_distr_l.
    + ring.
    + ring.
    + rewrite E1, E2, F1, Cr, Sr. unfold dot2, det2 in *. transitivity (px c + l * px v * (px u * px u + py u * py u)); [field; lra|rewrite Uu; ring].
    + rewrite E1, E2, F2, Cr, Sr. unfold dot2, det2 in *. transitivity (py c + l * py v * (px u * px u + py u * py u)); [field; lra|rewrite Uu; ring].
Qed.
Lemma signed_area_x a b c : signed_area (tr a b c) = Fin (/ 2 * det3 a b c).
Proof. unfold signed_area. cbn [tr p0 p1 p2]. rewrite !sub_x, det_x, half_x. cbn [nmul N xmul]. f_equal. unfold det2, det3, sub. cbn. ring. Qed.
Definition affine_map (t : affine N) : Prop := exists a b c d e f, t = tf a b c d e f.
Definition sixR (x0 x1 x2 y0 y1 y2 : R) : R := x1 * y0 - x2 * y0 - x0 * y1 + x2 * y1 + x0 * y2 - x1 * y2.
Definition six3R (b0 b1 b2 : R) (a0 a1 a2 : pt) : R :=
  b2 * px a1 * py a0 - b1 * px a2 * py a0 - b2 * px a0 * py a1 + b0 * px a2 * py a1 + b1 * px a0 * py a2 - b0 * px a1 * py a2.
Lemma six_x x0 x1 x2 y0 y1 y2 : six (N := N) (Fin x0) (Fin x1) (Fin x2) (Fin y0) (Fin y1) (Fin y2) = Fin (sixR x0 x1 x2 y0 y1 y2). Proof. reflexivity. Qed.
Lemma six3_x b0 b1 b2 a0 a1 a2 : six3 (N := N) (Fin b0) (Fin b1) (Fin b2) (pv a0) (pv a1) (pv a2) = Fin (six3R b0 b1 b2 a0 a1 a2). Proof. reflexivity. Qed.
Theorem find_triangle_x a b c p q r : 
  (det3 a b c = 0 -> find_triangle (tr a b c) (tr p q r) = None) /\
  (det3 a b c <> 0 -> exists t, find_triangle (tr a b c) (tr p q r) = Some t /\ affine_map t /\ maps t a p /\ maps t b q /\ maps t c r).
Proof.
  unfold find_triangle. rewrite signed_area_x, x0. cbn [tr p0 p1 p2].
  change (vx (pv a)) with (Fin (px a) : T N). change (vx (pv b)) with (Fin (px b) : T N). change (vx (pv c)) with (Fin (px c) : T N). change (vx (pv p)) with (Fin (px p) : T N). change (vx (pv q)) with (Fin (px q) : T N). change (vx (pv r)) with (Fin (px r) : T N).
  change (vy (pv a)) with (Fin (py a) : T N). change (vy (pv b)) with (Fin (py b) : T N). change (vy (pv c)) with (Fin (py c) : T N). change (vy (pv p)) with (Fin (py p) : T N). change (vy (pv q)) with (Fin (py q) : T N). change (vy (pv r)) with (Fin (py r) : T N).
  rewrite !six3_x, !six_x.
  set (D := sixR (px a) (px b) (px c) (py a) (py b) (py c)). assert (ED : D = - det3 a b c) by (unfold D, sixR, det3; ring).
  split; intros H.
  - rewrite (proj2 (eq_x D 0)) by lra. reflexivity.
  - rewrite (proj2 (eq_xf D 0)) by lra. rewrite (proj2 (eq_xf _ 0)) by lra. cbn [orb nopp N xopp ndiv xdiv]. rewrite !Req_bool_false by lra. eexists. split; [reflexivity|].
    split; [repeat eexists|]. assert (ND : D <> 0) by lra. clear ED H.
    assert (Q : forall n k m x y z, n * x + - k * y + m = z * D -> n / D * x + k / - D * y + m / D = z).
    { intros n k m x y z E. apply (Rmult_eq_reg_r D); [|exact ND]. rewrite <- E. field. lra. }
    split; [|split]; unfold maps; fold (tf (sixR (px p) (px q) (px r) (py a) (py b) (py c) / D) (sixR (px p) (px q) (px r) (px a) (px b) (px c) / - D) (six3R (px p) (px q) (px r) a b c / D) (sixR (py p) (py q) (py r) (py a) (py b) (py c) / D)
     (sixR (py p) (py q) (py r) (px a) (px b) (px c) / - D) (six3R (py p) (py q) (py r) a b c / D)); rewrite apply_x; f_equal; unfold image; apply pt_eq; cbn [px py]; apply Q; unfold D, sixR, six3R; ring.
Qed.
Theorem find_unique a b c p q r t t' : det3 a b c <> 0 -> affine_map t -> affine_map t' -> maps t a p -> maps t b q -> maps t c r -> maps t' a p -> maps t' b q -> maps t' c r -> t = t'.
Proof.
  intros H (a1 & b1 & c1 & d1 & e1 & f1 & ->) (a2 & b2 & c2 & d2 & e2 & f2 & ->). unfold maps. rewrite !apply_x. intros X1 X2 X3 X4 X5 X6.
  apply pv_inj in X1, X2, X3, X4, X5, X6.
  assert (Y1 : image a1 b1 c1 d1 e1 f1 a = image a2 b2 c2 d2 e2 f2 a) by congruence. assert (Y2 : image a1 b1 c1 d1 e1 f1 b = image a2 b2 c2 d2 e2 f2 b) by congruence. assert (Y3 : image a1 b1 c1 d1 e1 f1 c = image a2 b2 c2 d2 e2 f2 c) by congruence.
  clear X1 X2 X3 X4 X5 X6. unfold image in Y1, Y2, Y3. injection Y1 as U1 V1. injection Y2 as U2 V2. injection Y3 as U3 V3.
  assert (Z : forall A B C, A * px a + B * py a + C = 0 -> A * px b + B * py b + C = 0 -> A * px c + B * py c + C = 0 -> A = 0 /\ B = 0 /\ C = 0).
  { intros A B C K1 K2 K3. assert (E1 : A * det3 a b c = 0).
    { unfold det3. transitivity (((A * px b + B * py b + C) - (A * px a + B * py a + C)) * (py c - py a) - ((A * px c + B * py c + C) - (A * px a + B * py a + C)) * (py b - py a)); [ring|rewrite K1, K2, K3; ring]. }
    assert (E2 : B * det3 a b c = 0).
    { unfold det3. transitivity (((A * px c + B * py c + C) - (A * px a + B * py a + C)) * (px b - px a) - ((A * px b + B * py b + C) - (A * px a + B * py a + C)) * (px c - px a)); [ring|rewrite K1, K2, K3; ring]. }
    apply Rmult_integral in E1, E2. destruct E1 as [E1|E1]; [|contradiction]. destruct E2 as [E2|E2]; [|contradiction]. rewrite E1, E2 in K1. split; [exact E1|split; [exact E2|lra]]. }
  destruct (Z (a1 - a2) (b1 - b2) (c1 - c2)) as (A & B & C); [lra..|]. destruct (Z (d1 - d2) (e1 - e2) (f1 - f2)) as (D & E & F); [lra..|].
  unfold tf. f_equal; f_equal; lra.
Qed.
(** ** The image of a quad *)
Definition lin (a b d e : R) (v : pt) : pt := P (a * px v + b * py v) (d * px v + e * py v).
Lemma image_par a b c d e f m u v p : a * e <> b * d ->
  (par_set (image a b c d e f m) (lin a b d e u) (lin a b d e v) p <-> exists q, par_set m u v q /\ p = image a b c d e f q).
Proof.
  intros _. split.
  - intros (s & t & Hs & Ht & ->). eexists. split; [exists s, t; split; [exact Hs|split; [exact Ht|reflexivity]]|]. unfold image, lin. apply pt_eq; cbn; ring.
  - intros (q & (s & t & Hs & Ht & ->) & ->). exists s, t. split; [exact Hs|split; [exact Ht|]]. unfold image, lin. apply pt_eq; cbn; ring.
Qed.
Lemma apply_vec_x a b c d e f v : apply_vec (tf a b c d e f) (pv v) = pv (lin a b d e v). Proof. reflexivity. Qed.
Lemma det_lin a b d e u v : det2 (lin a b d e u) (lin a b d e v) = (a * e - b * d) * det2 u v.
Proof. unfold det2, lin. cbn. ring. Qed.
Lemma direction_x v : v <> P 0 0 -> exists m r, 0 < m /\ magnitude (pv v) = Fin m /\ direction (pv v) = Fin r /\ - PI < r <= PI /\ v = P (m * cos r) (m * sin r).
Proof.
  intros H. assert (Q : ~ (px v = 0 /\ py v = 0)) by (intros [A B]; apply H, pt_eq; assumption). destruct (atan2_x _ _ Q) as (B & C & D).
  exists (sqrt (px v * px v + py v * py v)), (atan2R (py v) (px v)). split; [|split; [reflexivity|split; [reflexivity|split; [exact B|apply pt_eq; assumption]]]].
  apply sqrt_lt_R0. assert (dot2 v v <> 0) by (intros Z; apply dot_zero in Z; contradiction). pose proof (dot_pos v). unfold dot2 in *. lra.
Qed.
Theorem quad_image_x a b c d e f m w h r s : a * e <> b * d -> 0 <= w ->
  exists w' h' r' s', quad_image (tf a b c d e f) (qd m w h r s) = (pv (image a b c d e f m), Fin w', Fin h', Fin r', Fin s') /\ 0 <= w' /\ - PI < r' <= PI /\
    forall p, quad_set (image a b c d e f m) w' h' r' s' p <-> exists q, quad_set m w h r s q /\ p = image a b c d e f q.
Proof.
  intros I W. unfold quad_image. cbn [qd q_center]. rewrite apply_x. change (Quad (pv m) (Fin w) (Fin h) (Fin r) (Fin s)) with (qd m w h r s). rewrite semi_axes_x. cbn [qd q_width q_height q_rotation q_shear].
  rewrite x0, x1e, n2_x. set (u1 := if Req_bool w 0 then P (cos r) (sin r) else quad_u w r). set (v1 := if Req_bool h 0 then P (s * px u1 - py u1) (s * py u1 + px u1) else quad_v h r s).
  replace (if neqb N (Fin w) (Fin 0) then V (nmul N (Fin 1) (ncos N (Fin r))) (nmul N (Fin 1) (nsin N (Fin r))) else pv (quad_u w r)) with (pv u1)
    by (unfold u1; cbn [neqb N xeq]; destruct (Req_bool w 0); [|reflexivity]; unfold pv; cbn; rewrite !Rmult_1_l; reflexivity).
  replace (if neqb N (Fin h) (Fin 0) then vadd (vscale (Fin s : T N) (pv u1)) (orthogonal_vec (pv u1)) else pv (quad_v h r s)) with (pv v1)
    by (unfold v1; cbn [neqb N xeq]; destruct (Req_bool h 0); [|reflexivity]; reflexivity).
  rewrite !apply_vec_x, dot_x, det_x.
  assert (D1 : det2 u1 v1 <> 0).
  { pose proof (unit1 r) as U1. assert (SQ : forall x y, x * y - 0 <> 0 -> x * y <> 0) by (intros; lra).
    unfold u1, v1, u1. destruct (Req_bool_spec w 0) as [W0|W0], (Req_bool_spec h 0) as [H0|H0]; unfold det2, quad_u, quad_v; cbn [px py].
    - replace (cos r * (s * sin r + cos r) - sin r * (s * cos r - sin r)) with (cos r * cos r + sin r * sin r) by ring. lra.
    - replace (cos r * (/ 2 * h * (s * sin r + cos r)) - sin r * (/ 2 * h * (s * cos r - sin r))) with (/ 2 * h * (cos r * cos r + sin r * sin r)) by ring. rewrite U1. lra.
    - replace (/ 2 * w * cos r * (s * (/ 2 * w * sin r) + / 2 * w * cos r) - / 2 * w * sin r * (s * (/ 2 * w * cos r) - / 2 * w * sin r)) with (/ 4 * (w * w) * (cos r * cos r + sin r * sin r)) by field. rewrite U1. assert (w * w <> 0) by (apply Rmult_integral_contrapositive; split; assumption). lra.
    - replace (/ 2 * w * cos r * (/ 2 * h * (s * sin r + cos r)) - / 2 * w * sin r * (/ 2 * h * (s * cos r - sin r))) with (/ 4 * (w * h) * (cos r * cos r + sin r * sin r)) by field. rewrite U1. assert (w * h <> 0) by (apply Rmult_integral_contrapositive; split; assumption). lra. }
  assert (D2 : det2 (lin a b d e u1) (lin a b d e v1) <> 0) by (rewrite det_lin; apply Rmult_integral_contrapositive; split; [lra|exact D1]).
  set (u := lin a b d e u1) in *. set (v := lin a b d e v1) in *.
  assert (Nu : u <> P 0 0) by (intros Z; rewrite Z in D2; unfold det2 in D2; cbn in D2; lra).
  destruct (direction_x u Nu) as (k & r' & Pk & -> & -> & Br & Eu). set (D := dot2 u v) in *. set (K := det2 u v) in *.
  rewrite (proj2 (eq_xf K 0)) by exact D2. rewrite orb_false_r.
  assert (Ev : v = P (D / k * cos r' - K / k * sin r') (D / k * sin r' + K / k * cos r')).
  { pose proof (unit1 r') as U1. unfold D, K, dot2, det2. rewrite Eu. cbn [px py]. apply pt_eq; cbn [px py].
    - transitivity (px v * (cos r' * cos r' + sin r' * sin r')); [rewrite U1; ring|field; lra].
    - transitivity (py v * (cos r' * cos r' + sin r' * sin r')); [rewrite U1; ring|field; lra]. }
  exists (if Req_bool w 0 then 0 else 2 * k), (if Req_bool h 0 then 0 else 2 * K / k), r', (D / K).
  split; [|split; [destruct (Req_bool w 0); lra|split; [exact Br|]]].
  - cbn [neqb N xeq ndiv xdiv]. rewrite (Req_bool_false K) by exact D2. destruct (Req_bool w 0), (Req_bool h 0); cbn [nmul N xmul ndiv xdiv]; rewrite ?Req_bool_false by lra; reflexivity.
  - intros p. unfold quad_set. rewrite <- image_par by exact I.
    assert (EU : lin a b d e (quad_u w r) = quad_u (if Req_bool w 0 then 0 else 2 * k) r').
    { destruct (Req_bool_spec w 0) as [W0|W0]; [subst w; unfold lin, quad_u; apply pt_eq; cbn; ring|]. change (quad_u w r) with u1. fold u. rewrite Eu. unfold quad_u. apply pt_eq; cbn; field. }
    assert (EV : lin a b d e (quad_v h r s) = quad_v (if Req_bool h 0 then 0 else 2 * K / k) r' (D / K)).
    { destruct (Req_bool_spec h 0) as [W0|W0]; [subst h; unfold lin, quad_v; apply pt_eq; cbn; ring|]. change (quad_v h r s) with v1. fold v. rewrite Ev. unfold quad_v. clearbody D K. apply pt_eq; cbn [px py]; field; split; (exact D2 || lra). }
    rewrite EU, EV. tauto.
Qed.
Lemma normalized_x r : - PI < r <= PI -> normalized (N := N) (Fin r) = Fin (if Rlt_bool r 0 then r + turn else r).
Proof.
  intros B. pose proof PI_upper as U. assert (T : 2 * PI < turn) by (unfold turn, pi32; lra). pose proof PI_RGT_0.
  assert (E : fmodR r turn = r).
  { unfold fmodR. replace (Ztrunc (r / turn)) with 0%Z; [ring|]. symmetry. destruct (Rlt_or_le r 0).
    - rewrite Ztrunc_ceil by (apply Rmult_le_reg_r with turn; [lra|]; unfold Rdiv; rewrite Rmult_assoc, Rinv_l by lra; lra).
      apply Zceil_imp. cbn. split; [apply Rmult_lt_reg_r with turn; [lra|]; unfold Rdiv; rewrite Rmult_assoc, Rinv_l by lra; lra|apply Rmult_le_reg_r with turn; [lra|]; unfold Rdiv; rewrite Rmult_assoc, Rinv_l by lra; lra].
    - rewrite Ztrunc_floor by (apply Rmult_le_reg_r with turn; [lra|]; unfold Rdiv; rewrite Rmult_assoc, Rinv_l by lra; lra).
      apply Zfloor_imp. cbn. split; [apply Rmult_le_reg_r with turn; [lra|]; unfold Rdiv; rewrite Rmult_assoc, Rinv_l by lra; lra|apply Rmult_lt_reg_r with turn; [lra|]; unfold Rdiv; rewrite Rmult_assoc, Rinv_l by lra; lra]. }
  unfold normalized. rewrite x_full, x0. cbn [nfmod N xmap2 nlt xlt nadd xadd neqb xeq]. rewrite E. destruct (Rlt_bool_spec r 0); [|reflexivity].
  rewrite Req_bool_false by lra. reflexivity.
Qed.
Theorem apply_quad_x a b c d e f m w h r s : a * e <> b * d -> 0 <= w ->
  exists w' h' r' s', 0 <= w' /\ (apply_quad (tf a b c d e f) (qd m w h r s) = qd (image a b c d e f m) w' h' r' s' \/ r' < 0 /\ apply_quad (tf a b c d e f) (qd m w h r s) = qd (image a b c d e f m) w' h' (r' + turn) s') /\
    forall p, quad_set (image a b c d e f m) w' h' r' s' p <-> exists q, quad_set m w h r s q /\ p = image a b c d e f q.
Proof.
  intros I W. destruct (quad_image_x a b c d e f m w h r s I W) as (w' & h' & r' & s' & E & W' & B & H). exists w', h', r', s'. split; [exact W'|]. split; [|exact H].
  unfold apply_quad. rewrite E. unfold quad_make, quad_normalize. cbn [q_width]. rewrite x0, (proj2 (lt_xf w' 0)) by lra. rewrite normalized_x by exact B.
  destruct (Rlt_bool_spec r' 0); [right; split; [assumption|reflexivity]|left; reflexivity].
Qed.
Lemma corner_tri a b c d : corner_triangle [pv a; pv b; pv c; pv d] = Some (tr a b c). Proof. reflexivity. Qed.
Lemma maps_par t a b c d a' b' c' d' : affine_map t -> maps t a a' -> maps t b b' -> maps t c c' -> sub d a = sub c b -> sub d' a' = sub c' b' -> maps t d d'.
Proof.
  intros (x & y & z & u & v & w & ->). unfold maps. rewrite !apply_x. intros H1 H2 H3 E E'. apply pv_inj in H1, H2, H3. subst a' b' c'. f_equal.
  unfold sub, image in *. cbn [px py] in *. injection E as E1 E2. injection E' as F1 F2. apply pt_eq; cbn [px py]; [replace (px d) with (px a + (px c - px b)) by lra; replace (py d) with (py a + (py c - py b)) by lra; rewrite <- (Rplus_minus (x * px a + y * py a + z) (px d')); lra|
   replace (px d) with (px a + (px c - px b)) by lra; replace (py d) with (py a + (py c - py b)) by lra; rewrite <- (Rplus_minus (u * px a + v * py a + w) (py d')); lra].
Qed.
Theorem find_rect_x x0 y0 x1 y1 x2 y2 x3 y3 : (x0 = x1 \/ y0 = y1 -> find_rect (bx x0 y0 x1 y1) (bx x2 y2 x3 y3) = None) /\
  (x0 <> x1 -> y0 <> y1 -> exists t, find_rect (bx x0 y0 x1 y1) (bx x2 y2 x3 y3) = Some t /\ affine_map t /\
    maps t (P x0 y0) (P x2 y2) /\ maps t (P x1 y0) (P x3 y2) /\ maps t (P x1 y1) (P x3 y3) /\ maps t (P x0 y1) (P x2 y3)).
Proof.
  unfold find_rect, find_corners.
  change (corner_triangle (rect_corners (bx x0 y0 x1 y1))) with (Some (tr (P x0 y0) (P x1 y0) (P x1 y1))). change (corner_triangle (rect_corners (bx x2 y2 x3 y3))) with (Some (tr (P x2 y2) (P x3 y2) (P x3 y3))). cbv iota beta.
  destruct (find_triangle_x (P x0 y0) (P x1 y0) (P x1 y1) (P x2 y2) (P x3 y2) (P x3 y3)) as [A B].
  assert (D : det3 (P x0 y0) (P x1 y0) (P x1 y1) = (x1 - x0) * (y1 - y0)) by (unfold det3; cbn; ring). rewrite D in A, B. split.
  - intros [-> | ->]; apply A; ring.
  - intros H1 H2. destruct B as (t & E & M & H3 & H4 & H5); [apply Rmult_integral_contrapositive; split; lra|]. exists t. repeat (split; [assumption|]).
    eapply maps_par; [exact M|exact H3|exact H4|exact H5|apply pt_eq; cbn; ring|apply pt_eq; cbn; ring].
Qed.
(** the corners of a quad, in the documented order (quad.h 169-173) *)
Definition qcorner (c : pt) (w h r s i j : R) : pt := P (px c + i * px (quad_u w r) + j * px (quad_v h r s)) (py c + i * py (quad_u w r) + j * py (quad_v h r s)).
Theorem quad_corner_list c w h r s : quad_corners (qd c w h r s) = map (fun ij => pv (qcorner c w h r s (fst ij) (snd ij))) [(-1, -1); (1, -1); (1, 1); (-1, 1)].
Proof. rewrite quad_corners_x. reflexivity. Qed.
Theorem find_quad_x c w h r s c' w' h' r' s' : (w = 0 \/ h = 0 -> find_quad (qd c w h r s) (qd c' w' h' r' s') = None) /\
  (w <> 0 -> h <> 0 -> exists t, find_quad (qd c w h r s) (qd c' w' h' r' s') = Some t /\ affine_map t /\
    (forall i j, (i = -1 \/ i = 1) -> (j = -1 \/ j = 1) -> maps t (qcorner c w h r s i j) (qcorner c' w' h' r' s' i j))).
Proof.
  unfold find_quad, find_corners. rewrite !quad_corner_list. cbn [map fst snd]. rewrite !corner_tri.
  destruct (find_triangle_x (qcorner c w h r s (-1) (-1)) (qcorner c w h r s 1 (-1)) (qcorner c w h r s 1 1) (qcorner c' w' h' r' s' (-1) (-1)) (qcorner c' w' h' r' s' 1 (-1)) (qcorner c' w' h' r' s' 1 1)) as [A B].
  assert (D : det3 (qcorner c w h r s (-1) (-1)) (qcorner c w h r s 1 (-1)) (qcorner c w h r s 1 1) = w * h).
  { transitivity (4 * det2 (quad_u w r) (quad_v h r s)); [unfold det3, det2, qcorner; cbn [px py]; ring|]. rewrite quad_det. field. }
  rewrite D in A, B. split.
  - intros [-> | ->]; apply A; ring.
  - intros H1 H2. destruct B as (t & E & M & H3 & H4 & H5); [apply Rmult_integral_contrapositive; split; lra|]. exists t. repeat (split; [assumption|]).
    assert (H6 : maps t (qcorner c w h r s (-1) 1) (qcorner c' w' h' r' s' (-1) 1)) by (eapply maps_par; [exact M|exact H3|exact H4|exact H5|apply pt_eq; unfold qcorner; cbn [px py sub]; ring|apply pt_eq; unfold qcorner; cbn [px py sub]; ring]).
    intros i j [-> | ->] [-> | ->]; assumption.
Qed.
Lemma turn_pi : 2 * PI < turn < 2 * PI + 2 / 10000000.
Proof.
  unfold turn, pi32. split; [pose proof PI_upper; lra|].
  pose proof (PI_2_3_7_ineq 4) as [H _]. cbn [Nat.mul Nat.add] in H. unfold sum_f_R0, tg_alt, PI_2_3_7_tg, Ratan_seq in H. cbn [Nat.mul Nat.add] in H.
  rewrite !INR_IZR_INZ in H. cbn [Z.of_nat Pos.of_succ_nat Pos.succ] in H. lra.
Qed.
Lemma quad_of_box x0 y0 x1 y1 : x0 <= x1 -> quad_from_rect (bx x0 y0 x1 y1) = qd (P ((x0 + x1) / 2) ((y0 + y1) / 2)) (x1 - x0) (y1 - y0) 0 0.
Proof.
  intros H. unfold quad_from_rect. rewrite center_x, EasingExact.x0. unfold quad_make, quad_normalize. pose proof PI_RGT_0. rewrite normalized_x by lra. rewrite Rlt_bool_false by lra.
  cbn [q_width]. rewrite EasingExact.x0. replace (nlt N (rect_width (bx x0 y0 x1 y1)) (Fin 0)) with false; [reflexivity|]. symmetry. apply lt_xf. cbn. lra.
Qed.
Lemma quad_box x0 y0 x1 y1 q : x0 <= x1 -> y0 <= y1 -> (quad_set (P ((x0 + x1) / 2) ((y0 + y1) / 2)) (x1 - x0) (y1 - y0) 0 0 q <-> box_set x0 y0 x1 y1 q).
Proof.
  intros X Y. rewrite <- box_par by assumption. unfold quad_set.
  replace (quad_u (x1 - x0) 0) with (P ((x1 - x0) / 2) 0) by (unfold quad_u; rewrite cos_0, sin_0; apply pt_eq; cbn; field).
  replace (quad_v (y1 - y0) 0 0) with (P 0 ((y1 - y0) / 2)) by (unfold quad_v; rewrite cos_0, sin_0; apply pt_eq; cbn; field). tauto.
Qed.
Lemma atan2_01 : atan2R 0 1 = 0.
Proof. unfold atan2R. rewrite Rlt_bool_true by lra. unfold Rdiv. rewrite Rmult_0_l. apply atan_0. Qed.
Lemma flatten : apply_quad (tf 1 0 0 0 0 0) (qd (P 0 0) 2 2 0 1) = qd (P 0 0) 2 0 0 0.
Proof.
  unfold apply_quad, quad_image. cbn [qd q_center]. rewrite apply_x. change (Quad (pv (P 0 0)) (Fin 2) (Fin 2) (Fin 0) (Fin 1)) with (qd (P 0 0) 2 2 0 1). rewrite semi_axes_x. cbn [qd q_width q_height q_rotation q_shear].
  rewrite x0, n2_x. rewrite (proj2 (eq_xf 2 0)) by lra. rewrite !apply_vec_x, dot_x, det_x.
  replace (lin 1 0 0 0 (quad_u 2 0)) with (P 1 0) by (unfold lin, quad_u; rewrite cos_0, sin_0; apply pt_eq; cbn; field).
  replace (lin 1 0 0 0 (quad_v 2 0 1)) with (P 1 0) by (unfold lin, quad_v; rewrite cos_0, sin_0; apply pt_eq; cbn; field).
  replace (det2 (P 1 0) (P 1 0)) with 0 by (unfold det2; cbn; ring). rewrite (proj2 (eq_x 0 0)) by reflexivity. cbn [orb].
  unfold magnitude, direction. cbn [pv vx vy px py natan2 nhypot N xmap2]. rewrite atan2_01. replace (1 * 1 + 0 * 0) with 1 by ring. rewrite sqrt_1.
  unfold quad_make, quad_normalize. pose proof PI_RGT_0. rewrite normalized_x by lra. rewrite Rlt_bool_false by lra. cbn [q_width nmul N xmul]. rewrite x0, (proj2 (lt_xf _ _)) by lra.
  unfold qd. f_equal; [apply f_equal; apply pt_eq; unfold image; cbn; ring|f_equal; ring].
Qed.
Lemma collinear a b c : det3 a b c = 0 -> exists u v w, (u <> 0 \/ v <> 0) /\ forall x, In x [a; b; c] -> u * px x + v * py x = w.
Proof.
  intros D. destruct (Classical_Prop.classic (a = b)) as [->|H].
  - destruct (Classical_Prop.classic (b = c)) as [->|H].
    + exists 1, 0, (px c). split; [lra|]. intros x [<- | [<- | [<- | []]]]; ring.
    + exists (py c - py b), (px b - px c), ((py c - py b) * px b + (px b - px c) * py b). split; [destruct (Req_dec (py c) (py b)); [right; intros Q; apply H, pt_eq; lra|left; lra]|]. intros x [<- | [<- | [<- | []]]]; ring.
  - exists (py b - py a), (px a - px b), ((py b - py a) * px a + (px a - px b) * py a). split; [destruct (Req_dec (py b) (py a)); [right; intros Q; apply H, pt_eq; lra|left; lra]|].
    unfold det3 in D. intros x [<- | [<- | [<- | []]]]; [ring|ring|lra].
Qed.
