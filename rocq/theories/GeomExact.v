(** The geometry code in exact arithmetic: containment and intersection tests decide the point
    sets. *)
From Coq Require Import ZArith Reals Lra Psatz Bool List.
From Flocq Require Import Core.
From Verif Require Import NumModel EasingExact GeomModel GeomSpec GeomReal.
Import ListNotations.
Local Open Scope R_scope.

Notation N := xnum.
Definition pv (p : pt) : vec N := V (Fin (px p) : T N) (Fin (py p) : T N).
Definition sg (a b : pt) : segment N := Seg (pv a) (pv b).
Definition tr (a b c : pt) : triangle N := Tri (pv a) (pv b) (pv c).
Definition bx (x0 y0 x1 y1 : R) : rect N := Rect (Fin x0 : T N) (Fin y0 : T N) (Fin x1 : T N) (Fin y1 : T N).
Definition qd (c : pt) (w h r s : R) : quad N := Quad (pv c) (Fin w : T N) (Fin h : T N) (Fin r : T N) (Fin s : T N).

Lemma le_x (a b : R) : nle N (Fin a) (Fin b) = true <-> a <= b.
Proof. cbn. unfold xle. cbn. rewrite orb_true_iff. destruct (Rlt_bool_spec a b), (Req_bool_spec a b); split; intros; try lra; auto; destruct H1; try discriminate; lra. Qed.
Lemma lt_x (a b : R) : nlt N (Fin a) (Fin b) = true <-> a < b.
Proof. cbn. destruct (Rlt_bool_spec a b); split; intros; try lra; auto; discriminate. Qed.
Lemma eq_x (a b : R) : neqb N (Fin a) (Fin b) = true <-> a = b.
Proof. cbn. destruct (Req_bool_spec a b); split; intros; auto; try discriminate; contradiction. Qed.
Lemma le_xf (a b : R) : nle N (Fin a) (Fin b) = false <-> b < a.
Proof. rewrite <- not_true_iff_false, le_x. lra. Qed.
Lemma lt_xf (a b : R) : nlt N (Fin a) (Fin b) = false <-> b <= a.
Proof. rewrite <- not_true_iff_false, lt_x. lra. Qed.
Lemma eq_xf (a b : R) : neqb N (Fin a) (Fin b) = false <-> a <> b.
Proof. rewrite <- not_true_iff_false, eq_x. tauto. Qed.
Lemma min_x a b : nmin (N := N) (Fin a) (Fin b) = Fin (Rmin a b).
Proof. unfold nmin. destruct (nlt N (Fin b) (Fin a)) eqn:Q; [apply lt_x in Q; rewrite Rmin_right by lra|apply lt_xf in Q; rewrite Rmin_left by lra]; reflexivity. Qed.
Lemma max_x a b : nmax (N := N) (Fin a) (Fin b) = Fin (Rmax a b).
Proof. unfold nmax. destruct (nlt N (Fin a) (Fin b)) eqn:Q; [apply lt_x in Q; rewrite Rmax_right by lra|apply lt_xf in Q; rewrite Rmax_left by lra]; reflexivity. Qed.
Lemma half_x : half (N := N) = Fin (/ 2).
Proof. unfold half. rewrite xdy. f_equal. change (bpow radix2 (-1)) with (/ 2). ring. Qed.
Lemma n2_x : n2 (N := N) = Fin 2. Proof. apply xZ. Qed.
Lemma veq_x a b : veq (pv a) (pv b) = true <-> a = b.
Proof. unfold veq. rewrite andb_true_iff. cbn [pv vx vy]. rewrite !eq_x. split; [intros [A B]; apply pt_eq; assumption|intros ->; auto]. Qed.
Lemma veq_xf a b : veq (pv a) (pv b) = false <-> a <> b.
Proof. rewrite <- not_true_iff_false, veq_x. tauto. Qed.
Definition sub (a b : pt) : pt := P (px a - px b) (py a - py b).
Lemma sub_x a b : vsub (pv a) (pv b) = pv (sub a b). Proof. reflexivity. Qed.
Lemma padd_x a b : padd (pv a) (pv b) = pv (P (px b + px a) (py b + py a)). Proof. reflexivity. Qed.
Lemma det_x a b : det (pv a) (pv b) = Fin (det2 a b). Proof. reflexivity. Qed.
Definition dot2 (a b : pt) : R := px a * px b + py a * py b.
Lemma dot_x a b : dot (pv a) (pv b) = Fin (dot2 a b). Proof. reflexivity. Qed.
Lemma pv_inj a b : pv a = pv b -> a = b.
Proof. intros H. apply (f_equal vx) in H as H1. apply (f_equal vy) in H as H2. cbn in *. injection H1. injection H2. intros. apply pt_eq; assumption. Qed.

(** ** Segments *)
Lemma dot_pos v : 0 <= dot2 v v. Proof. unfold dot2. nra. Qed.
Lemma dot_zero v : dot2 v v = 0 -> v = P 0 0.
Proof. unfold dot2. intros H. apply pt_eq; cbn; nra. Qed.
Lemma sub_zero a b : sub a b = P 0 0 -> a = b.
Proof. intros H. apply (f_equal px) in H as H1. apply (f_equal py) in H as H2. cbn in *. apply pt_eq; lra. Qed.
Lemma project_same a p : seg_project (sg a a) (pv p) = None.
Proof. unfold seg_project. cbn [sg s_start s_end]. rewrite (proj2 (veq_x a a) eq_refl). reflexivity. Qed.
Lemma project_x a b p : a <> b -> 0 < dot2 (sub b a) (sub b a) /\ seg_project (sg a b) (pv p) = Some (Fin (dot2 (sub p a) (sub b a) / dot2 (sub b a) (sub b a))).
Proof.
  intros H. assert (Q : 0 < dot2 (sub b a) (sub b a)).
  { destruct (Rle_lt_or_eq_dec _ _ (dot_pos (sub b a))) as [L|L]; [exact L|]. symmetry in L. apply dot_zero, sub_zero in L. congruence. }
  split; [exact Q|]. unfold seg_project. cbn [sg s_start s_end]. rewrite (proj2 (veq_xf a b) H). unfold seg_vector. cbn [sg s_start s_end]. rewrite !sub_x. change (magnitude_squared (pv (sub b a))) with (Fin (dot2 (sub b a) (sub b a)) : T N).
  rewrite x0. rewrite (proj2 (le_xf _ _)) by exact Q. rewrite dot_x. cbn [ndiv N xdiv]. rewrite Req_bool_false by lra. reflexivity.
Qed.
Lemma lerp_x a b t : seg_lerp (sg a b) (Fin t : T N) = pv (P (px a * (1 - t) + px b * t) (py a * (1 - t) + py b * t)).
Proof. unfold seg_lerp. rewrite x1e. reflexivity. Qed.
(** a point on the line is where its projection says *)
Lemma project_mix a b p : a <> b -> det2 (sub p a) (sub b a) = 0 -> p = mix (dot2 (sub p a) (sub b a) / dot2 (sub b a) (sub b a)) a b.
Proof.
  intros H D. destruct (on_line a b p H) as (k & ->); [unfold det3, det2, sub in *; cbn in *; lra|].
  destruct (project_x a b a H) as [Q _]. replace (dot2 (sub (mix k a b) a) (sub b a) / dot2 (sub b a) (sub b a)) with k; [reflexivity|].
  apply Rmult_eq_reg_r with (dot2 (sub b a) (sub b a)); [|lra]. unfold Rdiv. rewrite Rmult_assoc, Rinv_l by lra. unfold dot2, sub. cbn. ring.
Qed.
Lemma project_of_mix k a b : a <> b -> dot2 (sub (mix k a b) a) (sub b a) / dot2 (sub b a) (sub b a) = k.
Proof. intros H. destruct (project_x a b a H) as [Q _]. apply Rmult_eq_reg_r with (dot2 (sub b a) (sub b a)); [|lra]. unfold Rdiv. rewrite Rmult_assoc, Rinv_l by lra. unfold dot2, sub. cbn. ring. Qed.
Lemma mix_det k a b : det2 (sub (mix k a b) a) (sub b a) = 0. Proof. unfold det2, sub. cbn. ring. Qed.

Theorem point_segment p a b : int_point_segment (pv p) (sg a b) = true <-> seg_set a b p.
Proof.
  unfold int_point_segment. cbn [sg s_start s_end]. destruct (veq (pv a) (pv b)) eqn:E.
  - apply veq_x in E. subst. rewrite veq_x. split; [intros ->; apply seg_start|]. intros (t & _ & ->). apply pt_eq; cbn; ring.
  - apply veq_xf in E. rewrite !sub_x, det_x, x0. destruct (neqb N (Fin (det2 (sub p a) (sub b a))) (Fin 0)) eqn:D; cbn [negb].
    + apply eq_x in D. change (Seg (pv a) (pv b)) with (sg a b). destruct (project_x a b p E) as [Q ->]. rewrite x1e, andb_true_iff, !le_x. split.
      * intros H. eexists. split; [exact H|]. apply project_mix; assumption.
      * intros (t & Ht & ->). rewrite project_of_mix by exact E. exact Ht.
    + apply eq_xf in D. split; [discriminate|]. intros (t & _ & ->). elim D. apply mix_det.
Qed.
Lemma length_zero a b : neqb N (seg_length (sg a b)) n0 = true <-> a = b.
Proof.
  unfold seg_length, seg_vector. cbn [sg s_start s_end]. rewrite sub_x, x0. unfold magnitude. cbn [pv vx vy nhypot N xmap2]. rewrite eq_x. split.
  - intros H. apply sqrt_eq_0 in H; [|exact (dot_pos (sub b a))]. symmetry. apply sub_zero, dot_zero. exact H.
  - intros ->. replace (_ + _) with 0 by (unfold sub; cbn; ring). apply sqrt_0.
Qed.
Lemma meet_sym S U : meet S U <-> meet U S.
Proof. split; intros (p & A & B); exists p; auto. Qed.
Lemma meet_point p S : meet (point_set p) S <-> S p.
Proof. split; [intros (q & -> & H); exact H|intros H; exists p; split; [reflexivity|exact H]]. Qed.
Lemma seg_point a p : seg_set a a p <-> p = a.
Proof. split; [intros (t & _ & ->); apply pt_eq; cbn; ring|intros ->; apply seg_start]. Qed.
Theorem segments a b c d : int_segments (sg a b) (sg c d) = true <-> meet (seg_set a b) (seg_set c d).
Proof.
  unfold int_segments. cbn [sg s_start s_end].
  destruct (veq (pv a) (pv c) || veq (pv a) (pv d) || veq (pv b) (pv c) || veq (pv b) (pv d)) eqn:Sh.
  - split; [intros _|reflexivity]. rewrite !orb_true_iff in Sh. destruct Sh as [[[Sh|Sh]|Sh]|Sh]; apply veq_x in Sh; subst; [exists c|exists d|exists c|exists d]; auto using seg_start, seg_end.
  - clear Sh. destruct (veq (pv a) (pv b)) eqn:Eab; [|destruct (veq (pv c) (pv d)) eqn:Ecd].
    + apply veq_x in Eab. subst. change (Seg (pv c) (pv d)) with (sg c d). rewrite point_segment. split; [intros H; exists b; auto using seg_start|]. intros (p & H & H'). apply seg_point in H. subst. exact H'.
    + apply veq_x in Ecd. subst. change (Seg (pv a) (pv b)) with (sg a b). rewrite point_segment. split; [intros H; exists d; auto using seg_start|]. intros (p & H & H'). apply seg_point in H'. subst. exact H.
    + apply veq_xf in Eab, Ecd. unfold seg_vector. cbn [sg s_start s_end]. rewrite !sub_x, !det_x, x0.
      destruct (neqb N (Fin (det2 (sub b a) (sub d c))) (Fin 0)) eqn:D.
      * apply eq_x in D. destruct (neqb N (Fin (det2 (sub b a) (sub c a))) (Fin 0)) eqn:C.
        -- apply eq_x in C. change (Seg (pv c) (pv d)) with (sg c d). rewrite <- x0. destruct (neqb N (seg_length (sg c d)) n0) eqn:Ln; [apply length_zero in Ln; contradiction|]. clear Ln.
           destruct (project_x c d a Ecd) as [Q ->]. destruct (project_x c d b Ecd) as [_ ->]. rewrite x0, x1e.
           destruct (on_line a b c Eab) as (k & Hk); [unfold det3, det2, sub in *; cbn in *; lra|].
           assert (Da : det2 (sub a c) (sub d c) = 0). { subst c. replace (det2 (sub a (mix k a b)) (sub d (mix k a b))) with (- k * det2 (sub b a) (sub d (mix k a b))) by (unfold det2, sub; cbn; ring). rewrite D. ring. }
           assert (Db : det2 (sub b c) (sub d c) = 0). { replace (det2 (sub b c) (sub d c)) with (det2 (sub a c) (sub d c) + det2 (sub b a) (sub d c)) by (unfold det2, sub; cbn; ring). lra. }
           apply project_mix in Da, Db; try assumption. set (r1 := dot2 (sub a c) (sub d c) / dot2 (sub d c) (sub d c)) in *. set (r2 := dot2 (sub b c) (sub d c) / dot2 (sub d c) (sub d c)) in *. clearbody r1 r2.
           rewrite andb_true_iff, !orb_true_iff, !le_x. split.
           ++ intros [H1 H2]. assert (Nr : r1 <> r2) by (intros R; apply Eab; rewrite Da, Db, R; reflexivity).
              assert (exists t, 0 <= t <= 1 /\ 0 <= (1 - t) * r1 + t * r2 <= 1) as (t & Ht & Hu).
              { destruct (Rle_dec 0 r1) as [A|A]; [destruct (Rle_dec r1 1) as [B|B]|].
                - exists 0. lra.
                - exists ((1 - r1) / (r2 - r1)). assert (G : (1 - r1) / (r2 - r1) * (r2 - r1) = 1 - r1) by (field; lra). set (t := (1 - r1) / (r2 - r1)) in *. clearbody t. split; nra.
                - exists ((0 - r1) / (r2 - r1)). assert (G : (0 - r1) / (r2 - r1) * (r2 - r1) = 0 - r1) by (field; lra). set (t := (0 - r1) / (r2 - r1)) in *. clearbody t. split; nra. }
              exists (mix t a b). split; [exists t; auto|]. exists ((1 - t) * r1 + t * r2). split; [exact Hu|]. rewrite Da, Db. apply mix_mix.
           ++ intros (p & (t & Ht & ->) & (u & Hu & E)). rewrite Da, Db, mix_mix in E.
              apply (f_equal (fun z => dot2 (sub z c) (sub d c) / dot2 (sub d c) (sub d c))) in E. rewrite !project_of_mix in E by exact Ecd. 
              clear - Ht Hu E. split.
              ** destruct (Rle_dec 0 r1) as [A|A]; [auto|]. destruct (Rle_dec 0 r2) as [B|B]; [auto|]. exfalso. destruct (Req_dec t 0) as [->|Z]; [lra|]. assert (t * r2 < 0) by nra. assert ((1 - t) * r1 <= 0) by nra. lra.
              ** destruct (Rle_dec r1 1) as [A|A]; [auto|]. destruct (Rle_dec r2 1) as [B|B]; [auto|]. exfalso. destruct (Req_dec t 0) as [->|Z]; [lra|]. assert (t * (r2 - 1) > 0) by nra. assert ((1 - t) * (r1 - 1) >= 0) by nra. lra.
        -- apply eq_xf in C. split; [discriminate|]. intros (p & (t & _ & ->) & (u & _ & E)). elim C.
           assert (G : sub c a = P (t * px (sub b a) - u * px (sub d c)) (t * py (sub b a) - u * py (sub d c))). { apply (f_equal px) in E as E1. apply (f_equal py) in E as E2. cbn in E1, E2. apply pt_eq; cbn; lra. }
           rewrite G. replace (det2 (sub b a) _) with (- u * det2 (sub b a) (sub d c)) by (unfold det2; cbn; ring). rewrite D. ring.
      * apply eq_xf in D. set (D0 := det2 (sub b a) (sub d c)) in *. cbn [nmul N xmul]. rewrite andb_true_iff, !le_x.
        set (v1 := det2 (sub b a) (sub c a)). set (v2 := det2 (sub b a) (sub d a)). set (v3 := det2 (sub d c) (sub a c)). set (v4 := det2 (sub d c) (sub b c)).
        assert (V12 : v2 = v1 + D0) by (unfold v1, v2, D0, det2, sub; cbn; ring). assert (V34 : v4 = v3 - D0) by (unfold v3, v4, D0, det2, sub; cbn; ring).
        split.
        -- intros [H1 H2]. set (t := - v1 / D0). set (s := v3 / D0). assert (Ht : t * D0 = - v1) by (unfold t; field; exact D). assert (Hs : s * D0 = v3) by (unfold s; field; exact D).
           assert (Sq : 0 < D0 * D0) by nra.
           assert (H1' : t * (t - 1) <= 0). { assert (E : t * (t - 1) * (D0 * D0) = v1 * v2) by (rewrite V12; replace (t * (t - 1) * (D0 * D0)) with ((t * D0) * (t * D0 - D0)) by ring; rewrite Ht; ring). nra. }
           assert (H2' : s * (s - 1) <= 0). { assert (E : s * (s - 1) * (D0 * D0) = v3 * v4) by (rewrite V34; replace (s * (s - 1) * (D0 * D0)) with ((s * D0) * (s * D0 - D0)) by ring; rewrite Hs; ring). nra. }
           exists (mix s a b). split; [exists s; split; [nra|reflexivity]|]. exists t. split; [nra|].
           apply pt_eq; apply Rmult_eq_reg_r with D0; try exact D; cbn.
           ++ replace (((1 - s) * px a + s * px b) * D0) with (px a * D0 + (s * D0) * (px b - px a)) by ring. replace (((1 - t) * px c + t * px d) * D0) with (px c * D0 + (t * D0) * (px d - px c)) by ring. rewrite Hs, Ht. unfold v1, v3, D0, det2, sub. cbn. ring.
           ++ replace (((1 - s) * py a + s * py b) * D0) with (py a * D0 + (s * D0) * (py b - py a)) by ring. replace (((1 - t) * py c + t * py d) * D0) with (py c * D0 + (t * D0) * (py d - py c)) by ring. rewrite Hs, Ht. unfold v1, v3, D0, det2, sub. cbn. ring.
        -- intros (p & (s & Hs & ->) & (t & Ht & E)).
           apply (f_equal px) in E as E1. apply (f_equal py) in E as E2. cbn in E1, E2.
           assert (C1 : px c = px a + s * (px b - px a) - t * (px d - px c)) by lra. assert (C2 : py c = py a + s * (py b - py a) - t * (py d - py c)) by lra.
           assert (W1 : v1 = - t * D0). { unfold v1, D0, det2, sub. cbn. replace (px c - px a) with (s * (px b - px a) - t * (px d - px c)) by lra. replace (py c - py a) with (s * (py b - py a) - t * (py d - py c)) by lra. ring. }
           assert (W3 : v3 = s * D0). { unfold v3, D0, det2, sub. cbn. replace (px a - px c) with (t * (px d - px c) - s * (px b - px a)) by lra. replace (py a - py c) with (t * (py d - py c) - s * (py b - py a)) by lra. ring. }
           rewrite V12, V34, W1, W3. split; [replace (- t * D0 * (- t * D0 + D0)) with (- (t * (1 - t) * (D0 * D0))) by ring|replace (s * D0 * (s * D0 - D0)) with (- (s * (1 - s) * (D0 * D0))) by ring]; [assert (0 <= t * (1 - t)) by nra|assert (0 <= s * (1 - s)) by nra]; assert (0 <= D0 * D0) by nra; nra.
Qed.

(** ** Triangles *)
(** the triangle of three points on a line *)
Lemma tri_line a b k m p : a <> b -> p = mix k a b -> (tri_set a b (mix m a b) p <-> Rmin 0 m <= k <= Rmax 1 m).
Proof.
  intros H ->. split.
  - intros (u & v & w & U1 & V1 & W1 & S1 & E). assert (Ek : k = v + w * m).
    { apply (f_equal (fun z => dot2 (sub z a) (sub b a) / dot2 (sub b a) (sub b a))) in E. rewrite project_of_mix in E by exact H. rewrite E.
      replace (P _ _) with (mix (v + w * m) a b) by (apply pt_eq; cbn; assert (u = 1 - v - w) as -> by lra; ring). apply project_of_mix. exact H. }
    subst k. unfold Rmin, Rmax. destruct (Rle_dec 0 m), (Rle_dec 1 m); nra.
  - intros Hk. assert (exists v w, 0 <= v /\ 0 <= w /\ v + w <= 1 /\ k = v + w * m) as (v & w & V1 & W1 & VW & ->).
    { unfold Rmin, Rmax in Hk. destruct (Rle_dec 0 k) as [K|K]; [destruct (Rle_dec k 1) as [K'|K']; [exists k, 0; lra|]|].
      - destruct (Rle_dec 1 m) as [M|M]; [|lra]. exists 0, (k / m). assert (G : k / m * m = k) by (field; lra). split; [lra|]. split; [|split]; nra.
      - destruct (Rle_dec 0 m) as [M|M]; [lra|]. exists 0, (k / m). assert (G : k / m * m = k) by (field; lra). split; [lra|]. split; [|split]; nra. }
    exists (1 - v - w), v, w. split; [lra|]. split; [exact V1|]. split; [exact W1|]. split; [lra|]. apply pt_eq; cbn; ring.
Qed.
Lemma same_sign x y : 0 <= x * y <-> ~ (x < 0 /\ 0 < y) /\ ~ (0 < x /\ y < 0).
Proof. split; [intros H; split; intros [A B]; nra|]. intros [A B]. destruct (Rtotal_order x 0) as [X|[X|X]], (Rtotal_order y 0) as [Y|[Y|Y]]; try nra; exfalso; tauto. Qed.
Theorem triangle_contains a b c p : tri_contains (tr a b c) (pv p) = true <-> tri_set a b c p.
Proof.
  unfold tri_contains. cbn [tr p0 p1 p2]. rewrite !sub_x, !det_x, x0, x1e. cbn zeta.
  set (d0 := det2 (sub p a) (sub b a)). set (d1 := det2 (sub p b) (sub c b)). set (d2 := det2 (sub p c) (sub a c)).
  assert (E0 : d0 = - det3 a b p) by (unfold d0, det2, det3, sub; cbn; ring). assert (E1 : d1 = - det3 p b c) by (unfold d1, det2, det3, sub; cbn; ring). assert (E2 : d2 = - det3 a p c) by (unfold d2, det2, det3, sub; cbn; ring).
  assert (Sm : d0 + d1 + d2 = - det3 a b c) by (unfold d0, d1, d2, det2, det3, sub; cbn; ring).
  assert (Bary : det3 a b c <> 0 -> (tri_set a b c p <-> 0 <= d0 * d1 /\ 0 <= d1 * d2 /\ 0 <= d0 * d2)).
  { intros D. rewrite (tri_iff _ _ _ _ D). assert (G : forall x, 0 <= x / det3 a b c <-> 0 <= x * det3 a b c).
    { intros x. assert (x * det3 a b c = (x / det3 a b c) * (det3 a b c * det3 a b c)) as -> by (field; exact D). assert (0 < det3 a b c * det3 a b c) by nra. split; intros; nra. }
    rewrite !G. assert (det3 p b c = - d1) as -> by lra. assert (det3 a p c = - d2) as -> by lra. assert (det3 a b p = - d0) as -> by lra. assert (DE : det3 a b c = - (d0 + d1 + d2)) by lra. rewrite DE in *. clearbody d0 d1 d2. clear - D.
    split.
    - intros (H1 & H2 & H3). assert (K1 : 0 <= d1 * (d0 + d1 + d2)) by lra. assert (K2 : 0 <= d2 * (d0 + d1 + d2)) by lra. assert (K3 : 0 <= d0 * (d0 + d1 + d2)) by lra.
      clear - D K1 K2 K3. assert (G : forall x S, 0 <= x * S -> (S < 0 -> x <= 0) /\ (0 < S -> 0 <= x)) by (clear; intros x S H; split; intros; nra). apply G in K1, K2, K3. clear G.
      destruct (Rtotal_order (d0 + d1 + d2) 0) as [S|[S|S]]; [|lra|].
      + apply K1 in S as A1. apply K2 in S as A2. apply K3 in S as A3. clear - A1 A2 A3. split; [|split]; nra.
      + apply K1 in S as A1. apply K2 in S as A2. apply K3 in S as A3. clear - A1 A2 A3. split; [|split]; nra.
    - rewrite !same_sign. intros (H1 & H2 & H3). destruct (Rtotal_order d0 0) as [X|[X|X]], (Rtotal_order d1 0) as [Y|[Y|Y]], (Rtotal_order d2 0) as [Z|[Z|Z]]; try (exfalso; tauto); try (split; [|split]; nra). }
  cbn [nmul N xmul]. destruct (nlt N (Fin (d0 * d1)) (Fin 0)) eqn:L.
  - apply lt_x in L. split; [discriminate|]. intros H. exfalso. destruct (Req_dec (det3 a b c) 0) as [D|D]; [|apply (Bary D) in H; lra].
    apply tri_flat in H; [|exact D].
    destruct H as (e & [<-|[<-|[<-|[]]]] & (t & Ht & Ep)); cbn [fst snd] in Ep; subst p.
    + assert (d0 = 0) by (unfold d0; apply mix_det). nra.
    + assert (d1 = 0) by (unfold d1; apply mix_det). nra.
    + assert (d2 = 0) by (unfold d2; apply mix_det). 
      assert (d0 = - (1 - t) * det3 a b c) by (unfold d0, det2, det3, sub; cbn; ring). rewrite D in *. nra.
  - apply lt_xf in L. destruct (neqb N (Fin d0) (Fin 0) && neqb N (Fin d1) (Fin 0)) eqn:Z.
    + apply andb_true_iff in Z. destruct Z as [Z0 Z1]. apply eq_x in Z0, Z1. change (Seg (pv a) (pv b)) with (sg a b). change (Seg (pv b) (pv c)) with (sg b c).
      destruct (veq (pv a) (pv b)) eqn:Eab; cbn [negb].
      * apply veq_x in Eab. subst b. destruct (veq (pv a) (pv c)) eqn:Eac; cbn [negb].
        -- apply veq_x in Eac. subst c. rewrite veq_x. split; [intros ->; apply tri_0|]. intros (u & v & w & U1 & V1 & W1 & S1 & ->). assert (u = 1 - v - w) as -> by lra. apply pt_eq; cbn; ring.
        -- apply veq_xf in Eac. destruct (project_x a c a Eac) as [Q ->]. destruct (project_x a c p Eac) as [_ ->]. rewrite min_x, max_x, andb_true_iff, !le_x.
           assert (Hp := project_mix a c p Eac Z1). set (k := dot2 (sub p a) (sub c a) / dot2 (sub c a) (sub c a)) in *. replace (dot2 (sub a a) (sub c a) / dot2 (sub c a) (sub c a)) with 0 by (unfold dot2, sub; cbn; rewrite !Rminus_diag_eq by reflexivity; unfold Rdiv; ring).
           assert (T : tri_set a a c p <-> tri_set a c a p) by (split; intros (u & v & w & U1 & V1 & W1 & S1 & ->); exists u, w, v; do 3 (split; [assumption|]); (split; [lra|]); apply pt_eq; cbn; ring). rewrite T.
           rewrite <- (mix_0 a c) at 2. rewrite (tri_line a c k 0 p Eac Hp). reflexivity.
      * apply veq_xf in Eab. destruct (project_x a b c Eab) as [Q ->]. destruct (project_x a b p Eab) as [_ ->]. rewrite min_x, max_x, andb_true_iff, !le_x.
        assert (Hp := project_mix a b p Eab Z0). set (k := dot2 (sub p a) (sub b a) / dot2 (sub b a) (sub b a)) in *.
        destruct (Req_dec (det3 a b c) 0) as [D|D].
        -- destruct (on_line a b c Eab D) as (m & Hm). assert (dot2 (sub c a) (sub b a) / dot2 (sub b a) (sub b a) = m) as -> by (rewrite Hm; apply project_of_mix; exact Eab). rewrite Hm. rewrite (tri_line a b k m p Eab Hp). reflexivity.
        -- assert (Kz : (1 - k) * det3 a b c = 0). { transitivity (- d1); [|lra]. unfold d1. rewrite Hp. unfold det2, det3, sub. cbn. ring. }
           apply Rmult_integral in Kz. destruct Kz as [Kz|Kz]; [|contradiction]. assert (k = 1) as K1 by lra. rewrite K1 in *. rewrite mix_1 in Hp. subst p.
           set (m := dot2 (sub c a) (sub b a) / dot2 (sub b a) (sub b a)). split; [intros _; apply tri_1|]. intros _. unfold Rmin, Rmax. destruct (Rle_dec 0 m), (Rle_dec 1 m); lra.
    + rewrite andb_true_iff, !le_x. destruct (Req_dec (det3 a b c) 0) as [D|D]; [|rewrite (Bary D); tauto].
      split.
      * intros [H1 H2]. exfalso. apply andb_false_iff in Z. rewrite !eq_xf in Z. assert (Sz : d0 + d1 + d2 = 0) by lra.
        assert (d2 = - d0 - d1) as Q by lra. rewrite Q in *. assert (d0 * d1 + d1 * d1 <= 0) by nra. assert (d0 * d0 + d0 * d1 <= 0) by nra. assert (d1 = 0) by nra. assert (d0 = 0) by nra. tauto.
      * intros H. exfalso. apply tri_flat in H; [|exact D]. apply andb_false_iff in Z. rewrite !eq_xf in Z.
        assert (G : forall q, on (a, b) q \/ on (b, c) q \/ on (c, a) q -> a <> b -> det3 a b q = 0).
        { intros q Hq Hab. destruct (on_line a b c Hab D) as (m & Hm). unfold on in Hq. cbn [fst snd] in Hq. destruct Hq as [(t & _ & ->)|[(t & _ & ->)|(t & _ & ->)]]; rewrite ?Hm; unfold det3; cbn; ring. }
        assert (Hq : on (a, b) p \/ on (b, c) p \/ on (c, a) p) by (destruct H as (e & [<-|[<-|[<-|[]]]] & Hon); auto).
        destruct (Classical_Prop.classic (a = b)) as [<-|Hab].
        -- destruct Hq as [(t & _ & ->)|[(t & _ & ->)|(t & _ & ->)]]; destruct Z as [Z|Z]; apply Z; unfold d0, d1, det2, sub; cbn; ring.
        -- assert (Z0 : d0 = 0) by (rewrite E0, (G p Hq Hab); ring). destruct Z as [Z|Z]; [contradiction|]. apply Z. rewrite E1.
           destruct (on_line a b p Hab (G p Hq Hab)) as (k & ->), (on_line a b c Hab D) as (m & ->). unfold det3; cbn; ring.
Qed.
