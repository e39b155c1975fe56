(** C77: the shape of a brush tip. *)
From Coq Require Import ZArith Reals Lra Lia Psatz Bool FinFun List.
From Flocq Require Import Core.
From Flocq.IEEE754 Require Import BinarySingleNaN.
From Verif Require Import F32 F32Lemmas NumModel EasingExact BehaviorMeaning BehaviorModel BehaviorExact GeomModel AffineModel GeomSpec GeomReal GeomExact AffineProofs CircleModel CircleSpec CircleProofs TipShapeModel TipShapeSpec TipShapeProofs.
Import ListNotations.
Local Open Scope R_scope.

Definition least (m : R) : R := Rmax m (/ IZR (2 ^ 126)).
Lemma least_pos m : 0 < least m /\ m <= least m.
Proof. unfold least. split; [|apply Rmax_l]. apply Rlt_le_trans with (/ IZR (2 ^ 126)); [|apply Rmax_r]. apply Rinv_0_lt_compat, IZR_lt. reflexivity. Qed.
Lemma make_x t m : valid t -> make_shape (N := N) (state t) (Fin m) = Some (Shape (pv (t_at t)) (model_circles (used_discs t (least m)))).
Proof.
  intros V. unfold make_shape. destruct (least_pos m) as [L _].
  assert (E : nmax (N := N) (Fin m) (ndy N 1 (-126)) = Fin (least m)). { rewrite xdy, max_x. unfold least. f_equal. f_equal. rewrite Rmult_1_l. reflexivity. }
  rewrite E, circles_x by assumption. reflexivity.
Qed.
Lemma radii t m c r : valid t -> In (c, r) (used_discs t m) -> 0 <= r.
Proof. intros V I. apply used_in in I. destruct I as (x & y & _ & _ & ->). apply (used_radius_bound t m V). Qed.
(** A valid state gives one to four circles of the same radius, which is zero or at least the minimum.
    The shape reaches as far as the described one in every direction, give or take three times the minimum. *)
Theorem C77_shape t m : valid t -> exists l r, make_shape (N := N) (state t) (Fin m) = Some (Shape (pv (t_at t)) (model_circles l)) /\
  (1 <= length l <= 4)%nat /\ (forall c s, In (c, s) l -> s = r) /\ (r = 0 \/ least m <= r) /\
  forall u h h', unit u -> reach l u h -> reach (ideal t) u h' -> Rabs (h - h') <= 3 * least m.
Proof.
  intros V. destruct (least_pos m) as [L _]. exists (used_discs t (least m)), (used_radius t (least m)). split; [apply make_x; exact V|]. split; [|split; [|split]].
  - unfold used_discs. rewrite map_length. apply used_nodup; assumption.
  - intros c s I. apply used_in in I. destruct I as (_ & _ & _ & _ & ->). reflexivity.
  - apply (used_radius_bound t (least m) V).
  - intros u h h' U A B. apply (used_close t (least m) u); assumption.
Qed.
(** if nothing is smaller than the minimum the circles are exactly the described ones *)
Theorem C77_exact t m : valid t -> let r := ideal_radius t in let x := t_width t / 2 - r in let y := t_height t / 2 - r in
  (r = 0 \/ least m <= r) -> least m <= 2 * x -> least m <= 2 * y -> least m <= 2 * ((1 - t_pinch t) * x) ->
  make_shape (N := N) (state t) (Fin m) = Some (Shape (pv (t_at t)) (model_circles (ideal t))).
Proof.
  intros V r x y R X Y B. rewrite make_x by exact V. f_equal. f_equal. f_equal. destruct (least_pos m) as [L _]. set (mm := least m) in *. clearbody mm.
  assert (Er : used_radius t mm = r) by (unfold used_radius; fold r; destruct (Rlt_bool_spec r mm); [destruct R; lra|reflexivity]).
  assert (Ex : used_x t mm = x) by (unfold used_x, snap; rewrite Er; fold x; rewrite Rlt_bool_false by lra; reflexivity).
  assert (Ey : used_y t mm = y) by (unfold used_y, snap; rewrite Er; fold y; rewrite Rlt_bool_false by lra; reflexivity).
  assert (Eb : used_b t mm = (1 - t_pinch t) * x) by (unfold used_b, snap; rewrite Ex, Rlt_bool_false by lra; reflexivity).
  unfold used_discs, used. rewrite Er, Ex, Ey, Eb. rewrite !Req_bool_false by lra. reflexivity.
Qed.
(** a state that is not as documented fails the CHECK *)
Theorem C77_check t m : make_shape (N := N) (state t) (Fin m) = None <-> ~ valid t.
Proof.
  split; [intros E V; rewrite make_x in E by exact V; discriminate E|]. intros Nv. unfold make_shape, control_circles. cbn [state ts_width ts_height ts_percent_radius ts_pinch]. rewrite !x0, !x1e.
  destruct (nle N (Fin 0) (Fin (t_width t)) && nle N (Fin 0) (Fin (t_height t)) && nle N (Fin 0) (Fin (t_rounding t)) && nle N (Fin (t_rounding t)) (Fin 1) && nle N (Fin 0) (Fin (t_pinch t)) && nle N (Fin (t_pinch t)) (Fin 1)) eqn:Q; [|reflexivity].
  rewrite !andb_true_iff, !le_x in Q. elim Nv. unfold valid. lra.
Qed.
(** unless the tip is slanted by a quarter turn no circle is there twice or contains another *)
Theorem C77_distinct t m s : valid t -> cos (t_slant t) <> 0 -> make_shape (N := N) (state t) (Fin m) = Some s ->
  NoDup (map center (s_circles s)) /\ forall a b, In a (s_circles s) -> In b (s_circles s) -> contains a b = true -> a = b.
Proof.
  intros V C E. rewrite make_x in E by exact V. injection E. intros <-. clear E. cbn [s_circles]. destruct (least_pos m) as [L _]. set (mm := least m) in *. clearbody mm. split.
  - unfold model_circles, used_discs. rewrite !map_map. cbn [fst snd circ center]. apply Injective_map_NoDup; [|apply used_nodup; assumption].
    intros [x y] [x' y'] Q. cbn [fst snd] in Q. apply pv_inj in Q. apply placed_inj in Q; [|exact C]. destruct Q as [-> ->]. reflexivity.
  - intros a b A B Q. unfold model_circles in A, B. apply in_map_iff in A, B. destruct A as ([c r] & <- & A), B as ([d s] & <- & B). cbn [fst snd] in *. apply used_in in A, B. destruct A as (x & y & A & -> & ->), B as (x' & y' & B & -> & ->).
    apply contains_x in Q. pose proof (len_pos (minus (placed t x' y') (placed t x y))) as P. assert (Z : len (minus (placed t x' y') (placed t x y)) = 0) by lra. apply len_zero, minus_zero in Z. rewrite Z. reflexivity.
Qed.
(** the centers of an upright tip are at least the minimum apart *)
Theorem C77_separation t m l c r d s : valid t -> t_slant t = 0 -> make_shape (N := N) (state t) (Fin m) = Some (Shape (pv (t_at t)) (model_circles l)) ->
  In (c, r) l -> In (d, s) l -> c <> d -> least m <= distance c d.
Proof.
  intros V Z E. rewrite make_x in E by exact V. destruct (least_pos m) as [L _]. set (mm := least m) in *. clearbody mm.
  assert (El : l = used_discs t mm).
  { injection E. intros Q. clear -Q. revert Q. generalize (used_discs t mm). induction l as [|[c r] l IH]; intros [|[c' r'] k] Q; try discriminate Q; [reflexivity|]. cbn [model_circles map fst snd] in Q. apply (f_equal (@hd_error _)) in Q as Q1. apply (f_equal (@tl _)) in Q as Q2. cbn [hd_error tl] in Q1, Q2. f_equal; [|apply IH; exact Q2].
    injection Q1. intros R Cy Cx. f_equal; [apply pt_eq; congruence|congruence]. }
  rewrite El. intros A B Ne. apply used_in in A, B. destruct A as (x & y & A & -> & _), B as (x' & y' & B & -> & _).
  assert (D : distance (placed t x y) (placed t x' y') = sqrt ((x - x') * (x - x') + (y - y') * (y - y'))).
  { unfold distance. f_equal. unfold dist2, placed, plus, turned. cbn [px py]. rewrite Z, cos_0, sin_0. pose proof (sin2_cos2 (t_rotation t)) as S. unfold Rsqr in S.
    transitivity (((x - x') * (x - x') + (y - y') * (y - y')) * (sin (t_rotation t) * sin (t_rotation t) + cos (t_rotation t) * cos (t_rotation t))); [ring|rewrite S; ring]. }
  rewrite D. rewrite <- (sqrt_square mm) by lra. apply sqrt_le_1_alt. assert (G : mm <= Rabs (x - x') \/ mm <= Rabs (y - y')).
  2:{ destruct G as [G|G]; [pose proof (Rsqr_abs (x - x')) as Q|pose proof (Rsqr_abs (y - y')) as Q]; unfold Rsqr in Q; pose proof (Rmult_le_compat _ _ _ _ (Rlt_le _ _ L) (Rlt_le _ _ L) G G); pose proof (Rle_0_sqr (x - x')) as S1; pose proof (Rle_0_sqr (y - y')) as S2; unfold Rsqr in S1, S2; lra. }
  assert (Ne' : (x, y) <> (x', y')) by (intros Q; injection Q; intros; subst; apply Ne; reflexivity). clear Ne D.
  destruct (used_ok t mm V L) as (X0 & Y0 & B0 & SX & SY & SB). unfold used in A, B.
  assert (Ab : forall z, z <= Rabs z /\ - z <= Rabs z) by (intros z; split; [apply Rle_abs|rewrite <- Rabs_Ropp; apply Rle_abs]).
  pose proof (Ab (x - x')). pose proof (Ab (y - y')).
  destruct (Req_bool_spec (used_x t mm) 0) as [Zx|Zx], (Req_bool_spec (used_y t mm) 0) as [Zy|Zy]; cbn [andb] in A, B; [| | |destruct (Req_bool_spec (used_b t mm) 0) as [Zb|Zb]];
    cbn [In] in A, B; repeat destruct A as [A|A]; try contradiction; repeat destruct B as [B|B]; try contradiction; try (elim Ne'; rewrite <- A, <- B; reflexivity); apply pair_equal_spec in A, B; destruct A, B; subst x y x' y'; lra.
Qed.
(** the bounds are the smallest box with all of the discs *)
Theorem C77_bounds v l : l <> [] -> (forall c r, In (c, r) l -> 0 <= r) ->
  exists x0 y0 x1 y1, bounds (N := N) (Shape v (model_circles l)) = Some (bx x0 y0 x1 y1) /\ reach l (P (-1) 0) (- x0) /\ reach l (P 0 (-1)) (- y0) /\ reach l (P 1 0) x1 /\ reach l (P 0 1) y1.
Proof. intros Ne R. destruct (bounds_x v l Ne R) as (x0 & y0 & x1 & y1 & E & T). exists x0, y0, x1, y1. split; [exact E|]. apply tight_reach; assumption. Qed.
(** the ends of the valid range of slants, exactly a quarter turn: circles coincide *)
Theorem C77_distinct_refuted : exists t, valid t /\ Rabs (t_slant t) = PI / 2 /\ forall m, 0 < m <= 1 ->
  exists a b, make_shape (N := N) (state t) (Fin m) = Some (Shape (pv (t_at t)) [a; b; a]).
Proof.
  exists (Tip (P 0 0) 4 2 0 1 (PI / 2) 0). pose proof PI_RGT_0. split; [unfold valid; cbn; lra|]. split; [apply Rabs_pos_eq; cbn; lra|]. intros m M. set (t := Tip (P 0 0) 4 2 0 1 (PI / 2) 0).
  assert (V : valid t) by (unfold valid; cbn; lra). rewrite make_x by exact V. destruct (least_pos m) as [L L']. assert (L1 : least m <= 1). { unfold least. apply Rmax_lub; [lra|]. rewrite <- Rinv_1. apply Rinv_le_contravar; [lra|]. apply IZR_le. discriminate. } set (mm := least m) in *. clearbody mm.
  assert (I0 : ideal_radius t = 0) by (unfold ideal_radius; cbn; ring). assert (Er : used_radius t mm = 0) by (unfold used_radius; rewrite I0, Rlt_bool_true by lra; reflexivity).
  assert (Ex : used_x t mm = 2) by (unfold used_x, snap; rewrite Er; cbn [t t_width]; rewrite Rlt_bool_false by lra; field). assert (Ey : used_y t mm = 1) by (unfold used_y, snap; rewrite Er; cbn [t t_height]; rewrite Rlt_bool_false by lra; field).
  assert (Eb : used_b t mm = 0) by (unfold used_b, snap; rewrite Ex; cbn [t t_pinch]; rewrite Rlt_bool_true by lra; reflexivity).
  unfold used_discs, used. rewrite Er, Ex, Ey, Eb. rewrite (Req_bool_false 2) by lra. rewrite (Req_bool_false 1) by lra. rewrite (Req_bool_true 0) by lra. cbn [andb model_circles map fst snd].
  assert (Q : placed t 2 1 = placed t 0 (- (1))). { unfold placed, plus, turned. cbn [t t_at t_rotation t_slant px py]. rewrite cos_PI2, sin_PI2, cos_0, sin_0. apply pt_eq; cbn; ring. }
  rewrite <- Q. eexists _, _. reflexivity.
Qed.
Lemma unit_10 : len (P 1 0) = 1.
Proof. unfold len, inner. cbn. replace (1 * 1 + 0 * 0) with 1 by ring. apply sqrt_1. Qed.
Lemma unit_01 : len (P 0 1) = 1.
Proof. unfold len, inner. cbn. replace (0 * 0 + 1 * 1) with 1 by ring. apply sqrt_1. Qed.
(** A shape of a single circle contains exactly the shapes all of whose discs are in its disc. *)
Theorem C77_round acos v w c r l : 0 <= r -> l <> [] -> (forall d s, In (d, s) l -> 0 <= s) ->
  exists b, shape_contains (N := N) acos (Shape v (model_circles [(c, r)])) (Shape w (model_circles l)) = Some b /\ (b = true <-> forall d s, In (d, s) l -> within (disc d s) (disc c r)).
Proof.
  intros R Ne Rl. unfold shape_contains.
  destruct (bounds_x v [(c, r)]) as (a0 & b0 & a1 & b1 & E1 & T1); [discriminate|intros d s [Q|[]]; injection Q; intros; subst; exact R|].
  destruct (bounds_x w l Ne Rl) as (a2 & b2 & a3 & b3 & E2 & T2). rewrite E1, E2. cbn [s_circles model_circles map fst snd].
  assert (W : forall d s, 0 <= s -> contains (N := N) (circ c r) (circ d s) = true <-> within (disc d s) (disc c r)).
  { intros d s S. rewrite contains_x. symmetry. apply within_disc; assumption. }
  assert (A : forallb (contains (N := N) (circ c r)) (model_circles l) = true <-> forall d s, In (d, s) l -> within (disc d s) (disc c r)).
  { rewrite forallb_forall. split.
    - intros H d s I. apply W; [apply (Rl d s I)|]. apply H. unfold model_circles. apply in_map_iff. exists (d, s). split; [reflexivity|exact I].
    - intros H k I. unfold model_circles in I. apply in_map_iff in I. destruct I as ([d s] & <- & I). apply W; [apply (Rl d s I)|apply H; exact I]. }
  destruct (rect_contains_rect (bx a0 b0 a1 b1) (bx a2 b2 a3 b3)) eqn:Q; cbn [negb].
  - exists (forallb (contains (N := N) (circ c r)) (model_circles l)). split; [reflexivity|exact A].
  - exists false. split; [reflexivity|]. split; [discriminate|]. intros H. exfalso.
    assert (B : rect_contains_rect (N := N) (bx a0 b0 a1 b1) (bx a2 b2 a3 b3) = true); [|congruence].
    assert (T : forall d s, In (d, s) l -> px c - r <= px d - s /\ py c - r <= py d - s /\ px d + s <= px c + r /\ py d + s <= py c + r).
    { intros d s I. specialize (H d s I). apply within_disc in H; [|exact R|apply (Rl d s I)]. pose proof (cauchy_abs (P 1 0) (minus d c)) as K1. pose proof (cauchy_abs (P 0 1) (minus d c)) as K2.
      unfold inner, minus in K1, K2. cbn [px py] in K1, K2. rewrite unit_10 in K1. rewrite unit_01 in K2. apply Rabs_le_inv in K1, K2. unfold minus in H. lra. }
    destruct T1 as [_ ((? & ? & [Q1|[]] & F1) & (? & ? & [Q2|[]] & F2) & (? & ? & [Q3|[]] & F3) & (? & ? & [Q4|[]] & F4))]. injection Q1 as <- <-. injection Q2 as <- <-. injection Q3 as <- <-. injection Q4 as <- <-.
    destruct T2 as [_ ((d1 & s1 & I1 & G1) & (d2 & s2 & I2 & G2) & (d3 & s3 & I3 & G3) & (d4 & s4 & I4 & G4))].
    pose proof (T _ _ I1). pose proof (T _ _ I2). pose proof (T _ _ I3). pose proof (T _ _ I4).
    unfold rect_contains_rect. cbn [bx x_min x_max y_min y_max]. rewrite !(proj2 (le_x _ _)) by lra. reflexivity.
Qed.

(** ** In floats *)
Lemma nonneg_mul x y : is_finite x = true -> is_finite y = true -> fle f0 x = true -> fle f0 y = true -> fle f0 (fmul x y) = true.
Proof.
  intros Fx Fy Lx Ly. destruct (fmul_X x y Fx Fy) as [E Nn]. assert (F0 : is_finite f0 = true) by reflexivity.
  rewrite (fle_spec _ _ (finite_not_nan _ F0) Nn). rewrite fle_spec in Lx, Ly by (apply finite_not_nan; assumption). rewrite fX_finite, f0_R in * by reflexivity. rewrite fX_finite in Lx, Ly by assumption. rewrite E.
  pose proof big_pos. rewrite <- (clampX_id 0) at 1 by lra. apply clampX_mono, rnd_pos. nra.
Qed.
Lemma half_finite w : is_finite w = true -> fle f0 w = true -> is_finite (fmul (fdy 1 (-1)) w) = true /\ fle f0 (fmul (fdy 1 (-1)) w) = true.
Proof.
  intros Fw Lw. assert (Fh : is_finite (fdy 1 (-1)) = true) by (vm_compute; reflexivity). split; [|apply nonneg_mul; try assumption; vm_compute; reflexivity].
  assert (Rh : fR (fdy 1 (-1)) = 1 / 2). { destruct (fR_const (fdy 1 (-1)) false 8388608 (-24)) as [Q _]; [vm_compute; reflexivity|]. rewrite Q. unfold F2R. cbn. lra. }
  assert (B : Rabs (rnd (fR (fdy 1 (-1)) * fR w)) < big).
  { rewrite Rh. assert (F0 : is_finite f0 = true) by reflexivity. rewrite (fle_spec _ _ (finite_not_nan _ F0) (finite_not_nan _ Fw)), !fX_finite, f0_R in Lw by (reflexivity || exact Fw).
    pose proof (rnd_pos (1 / 2 * fR w) ltac:(lra)). rewrite Rabs_pos_eq by assumption. apply Rle_lt_trans with (fR w); [|apply fR_bounds]. rewrite <- (rnd_fR w) at 2. apply rnd_mono. lra. }
  destruct (fmul_finite _ _ Fh Fw) as [(_ & _ & F)|[(H & _)|(H & _)]]; [exact F| |]; apply Rabs_lt_inv in B; lra.
Qed.
Lemma twice_nonneg r : fle f0 r = true -> fle f0 (fmul (fZ 2) r) = true.
Proof.
  intros L. destruct (is_finite r) eqn:F; [apply nonneg_mul; try assumption; vm_compute; reflexivity|]. destruct r as [s|s| |s m e B]; try discriminate F; [|discriminate L]. destruct s; [discriminate L|]. vm_compute. reflexivity.
Qed.
Lemma min_of (E : elem) a b : nmin (N := fnum E) a b = a \/ nmin (N := fnum E) a b = b.
Proof. unfold nmin. destruct (nlt (fnum E) b a); auto. Qed.
Lemma radius_nonneg E p w h m : is_finite p = true -> fle f0 p = true -> is_finite w = true -> fle f0 w = true -> is_finite h = true -> fle f0 h = true ->
  fle f0 (circle_radius (N := fnum E) p (fmul (fdy 1 (-1)) w) (fmul (fdy 1 (-1)) h) m) = true.
Proof.
  intros Fp Lp Fw Lw Fh Lh. unfold circle_radius. destruct (half_finite w Fw Lw), (half_finite h Fh Lh). destruct (nlt (fnum E) _ m); [reflexivity|]. cbn [nmul fnum].
  apply nonneg_mul; try assumption; destruct (min_of E (fmul (fdy 1 (-1)) w) (fmul (fdy 1 (-1)) h)) as [-> | ->]; assumption.
Qed.
(** A finite state in the documented ranges never fails a CHECK, neither when the shape is made nor when its bounds are asked for. *)
Theorem C77_total (E : elem) (s : @tip_state (fnum E)) (m : f32) : is_finite (ts_width s : f32) = true -> is_finite (ts_height s : f32) = true -> is_finite (ts_percent_radius s : f32) = true ->
  fle f0 (ts_width s) = true -> fle f0 (ts_height s) = true -> fle f0 (ts_percent_radius s) = true -> fle (ts_percent_radius s) f1 = true ->
  fle f0 (ts_pinch s) = true -> fle (ts_pinch s) f1 = true ->
  exists sh b, make_shape (N := fnum E) s m = Some sh /\ (1 <= length (s_circles sh) <= 4)%nat /\ bounds sh = Some b.
Proof.
  intros Fw Fh Fp Lw Lh Lp Up Li Ui. unfold make_shape, control_circles.
  assert (C : (nle (fnum E) n0 (ts_width s) && nle (fnum E) n0 (ts_height s) && nle (fnum E) n0 (ts_percent_radius s) && nle (fnum E) (ts_percent_radius s) n1 && nle (fnum E) n0 (ts_pinch s) && nle (fnum E) (ts_pinch s) n1) = true).
  { change (nle (fnum E)) with fle. change (@n0 (fnum E)) with f0. change (@n1 (fnum E)) with f1. rewrite Lw, Lh, Lp, Up, Li, Ui. reflexivity. }
  rewrite C. cbn [negb]. clear C. set (mm := nmax (N := fnum E) m (ndy (fnum E) 1 (-126))). clearbody mm.
  pose proof (radius_nonneg E (ts_percent_radius s) (ts_width s) (ts_height s) mm Fp Lp Fw Lw Fh Lh) as R.
  change (nmul (fnum E) half (ts_width s)) with (fmul (fdy 1 (-1)) (ts_width s)) in *. change (nmul (fnum E) half (ts_height s)) with (fmul (fdy 1 (-1)) (ts_height s)) in *.
  set (r := circle_radius _ _ _ _) in *. clearbody r.
  assert (M : forall c, make_circle (N := fnum E) c r = Some (Circle c r)) by (intros c; unfold make_circle; change (nle (fnum E) n0 r) with (fle f0 r); rewrite R; reflexivity).
  assert (Bd : forall c, exists b, circle_bounds (N := fnum E) (Circle c r) = Some b).
  { intros c. unfold circle_bounds, rect_from_center. cbn [center radius]. change (nle (fnum E) n0 (nmul (fnum E) (nZ 2) r)) with (fle f0 (fmul (fZ 2) r)). rewrite (twice_nonneg r R). eexists. reflexivity. }
  assert (Fo : forall v l, l <> [] -> exists b, bounds (N := fnum E) (Shape v (map (fun c => Circle c r) l)) = Some b).
  { intros v [|c l] Ne; [congruence|]. unfold bounds. cbn [s_circles map]. destruct (Bd c) as [b ->]. clear Ne c. revert b. induction l as [|c l IH]; intros b; [eexists; reflexivity|]. cbn [map fold_left]. destruct (Bd c) as [b' ->]. apply IH. }
  assert (En : forall v l, (1 <= length l <= 4)%nat -> exists sh b, Some (Shape v (map (fun c => @Circle (fnum E) c r) l)) = Some sh /\ (1 <= length (s_circles sh) <= 4)%nat /\ bounds sh = Some b).
  { intros v l Ln. destruct (Fo v l) as [b Eb]; [intros ->; cbn in Ln; lia|]. eexists _, b. split; [reflexivity|]. split; [cbn [s_circles]; rewrite map_length; exact Ln|exact Eb]. }
  unfold corner.
  repeat match goal with |- context [if ?b then _ else _] => destruct b end; rewrite !M; cbn [all_of].
  all: first [apply (En _ [_]); cbn; lia|apply (En _ [_; _]); cbn; lia|apply (En _ [_; _; _]); cbn; lia|apply (En _ [_; _; _; _]); cbn; lia].
Qed.
Definition slanted (E : elem) : @tip_state (fnum E) :=
  @Build_tip_state (fnum E) (fZ 100) (fZ 100) (fZ 4) (fZ 2) f0 f0 quarter_turn f1 f0 f0 f0 f1.
Definition twin (E : elem) : circle (fnum E) := @Circle (fnum E) (@V (fnum E) (fZ 101) (fZ 100)) f0.
(** With the values that cos and sin have for the constant of a quarter turn, a valid tip (slanted by a quarter turn, not rounded, fully pinched, twice as wide as high)
    has the same circle twice.  No tangent is found for it, though brush_tip_shape.cc 371-374 and 405-408 fails a CHECK if there is none between two circles of a shape that follow each other. *)
Theorem C77_twins_refuted (E : elem) (acos : f32 -> f32) : let q := fdy 13176795 (-23) in
  e_sin E q = f1 -> e_cos E q = fdy (-12303662) (-48) -> e_sin E f0 = f0 -> e_cos E f0 = f1 ->
  exists v b, make_shape (N := fnum E) (slanted E) (fdy 1 (-10)) = Some (Shape v [twin E; b; twin E]) /\
    tangent_angles (N := fnum E) acos (twin E) (twin E) = None.
Proof.
  intros q Sq Cq S0 C0.
  assert (Rq : rotate (N := fnum E) (ts_slant (slanted E)) = @Affine (fnum E) (fdy (-12303662) (-48)) (fopp f1) f0 f1 (fdy (-12303662) (-48)) f0).
  { unfold rotate. change (ncos (fnum E) (ts_slant (slanted E))) with (e_cos E q). change (nsin (fnum E) (ts_slant (slanted E))) with (e_sin E q). rewrite Sq, Cq. reflexivity. }
  assert (R0 : rotate (N := fnum E) (ts_rotation (slanted E)) = @Affine (fnum E) f1 (fopp f0) f0 f0 f1 f0).
  { unfold rotate. change (ncos (fnum E) (ts_rotation (slanted E))) with (e_cos E f0). change (nsin (fnum E) (ts_rotation (slanted E))) with (e_sin E f0). rewrite S0, C0. reflexivity. }
  assert (K : forall r x y, corner (N := fnum E) (slanted E) r x y = make_circle (apply (compose (translate (@V (fnum E) (fZ 100) (fZ 100))) (@Affine (fnum E) f1 (fopp f0) f0 f0 f1 f0)) (padd (apply (@Affine (fnum E) (fdy (-12303662) (-48)) (fopp f1) f0 f1 (fdy (-12303662) (-48)) f0) (@V (fnum E) n0 y)) (@V (fnum E) x n0))) r).
  { intros r x y. unfold corner. rewrite Rq, R0. reflexivity. }
  unfold make_shape, control_circles. rewrite !K. unfold make_circle. clear.
  repeat match goal with |- context [if ?b then _ else _] => lazymatch b with context [if _ then _ else _] => fail | _ => let Q := fresh in let w := eval vm_compute in b in assert (Q : b = w) by (vm_compute; reflexivity); rewrite Q; clear Q; cbv iota end end.
  cbn [all_of]. eexists _, _. split.
  - f_equal. f_equal.
    match goal with |- [?a; ?b; ?c] = _ => assert (Ea : a = twin E); [|assert (Ec : c = twin E); [|rewrite Ea, Ec; reflexivity]] end;
      (unfold twin; apply f_equal2; [unfold apply at 1; apply f_equal2|]; apply (B2SF_inj 24 128); vm_compute; reflexivity).
  - reflexivity.
Qed.

(** ** The hypotheses are met *)
Example C77_shape_example : valid (Tip (P 3 4) 4 2 (1 / 2) (1 / 2) 0 0) /\ make_shape (N := N) (state (Tip (P 3 4) 4 2 (1 / 2) (1 / 2) 0 0)) (Fin (1 / 8)) =
  Some (Shape (pv (P 3 4)) (model_circles (map (fun q => (plus (P 3 4) q, 1 / 2)) [P (3 / 2) (1 / 2); P (- (3 / 2)) (1 / 2); P (- (3 / 4)) (- (1 / 2)); P (3 / 4) (- (1 / 2))]))).
Proof.
  assert (V : valid (Tip (P 3 4) 4 2 (1 / 2) (1 / 2) 0 0)) by (unfold valid; cbn; lra). split; [exact V|].
  assert (L : least (1 / 8) <= 1 / 8). { unfold least. apply Rmax_lub; [lra|]. replace (1 / 8) with (/ 8) by lra. apply Rinv_le_contravar; [lra|]. apply IZR_le. discriminate. }
  assert (R : ideal_radius (Tip (P 3 4) 4 2 (1 / 2) (1 / 2) 0 0) = 1 / 2) by (unfold ideal_radius; cbn; rewrite Rmin_right by lra; lra).
  rewrite C77_exact; [|exact V|rewrite R; right; lra|rewrite R; cbn; lra..].
  f_equal. f_equal. f_equal. unfold ideal. rewrite R. cbn [t_width t_height t_pinch map]. unfold placed, plus, turned. cbn [t_slant t_rotation t_at px py]. rewrite cos_0, sin_0.
  repeat (apply f_equal2; [apply f_equal2; [apply pt_eq; cbn; lra|reflexivity]|]). reflexivity.
Qed.
Example C77_total_example : exists (s : @tip_state (fnum (Build_elem (fun x => x) (fun x => x) (fun x => x) (fun x => x) (fun x => x) (fun x _ => x) (fun x _ => x) (fun x _ => x)))),
  is_finite (ts_width s : f32) = true /\ fle f0 (ts_width s) = true /\ fle (ts_percent_radius s) f1 = true /\ flt f0 (ts_percent_radius s) = true.
Proof. eexists (@Build_tip_state (fnum _) (fZ 100) (fZ 100) (fZ 4) (fZ 2) (fdy 1 (-1)) f0 f0 f1 f0 f0 f0 f1). vm_compute. repeat split. Qed.
Example C77_round_example : within (disc (P 1 0) 1) (disc (P 0 0) 2) /\ ~ within (disc (P 2 0) 1) (disc (P 0 0) 2).
Proof.
  split.
  - apply within_disc; [lra..|]. unfold len, inner, minus. cbn. replace ((1 - 0) * (1 - 0) + (0 - 0) * (0 - 0)) with 1 by ring. rewrite sqrt_1. lra.
  - intros H. apply within_disc in H; [|lra..]. unfold len, inner, minus in H. cbn in H. replace ((2 - 0) * (2 - 0) + (0 - 0) * (0 - 0)) with (2 * 2) in H by ring. rewrite sqrt_square in H by lra. lra.
Qed.
Print Assumptions C77_shape.
Print Assumptions C77_exact.
Print Assumptions C77_check.
Print Assumptions C77_distinct.
Print Assumptions C77_separation.
Print Assumptions C77_bounds.
Print Assumptions C77_distinct_refuted.
Print Assumptions C77_round.
Print Assumptions C77_total.
Print Assumptions C77_twins_refuted.
