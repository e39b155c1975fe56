(** Exact arithmetic: what behavior nodes and tip states mean. *)
From Coq Require Import ZArith List Bool Lia Permutation Reals Lra.
From Flocq Require Import Core.
From Verif Require Import NumModel NumLaws EasingModel EasingExact BehaviorModel BehaviorSpec BehaviorMeaning TipModel BehaviorOrder.
Import ListNotations.
Open Scope R_scope.
Local Notation N := xnum.

(** *** Angles *)
Lemma pi32_pos : 0 < pi32. Proof. unfold pi32. lra. Qed.
Lemma turn_pos : 0 < turn. Proof. unfold turn, pi32. lra. Qed.
Lemma x_quarter : quarter_turn (N := N) = Fin (turn / 4).
Proof. unfold quarter_turn. rewrite xdy. f_equal. change (bpow radix2 (-23)) with (/ 8388608). unfold turn, pi32. lra. Qed.
Lemma x_half : half_turn (N := N) = Fin (turn / 2).
Proof. unfold half_turn. rewrite xdy. f_equal. change (bpow radix2 (-22)) with (/ 4194304). unfold turn, pi32. lra. Qed.
Lemma x_full : full_turn (N := N) = Fin turn.
Proof. unfold full_turn. rewrite xdy. f_equal. change (bpow radix2 (-21)) with (/ 2097152). unfold turn, pi32. lra. Qed.
Lemma fmod_spec a : - turn < fmodR a turn < turn /\ exists k : Z, fmodR a turn = a - IZR k * turn.
Proof.
  unfold fmodR. pose proof turn_pos as T. split; [|exists (Ztrunc (a / turn)); ring].
  set (q := a / turn). assert (E : a = turn * q) by (unfold q; field; lra). rewrite E at 1 2.
  destruct (Rle_or_lt 0 q) as [H|H].
  - rewrite Ztrunc_floor by exact H. pose proof (Zfloor_lb q). pose proof (Zfloor_ub q). split; nra.
  - rewrite Ztrunc_ceil by lra. pose proof (Zceil_ub q). pose proof (Zceil_lb q). split; nra.
Qed.
Lemma normalized_spec a : exists r, normalized (N := N) (Fin a) = Fin r /\ 0 <= r < turn /\ same_angle r a.
Proof.
  unfold normalized. rewrite x_full, x0. cbn [nfmod N xnum xmap2 nlt xlt nadd xadd neqb xeq].
  destruct (fmod_spec a) as (B & k & E). pose proof turn_pos.
  destruct (Rlt_bool_spec (fmodR a turn) 0).
  - rewrite Req_bool_false by lra. eexists. split; [reflexivity|]. split; [lra|]. exists (1 - k)%Z. rewrite E, minus_IZR. lra.
  - eexists. split; [reflexivity|]. split; [lra|]. exists (- k)%Z. rewrite E, opp_IZR. lra.
Qed.
Lemma about_zero_spec a : exists r, normalized_about_zero (N := N) (Fin a) = Fin r /\ - (turn / 2) < r <= turn / 2 /\ same_angle r a.
Proof.
  unfold normalized_about_zero. rewrite x_full, x_half. cbn [nfmod N xnum xmap2 nlt xlt nadd nsub xsub xopp xadd nle nopp]. unfold xle. cbn [xlt xeq].
  destruct (fmod_spec a) as (B & k & E). pose proof turn_pos.
  destruct (Rlt_bool_spec (turn / 2) (fmodR a turn)).
  - eexists. split; [reflexivity|]. split; [lra|]. exists (- 1 - k)%Z. rewrite E, minus_IZR. lra.
  - destruct (Rlt_bool_spec (fmodR a turn) (- (turn / 2))); cbn [orb].
    + eexists. split; [reflexivity|]. split; [lra|]. exists (1 - k)%Z. rewrite E, minus_IZR. lra.
    + destruct (Req_bool_spec (fmodR a turn) (- (turn / 2))).
      * eexists. split; [reflexivity|]. split; [lra|]. exists (1 - k)%Z. rewrite E, minus_IZR. lra.
      * eexists. split; [reflexivity|]. split; [lra|]. exists (- k)%Z. rewrite E, opp_IZR. lra.
Qed.

(** *** Out of range *)
Lemma x_clamp x lo hi : lo <= hi -> exists y, nclamp (N := N) (Fin x) (Fin lo) (Fin hi) = Fin y /\ nearest_in lo hi x y.
Proof.
  intros H. unfold nclamp. cbn [nlt N xnum xlt]. unfold nearest_in.
  destruct (Rlt_bool_spec x lo); [eexists; split; [reflexivity|]; repeat split; intros; lra|].
  destruct (Rlt_bool_spec hi x); eexists; (split; [reflexivity|]); repeat split; intros; lra.
Qed.
Lemma nearest_A x : Rabs (x - IZR (ZnearestA x)) <= / 2. Proof. apply Znearest_half. Qed.
Lemma out_of_range_x o x : (forall z, o <> OtherOutOfRange z) -> exists y, apply_out_of_range (N := N) o (Fin x) = Fin y /\ out_of_range_means o x y.
Proof.
  intros Ho. destruct o as [| | |z]; [| | |exfalso; apply (Ho z); reflexivity]; cbn [apply_out_of_range out_of_range_means].
  - rewrite x0, x1e. destruct (x_clamp x 0 1 ltac:(lra)) as (y & E & H1 & H2 & H3 & H4). exists y. auto.
  - cbn [nsub nfloor N xnum]. rewrite xsub_fin. eexists. split; [reflexivity|]. pose proof (Zfloor_lb x). pose proof (Zfloor_ub x).
    split; [lra|]. eexists. reflexivity.
  - rewrite xZ, xdy. change (bpow radix2 (-1)) with (/ 2). cbn [nsub nmul nround nabs N xnum xmul]. rewrite xsub_fin. eexists. split; [reflexivity|].
    pose proof (nearest_A (1 * / 2 * x)) as A. set (k := ZnearestA (1 * / 2 * x)) in *.
    apply Rabs_le_inv in A. split; [split; [apply Rabs_pos|apply Rabs_le; lra]|]. exists k.
    destruct (Rcase_abs (x - 2 * IZR k)) as [C|C]; [rewrite Rabs_left by lra; right; lra|rewrite Rabs_right by lra; left; lra].
Qed.

(** *** Sources *)
Lemma x_none : none_value (N := N) = Fin (-1). Proof. apply xZ. Qed.
Lemma sqrt_sq x y : 0 <= sqrt (x * x + y * y) /\ sqrt (x * x + y * y) * sqrt (x * x + y * y) = x * x + y * y.
Proof. split; [apply sqrt_pos|]. apply sqrt_sqrt. pose proof (Rle_0_sqr x). pose proof (Rle_0_sqr y). unfold Rsqr in *. lra. Qed.
Lemma sqrt_zero x y : sqrt (x * x + y * y) = 0 <-> x = 0 /\ y = 0.
Proof.
  split.
  - intros H. destruct (sqrt_sq x y) as [_ E]. rewrite H in E. split; nra.
  - intros [-> ->]. replace (0 * 0 + 0 * 0) with 0 by ring. apply sqrt_0.
Qed.
Lemma unit_vec_x x y : exists u w, unit_vec (N := N) (Fin x) (Fin y) = (Fin u, Fin w) /\
  (sqrt (x * x + y * y) <> 0 -> sqrt (x * x + y * y) * u = x /\ sqrt (x * x + y * y) * w = y) /\ (sqrt (x * x + y * y) = 0 -> u = 1 /\ w = 0).
Proof.
  unfold unit_vec, is_inf. rewrite x0, x1e, xdy. cbn [nnan nfin neqb N xnum negb orb andb xeq].
  destruct (Req_bool_spec x 0) as [Hx|Hx]; [destruct (Req_bool_spec y 0) as [Hy|Hy]|]; cbn [andb].
  - subst. exists 1, 0. unfold copysign. cbn [nsign N xnum xneg]. rewrite Rlt_bool_false by lra. split; [reflexivity|].
    split; [|auto]. intros H. exfalso. apply H. apply sqrt_zero. auto.
  - assert (NZ : sqrt (x * x + y * y) <> 0) by (intros E; apply sqrt_zero in E; tauto).
    change (bpow radix2 (-1)) with (/ 2). cbn [nmul ndiv nhypot N xnum xmul xmap2].
    replace (sqrt (1 * / 2 * x * (1 * / 2 * x) + 1 * / 2 * y * (1 * / 2 * y))) with (/ 2 * sqrt (x * x + y * y)).
    2: { rewrite <- (sqrt_square (/ 2)) at 1 by lra. rewrite <- sqrt_mult_alt by lra. f_equal. lra. }
    rewrite !xdiv_fin by lra. eexists _, _. split; [reflexivity|]. split; [|intros; lra]. intros _. split; field; exact NZ.
  - assert (NZ : sqrt (x * x + y * y) <> 0) by (intros E; apply sqrt_zero in E; tauto).
    change (bpow radix2 (-1)) with (/ 2). cbn [nmul ndiv nhypot N xnum xmul xmap2].
    replace (sqrt (1 * / 2 * x * (1 * / 2 * x) + 1 * / 2 * y * (1 * / 2 * y))) with (/ 2 * sqrt (x * x + y * y)).
    2: { rewrite <- (sqrt_square (/ 2)) at 1 by lra. rewrite <- sqrt_mult_alt by lra. f_equal. lra. }
    rewrite !xdiv_fin by lra. eexists _, _. split; [reflexivity|]. split; [|intros; lra]. intros _. split; field; exact NZ.
Qed.
Lemma along_x vx vy ax ay : exists u w, unit_vec (N := N) (Fin vx) (Fin vy) = (Fin u, Fin w) /\
  along vx vy ax ay (ax * u + ay * w) (ax * - w + ay * u).
Proof.
  destruct (unit_vec_x vx vy) as (u & w & E & H1 & H2). exists u, w. split; [exact E|]. unfold along. destruct (sqrt_sq vx vy) as [P Q].
  set (v := sqrt (vx * vx + vy * vy)) in *. split.
  - intros NZ. destruct (H1 NZ) as [A B]. rewrite <- A, <- B in Q.
    assert (U : u * u + w * w = 1) by (apply (Rmult_eq_reg_l (v * v)); [lra|apply Rmult_integral_contrapositive; auto]).
    split; [replace vx with (v * u); replace vy with (v * w)|replace vx with (v * u); replace vy with (v * w)].
    + replace (v * ax) with (v * ax * (u * u + w * w)) by (rewrite U; ring). ring.
    + replace (v * ay) with (v * ay * (u * u + w * w)) by (rewrite U; ring). ring.
  - intros Z. destruct (H2 Z) as [-> ->]. split; ring.
Qed.
Lemma leans_x (trig : R -> R) tilt o : tilt <> turn / 4 ->
  exists x, tilt_along (N := N) (xmap trig) (Fin tilt) (Fin o) = Some (Fin x) /\ leans tilt (trig o) x.
Proof.
  intros H. unfold tilt_along. rewrite x0, x_quarter. cbn [neqb N xnum xeq].
  pose proof PI_RGT_0.
  destruct (Req_bool_spec tilt 0) as [->|Ht].
  - exists 0. split; [reflexivity|]. split; [lra|]. intros _. rewrite tan_0, sin_0. ring.
  - rewrite Req_bool_false by exact H. cbn [natan nmul ntan N xnum xmap xmul]. eexists. split; [reflexivity|].
    split; [pose proof (atan_bound (trig o * tan tilt)); lra|]. intros C. rewrite tan_atan. unfold tan. field. exact C.
Qed.

Lemma xmax0 x : nmax (N := N) (Fin 0) (Fin x) = Fin (Rmax 0 x).
Proof. unfold nmax. cbn [nlt N xnum xlt]. destruct (Rlt_bool_spec 0 x); f_equal; unfold Rmax; destruct (Rle_dec 0 x); try reflexivity; lra. Qed.
Lemma source_x i dir size s src : 0 < size -> exists r,
  get_source_value (N := N) (fin_input i) (option_map Fin dir) (Fin size) (fin_state s) src = fin_value r /\ source_means i dir size s src r.
Proof.
  intros Hs. assert (NZ : size <> 0) by lra.
  assert (DV : forall a, ndiv N (Fin a) (Fin size) = Fin (a / size)) by (intros; apply xdiv_fin; exact NZ).
  assert (SZ : forall a, a / size * size = a) by (intros; field; exact NZ).
  destruct (along_x (i_vx i) (i_vy i) (i_ax i) (i_ay i)) as (u & w & U & AL).
  destruct (sqrt_sq (i_vx i) (i_vy i)) as [V1 V2]. destruct (sqrt_sq (i_ax i) (i_ay i)) as [A1 A2].
  assert (M : to_millis (N := N) = fun d => xmul (Fin 1000) d) by (unfold to_millis; rewrite xZ; reflexivity).
  destruct src; cbn [get_source_value fin_input fin_state vel_x vel_y acc_x acc_y traveled elapsed pressure tilt orientation st_unit st_complete_elapsed
     st_complete_traveled st_real_elapsed st_real_distance source_means]; unfold always, reported, predicted_distance, predicted_time, time_since_input, dur_sub;
  cbn [fin_input fin_state traveled elapsed st_real_distance st_real_elapsed st_complete_elapsed nfin N xnum negb nsub nhypot xmap2]; rewrite ?xsub_fin, ?x_none, ?x0, ?xmax0, ?DV, ?M;
  cbn [neqb N xnum xeq].
  - (* pressure *) destruct (Req_bool_spec (i_pressure i) (-1)); [exists None|eexists (Some _)]; (split; [reflexivity|]); auto.
  - (* tilt *) destruct (Req_bool_spec (i_tilt i) (-1)); [exists None|eexists (Some _)]; (split; [reflexivity|]); auto.
  - destruct (Req_bool_spec (i_tilt i) (-1)); [exists None; split; [reflexivity|]; tauto|].
    destruct (Req_bool_spec (i_orientation i) (-1)); [exists None; split; [reflexivity|]; tauto|]. cbn [orb].
    destruct (Req_dec (i_tilt i) (turn / 4)) as [Q|Q].
    + exists None. split; [|tauto]. unfold tilt_along. rewrite x0, x_quarter. cbn [neqb N xnum xeq]. pose proof turn_pos.
      rewrite Req_bool_false by lra. rewrite Req_bool_true by exact Q. reflexivity.
    + destruct (leans_x cos (i_tilt i) (i_orientation i) Q) as (x & E & H'). exists (Some x). split; [exact E|auto].
  - destruct (Req_bool_spec (i_tilt i) (-1)); [exists None; split; [reflexivity|]; tauto|].
    destruct (Req_bool_spec (i_orientation i) (-1)); [exists None; split; [reflexivity|]; tauto|]. cbn [orb].
    destruct (Req_dec (i_tilt i) (turn / 4)) as [Q|Q].
    + exists None. split; [|tauto]. unfold tilt_along. rewrite x0, x_quarter. cbn [neqb N xnum xeq]. pose proof turn_pos.
      rewrite Req_bool_false by lra. rewrite Req_bool_true by exact Q. reflexivity.
    + destruct (leans_x sin (i_tilt i) (i_orientation i) Q) as (x & E & H'). exists (Some x). split; [exact E|auto].
  - destruct (Req_bool_spec (i_orientation i) (-1)); [exists None; split; [reflexivity|]; tauto|].
    destruct (Req_bool_spec (i_tilt i) 0); [exists None; split; [reflexivity|]; tauto|]. eexists (Some _). split; [reflexivity|auto].
  - destruct (Req_bool_spec (i_orientation i) (-1)); [exists None; split; [reflexivity|]; tauto|].
    destruct (Req_bool_spec (i_tilt i) 0); [exists None; split; [reflexivity|]; tauto|]. cbn [orb].
    destruct (about_zero_spec (i_orientation i)) as (r & E & H'). exists (Some r). rewrite E. split; [reflexivity|auto].
  - eexists (Some _). split; [reflexivity|]. rewrite SZ. auto.
  - eexists (Some _). split; [reflexivity|]. rewrite SZ. auto.
  - eexists (Some _). split; [reflexivity|]. rewrite SZ. auto.
  - destruct dir as [d|]; [|exists None; split; [reflexivity|]; tauto]. destruct (normalized_spec d) as (r & E & H'). exists (Some r).
    cbn [option_map]. rewrite E. split; [reflexivity|]. split; [discriminate|]. eauto.
  - exists dir. split; reflexivity.
  - destruct dir as [d|]; [|exists None; split; [reflexivity|]; tauto]. eexists (Some _). split; [reflexivity|]. split; [discriminate|]. eauto.
  - destruct dir as [d|]; [|exists None; split; [reflexivity|]; tauto]. eexists (Some _). split; [reflexivity|]. split; [discriminate|]. eauto.
  - eexists (Some _). split; [reflexivity|]. rewrite SZ. auto.
  - eexists (Some _). split; [reflexivity|]. auto.
  - eexists (Some _). split; [reflexivity|]. split; [auto|field].
  - eexists (Some _). split; [reflexivity|]. rewrite SZ. auto.
  - eexists (Some _). split; [reflexivity|]. auto.
  - eexists (Some _). split; [reflexivity|]. split; [auto|field].
  - eexists (Some _). split; [reflexivity|]. rewrite SZ. split; [auto|ring].
  - eexists (Some _). split; [reflexivity|]. split; [auto|ring].
  - eexists (Some _). split; [reflexivity|]. split; [auto|field].
  - eexists (Some _). split; [reflexivity|]. rewrite SZ. auto.
  - eexists (Some _). split; [reflexivity|]. rewrite SZ. auto.
  - eexists (Some _). split; [reflexivity|]. rewrite SZ. auto.
  - rewrite U. unfold dot. cbn [fst snd nadd nmul N xnum xmul xadd]. rewrite DV. eexists (Some _). split; [reflexivity|]. rewrite SZ. split; [auto|]. eexists. exact AL.
  - rewrite U. unfold dot, orthogonal. cbn [fst snd nadd nmul nopp N xnum xmul xadd xopp]. rewrite DV. eexists (Some _). split; [reflexivity|]. rewrite SZ. split; [auto|]. eexists. exact AL.
  - destruct (s_unit s) as [c|]; [|exists None; split; reflexivity]. eexists (Some _). split; [reflexivity|]. eexists. split; [|reflexivity]. auto.
  - destruct (s_unit s) as [c|]; [|exists None; split; reflexivity]. eexists (Some _). split; [reflexivity|]. eexists. split; [|reflexivity]. auto.
  - destruct (s_unit s) as [c|]; [|exists None; split; reflexivity]. eexists (Some _). split; [reflexivity|]. eexists. split; [|reflexivity]. auto.
  - destruct (s_unit s) as [c|]; [|exists None; split; reflexivity]. eexists (Some _). split; [reflexivity|]. eexists. split; [|reflexivity]. auto.
  - destruct (s_unit s) as [c|]; [|exists None; split; reflexivity]. eexists (Some _). split; [reflexivity|]. eexists. split; [|reflexivity]. auto.
  - destruct (s_unit s) as [c|]; [|exists None; split; reflexivity]. eexists (Some _). split; [reflexivity|]. eexists. split; [|reflexivity]. auto.
  - destruct (s_unit s) as [c|]; [|exists None; split; reflexivity]. eexists (Some _). split; [reflexivity|]. eexists. split; [|reflexivity]. auto.
  - destruct (s_unit s) as [c|]; [|exists None; split; reflexivity]. eexists (Some _). split; [reflexivity|]. eexists. split; [|reflexivity]. auto.
  - destruct (s_unit s) as [c|]; [|exists None; split; reflexivity]. rewrite U. unfold dot. cbn [option_map fst snd nadd nmul N xnum xmul xadd].
    eexists (Some _). split; [reflexivity|]. eexists. split; [|reflexivity]. eexists. exact AL.
  - destruct (s_unit s) as [c|]; [|exists None; split; reflexivity]. rewrite U. unfold dot, orthogonal. cbn [option_map fst snd nadd nmul nopp N xnum xmul xadd xopp].
    eexists (Some _). split; [reflexivity|]. eexists. split; [|reflexivity]. eexists. exact AL.
  - exists None. split; reflexivity.
Qed.

(** *** Damping *)
Lemma transition_x x old delta gap : 0 < gap -> exists y, damp_transition (N := N) (Fin x) (Fin old) (Fin delta) (Fin gap) = Fin y /\ damps delta gap old x y.
Proof.
  intros G. unfold damp_transition. rewrite x0. cbn [nle N xnum]. unfold xle. cbn [xlt xeq].
  destruct (Rlt_bool_spec delta 0); cbn [orb].
  - exists old. split; [reflexivity|]. split; intros; lra.
  - destruct (Req_bool_spec delta 0).
    + exists old. split; [reflexivity|]. split; intros; lra.
    + cbn [nopp ndiv nexp N xnum xopp]. rewrite xdiv_fin by lra. unfold lerp. cbn [nadd nmul nsub N xnum]. rewrite xsub_fin. cbn [xmul xadd].
      eexists. split; [reflexivity|]. split; [intros; lra|]. intros _. replace (- delta / gap) with (- (delta / gap)) by (field; lra). ring.
Qed.
Lemma damps_between p gap old x y : 0 < gap -> damps p gap old x y -> Rmin old x <= y <= Rmax old x.
Proof.
  intros G [H1 H2]. destruct (Rle_or_lt p 0) as [C|C]; [rewrite (H1 C); split; [apply Rmin_l|apply Rmax_l]|].
  specialize (H2 C). assert (0 < exp (- (p / gap)) < 1).
  { split; [apply exp_pos|]. rewrite <- exp_0. apply exp_increasing. assert (0 < p / gap) by (apply Rdiv_lt_0_compat; lra). lra. }
  set (q := exp (- (p / gap))) in *. unfold Rmin, Rmax. destruct (Rle_dec old x); split; nra.
Qed.
Lemma damps_compose p q gap old x y z : 0 < gap -> 0 <= p -> 0 <= q -> damps p gap old x y -> damps q gap y x z -> damps (p + q) gap old x z.
Proof.
  intros G Hp Hq [A1 A2] [B1 B2]. split.
  - intros H. rewrite (B1 ltac:(lra)), (A1 ltac:(lra)). reflexivity.
  - intros H. destruct (Req_dec p 0) as [->|P0].
    + rewrite (A1 ltac:(lra)) in *. rewrite Rplus_0_l in *. apply B2. lra.
    + specialize (A2 ltac:(lra)). destruct (Req_dec q 0) as [->|Q0].
      * rewrite (B1 ltac:(lra)). rewrite Rplus_0_r. exact A2.
      * specialize (B2 ltac:(lra)). rewrite B2, A2. replace (- ((p + q) / gap)) with (- (p / gap) + - (q / gap)) by (field; lra). rewrite exp_plus. ring.
Qed.
Lemma damps_exists p gap old x : exists y, damps p gap old x y.
Proof.
  unfold damps. destruct (Rle_or_lt p 0); [exists old|exists (x + (old - x) * exp (- (p / gap)))]; split; intros; lra.
Qed.

(** *** Direction of travel *)
Lemma sqrt_1_sq y x : 0 < x -> sqrt (x * x + y * y) = x * sqrt (1 + (y / x)²).
Proof.
  intros H. transitivity (sqrt (x * x) * sqrt (1 + (y / x)²)); [|rewrite sqrt_square by lra; reflexivity]. rewrite <- sqrt_mult_alt by nra. f_equal. unfold Rsqr. field. lra.
Qed.
Lemma sqrt_pos_1 q : 0 < sqrt (1 + q²).
Proof. apply sqrt_lt_R0. pose proof (Rle_0_sqr q). lra. Qed.
Lemma atan2_x x y : ~ (x = 0 /\ y = 0) -> - PI < atan2R y x <= PI /\ x = sqrt (x * x + y * y) * cos (atan2R y x) /\ y = sqrt (x * x + y * y) * sin (atan2R y x).
Proof.
  intros NZ. unfold atan2R. pose proof PI_RGT_0.
  destruct (Rlt_bool_spec 0 x) as [C|C].
  - pose proof (atan_bound (y / x)). rewrite sqrt_1_sq, cos_atan, sin_atan by exact C. pose proof (sqrt_pos_1 (y / x)).
    split; [lra|]. split; field; lra.
  - destruct (Rlt_bool_spec x 0) as [D|D].
    + assert (E : sqrt (x * x + y * y) = - x * sqrt (1 + (y / x)²)).
      { replace (x * x + y * y) with ((- x) * (- x) + y * y) by ring. rewrite sqrt_1_sq by lra. do 3 f_equal. unfold Rsqr. field. lra. }
      pose proof (atan_bound (y / x)) as AB. pose proof (sqrt_pos_1 (y / x)).
      destruct (Rle_bool_spec 0 y) as [F|F].
      * assert (y / x <= 0) by (unfold Rdiv; pose proof (Rinv_lt_0_compat x D); nra).
        assert (atan (y / x) <= 0). { destruct (Req_dec (y / x) 0) as [->|]; [rewrite atan_0; lra|]. rewrite <- atan_0. left. apply atan_increasing. lra. }
        split; [lra|]. rewrite neg_cos, neg_sin, E, cos_atan, sin_atan. split; field; lra.
      * assert (0 < y / x) by (unfold Rdiv; pose proof (Rinv_lt_0_compat x D); nra).
        assert (0 < atan (y / x)) by (rewrite <- atan_0; apply atan_increasing; assumption).
        split; [lra|]. replace (atan (y / x) - PI) with (- (PI - atan (y / x))) by ring. rewrite cos_neg, sin_neg.
        rewrite sin_PI_x. replace (PI - atan (y / x)) with (- atan (y / x) + PI) by ring. rewrite neg_cos, cos_neg, E, cos_atan, sin_atan. split; field; lra.
    + assert (x = 0) by lra. subst x.
      replace (sqrt (0 * 0 + y * y)) with (Rabs y) by (replace (0 * 0 + y * y) with (y²) by (unfold Rsqr; ring); rewrite sqrt_Rsqr_abs; reflexivity).
      destruct (Rlt_bool_spec 0 y); [rewrite cos_PI2, sin_PI2, Rabs_pos_eq by lra; lra|].
      destruct (Rlt_bool_spec y 0); [|exfalso; apply NZ; lra]. rewrite cos_neg, sin_neg, cos_PI2, sin_PI2, Rabs_left by lra. lra.
Qed.

(** *** The tip state *)
Definition fin_tms (tms : list (target * R)) : list (target * ereal) := map (fun tm => (fst tm, Fin (snd tm))) tms.
Definition rmods := (R * R * R * R * R * R * R * R * R * R * R * R)%type.
Definition fin_mods (x y w h sl ro rt pi hu sa lu op : R) : tip_modifiers N :=
  @Build_tip_modifiers N (Fin x) (Fin y) (Fin w) (Fin h) (Fin sl) (Fin ro) (Fin rt) (Fin pi) (Fin hu) (Fin sa) (Fin lu) (Fin op).
Definition offset_x (dir : option R) (tms : list (target * R)) : R :=
  total kPositionOffsetXInMultiplesOfBrushSize tms +
  match dir with None => 0 | Some d => total kPositionOffsetForwardInMultiplesOfBrushSize tms * cos d + total kPositionOffsetLateralInMultiplesOfBrushSize tms * cos (d + turn / 4) end.
Definition offset_y (dir : option R) (tms : list (target * R)) : R :=
  total kPositionOffsetYInMultiplesOfBrushSize tms +
  match dir with None => 0 | Some d => total kPositionOffsetForwardInMultiplesOfBrushSize tms * sin d + total kPositionOffsetLateralInMultiplesOfBrushSize tms * sin (d + turn / 4) end.
Lemma total_cons t a v tms : total t ((a, v) :: tms) = (if target_eqb a t then v else 0) + total t tms.
Proof. unfold total, given. cbn [filter existsb fst]. rewrite orb_false_r. destruct (target_eqb a t); cbn; ring. Qed.
Lemma product_cons ts a v tms : product ts ((a, v) :: tms) = (if existsb (target_eqb a) ts then v else 1) * product ts tms.
Proof. unfold product, given. cbn [filter fst]. destruct (existsb (target_eqb a) ts); cbn; ring. Qed.
Lemma mods_x dir size tms : forall x y w h sl ro rt pi hu sa lu op,
  fold_left (apply_modifier (N := N) (option_map Fin dir) (Fin size)) (fin_tms tms) (fin_mods x y w h sl ro rt pi hu sa lu op) =
  fin_mods (x + size * offset_x dir tms) (y + size * offset_y dir tms)
    (w * product [kWidthMultiplier; kSizeMultiplier] tms) (h * product [kHeightMultiplier; kSizeMultiplier] tms)
    (sl + total kSlantOffsetInRadians tms) (ro + total kCornerRoundingOffset tms) (rt + total kRotationOffsetInRadians tms)
    (pi + total kPinchOffset tms) (hu + total kHueOffsetInRadians tms) (sa * product [kSaturationMultiplier] tms)
    (lu + total kLuminosity tms) (op * product [kOpacityMultiplier] tms).
Proof.
  induction tms as [|[t v] tms IH]; intros.
  - unfold offset_x, offset_y, total, product. cbn. unfold fin_mods. destruct dir; f_equal; f_equal; ring.
  - cbn [fin_tms map fold_left fst snd]. fold (fin_tms tms).
    assert (Q : exists x' y' w' h' sl' ro' rt' pi' hu' sa' lu' op',
      apply_modifier (N := N) (option_map Fin dir) (Fin size) (fin_mods x y w h sl ro rt pi hu sa lu op) (t, Fin v) = fin_mods x' y' w' h' sl' ro' rt' pi' hu' sa' lu' op' /\
      x' + size * offset_x dir tms = x + size * offset_x dir ((t, v) :: tms) /\ y' + size * offset_y dir tms = y + size * offset_y dir ((t, v) :: tms) /\
      w' = w * (if existsb (target_eqb t) [kWidthMultiplier; kSizeMultiplier] then v else 1) /\
      h' = h * (if existsb (target_eqb t) [kHeightMultiplier; kSizeMultiplier] then v else 1) /\
      sl' = sl + (if target_eqb t kSlantOffsetInRadians then v else 0) /\ ro' = ro + (if target_eqb t kCornerRoundingOffset then v else 0) /\
      rt' = rt + (if target_eqb t kRotationOffsetInRadians then v else 0) /\ pi' = pi + (if target_eqb t kPinchOffset then v else 0) /\
      hu' = hu + (if target_eqb t kHueOffsetInRadians then v else 0) /\ sa' = sa * (if existsb (target_eqb t) [kSaturationMultiplier] then v else 1) /\
      lu' = lu + (if target_eqb t kLuminosity then v else 0) /\ op' = op * (if existsb (target_eqb t) [kOpacityMultiplier] then v else 1)).
    { unfold offset_x, offset_y. rewrite !total_cons.
      destruct t, dir as [d|]; cbn [apply_modifier option_map]; rewrite ?x_quarter; cbn [existsb target_eqb orb];
      eexists _, _, _, _, _, _, _, _, _, _, _, _; (split; [reflexivity|]); rewrite ?total_cons; cbn [target_eqb]; repeat (split; [ring|]); ring. }
    destruct Q as (x' & y' & w' & h' & sl' & ro' & rt' & pi' & hu' & sa' & lu' & op' & E & A1 & A2 & A3 & A4 & A5 & A6 & A7 & A8 & A9 & A10 & A11 & A12).
    rewrite E, IH, A1, A2. subst. rewrite !total_cons, !product_cons. unfold fin_mods. f_equal; f_equal; ring.
Qed.
Lemma valid_rtip p bs : valid_tip (N := N) (fin_tip p bs) = true ->
  0 <= p_rounding p <= 1 /\ - (turn / 4) <= p_slant p <= turn / 4 /\ 0 <= p_pinch p <= 1 /\ 0 <= p_opacity p <= 2 /\
  0 <= p_scale_x p /\ 0 <= p_scale_y p /\ 0 <= p_gap_scale p /\ 0 <= p_gap_duration p.
Proof.
  unfold valid_tip, fin_tip. cbn [scale_x scale_y corner_rounding slant pinch rotation opacity_multiplier particle_gap_distance_scale particle_gap_duration behaviors].
  rewrite x0, x1e, x_quarter, xZ. cbn [nfin nlt neqb nle nopp N xnum negb orb xopp]. unfold xle. cbn [xlt xeq].
  repeat match goal with |- context [Rlt_bool ?a ?b] => destruct (Rlt_bool_spec a b); cbn [negb orb andb]; try discriminate end;
  repeat match goal with |- context [Req_bool ?a ?b] => destruct (Req_bool_spec a b); cbn [negb orb andb]; try discriminate end; intros _; lra.
Qed.
Lemma nearest_self lo hi x : lo <= x <= hi -> nearest_in lo hi x x.
Proof. unfold nearest_in. intros. repeat split; intros; lra. Qed.
Lemma tip_state_x x y dir p bs size tms : valid_tip (N := N) (fin_tip p bs) = true ->
  exists z, create_tip_state (N := N) (Fin x) (Fin y) (option_map Fin dir) (fin_tip p bs) (Fin size) (fin_tms tms) = fin_tip_state z /\
    tip_state_means x y dir p size tms z.
Proof.
  intros V. apply valid_rtip in V. destruct V as (V1 & V2 & V3 & V4 & _). pose proof turn_pos as TP.
  unfold create_tip_state.
  assert (NM : no_modifiers (N := N) = fin_mods 0 0 1 1 0 0 0 0 0 1 0 1) by (unfold no_modifiers; rewrite x0, x1e; reflexivity).
  rewrite NM, mods_x. unfold apply_modifiers, fin_mods, fin_tip.
  cbn [mo_x mo_y mo_width mo_height mo_slant mo_rounding mo_rotation mo_pinch mo_hue mo_saturation mo_luminosity mo_opacity ts_x ts_y ts_width ts_height ts_percent_radius ts_rotation ts_slant ts_pinch ts_hue ts_saturation ts_luminosity ts_opacity scale_x scale_y corner_rounding slant pinch rotation opacity_multiplier].
  rewrite !Rplus_0_l, !Rmult_1_l, x0, x1e, !xZ, x_quarter, x_full. cbn [nadd nmul nopp neqb N xnum xadd xmul xopp xeq].
  set (PW := product [kWidthMultiplier; kSizeMultiplier] tms). set (PH := product [kHeightMultiplier; kSizeMultiplier] tms).
  set (TR := total kCornerRoundingOffset tms). set (TT := total kRotationOffsetInRadians tms). set (TS := total kSlantOffsetInRadians tms).
  set (TP' := total kPinchOffset tms). set (TH := total kHueOffsetInRadians tms). set (PS := product [kSaturationMultiplier] tms).
  set (TL := total kLuminosity tms). set (PO := product [kOpacityMultiplier] tms).
  assert (W : forall P base, exists k, nearest_in 0 2 P k /\
     (if Req_bool P 1 then Fin (size * base) else xmul (Fin (size * base)) (nclamp (N := N) (Fin P) (Fin 0) (Fin 2))) = Fin (size * base * k)).
  { intros P base. destruct (Req_bool_spec P 1) as [->|]; [exists 1; split; [apply nearest_self; lra|f_equal; ring]|].
    destruct (x_clamp P 0 2 ltac:(lra)) as (k & E & K). exists k. split; [exact K|]. rewrite E. reflexivity. }
  assert (S : forall a d lo hi, lo <= a <= hi -> exists k, nearest_in lo hi (a + d) k /\
     (if Req_bool d 0 then Fin a else nclamp (N := N) (Fin (a + d)) (Fin lo) (Fin hi)) = Fin k).
  { intros a d lo hi H. destruct (Req_bool_spec d 0) as [->|]; [exists a; rewrite Rplus_0_r; split; [apply nearest_self; lra|reflexivity]|].
    destruct (x_clamp (a + d) lo hi ltac:(lra)) as (k & E & K). exists k. auto. }
  destruct (W PW (p_scale_x p)) as (kw & KW & EW). destruct (W PH (p_scale_y p)) as (kh & KH & EH).
  destruct (S (p_rounding p) TR 0 1 V1) as (kr & KR & ER). destruct (S (p_slant p) TS (- (turn / 4)) (turn / 4) V2) as (ks & KS & ES).
  destruct (S (p_pinch p) TP' 0 1 V3) as (kp & KP & EP).
  assert (RT : exists k, (if Req_bool TT 0 then Fin (p_rotation p) else normalized (N := N) (Fin (p_rotation p + TT))) = Fin k /\ same_angle k (p_rotation p + TT) /\ (TT <> 0 -> 0 <= k < turn)).
  { destruct (Req_bool_spec TT 0) as [E0|]; [exists (p_rotation p); split; [reflexivity|]; rewrite E0; split; [exists 0%Z; ring|lra]|].
    destruct (normalized_spec (p_rotation p + TT)) as (k & E & K1 & K2). exists k. auto. }
  destruct RT as (kt & ET & KT1 & KT2).
  assert (HU : exists k, (if Req_bool TH 0 then Fin 0 else ndiv N (normalized (N := N) (Fin TH)) (Fin turn)) = Fin k /\ 0 <= k < 1 /\ same_angle (turn * k) TH).
  { destruct (Req_bool_spec TH 0) as [->|]; [exists 0; split; [reflexivity|]; split; [lra|exists 0%Z; ring]|].
    destruct (normalized_spec TH) as (k & E & K1 & K2). exists (k / turn). rewrite E. split; [apply xdiv_fin; lra|].
    split; [|replace (turn * (k / turn)) with k by (field; lra); exact K2].
    split; [apply Rmult_le_pos; [lra|left; apply Rinv_0_lt_compat; lra]|]. apply (Rmult_lt_reg_r turn); [lra|]. replace (k / turn * turn) with k by (field; lra). lra. }
  destruct HU as (ku & EU & KU1 & KU2).
  assert (SA : exists k, (if Req_bool PS 1 then Fin 1 else nclamp (N := N) (Fin PS) (Fin 0) (Fin 2)) = Fin k /\ nearest_in 0 2 PS k).
  { destruct (Req_bool_spec PS 1) as [->|]; [exists 1; split; [reflexivity|apply nearest_self; lra]|]. apply x_clamp. lra. }
  destruct SA as (ka & EA & KA).
  assert (LU : exists k, (if Req_bool TL 0 then Fin 0 else nclamp (N := N) (Fin TL) (Fin (-1)) (Fin 1)) = Fin k /\ nearest_in (-1) 1 TL k).
  { destruct (Req_bool_spec TL 0) as [->|]; [exists 0; split; [reflexivity|apply nearest_self; lra]|]. apply x_clamp. lra. }
  destruct LU as (kl & EL & KL).
  assert (OP : exists k, (if Req_bool PO 1 then Fin (p_opacity p) else nclamp (N := N) (Fin (p_opacity p * PO)) (Fin 0) (Fin 2)) = Fin k /\ nearest_in 0 2 (p_opacity p * PO) k).
  { destruct (Req_bool_spec PO 1) as [->|]; [exists (p_opacity p); split; [reflexivity|rewrite Rmult_1_r; apply nearest_self; lra]|]. apply x_clamp. lra. }
  destruct OP as (ko & EO & KO).
  exists {| z_x := x + size * offset_x dir tms; z_y := y + size * offset_y dir tms; z_width := size * p_scale_x p * kw; z_height := size * p_scale_y p * kh;
    z_percent_radius := kr; z_rotation := kt; z_slant := ks; z_pinch := kp; z_hue := ku; z_saturation := ka; z_luminosity := kl; z_opacity := ko |}.
  cbn [ndiv N xnum] in EU.
  rewrite <- EW, <- EH || idtac. split.
  - unfold fin_tip_state. cbn [z_x z_y z_width z_height z_percent_radius z_rotation z_slant z_pinch z_hue z_saturation z_luminosity z_opacity].
    f_equal; assumption.
  - unfold tip_state_means. cbn [z_x z_y z_width z_height z_percent_radius z_rotation z_slant z_pinch z_hue z_saturation z_luminosity z_opacity].
    split; [unfold offset_x, offset_y; destruct dir; split; ring|].
    split; [exists kw; auto|]. split; [exists kh; auto|]. repeat (split; [assumption|]). exact KO.
Qed.

(** *** The other nodes *)
Lemma lerp_x lo hi p : exists r, lerp (N := N) (Fin lo) (Fin hi) (Fin p) = Fin r /\ r = (1 - p) * lo + p * hi.
Proof. eexists. split; [reflexivity|]. ring. Qed.
Lemma inverse_lerp_x lo hi v : lo <> hi -> exists r, inverse_lerp (N := N) (Fin lo) (Fin hi) (Fin v) = Fin r /\ (1 - r) * lo + r * hi = v.
Proof.
  intros H. unfold inverse_lerp. rewrite x0. cbn [neqb nsub ndiv N xnum xsub xopp xadd xeq].
  destruct (Req_bool_spec (hi + - lo) 0); [lra|]. cbn [xdiv].
  destruct (Req_bool_spec (hi + - lo) 0); [lra|]. eexists. split; [reflexivity|]. field. exact H0.
Qed.
Lemma binary_x o a b : (forall z, o <> OtherBinaryOp z) -> exists r, binary_step (N := N) o (Some (Fin a)) (Some (Fin b)) = Some (Fin r) /\ binary_means o a b r.
Proof. intros H. destruct o; [| |destruct (H code eq_refl)]; eexists; split; reflexivity. Qed.
Lemma interp_x i p lo hi : (forall z, i <> OtherInterpolation z) -> exists r,
  interp_step (N := N) i (Some (Fin p)) (Some (Fin lo)) (Some (Fin hi)) = fin_value r /\ interpolation_means i p lo hi r.
Proof.
  intros H. destruct i; [| |destruct (H code eq_refl)].
  - destruct (lerp_x lo hi p) as (r & E & M). exists (Some r). cbn [interp_step]. rewrite E. split; [reflexivity|]. cbn. auto.
  - cbn [interp_step neqb N xnum xeq]. destruct (Req_bool_spec lo hi) as [->|D].
    + exists None. split; [reflexivity|]. cbn. auto.
    + destruct (inverse_lerp_x lo hi p D) as (r & E & M). exists (Some r). rewrite E. split; [reflexivity|]. cbn. auto.
Qed.
Lemma damp_step_x s i dir size pt pe d gap old x : (forall z, d <> OtherDamping z) -> 0 < size -> 0 < gap -> exists y,
  damp_step (N := N) (@Build_context N (fin_state s) (fin_input i) dir (Fin size) (Some (@Build_metrics N (Fin pt) (Fin pe)))) d (Fin gap) (Some (Fin old)) (Some (Fin x)) = Some (Fin y) /\
  match damp_progress s i size pt pe d with None => y = x | Some (p, u) => damps p (u * gap) old x y end.
Proof.
  intros Hd Hs Hg. unfold damp_step. rewrite x0. cbn [neqb N xnum xeq cx_prev cx_state cx_input cx_size].
  destruct (Req_bool_spec gap 0); [lra|].
  destruct d; [| | |destruct (Hd code eq_refl)]; cbn [damp_progress].
  - cbn [fin_state st_unit]. destruct (s_unit s) as [u|]; cbn [option_map]; [|exists x; auto].
    cbn [fin_input traveled m_traveled nsub nmul N xnum xsub xopp xadd xmul].
    destruct (transition_x x old (u * (i_traveled i + - pt)) gap Hg) as (y & E & M). rewrite E. exists y. split; [reflexivity|].
    rewrite Rmult_1_l. exact M.
  - cbn [fin_input traveled m_traveled nsub nmul N xnum xsub xopp xadd xmul].
    destruct (transition_x x old (i_traveled i + - pt) (size * gap) ltac:(nra)) as (y & E & M). rewrite E. exists y. auto.
  - cbn [fin_input elapsed m_elapsed]. unfold dur_sub. cbn [nfin negb nsub N xnum xsub xopp xadd].
    destruct (transition_x x old (i_elapsed i + - pe) gap Hg) as (y & E & M). rewrite E. exists y. split; [reflexivity|].
    rewrite Rmult_1_l. exact M.
Qed.
Lemma direction_x inputs k : (k < length inputs)%nat -> exists d,
  travel_direction (N := N) (map fin_input inputs) k = Some (fin_value d) /\ direction_means inputs k d.
Proof.
  intros H. unfold travel_direction. rewrite !nth_error_map.
  destruct (nth_error inputs k) as [c|] eqn:Ec; [|apply nth_error_None in Ec; lia]. cbn [option_map].
  assert (A : exists a, nth_error inputs (k - 1) = Some a /\ match k with O => Some (fin_input c) | S j => nth_error (map fin_input inputs) j end = Some (fin_input a)).
  { destruct k; [exists c; auto|]. replace (S k - 1)%nat with k by lia. rewrite nth_error_map.
    destruct (nth_error inputs k) as [a|] eqn:Ea; [|apply nth_error_None in Ea; lia]. exists a. auto. }
  destruct A as (a & A1 & A2). rewrite A2.
  assert (B : exists b, nth_error inputs (if Nat.eqb (S k) (length inputs) then k else S k) = Some b /\
    match option_map fin_input (nth_error inputs (S k)) with Some e => e | None => fin_input c end = fin_input b).
  { destruct (Nat.eqb_spec (S k) (length inputs)) as [E|E].
    - exists c. split; [exact Ec|]. destruct (nth_error inputs (S k)) eqn:E2; [|reflexivity].
      assert (nth_error inputs (S k) <> None) by congruence. apply nth_error_Some in H0. lia.
    - destruct (nth_error inputs (S k)) as [b|] eqn:E2; [exists b; auto|]. apply nth_error_None in E2. lia. }
  destruct B as (b & B1 & B2). rewrite B2. cbn [fin_input pos_x pos_y neqb nsub natan2 N xnum xeq xsub xopp xadd xmap2].
  assert (W : forall d, reported (~ (i_px a = i_px b /\ i_py a = i_py b)) (directed (i_px a) (i_py a) (i_px b) (i_py b)) d -> direction_means inputs k d).
  { intros d R. exists a, b. auto. }
  destruct (Req_bool_spec (i_px a) (i_px b)) as [X|X]; destruct (Req_bool_spec (i_py a) (i_py b)) as [Y|Y]; cbn [andb].
  - exists None. split; [reflexivity|]. apply W. cbn. tauto.
  - exists (Some (atan2R (i_py b + - i_py a) (i_px b + - i_px a))). split; [reflexivity|]. apply W. cbn [reported]. split; [tauto|].
    destruct (atan2_x (i_px b + - i_px a) (i_py b + - i_py a) ltac:(lra)) as (P & Q1 & Q2). unfold directed. auto.
  - exists (Some (atan2R (i_py b + - i_py a) (i_px b + - i_px a))). split; [reflexivity|]. apply W. cbn [reported]. split; [tauto|].
    destruct (atan2_x (i_px b + - i_px a) (i_py b + - i_py a) ltac:(lra)) as (P & Q1 & Q2). unfold directed. auto.
  - exists (Some (atan2R (i_py b + - i_py a) (i_px b + - i_px a))). split; [reflexivity|]. apply W. cbn [reported]. split; [tauto|].
    destruct (atan2_x (i_px b + - i_px a) (i_py b + - i_py a) ltac:(lra)) as (P & Q1 & Q2). unfold directed. auto.
Qed.
