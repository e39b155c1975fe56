(** C30: quantisation of an attribute component. *)
From Coq Require Import ZArith Bool Reals Lia Lra List.
From Flocq Require Import Core Relative Plus_error IEEE754.BinarySingleNaN.
From Verif Require Import F32 F32Lemmas F32Round NumModel EasingBezier MeshFormatModel PackModel PackProps.
Import ListNotations.
Local Open Scope R_scope.

(** ** Rounding errors *)
Lemma sub_rel (x y : f32) : Rabs (rnd (fR x - fR y) - (fR x - fR y)) <= u24 * Rabs (fR x - fR y).
Proof.
  destruct (FLT_plus_error_N_ex radix2 (-149) 24 (fun z => negb (Z.even z)) (fR x) (- fR y)) as (e & E & R); [apply generic_format_B2R|apply generic_format_opp, generic_format_B2R|].
  change (fR x + - fR y) with (fR x - fR y) in R. change (round radix2 (FLT_exp (-149) 24) ZnearestE (fR x - fR y)) with (rnd (fR x - fR y)) in R. rewrite R.
  replace ((fR x - fR y) * (1 + e) - (fR x - fR y)) with (e * (fR x - fR y)) by ring. rewrite Rabs_mult. apply Rmult_le_compat_r; [apply Rabs_pos|].
  eapply Rle_trans; [exact E|]. unfold u_ro, u24. change (bpow radix2 (- (24) + 1)) with (/ 8388608). lra.
Qed.
Lemma add_rel (x y : f32) : Rabs (rnd (fR x + fR y) - (fR x + fR y)) <= u24 * Rabs (fR x + fR y).
Proof. pose proof (sub_rel x (fopp y)) as H. unfold fopp in H. rewrite B2R_Bopp in H. replace (fR x - - fR y) with (fR x + fR y) in H by ring. exact H. Qed.
Definition tiny : R := bpow radix2 (-150).
Lemma tiny_pos : 0 < tiny. Proof. apply bpow_gt_0. Qed.
Lemma tiny_small : tiny <= / 1073741824. Proof. unfold tiny. change (/ 1073741824) with (bpow radix2 (-30)). apply bpow_le. lia. Qed.
Lemma rnd_err x : 0 <= x -> Rabs (rnd x - x) <= u24 * x + tiny.
Proof.
  intros H. destruct (error_N_FLT radix2 (-149) 24 eq_refl (fun z => negb (Z.even z)) x) as (e & t & E & T & _ & R).
  change (round radix2 (FLT_exp (-149) 24) ZnearestE x) with (rnd x) in R. rewrite R.
  replace (x * (1 + e) + t - x) with (e * x + t) by ring. eapply Rle_trans; [apply Rabs_triang|]. apply Rplus_le_compat.
  - rewrite Rabs_mult, (Rabs_pos_eq x) by exact H. apply Rmult_le_compat_r; [exact H|]. eapply Rle_trans; [exact E|]. change (bpow radix2 (- (24) + 1)) with (/ 8388608). unfold u24. lra.
  - eapply Rle_trans; [exact T|]. unfold tiny. change (-149)%Z with (-150 + 1)%Z. rewrite bpow_plus. change (bpow radix2 1) with 2. lra.
Qed.
(** The quotient in floats against the exact one *)
Lemma quot_close d d' r r' s' M q' : 0 < r -> 0 <= d <= r -> 1 <= M -> Rabs (d' - d) <= u24 * d -> Rabs (r' - r) <= u24 * r -> Rabs (s' - r' / M) <= u24 * (r' / M) ->
  Rabs (q' - d' / s') <= u24 * (d' / s') + tiny -> 0 < s' /\ Rabs (s' - r / M) <= 3 * u24 * (r / M) /\ 0 <= d' / s' /\ Rabs (q' - d * M / r) <= 6 * u24 * (d * M / r) + tiny.
Proof.
  intros R0 D0 M0 D R S Q. unfold u24 in *. apply Rabs_le_inv in D, R, S, Q.
  set (step := r / M) in *. assert (Sp : 0 < step) by (apply Rdiv_lt_0_compat; lra). assert (Rr : r = step * M) by (unfold step; field; lra).
  assert (Rm : r' / M = step + (r' - r) / M) by (unfold step; field; lra).
  assert (Rb : Rabs ((r' - r) / M) <= / 16777216 * step).
  { unfold Rdiv. rewrite Rabs_mult, (Rabs_pos_eq (/ M)) by (apply Rlt_le, Rinv_0_lt_compat; lra). unfold step, Rdiv. rewrite <- Rmult_assoc. apply Rmult_le_compat_r; [apply Rlt_le, Rinv_0_lt_compat; lra|]. apply Rabs_le. lra. }
  apply Rabs_le_inv in Rb. rewrite Rm in S.
  assert (S1 : 0 < s') by lra. assert (S2 : Rabs (s' - step) <= 3 * / 16777216 * step) by (apply Rabs_le; lra).
  assert (D1 : 0 <= d') by lra.
  assert (X0 : 0 <= d' / s') by (apply Rmult_le_pos; [exact D1|apply Rlt_le, Rinv_0_lt_compat, S1]).
  split; [exact S1|]. split; [exact S2|]. split; [exact X0|].
  set (x := d' / s') in *. assert (Dx : d' = x * s') by (unfold x; field; lra).
  set (t := d * M / r) in *. assert (Dt : d = t * step) by (unfold t, step; field; lra). assert (T0 : 0 <= t) by (apply Rmult_le_pos; [apply Rmult_le_pos; lra|apply Rlt_le, Rinv_0_lt_compat, R0]).
  assert (SL : (1 - 2.1 * / 16777216) * step <= s' <= (1 + 2.1 * / 16777216) * step) by lra. clear S2.
  assert (XU : x <= t * (1 + 4 * / 16777216)).
  { apply Rmult_le_reg_r with (step * (1 - 2.1 * / 16777216)); [apply Rmult_lt_0_compat; lra|].
    apply Rle_trans with d'; [rewrite Dx; apply Rmult_le_compat_l; lra|]. apply Rle_trans with (d * (1 + / 16777216)); [lra|]. rewrite Dt.
    replace (t * step * (1 + / 16777216)) with (t * step * (1 + / 16777216)) by ring.
    replace (t * (1 + 4 * / 16777216) * (step * (1 - 2.1 * / 16777216))) with (t * step * ((1 + 4 * / 16777216) * (1 - 2.1 * / 16777216))) by ring. apply Rmult_le_compat_l; [apply Rmult_le_pos; lra|lra]. }
  assert (XL : t * (1 - 4 * / 16777216) <= x).
  { apply Rmult_le_reg_r with (step * (1 + 2.1 * / 16777216)); [apply Rmult_lt_0_compat; lra|].
    apply Rle_trans with d'; [|rewrite Dx; apply Rmult_le_compat_l; lra]. apply Rle_trans with (d * (1 - / 16777216)); [|lra]. rewrite Dt.
    replace (t * (1 - 4 * / 16777216) * (step * (1 + 2.1 * / 16777216))) with (t * step * ((1 - 4 * / 16777216) * (1 + 2.1 * / 16777216))) by ring. apply Rmult_le_compat_l; [apply Rmult_le_pos; lra|lra]. }
  apply Rabs_le. lra.
Qed.

(** ** The specification: [lo <= v <= hi] in reals, the exact step, and where a value lies on the scale from 0 to [M] *)
Definition is_float (x : f32) (r : R) : Prop := is_finite x = true /\ B2R x = r.
Definition levels (bits : Z) : R := IZR (2 ^ bits - 1).
Lemma levels_range bits : (1 <= bits <= 20)%Z -> 1 <= levels bits < 1048576.
Proof.
  intros B. unfold levels. assert ((2 ^ 1 <= 2 ^ bits)%Z /\ (2 ^ bits <= 2 ^ 20)%Z) by (split; apply Z.pow_le_mono_r; lia). split; [apply IZR_le|apply IZR_lt]; lia.
Qed.
Lemma max_float bits : (1 <= bits <= 20)%Z -> is_float (to_float (max_value bits)) (levels bits).
Proof.
  intros B. unfold is_float, to_float, levels, max_value. assert ((2 ^ 1 <= 2 ^ bits)%Z /\ (2 ^ bits <= 2 ^ 20)%Z) by (split; apply Z.pow_le_mono_r; lia).
  destruct (fZ_exact (2 ^ bits - 1)) as [R F]; [lia|]. split; assumption.
Qed.
Lemma fsub_args (x y : f32) : is_finite (fsub x y) = true -> is_finite x = true /\ is_finite y = true.
Proof. intros H. destruct x as [|[]| |], y as [|[]| |]; try (split; reflexivity); discriminate H. Qed.
Lemma fsub_val (x y : f32) : is_finite (fsub x y) = true -> fR (fsub x y) = rnd (fR x - fR y).
Proof.
  intros H. destruct (fsub_args x y H) as [Fx Fy]. destruct (fsub_finite x y Fx Fy) as [(_ & V & _)|[(_ & E)|(_ & E)]]; [exact V| |]; rewrite E in H; discriminate H.
Qed.
Lemma params_inv bits lo hi p : component_params bits lo hi = Some p ->
  is_finite lo = true /\ is_finite hi = true /\ fR lo <= fR hi /\ offset p = lo /\ is_finite (fsub hi lo) = true /\ fR (fsub hi lo) = rnd (fR hi - fR lo) /\
  scale p = if fgt (fsub hi lo) f0 then fdiv (fsub hi lo) (to_float (max_value bits)) else f1.
Proof.
  unfold component_params. destruct (fle lo hi) eqn:L; cbn [negb]; [|discriminate]. destruct (fisfinite (fsub hi lo)) eqn:F; cbn [negb]; [|discriminate]. intros H. injection H as <-. cbn [offset scale].
  destruct (fsub_args hi lo F) as [Fh Fl]. apply fle_spec in L; [|apply finite_not_nan; assumption..]. rewrite !fX_finite in L by assumption.
  repeat split; try assumption. apply fsub_val, F.
Qed.
Lemma rnd_sub_pos (x y : f32) : fR y < fR x -> 0 < rnd (fR x - fR y).
Proof. intros H. pose proof (sub_rel x y) as E. rewrite (Rabs_pos_eq (fR x - fR y)) in E by lra. apply Rabs_le_inv in E. unfold u24 in E. lra. Qed.
Lemma scale_val bits lo hi p : (1 <= bits <= 20)%Z -> component_params bits lo hi = Some p -> fR lo < fR hi ->
  0 < rnd (fR hi - fR lo) < big /\ is_float (scale p) (rnd (rnd (fR hi - fR lo) / levels bits)).
Proof.
  intros B H L. destruct (params_inv _ _ _ _ H) as (Fl & Fh & _ & _ & F & V & S). pose proof (rnd_sub_pos hi lo L) as P. pose proof (fR_bounds (fsub hi lo)) as Bd. rewrite V in Bd. pose proof (levels_range bits B) as LV. destruct (max_float bits B) as [FM RM].
  split; [lra|]. assert (G : fgt (fsub hi lo) f0 = true) by (apply flt_spec; [reflexivity|apply finite_not_nan, F|]; rewrite (fX_finite (fsub hi lo)) by exact F; rewrite V; exact P). rewrite G in S. rewrite S.
  destruct (fdiv_finite (fsub hi lo) (to_float (max_value bits)) F FM) as [(_ & W & X)|[(W & _)|(W & _)]]; rewrite ?RM in *; [lra|rewrite V in W; split; assumption| |].
  - exfalso. rewrite V in W. assert (rnd (rnd (fR hi - fR lo) / levels bits) <= rnd (rnd (fR hi - fR lo))).
    { apply rnd_mono. apply Rmult_le_reg_r with (levels bits); [lra|]. unfold Rdiv. rewrite Rmult_assoc, Rinv_l, Rmult_1_r by lra. rewrite <- (Rmult_1_r (rnd (fR hi - fR lo))) at 1. apply Rmult_le_compat_l; lra. }
    rewrite <- V in H0 at 2. rewrite rnd_fR, V in H0. lra.
  - exfalso. rewrite V in W. pose proof (rnd_pos (rnd (fR hi - fR lo) / levels bits)) as Q. assert (0 <= rnd (fR hi - fR lo) / levels bits) by (apply Rmult_le_pos; [lra|apply Rlt_le, Rinv_0_lt_compat; lra]). specialize (Q H0). pose proof big_pos. lra.
Qed.
(** Where the conversion to uint32_t is defined, it gives the rounded quotient *)
Lemma ZnearestA_half x : Rabs (IZR (ZnearestA x) - x) <= / 2.
Proof. rewrite Rabs_minus_sym. apply (Znearest_half (Z.leb 0)). Qed.
Lemma ZnearestA_nonneg x : 0 <= x -> (0 <= ZnearestA x)%Z.
Proof. intros H. pose proof (ZnearestA_half x) as A. apply Rabs_le_inv in A. assert (-1 < IZR (ZnearestA x)) by lra. apply (lt_IZR (-1)) in H0. lia. Qed.
Lemma pack_at_value p v q : is_finite (fdiv (fsub v (offset p)) (scale p)) = true -> fR (fdiv (fsub v (offset p)) (scale p)) = q -> 0 <= q < bpow radix2 31 ->
  pack_single p v = Some (ZnearestA q).
Proof.
  intros F R B. unfold pack_single. set (x := fdiv (fsub v (offset p)) (scale p)) in *. destruct (fround_R x) as [RR FF]. rewrite F in FF. rewrite R in RR.
  unfold fisfinite. rewrite FF. cbn [andb]. pose proof (ZnearestA_nonneg q (proj1 B)) as N. pose proof (ZnearestA_half q) as A. apply Rabs_le_inv in A.
  assert (T : is_float (fdy 1 32) (bpow radix2 32)).
  { destruct (fdy_exact 1 32) as [X Y]; [unfold F2R; cbn [Fnum Fexp]; rewrite Rmult_1_l; apply generic_format_bpow; unfold fexp32; cbn; lia|unfold F2R; cbn [Fnum Fexp]; rewrite Rmult_1_l, Rabs_pos_eq by apply bpow_ge_0; apply bpow_lt; lia|]. split; [exact Y|]. rewrite X. unfold F2R. cbn [Fnum Fexp]. ring. }
  destruct T as [TF TR].
  assert (G : fge (fround x) f0 = true) by (apply fle_spec; [reflexivity|apply finite_not_nan, FF|]; rewrite (fX_finite (fround x)) by exact FF; rewrite RR; change (fX f0) with 0; apply IZR_le, N).
  assert (L : flt (fround x) (fdy 1 32) = true).
  { apply flt_spec; [apply finite_not_nan, FF|apply finite_not_nan, TF|]. rewrite !fX_finite by assumption. rewrite RR, TR. change (bpow radix2 31) with 2147483648 in B. change (bpow radix2 32) with 4294967296. lra. }
  rewrite G, L. cbn [andb]. f_equal. destruct (ftoZ_spec (fround x)) as [Z1 Z2]; [rewrite RR; apply IZR_le, N|]. rewrite RR in Z1, Z2. apply le_IZR in Z1. rewrite <- plus_IZR in Z2. apply lt_IZR in Z2. lia.
Qed.
Definition wide (bits : Z) (lo hi : f32) : Prop := levels bits * bpow radix2 (-125) <= B2R hi - B2R lo.
Lemma wide_lt bits lo hi : (1 <= bits <= 20)%Z -> wide bits lo hi -> fR lo < fR hi.
Proof. intros B W. unfold wide in W. pose proof (levels_range bits B). pose proof (bpow_gt_0 radix2 (-125)). assert (0 < levels bits * bpow radix2 (-125)) by (apply Rmult_lt_0_compat; lra). lra. Qed.
(** the scale, and its distance from the exact step *)
Lemma scale_close bits lo hi p : (1 <= bits <= 20)%Z -> component_params bits lo hi = Some p -> wide bits lo hi ->
  exists r' s', is_float (scale p) s' /\ r' = rnd (fR hi - fR lo) /\ r' < big /\ Rabs (r' - (fR hi - fR lo)) <= u24 * (fR hi - fR lo) /\ s' = rnd (r' / levels bits) /\
    Rabs (s' - r' / levels bits) <= u24 * (r' / levels bits) /\ bpow radix2 (-126) <= s'.
Proof.
  intros B H W. pose proof (wide_lt bits lo hi B W) as L. destruct (scale_val bits lo hi p B H L) as [P S]. pose proof (levels_range bits B) as LV. unfold wide in W.
  exists (rnd (fR hi - fR lo)), (rnd (rnd (fR hi - fR lo) / levels bits)). split; [exact S|]. split; [reflexivity|]. split; [apply P|].
  pose proof (sub_rel hi lo) as E. rewrite (Rabs_pos_eq (fR hi - fR lo)) in E by lra. split; [exact E|]. split; [reflexivity|].
  set (r' := rnd (fR hi - fR lo)) in *. assert (Q : (1 - u24) * bpow radix2 (-125) <= r' / levels bits).
  { apply Rmult_le_reg_r with (levels bits); [lra|]. replace (r' / levels bits * levels bits) with r' by (field; lra). apply Rabs_le_inv in E. unfold u24 in *. lra. }
  assert (T : bpow radix2 (-125) = 2 * bpow radix2 (-126)) by (change (-125)%Z with (1 + -126)%Z; rewrite bpow_plus; reflexivity).
  pose proof (bpow_gt_0 radix2 (-126)). assert (G : bpow radix2 (-126) <= r' / levels bits) by (unfold u24 in Q; lra). assert (N : 0 <= r' / levels bits) by lra.
  split; [pose proof (rnd_rel (r' / levels bits)) as K; rewrite (Rabs_pos_eq (r' / levels bits)) in K by exact N; apply K, G|].
  rewrite <- (rnd_bpow (-126)) by lia. apply rnd_mono, G.
Qed.
Lemma pack_main bits lo hi p v : (1 <= bits <= 20)%Z -> component_params bits lo hi = Some p -> wide bits lo hi -> is_finite v = true -> fR lo <= fR v <= fR hi ->
  exists q, is_float (fdiv (fsub v (offset p)) (scale p)) q /\ 0 <= q /\
    Rabs (q - (fR v - fR lo) * levels bits / (fR hi - fR lo)) <= 6 * u24 * ((fR v - fR lo) * levels bits / (fR hi - fR lo)) + tiny.
Proof.
  intros B H W Fv V. destruct (scale_close bits lo hi p B H W) as (r' & s' & [FS RS] & R' & RB & RE & S' & SE & SL). pose proof (wide_lt bits lo hi B W) as L. pose proof (levels_range bits B) as LV. destruct (params_inv _ _ _ _ H) as (Fl & Fh & _ & O & _). pose proof (bpow_gt_0 radix2 (-126)) as P126.
  assert (DM : rnd (fR v - fR lo) <= r') by (rewrite R'; apply rnd_mono; lra). assert (DP : 0 <= rnd (fR v - fR lo)) by (apply rnd_pos; lra).
  assert (D : is_float (fsub v (offset p)) (rnd (fR v - fR lo))).
  { rewrite O. destruct (fsub_finite v lo Fv Fl) as [(_ & X & Y)|[(X & _)|(X & _)]]; [split; assumption|lra|pose proof big_pos; lra]. }
  pose proof (sub_rel v lo) as DE. rewrite (Rabs_pos_eq (fR v - fR lo)) in DE by lra. set (d' := rnd (fR v - fR lo)) in *.
  assert (S0 : 0 < s') by lra. assert (X0 : 0 <= d' / s') by (apply Rmult_le_pos; [exact DP|apply Rlt_le, Rinv_0_lt_compat, S0]).
  pose proof (rnd_err (d' / s') X0) as QE.
  destruct (quot_close (fR v - fR lo) d' (fR hi - fR lo) r' s' (levels bits) (rnd (d' / s'))) as (_ & _ & _ & Q); try assumption; try lra.
  exists (rnd (d' / s')). split; [|split; [apply rnd_pos, X0|exact Q]].
  assert (T : (fR v - fR lo) * levels bits / (fR hi - fR lo) <= levels bits).
  { apply Rmult_le_reg_r with (fR hi - fR lo); [lra|]. unfold Rdiv. rewrite Rmult_assoc, Rinv_l, Rmult_1_r by lra. rewrite Rmult_comm. apply Rmult_le_compat_l; lra. }
  pose proof tiny_small. destruct D as [FD RD]. destruct (fdiv_finite (fsub v (offset p)) (scale p) FD FS) as [(_ & X & Y)|[(X & _)|(X & _)]]; rewrite ?RS, ?RD in *; [lra|split; assumption| |].
  - exfalso. apply Rabs_le_inv in Q. unfold u24 in Q. assert (bpow radix2 30 < big) by (apply bpow_lt; lia). change (bpow radix2 30) with 1073741824 in *. lra.
  - exfalso. pose proof (rnd_pos (d' / s') X0). pose proof big_pos. lra.
Qed.
Definition place (bits : Z) (lo hi v : f32) : R := (B2R v - B2R lo) * levels bits / (B2R hi - B2R lo).
Lemma place_range bits lo hi v : (1 <= bits <= 20)%Z -> fR lo < fR hi -> fR lo <= fR v <= fR hi -> 0 <= place bits lo hi v <= levels bits.
Proof.
  intros B L V. pose proof (levels_range bits B). unfold place. split.
  - apply Rmult_le_pos; [apply Rmult_le_pos; lra|apply Rlt_le, Rinv_0_lt_compat; lra].
  - apply Rmult_le_reg_r with (fR hi - fR lo); [lra|]. unfold Rdiv. rewrite Rmult_assoc, Rinv_l, Rmult_1_r by lra. rewrite Rmult_comm. apply Rmult_le_compat_l; lra.
Qed.
(** A value between the bounds is packed to an integer that fits, the nearest to its place up to float rounding *)
Theorem C30_packed_in_range : forall bits lo hi p v, (1 <= bits <= 20)%Z -> component_params bits lo hi = Some p -> wide bits lo hi ->
  is_finite v = true -> B2R lo <= B2R v <= B2R hi ->
  exists n, pack_single p v = Some n /\ (0 <= n <= 2 ^ bits - 1)%Z /\ Rabs (IZR n - place bits lo hi v) <= / 2 + 6 * u24 * place bits lo hi v + tiny.
Proof.
  intros bits lo hi p v B H W Fv V. destruct (pack_main bits lo hi p v B H W Fv V) as (q & [FQ RQ] & Q0 & Q). pose proof (levels_range bits B) as LV.
  pose proof (place_range bits lo hi v B (wide_lt bits lo hi B W) V) as PL. fold (place bits lo hi v) in Q. pose proof tiny_small. apply Rabs_le_inv in Q. pose proof (ZnearestA_half q) as A. apply Rabs_le_inv in A.
  exists (ZnearestA q). split; [apply pack_at_value; [assumption..|change (bpow radix2 31) with 2147483648; unfold u24 in Q; lra]|]. split; [split|].
  - apply ZnearestA_nonneg, Q0.
  - assert (K : IZR (ZnearestA q) < levels bits + 1) by (unfold u24 in Q; lra). unfold levels in K. rewrite <- plus_IZR in K. apply lt_IZR in K. lia.
  - apply Rabs_le. lra.
Qed.
(** The bounds go to the extreme integers *)
Lemma near_int q (n : Z) : Rabs (q - IZR n) < / 2 -> ZnearestA q = n.
Proof. intros H. apply Znearest_imp. exact H. Qed.
Theorem C30_extremes : forall bits lo hi p, (1 <= bits <= 20)%Z -> component_params bits lo hi = Some p -> wide bits lo hi ->
  pack_single p lo = Some 0%Z /\ pack_single p hi = Some (2 ^ bits - 1)%Z.
Proof.
  intros bits lo hi p B H W. pose proof (wide_lt bits lo hi B W) as L. pose proof (levels_range bits B) as LV. pose proof tiny_small. pose proof tiny_pos. destruct (params_inv _ _ _ _ H) as (Fl & Fh & _).
  split.
  - destruct (pack_main bits lo hi p lo B H W Fl ltac:(lra)) as (q & [FQ RQ] & Q0 & Q). replace (fR lo - fR lo) with 0 in Q by ring. unfold Rdiv in Q. rewrite !Rmult_0_l, Rmult_0_r, Rplus_0_l, Rminus_0_r in Q.
    apply Rabs_le_inv in Q. rewrite (pack_at_value p lo q FQ RQ); [f_equal; apply near_int; apply Rabs_lt; lra|change (bpow radix2 31) with 2147483648; lra].
  - destruct (pack_main bits lo hi p hi B H W Fh ltac:(lra)) as (q & [FQ RQ] & Q0 & Q). replace ((fR hi - fR lo) * levels bits / (fR hi - fR lo)) with (levels bits) in Q by (field; lra).
    apply Rabs_le_inv in Q. rewrite (pack_at_value p hi q FQ RQ); [f_equal; apply near_int; fold (levels bits); apply Rabs_lt; unfold u24 in Q; lra|change (bpow radix2 31) with 2147483648; unfold u24 in Q; lra].
Qed.
(** ** Reading back *)
Lemma unpack_close bits lo hi p n : (1 <= bits <= 20)%Z -> component_params bits lo hi = Some p -> wide bits lo hi ->
  Rabs (fR lo) <= bpow radix2 126 -> Rabs (fR hi) <= bpow radix2 126 -> (0 <= n <= 2 ^ bits - 1)%Z ->
  exists w, is_float (unpack_single p n) w /\
    Rabs (w - (fR lo + IZR n * (fR hi - fR lo) / levels bits)) <= 5 * u24 * (fR hi - fR lo) + u24 * Rabs (fR lo + IZR n * (fR hi - fR lo) / levels bits).
Proof.
  intros B H W AL AH N. destruct (scale_close bits lo hi p B H W) as (r' & s' & [FS RS] & R' & RB & RE & S' & SE & SL). pose proof (wide_lt bits lo hi B W) as L. pose proof (levels_range bits B) as LV. destruct (params_inv _ _ _ _ H) as (Fl & Fh & _ & O & _). pose proof (bpow_gt_0 radix2 (-126)) as P126.
  assert (NR : 0 <= IZR n <= levels bits) by (unfold levels; split; apply IZR_le; lia).
  assert (FN : is_float (to_float n) (IZR n)). { assert ((2 ^ bits <= 2 ^ 20)%Z) by (apply Z.pow_le_mono_r; lia). destruct (fZ_exact n) as [X Y]; [lia|]. split; assumption. }
  destruct FN as [FN RN]. set (r := fR hi - fR lo) in *. set (step := r / levels bits) in *. assert (Rr : r = step * levels bits) by (unfold step; field; lra).
  assert (Sp : 0 < step) by (apply Rdiv_lt_0_compat; unfold r; lra).
  assert (S2 : Rabs (s' - step) <= 2.1 * u24 * step).
  { replace (r' / levels bits) with (step + (r' - r) / levels bits) in SE by (unfold step; field; lra).
    assert (Rb : Rabs ((r' - r) / levels bits) <= u24 * step).
    { unfold Rdiv. rewrite Rabs_mult, (Rabs_pos_eq (/ levels bits)) by (apply Rlt_le, Rinv_0_lt_compat; lra). unfold step, Rdiv. rewrite <- Rmult_assoc. apply Rmult_le_compat_r; [apply Rlt_le, Rinv_0_lt_compat; lra|exact RE]. }
    apply Rabs_le_inv in Rb, SE. apply Rabs_le. unfold u24 in *. lra. }
  assert (NS : IZR n * step <= r) by (rewrite Rr; rewrite (Rmult_comm step); apply Rmult_le_compat_r; lra). assert (NS0 : 0 <= IZR n * step) by (apply Rmult_le_pos; lra).
  assert (M1 : Rabs (IZR n * s' - IZR n * step) <= 2.1 * u24 * (IZR n * step)).
  { replace (IZR n * s' - IZR n * step) with (IZR n * (s' - step)) by ring. rewrite Rabs_mult, (Rabs_pos_eq (IZR n)) by lra. replace (2.1 * u24 * (IZR n * step)) with (IZR n * (2.1 * u24 * step)) by ring. apply Rmult_le_compat_l; [lra|exact S2]. }
  assert (RU : r <= 2 * bpow radix2 126) by (apply Rabs_le_inv in AL, AH; unfold r; lra).
  assert (P2 : Rabs (rnd (IZR n * s') - IZR n * s') <= u24 * (IZR n * s')).
  { assert (Z0 : 0 <= IZR n * s') by (apply Rmult_le_pos; lra). destruct (Z.eq_dec n 0) as [-> |Nz]; [rewrite Rmult_0_l, rnd_0, Rminus_0_r, Rabs_R0; lra|].
    pose proof (rnd_rel (IZR n * s')) as K. rewrite (Rabs_pos_eq (IZR n * s')) in K by exact Z0. apply K. assert (1 <= IZR n) by (apply (IZR_le 1); lia). apply Rle_trans with (1 * s'); [lra|apply Rmult_le_compat_r; lra]. }
  assert (BG : 4 * bpow radix2 126 = big) by (change 4 with (bpow radix2 2); rewrite <- bpow_plus; reflexivity). pose proof (bpow_gt_0 radix2 126) as B126.
  assert (P3 : Rabs (rnd (IZR n * s') - IZR n * step) <= 3.2 * u24 * (IZR n * step)) by (apply Rabs_le_inv in P2, M1; apply Rabs_le; unfold u24 in *; lra).
  set (p' := rnd (IZR n * s')) in *.
  assert (FP : is_float (fmul (to_float n) (scale p)) p').
  { apply Rabs_le_inv in P3. destruct (fmul_finite (to_float n) (scale p) FN FS) as [(_ & X & Y)|[(X & _)|(X & _)]]; rewrite ?RN, ?RS in *; [split; assumption| |]; exfalso; fold p' in X; unfold u24 in P3; lra. }
  destruct FP as [FP RP]. unfold unpack_single. rewrite O. pose proof (add_rel (fmul (to_float n) (scale p)) lo) as AE. rewrite RP in AE.
  replace (IZR n * r / levels bits) with (IZR n * step) by (unfold step, Rdiv; ring).
  assert (AB : Rabs (p' + fR lo) <= Rabs (fR lo + IZR n * step) + 3.2 * u24 * (IZR n * step)).
  { replace (p' + fR lo) with ((fR lo + IZR n * step) + (p' - IZR n * step)) by ring. eapply Rle_trans; [apply Rabs_triang|]. lra. }
  assert (XB : Rabs (fR lo + IZR n * step) <= bpow radix2 126) by (apply Rabs_le_inv in AL, AH; apply Rabs_le; unfold r in *; lra).
  assert (E : Rabs (rnd (p' + fR lo) - (p' + fR lo)) <= u24 * (Rabs (fR lo + IZR n * step) + 3.2 * u24 * (IZR n * step))) by (eapply Rle_trans; [exact AE|]; apply Rmult_le_compat_l; [unfold u24; lra|exact AB]).
  exists (rnd (p' + fR lo)). split.
  - apply Rabs_le_inv in E, P3, XB. set (A := Rabs (fR lo + IZR n * step)) in *. assert (A0 : A <= bpow radix2 126) by (unfold A; apply Rabs_le; lra).
    destruct (fadd_finite (fmul (to_float n) (scale p)) lo FP Fl) as [(_ & X & Y)|[(X & _)|(X & _)]]; rewrite ?RP in *; [split; assumption| |]; exfalso; unfold u24 in *; lra.
  - apply Rabs_le_inv in E, P3. apply Rabs_le. unfold u24 in *. lra.
Qed.
(** Packing and reading back moves a value by at most half a step, up to float rounding *)
Theorem C30_error : forall bits lo hi p v, (1 <= bits <= 20)%Z -> component_params bits lo hi = Some p -> wide bits lo hi ->
  Rabs (B2R lo) <= bpow radix2 126 -> Rabs (B2R hi) <= bpow radix2 126 -> is_finite v = true -> B2R lo <= B2R v <= B2R hi ->
  exists n, pack_single p v = Some n /\ (0 <= n <= 2 ^ bits - 1)%Z /\ is_finite (unpack_single p n) = true /\
    Rabs (B2R (unpack_single p n) - B2R v) <= (B2R hi - B2R lo) / levels bits / 2 + (B2R hi - B2R lo) / 2 ^ 20 + Rabs (B2R v) / 2 ^ 24.
Proof.
  intros bits lo hi p v B H W AL AH Fv V. destruct (C30_packed_in_range bits lo hi p v B H W Fv V) as (n & P & N & E). exists n. split; [exact P|]. split; [exact N|].
  destruct (unpack_close bits lo hi p n B H W AL AH N) as (w & [FW RW] & C). split; [exact FW|]. rewrite RW. pose proof (wide_lt bits lo hi B W) as L. pose proof (levels_range bits B) as LV.
  pose proof (place_range bits lo hi v B L V) as PR.
  set (r := fR hi - fR lo) in *. set (step := r / levels bits) in *. assert (Rr : r = step * levels bits) by (unfold step; field; lra). assert (Sp : 0 < step) by (apply Rdiv_lt_0_compat; unfold r; lra).
  replace (IZR n * r / levels bits) with (IZR n * step) in C by (unfold step, Rdiv; ring).
  assert (PV : fR v = fR lo + place bits lo hi v * step) by (unfold place, step; fold r; field; unfold r; split; lra).
  set (t := place bits lo hi v) in *. assert (TR : t * step <= r) by (rewrite Rr, (Rmult_comm step); apply Rmult_le_compat_r; lra). assert (TR0 : 0 <= t * step) by (apply Rmult_le_pos; lra).
  assert (D : Rabs (IZR n * step - t * step) <= step / 2 + 6 * u24 * r + tiny * step).
  { rewrite <- Rmult_minus_distr_r, Rabs_mult, (Rabs_pos_eq step) by lra. apply Rle_trans with ((/ 2 + 6 * u24 * t + tiny) * step); [apply Rmult_le_compat_r; lra|]. unfold u24 in *. lra. }
  assert (TS : tiny * step <= / 1073741824 * r).
  { apply Rle_trans with (/ 1073741824 * step); [apply Rmult_le_compat_r; [lra|apply tiny_small]|]. apply Rmult_le_compat_l; [lra|]. rewrite Rr. rewrite <- (Rmult_1_r step) at 1. apply Rmult_le_compat_l; lra. }
  assert (SR : step <= r) by (rewrite Rr; rewrite <- (Rmult_1_r step) at 1; apply Rmult_le_compat_l; lra).
  assert (A : Rabs (fR lo + IZR n * step) <= Rabs (fR v) + step / 2 + 7 * u24 * r).
  { replace (fR lo + IZR n * step) with (fR v + (IZR n * step - t * step)) by lra. eapply Rle_trans; [apply Rabs_triang|]. unfold u24 in *. lra. }
  assert (F : Rabs (w - fR v) <= Rabs (w - (fR lo + IZR n * step)) + Rabs (IZR n * step - t * step)).
  { replace (w - fR v) with ((w - (fR lo + IZR n * step)) + (IZR n * step - t * step)) by lra. apply Rabs_triang. }
  pose proof (Rabs_pos (fR v)). unfold u24 in *. lra.
Qed.
(** ** Any valid parameters: packing is monotone, and everything between two representable values is representable *)
Definition positive_scale (p : params) : Prop := is_finite (offset p) = true /\ is_finite (scale p) = true /\ 0 < B2R (scale p).
Lemma valid_positive p : valid_params p = true -> positive_scale p.
Proof.
  unfold valid_params, fisfinite. intros H. apply andb_prop in H. destruct H as [H G]. apply andb_prop in H. destruct H as [O S]. split; [exact O|]. split; [exact S|].
  apply flt_spec in G; [|reflexivity|apply finite_not_nan, S]. rewrite (fX_finite (scale p)) in G by exact S. exact G.
Qed.
Lemma quot_cases p v : positive_scale p -> is_finite v = true ->
  let q := fdiv (fsub v (offset p)) (scale p) in
  (is_finite q = true /\ Rabs (rnd (fR v - fR (offset p))) < big /\ fR q = rnd (rnd (fR v - fR (offset p)) / fR (scale p)) /\ Rabs (fR q) < big) \/
  ((big <= rnd (fR v - fR (offset p)) \/ (Rabs (rnd (fR v - fR (offset p))) < big /\ big <= rnd (rnd (fR v - fR (offset p)) / fR (scale p)))) /\ q = finf) \/
  ((rnd (fR v - fR (offset p)) <= - big \/ (Rabs (rnd (fR v - fR (offset p))) < big /\ rnd (rnd (fR v - fR (offset p)) / fR (scale p)) <= - big)) /\ q = fninf).
Proof.
  intros (FO & FS & S0) Fv q. destruct (fsub_finite v (offset p) Fv FO) as [(D & RD & FD)|[(D & E)|(D & E)]].
  - destruct (fdiv_finite (fsub v (offset p)) (scale p) FD FS ltac:(lra)) as [(X & Y & Z)|[(X & Y)|(X & Y)]]; rewrite RD in *.
    + left. unfold q. rewrite Y. auto.
    + right. left. auto.
    + right. right. auto.
  - right. left. split; [left; exact D|]. unfold q. rewrite E. destruct (scale p) as [|[]| |[]]; cbn in S0; try lra; try discriminate FS; try reflexivity. exfalso. pose proof (F2R_lt_0 radix2 (Float radix2 (Zneg m) e)) as K. specialize (K ltac:(reflexivity)). unfold cond_Zopp in S0. lra.
  - right. right. split; [left; exact D|]. unfold q. rewrite E. destruct (scale p) as [|[]| |[]]; cbn in S0; try lra; try discriminate FS; try reflexivity. exfalso. pose proof (F2R_lt_0 radix2 (Float radix2 (Zneg m) e)) as K. specialize (K ltac:(reflexivity)). unfold cond_Zopp in S0. lra.
Qed.
Lemma fround_inf : fround finf = finf /\ fround fninf = fninf. Proof. split; reflexivity. Qed.
Lemma pack_inv p v n : positive_scale p -> is_finite v = true -> pack_single p v = Some n ->
  let q := fdiv (fsub v (offset p)) (scale p) in is_finite q = true /\ fR q = rnd (rnd (fR v - fR (offset p)) / fR (scale p)) /\ n = ZnearestA (fR q) /\ (0 <= n)%Z.
Proof.
  intros P Fv H q. pose proof (quot_cases p v P Fv) as QC. cbv zeta in QC. fold q in QC. destruct QC as [(F & _ & R & _)|[(_ & E)|(_ & E)]].
  - split; [exact F|]. split; [exact R|]. unfold pack_single in H. fold q in H. destruct (fround_R q) as [RR FF]. rewrite F in FF. unfold fisfinite in H. rewrite FF in H. cbn [andb] in H. destruct (fge (fround q) f0) eqn:G; [|discriminate]. destruct (flt (fround q) (fdy 1 32)); [|discriminate]. injection H as <-.
    apply fle_spec in G; [|reflexivity|apply finite_not_nan, FF]. rewrite (fX_finite (fround q)) in G by exact FF. change (fX f0) with 0 in G. destruct (ftoZ_spec (fround q) G) as [Z1 Z2]. rewrite RR in G, Z1, Z2. apply (le_IZR 0) in G. apply le_IZR in Z1. rewrite <- plus_IZR in Z2. apply lt_IZR in Z2. lia.
  - unfold pack_single in H. fold q in H. rewrite E in H. discriminate H.
  - unfold pack_single in H. fold q in H. rewrite E in H. discriminate H.
Qed.
Lemma ZnearestA_mono x y : x <= y -> (ZnearestA x <= ZnearestA y)%Z.
Proof. apply (valid_rnd_N (Z.leb 0)). Qed.
Lemma quot_mono p v w : 0 < fR (scale p) -> fR v <= fR w -> rnd (rnd (fR v - fR (offset p)) / fR (scale p)) <= rnd (rnd (fR w - fR (offset p)) / fR (scale p)).
Proof. intros S V. apply rnd_mono. apply Rmult_le_compat_r; [apply Rlt_le, Rinv_0_lt_compat, S|]. apply rnd_mono. lra. Qed.
Theorem C30_monotone : forall p v w m n, valid_params p = true -> is_finite v = true -> is_finite w = true -> B2R v <= B2R w ->
  pack_single p v = Some m -> pack_single p w = Some n -> (m <= n)%Z.
Proof.
  intros p v w m n P Fv Fw V Hm Hn. apply valid_positive in P. destruct (pack_inv p v m P Fv Hm) as (_ & RV & -> & _). destruct (pack_inv p w n P Fw Hn) as (_ & RW & -> & _). apply ZnearestA_mono. rewrite RV, RW. apply quot_mono; [apply P|exact V].
Qed.
Lemma representable_iff bits p v : (1 <= bits <= 20)%Z -> positive_scale p -> is_finite v = true ->
  (representable1 bits p v = true <-> exists n, pack_single p v = Some n /\ (0 <= n <= 2 ^ bits - 1)%Z).
Proof.
  intros B P Fv. destruct (max_float bits B) as [FM RM]. unfold representable1. pose proof (levels_range bits B) as LV.
  pose proof (quot_cases p v P Fv) as QC. cbv zeta in QC. destruct QC as [(F & _ & R & _)|[(_ & E)|(_ & E)]].
  - set (q := fdiv (fsub v (offset p)) (scale p)) in *. destruct (fround_R q) as [RR FF]. rewrite F in FF. assert (N1 : is_nan (fround q) = false) by (apply finite_not_nan, FF). assert (N2 : is_nan (to_float (max_value bits)) = false) by (apply finite_not_nan, FM).
    split.
    + intros H. apply negb_true_iff, orb_false_iff in H. destruct H as [H1 H2]. apply flt_false in H1; [|exact N1|reflexivity]. unfold fgt in H2. change (Bltb (to_float (max_value bits)) (fround q)) with (flt (to_float (max_value bits)) (fround q)) in H2. apply flt_false in H2; [|assumption..].
      rewrite (fX_finite (fround q)) in H1 by exact FF. rewrite !fX_finite in H2 by assumption. change (fX f0) with 0 in H1. rewrite RR in *. rewrite RM in H2. unfold levels in H2. apply le_IZR in H2. apply (le_IZR 0) in H1.
      exists (ZnearestA (fR q)). split; [|lia].
      pose proof (ZnearestA_half (fR q)) as A. apply Rabs_le_inv in A.
      assert (KM : IZR (ZnearestA (fR q)) < 1048576) by (apply IZR_le in H2; fold (levels bits) in H2; lra).
      destruct (Rle_lt_dec 0 (fR q)) as [Q0|Q0]; [apply pack_at_value; [exact F|reflexivity|change (bpow radix2 31) with 2147483648; lra]|].
      unfold pack_single. fold q. unfold fisfinite. rewrite FF. cbn [andb].
      assert (G : fge (fround q) f0 = true) by (apply fle_spec; [reflexivity|exact N1|]; rewrite (fX_finite (fround q)) by exact FF; rewrite RR; change (fX f0) with 0; apply IZR_le; lia). rewrite G.
      assert (Z0 : ZnearestA (fR q) = 0%Z). { assert (IZR (ZnearestA (fR q)) < 1) by lra. apply (lt_IZR _ 1) in H. lia. }
      destruct (fround q) as [s|s| |s mm ee bb] eqn:FQ; try discriminate FF; [rewrite Z0; destruct s; reflexivity|]. exfalso. rewrite Z0 in RR. cbn in RR. apply eq_0_F2R in RR. destruct s; discriminate RR.
    + intros (n & Hn & N). destruct (pack_inv p v n P Fv Hn) as (_ & _ & E & _). fold q in E. apply negb_true_iff, orb_false_iff. split.
      * apply flt_false; [exact N1|reflexivity|]. rewrite (fX_finite (fround q)) by exact FF. change (fX f0) with 0. rewrite RR, <- E. apply IZR_le. lia.
      * apply flt_false; [assumption..|]. rewrite !fX_finite by assumption. rewrite RR, RM, <- E. apply IZR_le. lia.
  - rewrite E. change (fround finf) with finf. split.
    + intros H. apply negb_true_iff, orb_false_iff in H. destruct H as [_ H]. apply flt_false in H; [|apply finite_not_nan, FM|reflexivity]. rewrite (fX_finite (to_float _)) in H by exact FM. pose proof (fR_bounds (to_float (max_value bits))). cbn [fX finf] in H. lra.
    + intros (n & H & _). unfold pack_single in H. rewrite E in H. discriminate H.
  - rewrite E. change (fround fninf) with fninf. split; [intros H; discriminate H|]. intros (n & H & _). unfold pack_single in H. rewrite E in H. discriminate H.
Qed.
(** Custom parameters that can represent both bounds can represent every value between them *)
Theorem C30_custom_between : forall bits p lo hi v, (1 <= bits <= 20)%Z -> valid_params p = true ->
  is_finite lo = true -> is_finite hi = true -> is_finite v = true -> B2R lo <= B2R v <= B2R hi ->
  representable1 bits p lo = true -> representable1 bits p hi = true ->
  exists n, pack_single p v = Some n /\ (0 <= n <= 2 ^ bits - 1)%Z.
Proof.
  intros bits p lo hi v B P Fl Fh Fv V Rl Rh. apply valid_positive in P. apply representable_iff in Rl, Rh; [|assumption..]. destruct Rl as (a & Ha & A). destruct Rh as (b & Hb & Bb).
  destruct (pack_inv p lo a P Fl Ha) as (FA & RA & EA & _). destruct (pack_inv p hi b P Fh Hb) as (FB & RB & EB & _).
  pose proof (quot_cases p lo P Fl) as QL. pose proof (quot_cases p hi P Fh) as QH. pose proof (quot_cases p v P Fv) as QV. cbv zeta in QL, QH, QV. pose proof (proj2 (proj2 P)) as S0.
  destruct QL as [(_ & L1 & _ & L3)|[(_ & E)|(_ & E)]]; [|rewrite E in FA; discriminate FA..]. destruct QH as [(_ & H1 & _ & H3)|[(_ & E)|(_ & E)]]; [|rewrite E in FB; discriminate FB..].
  assert (M1 : rnd (fR lo - fR (offset p)) <= rnd (fR v - fR (offset p)) <= rnd (fR hi - fR (offset p))) by (split; apply rnd_mono; lra).
  pose proof (quot_mono p lo v S0 (proj1 V)) as M2. pose proof (quot_mono p v hi S0 (proj2 V)) as M3. apply Rabs_lt_inv in L1, L3, H1, H3. rewrite RA in L3. rewrite RB in H3.
  set (q := fdiv (fsub v (offset p)) (scale p)) in *. assert (F : is_finite q = true /\ fR q = rnd (rnd (fR v - fR (offset p)) / fR (scale p))).
  { destruct QV as [(F & _ & R & _)|[([E|(_ & E)] & _)|([E|(_ & E)] & _)]]; [split; assumption|lra..]. }
  destruct F as [F R]. apply representable_iff; [assumption..|]. destruct (max_float bits B) as [FM RM]. destruct (fround_R q) as [RR FF]. rewrite F in FF.
  assert (NA : (a <= ZnearestA (fR q) <= b)%Z) by (subst a b; rewrite RA, RB, R; split; apply ZnearestA_mono; assumption).
  unfold representable1. fold q. apply negb_true_iff, orb_false_iff. split.
  - apply flt_false; [apply finite_not_nan, FF|reflexivity|]. rewrite (fX_finite (fround q)) by exact FF. change (fX f0) with 0. rewrite RR. apply IZR_le. lia.
  - apply flt_false; [apply finite_not_nan; assumption..|]. rewrite !fX_finite by assumption. rewrite RR, RM. apply IZR_le. lia.
Qed.
(** A component whose bounds coincide: everything is packed to 0 and read back exactly *)
Theorem C30_constant : forall bits lo hi p v, component_params bits lo hi = Some p -> B2R lo = B2R hi -> is_finite v = true -> B2R v = B2R lo ->
  pack_single p v = Some 0%Z /\ is_finite (unpack_single p 0) = true /\ B2R (unpack_single p 0) = B2R v.
Proof.
  intros bits lo hi p v H E Fv V. destruct (params_inv _ _ _ _ H) as (Fl & Fh & _ & O & F & R & S). rewrite E, Rminus_diag_eq, rnd_0 in R by reflexivity.
  assert (G : fgt (fsub hi lo) f0 = false) by (apply flt_false; [reflexivity|apply finite_not_nan, F|]; rewrite (fX_finite (fsub hi lo)) by exact F; rewrite R; change (fX f0) with 0; lra). rewrite G in S.
  assert (F1 : is_float f1 1) by (destruct (fZ_exact 1 ltac:(lia)) as [X Y]; split; assumption). destruct F1 as [F1 R1].
  assert (D : is_float (fsub v (offset p)) 0).
  { rewrite O. destruct (fsub_finite v lo Fv Fl) as [(_ & X & Y)|[(X & _)|(X & _)]]; rewrite V, Rminus_diag_eq, rnd_0 in X by reflexivity; [split; assumption|pose proof big_pos; lra..]. }
  destruct D as [FD RD]. assert (Q : is_float (fdiv (fsub v (offset p)) (scale p)) 0).
  { rewrite S. destruct (fdiv_finite (fsub v (offset p)) f1 FD F1 ltac:(lra)) as [(_ & X & Y)|[(X & _)|(X & _)]]; rewrite RD in X; unfold Rdiv in X; rewrite Rmult_0_l, rnd_0 in X; [split; assumption|pose proof big_pos; lra..]. }
  destruct Q as [FQ RQ]. split.
  - rewrite (pack_at_value p v 0 FQ RQ); [f_equal; apply near_int; rewrite Rminus_0_r, Rabs_R0; lra|change (bpow radix2 31) with 2147483648; lra].
  - unfold unpack_single. rewrite S, O. assert (M : is_float (fmul (to_float 0) f1) 0).
    { destruct (fZ_exact 0 ltac:(lia)) as [X Y]. unfold to_float. destruct (fmul_finite (fZ 0) f1 Y F1) as [(_ & A & C)|[(A & _)|(A & _)]]; rewrite X, Rmult_0_l, rnd_0 in A; [split; assumption|pose proof big_pos; lra..]. }
    destruct M as [FM RM]. pose proof (fR_bounds lo). destruct (fadd_finite (fmul (to_float 0) f1) lo FM Fl) as [(_ & A & C)|[(A & _)|(A & _)]]; rewrite RM, Rplus_0_l, rnd_fR in A; [split; [exact C|lra]|lra..].
Qed.

(** ** Where the guarantees end: when the step underflows, and at the largest ranges *)
Definition quantum (n : Z) : f32 := fdy n (-149).
Theorem C30_tiny_range_refuted :
  (* bounds 0 and 2^-149 in eight bits: the scale is zero, and not even the lower bound can be packed *)
  (exists p, component_params 8 f0 (quantum 1) = Some p /\ feq (scale p) f0 = true /\ fisnan (fdiv (fsub f0 (offset p)) (scale p)) = true /\ pack_single p f0 = None) /\
  (* bounds 0 and 382 * 2^-149: the upper bound is packed to 382, which needs nine bits, and only its low byte is stored *)
  (exists p, component_params 8 f0 (quantum 382) = Some p /\ pack_single p (quantum 382) = Some 382%Z /\
     pack_attribute Float1In1Byte [p] [quantum 382] = Some (PBytes [126%Z])).
Proof.
  split.
  - eexists. split; [reflexivity|]. cbn [offset scale]. repeat split; vm_compute; reflexivity.
  - eexists. split; [reflexivity|]. split; vm_compute; reflexivity.
Qed.
Theorem C30_huge_range_refuted :
  exists p, component_params 16 f0 fmaxval = Some p /\ pack_single p fmaxval = Some (2 ^ 16 - 1)%Z /\ fisinf (unpack_single p (2 ^ 16 - 1)) = true.
Proof. eexists. split; [reflexivity|]. split; vm_compute; reflexivity. Qed.

(** ** Whole attributes *)
Definition step_bound (bits : nat) (lo hi v : f32) : R := (B2R hi - B2R lo) / levels (Z.of_nat bits) / 2 + (B2R hi - B2R lo) / 2 ^ 20 + Rabs (B2R v) / 2 ^ 24.
Fixpoint each4 {A B C D} (P : A -> B -> C -> D -> Prop) (la : list A) (lb : list B) (lc : list C) (ld : list D) : Prop :=
  match la, lb, lc, ld with
  | [], [], [], [] => True
  | a :: la, b :: lb, c :: lc, d :: ld => P a b c d /\ each4 P la lb lc ld
  | _, _, _, _ => False
  end.
Fixpoint each5 {A B C D E} (P : A -> B -> C -> D -> E -> Prop) (la : list A) (lb : list B) (lc : list C) (ld : list D) (le : list E) : Prop :=
  match la, lb, lc, ld, le with
  | [], [], [], [], [] => True
  | a :: la, b :: lb, c :: lc, d :: ld, e :: le => P a b c d e /\ each5 P la lb lc ld le
  | _, _, _, _, _ => False
  end.
Definition inside (bits : nat) (lo hi v : f32) : Prop :=
  is_finite v = true /\ B2R lo <= B2R v <= B2R hi /\
  (B2R lo = B2R hi \/ (wide (Z.of_nat bits) lo hi /\ Rabs (B2R lo) <= bpow radix2 126 /\ Rabs (B2R hi) <= bpow radix2 126)).
Definition close_to (bits : nat) (lo hi v w : f32) : Prop := is_finite w = true /\ Rabs (B2R w - B2R v) <= step_bound bits lo hi v.
Lemma packed_widths t bits : packed_bits t = Some bits -> exists w k, layout t = Some (w, k, map Z.of_nat bits) /\ Forall (fun b => (1 <= Z.of_nat b <= 20)%Z) bits.
Proof. destruct t; cbn [packed_bits]; intros H; try discriminate H; injection H as <-; eexists _, _; (split; [reflexivity|]); repeat constructor; cbn; lia. Qed.
Lemma singles bits los his vs : Forall (fun b => (1 <= Z.of_nat b <= 20)%Z) bits -> each4 inside bits los his vs -> forall ps, components_params bits los his = Some ps ->
  exists ns, pack_singles ps vs = Some ns /\ Forall2 fits (map Z.of_nat bits) ns /\ each5 close_to bits los his vs (unpack_singles ps ns).
Proof.
  revert los his vs. induction bits as [|b bits IH]; intros los his vs FB I ps H; destruct los as [|lo los], his as [|hi his], vs as [|v vs]; cbn [each4] in I; try contradiction.
  - cbn in H. injection H as <-. exists []. split; [reflexivity|]. split; [constructor|exact Logic.I].
  - destruct I as [I1 I2]. inversion FB; subst. cbn [components_params] in H. destruct (component_params (Z.of_nat b) lo hi) as [p|] eqn:P; [|discriminate]. destruct (components_params bits los his) as [qs|] eqn:Q; [|discriminate]. injection H as <-.
    destruct (IH los his vs ltac:(assumption) I2 qs Q) as (ns & A & F & C). destruct I1 as (Fv & V & K).
    assert (ONE : exists n, pack_single p v = Some n /\ (0 <= n <= 2 ^ Z.of_nat b - 1)%Z /\ close_to b lo hi v (unpack_single p n)).
    { destruct K as [E|(W & A1 & A2)].
      - destruct (C30_constant _ lo hi p v P E Fv ltac:(lra)) as (X & Y & Z). exists 0%Z. split; [exact X|]. split; [assert (0 < 2 ^ Z.of_nat b)%Z by (apply Z.pow_pos_nonneg; lia); lia|]. split; [exact Y|]. rewrite Z, Rminus_diag_eq, Rabs_R0 by reflexivity. unfold step_bound. rewrite E, Rminus_diag_eq by reflexivity. unfold Rdiv. rewrite !Rmult_0_l, !Rplus_0_l. apply Rmult_le_pos; [apply Rabs_pos|lra].
      - destruct (C30_error _ lo hi p v ltac:(eassumption) P W A1 A2 Fv V) as (n & X & N & Y & Z). exists n. split; [exact X|]. split; [exact N|]. split; assumption. }
    destruct ONE as (n & N1 & N2 & N3). exists (n :: ns). cbn [pack_singles map]. rewrite N1, A. split; [reflexivity|]. split; [constructor; [unfold fits; lia|exact F]|]. cbn [unpack_singles each5]. split; assumption.
Qed.
(** With the parameters computed from the bounds, packing an attribute inside them always succeeds, and reading it back gives
    every component up to half a step and float rounding *)
Theorem C30_attribute : forall t bits los his ps vs, packed_bits t = Some bits -> compute_coding t los his = Some ps -> each4 inside bits los his vs ->
  exists p ws, pack_attribute t ps vs = Some p /\ unpack_attribute t ps p = Some ws /\ each5 close_to bits los his vs ws.
Proof.
  intros t bits los his ps vs T H I. destruct (packed_widths t bits T) as (w & k & L & FB). unfold compute_coding in H. rewrite T in H. destruct (singles bits los his vs FB I ps H) as (ns & A & F & C).
  assert (R : in_range t ns) by (exists w, k, (map Z.of_nat bits); split; assumption). destruct (C29_roundtrip t ns R) as (p & P & _ & U). exists p, (unpack_singles ps ns).
  unfold pack_attribute, unpack_attribute, is_unpacked. rewrite T, A, P, U. split; [reflexivity|]. split; [reflexivity|exact C].
Qed.
(** An unpacked attribute is stored as it is *)
Theorem C30_unpacked_exact : forall t ps vs, packed_bits t = None -> exists p, pack_attribute t ps vs = Some p /\ unpack_attribute t ps p = Some vs.
Proof. intros t ps vs T. exists (PFloats vs). unfold pack_attribute, unpack_attribute, is_unpacked. rewrite T. split; reflexivity. Qed.

Example C30_example : each4 inside [12%nat; 12%nat] [fZ (-5); fZ 7] [fZ 10; fZ 7] [fZ 3; fZ 7].
Proof.
  assert (W : levels 12 * bpow radix2 (-125) <= 15).
  { unfold levels. change (2 ^ 12 - 1)%Z with 4095%Z. assert (bpow radix2 (-125) <= bpow radix2 (-12)) by (apply bpow_le; lia). change (bpow radix2 (-12)) with (/ 4096) in H. lra. }
  assert (B : 1024 <= bpow radix2 126) by (change 1024 with (bpow radix2 10); apply bpow_le; lia).
  destruct (fZ_exact (-5) ltac:(lia)) as [A1 _]. destruct (fZ_exact 10 ltac:(lia)) as [A2 _]. destruct (fZ_exact 3 ltac:(lia)) as [A3 B3]. destruct (fZ_exact 7 ltac:(lia)) as [A4 B4].
  unfold each4, inside, wide. rewrite A1, A2, A3, A4. repeat split; try assumption; try lra. right. change (Z.of_nat 12) with 12%Z. split; [lra|]. split; apply Rabs_le; lra.
Qed.
Print Assumptions C30_packed_in_range.
Print Assumptions C30_extremes.
Print Assumptions C30_error.
Print Assumptions C30_monotone.
Print Assumptions C30_custom_between.
Print Assumptions C30_constant.
Print Assumptions C30_tiny_range_refuted.
Print Assumptions C30_huge_range_refuted.
Print Assumptions C30_attribute.
Print Assumptions C30_unpacked_exact.
