(** Lemmas for the step easing functions in binary32. *)
From Coq Require Import ZArith Bool Reals Lra Lia.
From Flocq Require Import Core IEEE754.BinarySingleNaN.
From Verif Require Import F32 F32Lemmas F32Round NumModel EasingModel.
Open Scope R_scope.

Local Notation u := u24.
Lemma u_pos : 0 < u24. Proof. unfold u24. lra. Qed.

(** A count converted to float *)
Lemma count_float n : (1 <= n <= 2147483647)%Z ->
  is_finite (fZ n) = true /\ fR (fZ n) = rnd (IZR n) /\ 1 <= fR (fZ n) <= bpow radix2 31.
Proof.
  intros H. pose proof (binary_normalize_correct 24 128 _ _ mode_NE n 0 false) as K. cbv zeta in K.
  change (round_mode mode_NE) with ZnearestE in K.
  assert (E : F2R (Float radix2 n 0) = IZR n) by (unfold F2R; cbn; lra). rewrite E in K.
  assert (B : Rabs (IZR n) <= bpow radix2 31).
  { rewrite <- abs_IZR. change (bpow radix2 31) with (IZR (2 ^ 31)). apply IZR_le. lia. }
  rewrite Rlt_bool_true in K.
  2:{ apply rnd_safe. eapply Rle_trans; [exact B|]. apply bpow_le. lia. }
  destruct K as (K1 & K2 & _). change (fR (fZ n) = rnd (IZR n)) in K1. change (is_finite (fZ n) = true) in K2.
  repeat split; try assumption; rewrite K1.
  - replace 1 with (rnd 1) at 1. + apply rnd_mono. apply IZR_le. lia.
    + rewrite <- f1_R. apply rnd_fR.
  - rewrite <- (rnd_bpow 31) by lia. apply rnd_mono. eapply Rle_trans; [apply Rle_abs|exact B].
Qed.

(** Floats below 1 are at most 1 - 2^-24. *)
Lemma below_1 (x : f32) : fR x < 1 -> fR x <= 1 - u.
Proof.
  intros H. assert (F1 : generic_format radix2 fexp32 1) by (rewrite <- f1_R; apply generic_format_B2R).
  pose proof (generic_format_B2R 24 128 x) as Fx.
  pose proof (pred_ge_gt radix2 fexp32 _ _ Fx F1 H) as K. eapply Rle_trans; [exact K|].
  change 1 with (bpow radix2 0) at 1. rewrite pred_bpow.
  unfold SpecFloat.fexp, SpecFloat.emin. change (Z.max (0 - 24) (3 - 128 - 24)) with (-24)%Z. rewrite u24_bpow. cbn. lra.
Qed.

(** count * x stays strictly below count when x < 1, by a relative 2^-24. *)
Lemma count_x c x : generic_format radix2 fexp32 c -> 1 <= c <= bpow radix2 31 -> 0 <= x <= 1 - u ->
  rnd (c * x) <= c * (1 - u) /\ rnd (c * x) < c.
Proof.
  intros Fc Hc Hx. pose proof u_pos.
  set (q := pred radix2 fexp32 c).
  assert (Fq : generic_format radix2 fexp32 q) by (apply generic_format_pred; auto with typeclass_instances).
  assert (Q1 : 1 - u <= q).
  { unfold q. replace (1 - u) with (pred radix2 fexp32 1).
    - apply pred_le; auto with typeclass_instances. + rewrite <- f1_R; apply generic_format_B2R. + lra.
    - change 1 with (bpow radix2 0) at 1. rewrite pred_bpow.
      unfold SpecFloat.fexp, SpecFloat.emin. change (Z.max (0 - 24) (3 - 128 - 24)) with (-24)%Z. rewrite u24_bpow. cbn. lra. }
  assert (Q0 : 0 < q) by (unfold u24 in *; lra).
  assert (Qc : q + ulp radix2 fexp32 q = c).
  { rewrite <- succ_eq_pos by lra. unfold q. apply succ_pred; auto with typeclass_instances. }
  assert (U1 : ulp radix2 fexp32 q <= 2 * u * q).
  { pose proof (ulp_FLT_le radix2 (-149) 24 q) as K. rewrite Rabs_pos_eq in K by lra.
    change (ulp radix2 (FLT_exp (-149) 24) q) with (ulp radix2 fexp32 q) in K.
    eapply Rle_trans; [apply K|].
    - apply Rle_trans with (bpow radix2 (-1)); [apply bpow_le; lia|]. cbn. unfold u24 in *. lra.
    - change (1 - 24)%Z with (-24 + 1)%Z. rewrite bpow_plus, u24_bpow. change (bpow radix2 1) with 2. lra. }
  assert (U2 : c <= bpow radix2 24 * ulp radix2 fexp32 q).
  { destruct (mag radix2 q) as (e & He). specialize (He ltac:(lra)). rewrite Rabs_pos_eq in He by lra.
    assert (L : succ radix2 fexp32 q <= bpow radix2 e).
    { apply succ_le_lt; auto with typeclass_instances; [|apply He].
      apply generic_format_bpow.
      assert (-1 < e)%Z. { apply (lt_bpow radix2). apply Rle_lt_trans with q; [|apply He]. cbn. unfold u24 in *; lra. }
      unfold SpecFloat.fexp, SpecFloat.emin. lia. }
    rewrite succ_eq_pos in L by lra. rewrite Qc in L. eapply Rle_trans; [exact L|].
    rewrite ulp_neq_0 by lra. unfold cexp. rewrite (mag_unique_pos radix2 q e He). rewrite <- bpow_plus. apply bpow_le.
    unfold SpecFloat.fexp, SpecFloat.emin. lia. }
  assert (U3 : c * u <= ulp radix2 fexp32 q).
  { rewrite <- u24_bpow. replace (ulp radix2 fexp32 q) with (bpow radix2 24 * ulp radix2 fexp32 q * bpow radix2 (-24)).
    - apply Rmult_le_compat_r; [apply bpow_ge_0|exact U2].
    - rewrite (Rmult_comm (bpow radix2 24)), Rmult_assoc, <- bpow_plus. change (bpow radix2 (24 + -24)) with 1. lra. }
  assert (L : rnd (c * x) <= q).
  { apply round_N_le_midp; auto with typeclass_instances. rewrite succ_eq_pos by lra. rewrite Qc.
    assert (c * x <= c * (1 - u)) by (apply Rmult_le_compat_l; lra).
    assert (ulp radix2 fexp32 q < 2 * u * c). { eapply Rle_lt_trans; [exact U1|]. apply Rmult_lt_compat_l; [lra|]. pose proof (bpow_gt_0 radix2 (-149)). assert (0 < c * u) by (apply Rmult_lt_0_compat; lra). lra. }
    lra. }
  assert (0 < c * u) by (apply Rmult_lt_0_compat; lra).
  split; lra.
Qed.

(** What [get_y_steps] computes for 0 <= x < 1, over the reals. *)
Lemma rnd_recip c : 1 <= c <= bpow radix2 32 -> 0 < rnd (1 / c) <= 1 /\ rnd (1 / c) * c <= 1 + u.
Proof.
  intros Hc. pose proof u_pos.
  assert (C : c * / c = 1) by (apply Rinv_r; lra).
  assert (L : bpow radix2 (-126) <= 1 / c).
  { unfold Rdiv. rewrite Rmult_1_l. apply Rle_trans with (/ bpow radix2 32).
    - rewrite <- bpow_opp. apply bpow_le. lia.
    - apply Rinv_le; lra. }
  assert (I1 : 1 / c <= 1). { unfold Rdiv. rewrite Rmult_1_l. rewrite <- Rinv_1. apply Rinv_le; lra. }
  pose proof (rnd_upper _ L) as U.
  split.
  - split; [|apply rnd_le_1; lra]. apply Rlt_le_trans with (rnd (bpow radix2 (-126))).
    + rewrite rnd_bpow by lia. apply bpow_gt_0.
    + apply rnd_mono, L.
  - apply Rle_trans with (1 / c * (1 + u) * c); [apply Rmult_le_compat_r; lra|]. unfold Rdiv. nra.
Qed.

Lemma bp31 : bpow radix2 31 = 2147483648. Proof. reflexivity. Qed.
Lemma bp32 : bpow radix2 32 = 4294967296. Proof. reflexivity. Qed.
Lemma safe_large : 1099511627776 <= safe.
Proof. change 1099511627776 with (IZR (2 ^ 40)). change (IZR (2 ^ 40)) with (bpow radix2 40). apply bpow_le. lia. Qed.

Section Eval.
Variable E : elem.
Local Notation N := (fnum E).

Definition step_index (c x : R) : Z := Zfloor (rnd (c * x)).

Lemma step_index_pos c x : 1 <= c -> 0 <= x -> (0 <= step_index c x)%Z.
Proof.
  intros Hc Hx. unfold step_index. change 0%Z with (Zfloor (IZR 0)) at 1 || idtac.
  rewrite <- (Zfloor_IZR 0). apply Zfloor_le. apply rnd_pos. apply Rmult_le_pos; lra.
Qed.
Lemma step_index_le c x : 1 <= c <= bpow radix2 31 -> generic_format radix2 fexp32 c -> 0 <= x <= 1 - u ->
  IZR (step_index c x) <= c * (1 - u) /\ IZR (step_index c x) < c.
Proof.
  intros Hc Fc Hx. destruct (count_x c x Fc Hc Hx). unfold step_index. pose proof (Zfloor_lb (rnd (c * x))). lra.
Qed.
Lemma step_index_mono c x y : 1 <= c -> x <= y -> (step_index c x <= step_index c y)%Z.
Proof. intros Hc H. apply Zfloor_le. apply rnd_mono. apply Rmult_le_compat_l; lra. Qed.
Lemma rnd_int_float z x : z = Zfloor (fR x) -> is_finite x = true -> rnd (IZR z) = IZR z.
Proof. intros -> F. destruct (ffloor_R x) as [A _]. rewrite <- A. apply rnd_fR. Qed.

Lemma steps_eval (c h s x : f32) :
  is_finite c = true -> is_finite h = true -> is_finite s = true -> is_finite x = true ->
  1 <= fR c <= bpow radix2 31 -> 0 < fR h <= 1 -> 0 <= fR s <= 1 -> 0 <= fR x < 1 ->
  let k := step_index (fR c) (fR x) in
  fR (get_y_steps (N := N) c h s x) = rnd (fR s + rnd (fR h * IZR k)) /\
  is_finite (get_y_steps (N := N) c h s x) = true /\ rnd (IZR k) = IZR k.
Proof.
  intros Fc Fh Fs Fx Hc Hh Hs Hx k. rewrite bp31 in Hc.
  pose proof safe_large as SL.
  assert (Hcx : 0 <= fR c * fR x <= 2147483648). { split; [apply Rmult_le_pos; lra|nra]. }
  destruct (fmul_small c x Fc Fx) as [M1 M2]; [rewrite Rabs_pos_eq; lra|].
  destruct (ffloor_R (fmul c x)) as [L1 L2]. rewrite M2 in L2. rewrite M1 in L1. fold k in L1.
  change (IZR (Zfloor (rnd (fR c * fR x)))) with (IZR k) in L1.
  assert (K0 : 0 <= IZR k). { apply IZR_le. apply step_index_pos; lra. }
  assert (K1 : IZR k <= 2147483648).
  { assert (G := proj1 (step_index_le (fR c) (fR x) ltac:(rewrite bp31; lra) (generic_format_B2R 24 128 c) (conj (proj1 Hx) (below_1 x (proj2 Hx))))).
    fold k in G. pose proof u_pos. nra. }
  assert (Hk : 0 <= fR h * IZR k <= 2147483648). { split; [apply Rmult_le_pos; lra|nra]. }
  destruct (fmul_small h (ffloor (fmul c x)) Fh L2) as [P1 P2]; [rewrite L1, Rabs_pos_eq; lra|]. rewrite L1 in P1.
  assert (P3 : 0 <= rnd (fR h * IZR k) <= 2147483648).
  { split; [apply rnd_pos; lra|]. rewrite <- bp31, <- (rnd_bpow 31) by lia. apply rnd_mono. rewrite bp31. lra. }
  destruct (fadd_small s (fmul h (ffloor (fmul c x))) Fs P2) as [A1 A2]; [rewrite P1, Rabs_pos_eq; lra|]. rewrite P1 in A1.
  unfold get_y_steps. cbn [nlt nle nadd nmul nfloor N fnum T n0 n1 nZ ndy].
  destruct (flt x _) eqn:E1.
  { apply flt_spec in E1; [|apply finite_not_nan, Fx|reflexivity]. rewrite fX_finite in E1 by exact Fx. cbn in E1. lra. }
  destruct (fle _ x) eqn:E2.
  { apply fle_spec in E2; [|reflexivity|apply finite_not_nan, Fx]. rewrite (fX_finite x) in E2 by exact Fx.
    change (fdy 1 0) with f1 in E2. rewrite fX_finite, f1_R in E2 by apply f1_finite. lra. }
  repeat split; try assumption. apply (rnd_int_float k (fmul c x)); [|exact M2]. rewrite M1. reflexivity.
Qed.
End Eval.

(** Upper bounds of the step value, per step position *)
Section Bounds.
Variables (c x : R).
Hypothesis Fc : generic_format radix2 fexp32 c.
Hypothesis Hc : 1 <= c <= bpow radix2 31.
Hypothesis Hx : 0 <= x <= 1 - u.
Local Notation k := (IZR (step_index c x)).
Hypothesis Ic : exists z, c = IZR z.
Hypothesis Fk : rnd k = k.

Lemma k_pos : 0 <= k. Proof. apply IZR_le. apply step_index_pos; lra. Qed.
Lemma k_c1 : k <= c - 1.
Proof.
  destruct (step_index_le c x Hc Fc Hx) as [_ L]. destruct Ic as [z ->]. apply lt_IZR in L.
  rewrite <- minus_IZR. apply IZR_le. lia.
Qed.
Lemma bound_end : rnd (1 / c) * k <= 1.
Proof.
  destruct (step_index_le c x Hc Fc Hx) as [L _]. pose proof k_pos. pose proof u_pos.
  destruct (rnd_recip c) as [[A B] C]; [rewrite bp31 in Hc; rewrite bp32; lra|].
  apply Rle_trans with (rnd (1 / c) * (c * (1 - u))); [apply Rmult_le_compat_l; lra|].
  unfold u24 in *. nra.
Qed.
Lemma bound_none : 2 <= c -> 1 <= rnd (c - 1) <= bpow radix2 31 /\ rnd (1 / rnd (c - 1)) * k <= 1 + u.
Proof.
  intros C2. pose proof u_pos.
  assert (M : 1 <= rnd (c - 1) <= bpow radix2 31).
  { split. - rewrite <- f1_R at 1. rewrite <- rnd_fR, f1_R. apply rnd_mono. lra.
    - rewrite <- (rnd_bpow 31) by lia. apply rnd_mono. rewrite bp31 in *. lra. }
  split; [exact M|]. set (m := rnd (c - 1)) in *.
  assert (km : k <= m). { rewrite <- Fk. unfold m. apply rnd_mono, k_c1. }
  destruct (rnd_recip m) as [[A B] C]; [rewrite bp31 in M; rewrite bp32; lra|].
  apply Rle_trans with (rnd (1 / m) * m); [apply Rmult_le_compat_l; lra|exact C].
Qed.
(** both positions that start at one step height [rnd (1 / d)] *)
Lemma bound_start d : c <= d <= bpow radix2 32 ->
  rnd (1 / d) + rnd (rnd (1 / d) * k) <= 1 + u + u / 2 /\
  ((16777216 <= c \/ d = c + 1) -> rnd (1 / d) + rnd (rnd (1 / d) * k) <= 1 + u).
Proof.
  intros Hd. pose proof u_pos. pose proof k_pos. pose proof k_c1. pose proof bound_end as BE.
  destruct (rnd_recip d) as [[A B] C]; [lra|].
  set (h := rnd (1 / d)) in *.
  assert (hc : h <= rnd (1 / c)). { apply rnd_mono. unfold Rdiv. rewrite !Rmult_1_l. apply Rinv_le; lra. }
  assert (hk : 0 <= h * k <= 1). { split; [apply Rmult_le_pos; lra|]. eapply Rle_trans; [|exact BE]. apply Rmult_le_compat_r; lra. }
  assert (R1 : rnd (h * k) <= h * k + u / 2).
  { pose proof (rnd_abs 0 (h * k) ltac:(lia)) as K. rewrite Rabs_pos_eq in K by lra. specialize (K (proj2 hk)).
    change (0 - 25)%Z with (-24 + -1)%Z in K. rewrite bpow_plus, u24_bpow in K. change (bpow radix2 (-1)) with (/ 2) in K.
    apply Rabs_le_inv in K. lra. }
  assert (R2 : rnd (h * k) <= 1) by (apply rnd_le_1; lra).
  assert (hd : h * k + h <= h * d). { nra. }
  split; [lra|]. intros D.
  destruct (Rle_or_lt 16777216 c) as [L|L].
  - assert (h <= u).
    { rewrite <- u24_bpow, <- (rnd_bpow (-24)) by lia. apply rnd_mono. unfold Rdiv. rewrite Rmult_1_l, u24_bpow. unfold u24. apply Rinv_le; lra. }
    lra.
  - destruct D as [D|D]; [lra|].
    assert (h * k + h <= h * d - h). { nra. }
    assert (h >= u / 2); [|lra].
    unfold h. replace (u / 2) with (bpow radix2 (-25)).
    2:{ change (-25)%Z with (-24 + -1)%Z. rewrite bpow_plus, u24_bpow. change (bpow radix2 (-1)) with (/ 2). lra. }
    rewrite <- (rnd_bpow (-25)) by lia. apply Rle_ge, rnd_mono. unfold Rdiv. rewrite Rmult_1_l.
    change (-25)%Z with (- (25))%Z. rewrite bpow_opp. change (bpow radix2 25) with 33554432. apply Rinv_le; lra.
Qed.
End Bounds.

Lemma count_int n : (1 <= n <= 2147483647)%Z -> exists z, rnd (IZR n) = IZR z.
Proof.
  intros H. destruct (Z_le_gt_dec n (2 ^ 24)) as [L|L].
  - exists n. apply round_generic; auto with typeclass_instances. apply fZ_format. lia.
  - unfold round, F2R. cbn [Fnum Fexp].
    assert (0 <= cexp radix2 fexp32 (IZR n))%Z.
    { unfold cexp. assert (25 <= mag radix2 (IZR n))%Z.
      { apply mag_ge_bpow. change (25 - 1)%Z with 24%Z. rewrite <- abs_IZR. change (bpow radix2 24) with (IZR (2 ^ 24)). apply IZR_le. lia. }
      unfold SpecFloat.fexp, SpecFloat.emin. lia. }
    rewrite <- IZR_Zpower by assumption. rewrite <- mult_IZR. eexists. reflexivity.
Qed.

Section Steps.
Variable E : elem.
Local Notation N := (fnum E).

(** The value of the step function for 0 <= x < 1 as a real expression: start [s] and height [h] *)
Lemma steps_shape n pos (x : f32) :
  (1 <= n <= 2147483647)%Z -> valid_steps n pos = true -> is_finite x = true -> 0 <= fR x < 1 ->
  exists c h s : f32, steps_impl (N := N) n pos = ISteps (N := N) c h s /\
    is_finite c = true /\ is_finite h = true /\ is_finite s = true /\
    fR c = rnd (IZR n) /\ 1 <= fR c <= bpow radix2 31 /\ 0 < fR h <= 1 /\ 0 <= fR s <= 1 /\
    0 <= rnd (fR s + rnd (fR h * IZR (step_index (fR c) (fR x)))) <= (if Z.eqb pos kJumpStart then 1 + 2 * u else 1).
Proof.
  intros Hn Hv Fx Hx. destruct (count_float n Hn) as (Fc & Ec & Hc).
  assert (Hb : 1 <= fR (fZ n) <= bpow radix2 32) by (rewrite bp31 in Hc; rewrite bp32; lra).
  pose proof u_pos. pose proof safe_large as SL.
  assert (Fk : rnd (IZR (step_index (fR (fZ n)) (fR x))) = IZR (step_index (fR (fZ n)) (fR x))).
  { apply (rnd_int_float _ (fmul (fZ n) x)).
    - destruct (fmul_small (fZ n) x Fc Fx) as [M _]; [|rewrite M; reflexivity].
      rewrite Rabs_pos_eq by (apply Rmult_le_pos; lra). rewrite bp31 in Hc. nra.
    - apply fmul_small; try assumption. rewrite Rabs_pos_eq by (apply Rmult_le_pos; lra). rewrite bp31 in Hc. nra. }
  assert (Ic : exists z, fR (fZ n) = IZR z) by (rewrite Ec; apply count_int, Hn).
  pose proof (generic_format_B2R 24 128 (fZ n)) as Gc.
  assert (Hx' : 0 <= fR x <= 1 - u) by (split; [lra|apply below_1; lra]).
  set (c := fR (fZ n)) in *. set (k := IZR (step_index c (fR x))) in *.
  assert (K0 : 0 <= k) by (apply IZR_le, step_index_pos; lra).
  assert (D : forall d : f32, is_finite d = true -> 1 <= fR d <= bpow radix2 32 ->
     fR (fdiv f1 d) = rnd (1 / fR d) /\ is_finite (fdiv f1 d) = true /\ 0 < fR (fdiv f1 d) <= 1).
  { intros d Fd Hd. destruct (rnd_recip (fR d) Hd) as [A _].
    destruct (fdiv_small f1 d f1_finite Fd) as [P Q]; [lra| |].
    - rewrite f1_R. apply Rle_trans with 1; [|lra]. unfold Rdiv. rewrite Rmult_1_l. rewrite Rabs_pos_eq.
      + rewrite <- Rinv_1. apply Rinv_le; lra. + left. apply Rinv_0_lt_compat. lra.
    - rewrite f1_R in P. repeat split; try assumption; rewrite P; apply A. }
  unfold steps_impl. cbn [N fnum n1 n0 nZ ndy ndiv nsub nadd].
  change (fdy n 0) with (fZ n). change (fdy 1 0) with f1. change (fdy 0 0) with f0.
  unfold valid_steps, valid_position, kJumpEnd, kJumpStart, kJumpNone, kJumpBoth in *. cbn [List.existsb] in Hv.
  destruct (Z.eqb_spec pos 0) as [->|N0].
  { destruct (D (fZ n) Fc Hb) as (D1 & D2 & D3). fold c in D1. rewrite D1 in D3.
    eexists _, _, _. split; [reflexivity|]. fold c. rewrite D1. fold k.
    repeat (split; [first [assumption|reflexivity|lra|apply D3]|]).
    split; [rewrite f0_R; lra|]. rewrite f0_R, Rplus_0_l.
    change (0 =? 1)%Z with false. cbv iota.
    pose proof (bound_end c (fR x) Gc Hc Hx') as BE. fold k in BE.
    split; [apply rnd_pos, rnd_pos, Rmult_le_pos; [lra|lra]|].
    apply rnd_le_1. pose proof (rnd_le_1 (rnd (1 / c) * k)). lra. }
  destruct (Z.eqb_spec pos 1) as [->|N1].
  { destruct (D (fZ n) Fc Hb) as (D1 & D2 & D3). fold c in D1. rewrite D1 in D3.
    eexists _, _, _. split; [reflexivity|]. fold c. rewrite D1. fold k.
    repeat (split; [first [assumption|reflexivity|lra|apply D3]|]).

    destruct (bound_start c (fR x) Gc Hc Hx' Ic Fk c) as [BS _]; [unfold c; rewrite bp32; rewrite bp31 in Hc; unfold c in Hc; lra|]. fold k in BS.
    split; [apply rnd_pos; apply Rplus_le_le_0_compat; [lra|apply rnd_pos, Rmult_le_pos; [lra|lra]]|].
    assert (G : rnd (1 + 2 * u) = 1 + 2 * u).
    { replace (1 + 2 * u) with (F2R (Float radix2 8388609 (-23))).
      - apply round_generic; auto with typeclass_instances. apply generic_format_FLT. eexists; [reflexivity|cbn; lia|cbn; lia].
      - unfold F2R. cbn [Fnum Fexp]. change (-23)%Z with (-24 + 1)%Z. rewrite bpow_plus, u24_bpow. change (bpow radix2 1) with 2. unfold u24. lra. }
    cbv iota. rewrite <- G. apply rnd_mono. lra. }
  destruct (Z.eqb_spec pos 3) as [->|N3].
  { cbn in Hv. assert (2 <= n)%Z by (destruct (Z.ltb_spec n 2); [discriminate|assumption]).
    assert (C2 : 2 <= c). { rewrite Ec. change 2 with (bpow radix2 1). rewrite <- (rnd_bpow 1) by lia. apply rnd_mono. cbn. apply IZR_le. assumption. }
    destruct (fsub_small (fZ n) f1 Fc f1_finite) as [S1 S2].
    { fold c. rewrite f1_R, Rabs_pos_eq by lra. rewrite bp31 in Hc. lra. }
    fold c in S1. rewrite f1_R in S1.
    destruct (bound_none c (fR x) Gc Hc Hx' Ic Fk C2) as [BM BN]. fold k in BN.
    destruct (D _ S2) as (D1 & D2 & D3). { rewrite S1, bp32. rewrite bp31 in BM. lra. }
    rewrite S1 in D1. rewrite D1 in D3.
    eexists _, _, _. split; [reflexivity|]. fold c. rewrite D1. fold k.
    repeat (split; [first [assumption|reflexivity|lra|apply D3]|]).
    split; [rewrite f0_R; lra|]. rewrite f0_R, Rplus_0_l.
    change (3 =? 1)%Z with false. cbv iota.
    split; [apply rnd_pos, rnd_pos, Rmult_le_pos; [lra|lra]|].
    apply rnd_le_1. pose proof (rnd_le_1 _ BN). lra. }
  destruct (Z.eqb_spec pos 2) as [->|N2].
  { destruct (fadd_small (fZ n) f1 Fc f1_finite) as [S1 S2].
    { fold c. rewrite f1_R, Rabs_pos_eq by lra. rewrite bp31 in Hc. lra. }
    fold c in S1. rewrite f1_R in S1.
    assert (Hd : c <= rnd (c + 1) <= bpow radix2 32).
    { split. - unfold c at 1. rewrite <- rnd_fR. fold c. apply rnd_mono. lra.
      - rewrite <- (rnd_bpow 32) by lia. apply rnd_mono. rewrite bp31 in Hc. rewrite bp32. lra. }
    destruct (bound_start c (fR x) Gc Hc Hx' Ic Fk _ Hd) as [_ BS]. fold k in BS.
    destruct (D _ S2) as (D1 & D2 & D3). { rewrite S1. lra. }
    rewrite S1 in D1. rewrite D1 in D3.
    eexists _, _, _. split; [reflexivity|]. fold c. rewrite D1. fold k.
    repeat (split; [first [assumption|reflexivity|lra|apply D3]|]).

    change (2 =? 1)%Z with false. cbv iota.
    split; [apply rnd_pos; apply Rplus_le_le_0_compat; [lra|apply rnd_pos, Rmult_le_pos; [lra|lra]]|].
    apply rnd_le_1, BS. destruct (Rle_or_lt 16777216 c) as [L|L]; [left; exact L|right].
    destruct Ic as [z Hz]. rewrite Hz in L |- *. rewrite <- plus_IZR. apply round_generic; auto with typeclass_instances. apply fZ_format.
    apply lt_IZR in L. assert (1 <= z)%Z by (apply le_IZR; rewrite <- Hz; lra). lia. }
  discriminate Hv.
Qed.

(** Positions of x relative to [0, 1) *)
Lemma x_cases (x : f32) : is_nan x = false ->
  (flt x f0 = true) \/ (fle f1 x = true) \/ (is_finite x = true /\ 0 <= fR x < 1 /\ flt x f0 = false /\ fle f1 x = false).
Proof.
  intros Nx. destruct (flt x f0) eqn:E1; [auto|]. destruct (fle f1 x) eqn:E2; [auto|]. right; right.
  apply flt_false in E1; [|assumption|reflexivity]. apply fle_false in E2; [|apply finite_not_nan, f1_finite|assumption].
  rewrite (fX_finite f1), f1_R in E2 by apply f1_finite. change (fX f0) with 0 in E1.
  assert (Fx : is_finite x = true).
  { pose proof big_pos. assert (1 < big) by (change 1 with (bpow radix2 0); apply bpow_lt; lia).
    destruct x as [|[]| |]; cbn [fX] in *; try reflexivity; try discriminate; lra. }
  rewrite fX_finite in E1, E2 by assumption. auto.
Qed.

Definition steps_y (n pos : Z) (x : f32) : f32 :=
  match steps_impl (N := N) n pos with ISteps c h s => get_y_steps (N := N) c h s x | _ => f0 end.

Lemma steps_is n pos : exists c h s, steps_impl (N := N) n pos = ISteps (N := N) c h s.
Proof. unfold steps_impl. repeat match goal with |- context [if ?b then _ else _] => destruct b end; eauto. Qed.
Lemma steps_below n pos x : flt x f0 = true -> steps_y n pos x = f0.
Proof.
  intros H. unfold steps_y. destruct (steps_is n pos) as (c & h & s & ->). unfold get_y_steps.
  change (@n0 N) with f0. cbn [nlt N fnum]. rewrite H. reflexivity.
Qed.
Lemma steps_above n pos x : fle f1 x = true -> steps_y n pos x = f1.
Proof.
  intros H. unfold steps_y. destruct (steps_is n pos) as (c & h & s & ->). unfold get_y_steps.
  change (@n0 N) with f0. change (@n1 N) with f1. cbn [nlt nle N fnum]. rewrite H.
  destruct (flt x f0) eqn:E1; [|reflexivity]. exfalso.
  destruct (fle_not_nan _ _ H) as [_ Nx].
  apply flt_spec in E1; [|assumption|reflexivity]. apply fle_spec in H; [|apply finite_not_nan, f1_finite|assumption].
  rewrite (fX_finite f1), f1_R in H by apply f1_finite. change (fX f0) with 0 in E1. lra.
Qed.

Lemma steps_range n pos (x : f32) : (1 <= n <= 2147483647)%Z -> valid_steps n pos = true -> is_nan x = false ->
  is_finite (steps_y n pos x) = true /\ 0 <= fR (steps_y n pos x) <= (if Z.eqb pos kJumpStart then 1 + 2 * u else 1).
Proof.
  intros Hn Hv Nx. pose proof u_pos. destruct (x_cases x Nx) as [L|[L|(Fx & Hx & _)]].
  - rewrite (steps_below _ _ _ L), f0_R. split; [reflexivity|]. destruct (Z.eqb _ _); lra.
  - rewrite (steps_above _ _ _ L), f1_R. split; [apply f1_finite|]. destruct (Z.eqb _ _); lra.
  - destruct (steps_shape n pos x Hn Hv Fx Hx) as (c & h & s & E1 & Fc & Fh & Fs & _ & Hc & Hh & Hs & B).
    unfold steps_y. rewrite E1.
    destruct (steps_eval E c h s x Fc Fh Fs Fx Hc Hh Hs Hx) as (V & F & _). rewrite V. split; assumption.
Qed.

Lemma steps_mono n pos (x y : f32) : (1 <= n <= 2147483647)%Z -> valid_steps n pos = true -> fle x y = true ->
  (pos <> kJumpStart \/ flt y f1 = true \/ fle f1 x = true) -> fR (steps_y n pos x) <= fR (steps_y n pos y).
Proof.
  intros Hn Hv L D. destruct (fle_not_nan _ _ L) as [Nx Ny]. pose proof u_pos.
  destruct (steps_range n pos x Hn Hv Nx) as [_ Rx]. destruct (steps_range n pos y Hn Hv Ny) as [_ Ry].
  destruct (x_cases x Nx) as [Lx|[Lx|(Fx & Hx & _)]].
  - rewrite (steps_below _ _ _ Lx), f0_R. apply Ry.
  - rewrite (steps_above _ _ _ Lx). rewrite steps_above; [lra|].
    apply fle_spec; [apply finite_not_nan, f1_finite|assumption|].
    apply fle_spec in L; [|assumption|assumption]. apply fle_spec in Lx; [|apply finite_not_nan, f1_finite|assumption]. lra.
  - apply fle_spec in L; [|assumption|assumption]. rewrite (fX_finite x) in L by assumption.
    destruct (x_cases y Ny) as [Ly|[Ly|(Fy & Hy & _)]].
    + apply flt_spec in Ly; [|assumption|reflexivity]. change (fX f0) with 0 in Ly. lra.
    + rewrite (steps_above _ _ _ Ly), f1_R.
      destruct D as [D|[D|D]].
      * rewrite (proj2 (Z.eqb_neq _ _) D) in Rx. apply Rx.
      * apply flt_spec in D; [|assumption|apply finite_not_nan, f1_finite]. apply fle_spec in Ly; [|apply finite_not_nan, f1_finite|assumption]. lra.
      * rewrite (steps_above _ _ _ D), f1_R. lra.
    + rewrite (fX_finite y) in L by assumption.
      destruct (steps_shape n pos x Hn Hv Fx Hx) as (c & h & s & E1 & Fc & Fh & Fs & _ & Hc & Hh & Hs & _).
      unfold steps_y. rewrite E1.
      destruct (steps_eval E c h s x Fc Fh Fs Fx Hc Hh Hs Hx) as (V & _ & _). rewrite V.
      destruct (steps_eval E c h s y Fc Fh Fs Fy Hc Hh Hs Hy) as (W & _ & _). rewrite W.
      apply rnd_mono, Rplus_le_compat_l, rnd_mono, Rmult_le_compat_l; [lra|]. apply IZR_le, step_index_mono; lra.
Qed.
End Steps.
