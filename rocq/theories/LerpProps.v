(** C65: interpolation of floats. *)
From Coq Require Import ZArith Reals Lra Lia Bool.
From Flocq Require Import Core IEEE754.BinarySingleNaN.
From Flocq.Prop Require Import Plus_error.
From Verif Require Import F32 F32Lemmas F32Round NumModel GeomModel AlgorithmsModel.
From Verif Require GeomLerp AngleModel AngleProps.
Local Open Scope R_scope.

(** a finite result comes from finite operands and is the rounded result *)
Lemma fadd_inv (x y : f32) : is_finite (fadd x y) = true -> is_finite x = true /\ is_finite y = true /\ fR (fadd x y) = rnd (fR x + fR y).
Proof.
  intros H. assert (F : is_finite x = true /\ is_finite y = true).
  { destruct x as [sx|sx| |sx mx ex Hx], y as [sy|sy| |sy my ey Hy]; cbn in H |- *; try discriminate; auto; destruct sx, sy; discriminate. }
  destruct F as [Fx Fy]. split; [exact Fx|]. split; [exact Fy|]. destruct (fadd_finite x y Fx Fy) as [(_ & E & _)|[(_ & E)|(_ & E)]]; [exact E| |]; rewrite E in H; discriminate.
Qed.
Lemma fsub_inv (x y : f32) : is_finite (fsub x y) = true -> is_finite x = true /\ is_finite y = true /\ fR (fsub x y) = rnd (fR x - fR y).
Proof.
  intros H. rewrite fsub_fadd in H |- *. apply fadd_inv in H. destruct H as (A & B & C). unfold fopp in *. rewrite is_finite_Bopp in B. rewrite B2R_Bopp in C. auto.
Qed.
Lemma fmul_inv (x y : f32) : is_finite (fmul x y) = true -> is_finite x = true /\ is_finite y = true /\ fR (fmul x y) = rnd (fR x * fR y).
Proof.
  intros H. assert (F : is_finite x = true /\ is_finite y = true).
  { destruct x as [sx|sx| |sx mx ex Hx], y as [sy|sy| |sy my ey Hy]; cbn in H |- *; try discriminate; auto. }
  destruct F as [Fx Fy]. split; [exact Fx|]. split; [exact Fy|]. destruct (fmul_finite x y Fx Fy) as [(_ & E & _)|[(_ & E)|(_ & E)]]; [exact E| |]; rewrite E in H; discriminate.
Qed.
Lemma rnd_sub_0 (x y : f32) : rnd (fR x - fR y) = 0 -> fR x = fR y.
Proof.
  intros H. destruct (Req_dec (fR x - fR y) 0) as [E|E]; [lra|]. exfalso. revert H. unfold Rminus. apply round_plus_neq_0; auto with typeclass_instances; [apply generic_format_B2R|apply generic_format_opp, generic_format_B2R].
Qed.
Lemma feq_0 (x : f32) : is_finite x = true -> (feq x f0 = true <-> fR x = 0).
Proof. intros F. rewrite feq_spec by (try apply finite_not_nan; auto). rewrite !fX_finite by auto. rewrite f0_R. tauto. Qed.
Lemma between_sub (a b v : f32) : is_finite (fsub b a) = true -> is_finite v = true -> (fR a <= fR v <= fR b \/ fR b <= fR v <= fR a) ->
  is_finite (fsub v a) = true /\ fR (fsub v a) = rnd (fR v - fR a).
Proof.
  intros H Fv V. destruct (fsub_inv b a H) as (Fb & Fa & E). pose proof (fR_bounds (fsub b a)) as B. rewrite E in B.
  assert (Q : - big < rnd (fR v - fR a) < big).
  { destruct V as [V|V].
    - assert (0 <= rnd (fR v - fR a)) by (apply rnd_pos; lra). assert (rnd (fR v - fR a) <= rnd (fR b - fR a)) by (apply rnd_mono; lra). pose proof big_pos. lra.
    - assert (rnd (fR v - fR a) <= 0) by (apply rnd_neg; lra). assert (rnd (fR b - fR a) <= rnd (fR v - fR a)) by (apply rnd_mono; lra). pose proof big_pos. lra. }
  destruct (fsub_finite v a Fv Fa) as [(A & C & D)|[(A & C)|(A & C)]]; [auto|lra|lra].
Qed.

Section Floats.
Variable E : elem.
Notation F := (fnum E).
Notation inv_lerp := (inverse_lerp (N := F)).
Notation flerp := (lerp (N := F)).
Lemma inv_unfold (a b v : f32) : inv_lerp a b v = if feq (fsub b a) f0 then f0 else fdiv (fsub v a) (fsub b a).
Proof. reflexivity. Qed.
Lemma lerp_unfold (a b t : f32) : flerp a b t = fadd a (fmul (fsub b a) t).
Proof. reflexivity. Qed.

(** ** InverseLerp *)
Lemma inv_case (a b v : f32) : is_finite (fsub b a) = true -> is_finite v = true -> (fR a <= fR v <= fR b \/ fR b <= fR v <= fR a) -> fR a <> fR b ->
  is_finite (inv_lerp a b v) = true /\ fR (inv_lerp a b v) = rnd (rnd (fR v - fR a) / rnd (fR b - fR a)) /\ rnd (fR b - fR a) <> 0 /\ 0 <= rnd (fR v - fR a) / rnd (fR b - fR a) <= 1.
Proof.
  intros H Fv V N. destruct (between_sub a b v H Fv V) as [G GR]. destruct (fsub_inv b a H) as (Fb & Fa & Eb).
  assert (NZ : rnd (fR b - fR a) <> 0) by (intros Z; apply rnd_sub_0 in Z; lra).
  assert (Q : 0 <= rnd (fR v - fR a) / rnd (fR b - fR a) <= 1).
  { assert (S : rnd (fR v - fR a) = rnd (fR v - fR a) / rnd (fR b - fR a) * rnd (fR b - fR a)) by (field; exact NZ). set (q := _ / _) in *. clearbody q. destruct V as [V|V].
    - assert (0 <= rnd (fR v - fR a)) by (apply rnd_pos; lra). assert (rnd (fR v - fR a) <= rnd (fR b - fR a)) by (apply rnd_mono; lra). nra.
    - assert (rnd (fR v - fR a) <= 0) by (apply rnd_neg; lra). assert (rnd (fR b - fR a) <= rnd (fR v - fR a)) by (apply rnd_mono; lra). nra. }
  rewrite inv_unfold. destruct (feq (fsub b a) f0) eqn:Z; [apply feq_0 in Z; [lra|exact H]|].
  destruct (fdiv_small (fsub v a) (fsub b a) G H) as [D2 D1]; rewrite ?Eb, ?GR; [exact NZ| |].
  - rewrite Rabs_pos_eq by lra. eapply Rle_trans; [apply Q|]. change 1 with (bpow radix2 0). apply bpow_le. lia.
  - rewrite GR, Eb in D2. auto.
Qed.
(** a value between the ends, in either order, gets a number in [0, 1] *)
Theorem C65_inverse_range (a b v : f32) : is_finite (fsub b a) = true -> is_finite v = true -> (fR a <= fR v <= fR b \/ fR b <= fR v <= fR a) ->
  is_finite (inv_lerp a b v) = true /\ 0 <= fR (inv_lerp a b v) <= 1.
Proof.
  intros H Fv V. destruct (Req_dec (fR a) (fR b)) as [S|S].
  - destruct (fsub_inv b a H) as (Fb & Fa & Eb). rewrite inv_unfold. rewrite (proj2 (feq_0 _ H)); [rewrite f0_R; split; [reflexivity|lra]|]. rewrite Eb, S. unfold Rminus. rewrite Rplus_opp_r. apply rnd_0.
  - destruct (inv_case a b v H Fv V S) as (A & B & _ & C). split; [exact A|]. rewrite B. split; [apply rnd_pos; lra|]. apply rnd_le_1. unfold u24. lra.
Qed.
(** the ends get 0 and 1 exactly *)
Theorem C65_inverse_ends (a b : f32) : is_finite (fsub b a) = true -> fR a <> fR b -> fR (inv_lerp a b a) = 0 /\ fR (inv_lerp a b b) = 1.
Proof.
  intros H S. destruct (fsub_inv b a H) as (Fb & Fa & Eb). assert (fR a <= fR b \/ fR b <= fR a) as O by lra. split.
  - destruct (inv_case a b a H Fa ltac:(lra) S) as (_ & -> & NZ & _). unfold Rminus. rewrite Rplus_opp_r, rnd_0. unfold Rdiv. rewrite Rmult_0_l. apply rnd_0.
  - destruct (inv_case a b b H Fb ltac:(lra) S) as (_ & -> & NZ & _). replace (_ / _) with 1 by (field; exact NZ). rewrite <- f1_R. apply rnd_fR.
Qed.
(** the result grows with the value *)
Theorem C65_inverse_order (a b v w : f32) : is_finite (fsub b a) = true -> is_finite v = true -> is_finite w = true -> fR a <= fR v -> fR v <= fR w -> fR w <= fR b ->
  fR (inv_lerp a b v) <= fR (inv_lerp a b w).
Proof.
  intros H Fv Fw A B C. destruct (Req_dec (fR a) (fR b)) as [S|S].
  - destruct (fsub_inv b a H) as (Fb & Fa & Eb). rewrite !inv_unfold. rewrite (proj2 (feq_0 _ H)); [lra|]. rewrite Eb, S. unfold Rminus. rewrite Rplus_opp_r. apply rnd_0.
  - destruct (inv_case a b v H Fv ltac:(lra) S) as (_ & -> & NZ & _). destruct (inv_case a b w H Fw ltac:(lra) S) as (_ & -> & _ & _). apply rnd_mono.
    assert (P : 0 < rnd (fR b - fR a)) by (assert (0 <= rnd (fR b - fR a)) by (apply rnd_pos; lra); lra).
    unfold Rdiv. apply Rmult_le_compat_r; [left; apply Rinv_0_lt_compat, P|]. apply rnd_mono. lra.
Qed.
(** equal ends give 0, whatever the value *)
Theorem C65_inverse_same (a b v : f32) : is_finite a = true -> is_finite b = true -> fR a = fR b -> inv_lerp a b v = f0.
Proof.
  intros Fa Fb S. rewrite inv_unfold. assert (H : is_finite (fsub b a) = true /\ fR (fsub b a) = 0).
  { destruct (fsub_small b a Fb Fa) as [B A]; [rewrite S; unfold Rminus; rewrite Rplus_opp_r, Rabs_R0; apply bpow_ge_0|]. split; [exact A|]. rewrite B, S. unfold Rminus. rewrite Rplus_opp_r. apply rnd_0. }
  rewrite (proj2 (feq_0 _ (proj1 H)) (proj2 H)). reflexivity.
Qed.
(** without the bound on the width the range is left: the largest interval gives NaN in the middle *)
Definition fmax32 : f32 := fdy 16777215 104.
Theorem C65_inverse_overflow_refuted : exists a b v : f32, is_finite a = true /\ is_finite b = true /\ is_finite v = true /\
  fR a <= fR v <= fR b /\ fR a <> fR b /\ is_nan (inv_lerp a b b) = true /\ fR (inv_lerp a b v) = 0 /\ fR v = 0.
Proof.
  exists (fopp fmax32), fmax32, f0. assert (M : 0 < fR fmax32).
  { destruct (fR_const fmax32 false 16777215 104) as [-> _]; [vm_compute; reflexivity|]. apply F2R_gt_0. reflexivity. }
  assert (O : fR (fopp fmax32) = - fR fmax32) by (unfold fopp; apply B2R_Bopp). rewrite O, f0_R.
  split; [vm_compute; reflexivity|]. split; [vm_compute; reflexivity|]. split; [reflexivity|]. split; [lra|]. split; [lra|]. split; [rewrite inv_unfold; vm_compute; reflexivity|]. split; [|reflexivity].
  rewrite inv_unfold. match goal with |- fR ?x = _ => replace x with (f0 : f32); [apply f0_R|] end. apply B2SF_inj. vm_compute. reflexivity.
Qed.

(** ** Lerp *)
(** equal ends give that value, for every ratio *)
Theorem C65_lerp_same (a b t : f32) : is_finite a = true -> is_finite b = true -> is_finite t = true -> fR a = fR b -> is_finite (flerp a b t) = true /\ fR (flerp a b t) = fR a.
Proof.
  intros Fa Fb Ft S. rewrite lerp_unfold.
  destruct (fsub_small b a Fb Fa) as [B A]; [rewrite S; unfold Rminus; rewrite Rplus_opp_r, Rabs_R0; apply bpow_ge_0|].
  assert (B0 : fR (fsub b a) = 0) by (rewrite B, S; unfold Rminus; rewrite Rplus_opp_r; apply rnd_0).
  destruct (fmul_small (fsub b a) t A Ft) as [D C]; [rewrite B0, Rmult_0_l, Rabs_R0; apply bpow_ge_0|]. rewrite B0, Rmult_0_l, rnd_0 in D.
  pose proof (fR_bounds a). destruct (fadd_finite a (fmul (fsub b a) t) Fa C) as [(X & Y & Z)|[(X & Y)|(X & Y)]]; rewrite D, Rplus_0_r, rnd_fR in *; [auto|lra|lra].
Qed.
(** ratio 0 gives the first end exactly *)
Theorem C65_lerp_start (a b : f32) : is_finite (fsub b a) = true -> fR (flerp a b f0) = fR a.
Proof.
  intros H. destruct (fsub_inv b a H) as (Fb & Fa & Eb). rewrite lerp_unfold.
  destruct (fmul_small (fsub b a) f0 H eq_refl) as [D C]; [rewrite f0_R, Rmult_0_r, Rabs_R0; apply bpow_ge_0|]. rewrite f0_R, Rmult_0_r, rnd_0 in D.
  pose proof (fR_bounds a). destruct (fadd_finite a (fmul (fsub b a) f0) Fa C) as [(X & Y & Z)|[(X & Y)|(X & Y)]]; rewrite D, Rplus_0_r, rnd_fR in *; [auto|lra|lra].
Qed.
(** the rounding error for ratios in [0, 1] *)
Theorem C65_lerp_error (a b t : f32) e : (-125 <= e <= 118)%Z -> is_finite a = true -> is_finite b = true -> is_finite t = true -> 0 <= fR t <= 1 ->
  Rabs (fR a) <= bpow radix2 e -> Rabs (fR b) <= bpow radix2 e ->
  is_finite (flerp a b t) = true /\ Rabs (fR (flerp a b t) - (fR a + (fR b - fR a) * fR t)) <= 3 * bpow radix2 (e - 24).
Proof.
  intros He Fa Fb Ft T Ba Bb. rewrite lerp_unfold. set (m := bpow radix2 e) in *.
  assert (P : 0 < m) by apply bpow_gt_0. assert (M2 : bpow radix2 (e + 1) = 2 * m) by (rewrite bpow_plus; change (bpow radix2 1) with 2; unfold m; ring).
  assert (Mu : bpow radix2 (e - 24) = m * u24) by (unfold m, Zminus; rewrite bpow_plus; rewrite <- u24_bpow; reflexivity).
  assert (SB : 4 * m <= bpow radix2 120) by (replace (4 * m) with (bpow radix2 (e + 2)) by (rewrite bpow_plus; change (bpow radix2 2) with 4; unfold m; ring); apply bpow_le; lia).
  assert (U : 0 < u24 <= / 1000) by (unfold u24; lra).
  apply Rabs_le_inv in Ba. apply Rabs_le_inv in Bb.
  assert (ER : forall x, Rabs x <= 2 * m -> Rabs (rnd x - x) <= m * u24).
  { intros x Hx. rewrite <- Mu. replace (e - 24)%Z with ((e + 1) - 25)%Z by lia. apply rnd_abs; [lia|]. rewrite M2. exact Hx. }
  destruct (fsub_small b a Fb Fa) as [A2 A1]; [apply Rabs_le; lra|].
  assert (E1 : Rabs (fR (fsub b a) - (fR b - fR a)) <= m * u24) by (rewrite A2; apply ER; apply Rabs_le; lra). set (w := fR (fsub b a)) in *. apply Rabs_le_inv in E1.
  assert (Wb : Rabs w <= 2 * m). { rewrite A2, <- M2. apply abs_round_le_generic; [apply fexp32_valid|apply valid_rnd_N|apply generic_format_bpow; unfold SpecFloat.fexp, SpecFloat.emin; lia|]. rewrite M2. apply Rabs_le. lra. }
  apply Rabs_le_inv in Wb.
  assert (Wt : Rabs (w * fR t) <= 2 * m) by (apply Rabs_le; nra).
  destruct (fmul_small (fsub b a) t A1 Ft) as [C2 C1]; [fold w; eapply Rle_trans; [exact Wt|lra]|]. fold w in C2.
  assert (E2 : Rabs (fR (fmul (fsub b a) t) - w * fR t) <= m * u24) by (rewrite C2; apply ER; exact Wt). set (q := fR (fmul (fsub b a) t)) in *. apply Rabs_le_inv in E2.
  assert (Sb : Rabs (fR a + q) <= 2 * m).
  { apply Rabs_le. assert (X1 : - m <= fR a + (fR b - fR a) * fR t <= m) by nra. assert (X2 : - (m * u24) <= (w - (fR b - fR a)) * fR t <= m * u24) by nra. nra. }
  destruct (fadd_small a (fmul (fsub b a) t) Fa C1) as [D2 D1]; [fold q; eapply Rle_trans; [exact Sb|lra]|]. fold q in D2. split; [exact D1|]. rewrite D2, Mu.
  assert (E3 := ER _ Sb). apply Rabs_le_inv in E3. assert (X2 : - (m * u24) <= (w - (fR b - fR a)) * fR t <= m * u24) by nra. apply Rabs_le. nra.
Qed.
(** the result moves in one direction with the ratio *)
Theorem C65_lerp_order (a b s t : f32) : is_finite (flerp a b s) = true -> is_finite (flerp a b t) = true -> fR s <= fR t ->
  (fR a <= fR b -> fR (flerp a b s) <= fR (flerp a b t)) /\ (fR b <= fR a -> fR (flerp a b t) <= fR (flerp a b s)).
Proof.
  rewrite !lerp_unfold. intros Hs Ht O. apply fadd_inv in Hs. apply fadd_inv in Ht. destruct Hs as (Fa & Hs & ->), Ht as (_ & Ht & ->).
  apply fmul_inv in Hs. apply fmul_inv in Ht. destruct Hs as (Fw & Fs & ->), Ht as (_ & Ft & ->). destruct (fsub_inv b a Fw) as (Fb & _ & Eb).
  split; intros AB; apply rnd_mono, Rplus_le_compat_l, rnd_mono.
  - assert (0 <= fR (fsub b a)) by (rewrite Eb; apply rnd_pos; lra). nra.
  - assert (fR (fsub b a) <= 0) by (rewrite Eb; apply rnd_neg; lra). nra.
Qed.
(** ratio 1 need not give the second end, and a ratio in [0, 1] can leave the interval *)
Theorem C65_lerp_end_refuted : exists a b : f32, fR a = 1 /\ fR b = bpow radix2 (-30) /\ fR (flerp a b f1) = 0.
Proof.
  exists (fZ 1), (fdy 1 (-30)). split; [apply fZ_exact; lia|]. split.
  - destruct (fR_const (fdy 1 (-30)) false 8388608 (-53)) as [-> _]; [vm_compute; reflexivity|]. unfold F2R. cbn [Fnum Fexp cond_Zopp]. change (IZR 8388608) with (bpow radix2 23). rewrite <- bpow_plus. reflexivity.
  - rewrite lerp_unfold. replace (fadd _ _) with (f0 : f32); [apply f0_R|]. apply B2SF_inj. vm_compute. reflexivity.
Qed.
Theorem C65_lerp_overshoot_refuted : exists a b : f32, fR a < fR b /\ fR b < fR (flerp a b f1).
Proof.
  exists (fZ (-1)), (fdy 8388609 1).
  assert (A : fR (fZ (-1)) = -1) by (apply fZ_exact; lia).
  assert (B : fR (fdy 8388609 1) = 16777218). { destruct (fR_const (fdy 8388609 1) false 8388609 1) as [-> _]; [vm_compute; reflexivity|]. unfold F2R. cbn [Fnum Fexp cond_Zopp]. change (bpow radix2 1) with 2. lra. }
  rewrite A, B. split; [lra|]. rewrite lerp_unfold. destruct (fR_const (fadd (fZ (-1)) (fmul (fsub (fdy 8388609 1) (fZ (-1))) f1)) false 8388610 1) as [-> _]; [vm_compute; reflexivity|]. unfold F2R. cbn [Fnum Fexp cond_Zopp]. change (bpow radix2 1) with 2. lra.
Qed.

(** ** Lerp of points, colors and angles: both ends are exact *)
Theorem C65_point_ends (a b : vec F) : is_finite (vx a) = true -> is_finite (vy a) = true -> is_finite (vx b) = true -> is_finite (vy b) = true ->
  fR (vx (point_lerp a b f0)) = fR (vx a) /\ fR (vy (point_lerp a b f0)) = fR (vy a) /\ fR (vx (point_lerp a b f1)) = fR (vx b) /\ fR (vy (point_lerp a b f1)) = fR (vy b).
Proof.
  intros. destruct (GeomLerp.lerp_ends (vx a) (vx b)) as [X0 X1]; [assumption|assumption|]. destruct (GeomLerp.lerp_ends (vy a) (vy b)) as [Y0 Y1]; [assumption|assumption|]. auto.
Qed.
Theorem C65_channel_ends (a b : f32) : is_finite a = true -> is_finite b = true ->
  fR (channel_lerp (N := F) a b f0) = fR a /\ fR (channel_lerp (N := F) a b f1) = fR b.
Proof. apply GeomLerp.lerp_ends. Qed.
Lemma fmul_comm (x y : f32) : is_finite x = true -> is_finite y = true -> fR (fmul x y) = fR (fmul y x).
Proof.
  intros Fx Fy. destruct (fmul_finite x y Fx Fy) as [(A & B & C)|[(A & B)|(A & B)]], (fmul_finite y x Fy Fx) as [(A' & B' & C')|[(A' & B')|(A' & B')]];
    rewrite (Rmult_comm (fR y)) in *; rewrite ?B, ?B'; auto; try apply Rabs_lt_inv in A; try apply Rabs_lt_inv in A'; try lra.
Qed.
Theorem C65_angle_ends (a b : f32) : is_finite a = true -> is_finite b = true ->
  fR (angle_lerp (N := F) a b f0) = fR a /\ fR (angle_lerp (N := F) a b f1) = fR b.
Proof.
  intros Fa Fb. unfold angle_lerp. change (nsub F) with fsub. change (nmul F) with fmul. change (nadd F) with fadd. change (n1 (N := F)) with (f1 : f32).
  replace (fsub f1 f0) with (f1 : f32) by (apply B2SF_inj; vm_compute; reflexivity). replace (fsub f1 f1) with (f0 : f32) by (apply B2SF_inj; vm_compute; reflexivity).
  assert (M1 : forall z : f32, is_finite z = true -> is_finite (fmul f1 z) = true /\ fR (fmul f1 z) = fR z).
  { intros z Fz. pose proof (fR_bounds z). destruct (fmul_finite f1 z f1_finite Fz) as [(A & C & D)|[(A & C)|(A & C)]]; rewrite f1_R, Rmult_1_l, rnd_fR in *; [auto|lra|lra]. }
  assert (M0 : forall z : f32, is_finite z = true -> is_finite (fmul f0 z) = true /\ fR (fmul f0 z) = 0).
  { intros z Fz. pose proof big_pos. destruct (fmul_finite f0 z eq_refl Fz) as [(A & C & D)|[(A & C)|(A & C)]]; rewrite f0_R, Rmult_0_l, rnd_0 in *; [auto|lra|lra]. }
  pose proof (fR_bounds a). pose proof (fR_bounds b). destruct (M1 a Fa) as [A1 A2], (M1 b Fb) as [B1 B2], (M0 a Fa) as [C1 C2], (M0 b Fb) as [D1 D2]. split.
  - destruct (fadd_finite _ _ A1 D1) as [(A & C & D)|[(A & C)|(A & C)]]; rewrite A2, D2, Rplus_0_r, rnd_fR in *; [exact C|lra|lra].
  - destruct (fadd_finite _ _ C1 B1) as [(A & C & D)|[(A & C)|(A & C)]]; rewrite B2, C2, Rplus_0_l, rnd_fR in *; [exact C|lra|lra].
Qed.
(** but equal ends do not always give that value: not within [0, 1], and not at all far outside *)
Theorem C65_point_same_refuted : exists a t : f32, is_finite a = true /\ 0 <= fR t <= 1 /\ fR (channel_lerp (N := F) a a t) <> fR a /\ fR (angle_lerp (N := F) a a t) <> fR a.
Proof.
  exists (fdy 361 (-8)), (fdy 14554726 (-28)). split; [vm_compute; reflexivity|].
  assert (X : exists s m e, B2SF (fdy 361 (-8)) = SpecFloat.S754_finite s m e) by (vm_compute; eauto).
  split.
  { destruct (fR_const (fdy 14554726 (-28)) false 14554726 (-28)) as [-> _]; [vm_compute; reflexivity|]. unfold F2R. cbn [Fnum Fexp cond_Zopp]. change (bpow radix2 (-28)) with (/ 268435456). lra. }
  assert (A : fR (fdy 361 (-8)) = 361 / 256). { destruct (fR_const (fdy 361 (-8)) false 11829248 (-23)) as [-> _]; [vm_compute; reflexivity|]. unfold F2R. cbn [Fnum Fexp cond_Zopp]. change (bpow radix2 (-23)) with (/ 8388608). lra. }
  rewrite A. split.
  - destruct (fR_const (channel_lerp (N := F) (fdy 361 (-8)) (fdy 361 (-8)) (fdy 14554726 (-28))) false 11829249 (-23)) as [-> _]; [vm_compute; reflexivity|]. unfold F2R. cbn [Fnum Fexp cond_Zopp]. change (bpow radix2 (-23)) with (/ 8388608). lra.
  - destruct (fR_const (angle_lerp (N := F) (fdy 361 (-8)) (fdy 361 (-8)) (fdy 14554726 (-28))) false 11829249 (-23)) as [-> _]; [vm_compute; reflexivity|]. unfold F2R. cbn [Fnum Fexp cond_Zopp]. change (bpow radix2 (-23)) with (/ 8388608). lra.
Qed.
Theorem C65_point_same_far_refuted : exists a t : f32, fR a = 1 /\ is_finite t = true /\ fR (channel_lerp (N := F) a a t) = 0 /\ fR (angle_lerp (N := F) a a t) = 0.
Proof.
  exists f1, (fdy 1 30). split; [apply f1_R|]. split; [vm_compute; reflexivity|]. split.
  - replace (channel_lerp _ _ _) with (f0 : T F); [apply f0_R|]. apply B2SF_inj. vm_compute. reflexivity.
  - replace (angle_lerp _ _ _) with (f0 : T F); [apply f0_R|]. apply B2SF_inj. vm_compute. reflexivity.
Qed.

(** ** LinearMap *)
Notation fmap := (linear_map (N := F)).
(** the first input end goes to the first output end exactly, the second up to rounding *)
Theorem C65_map_first (a b c d : f32) : is_finite (fsub b a) = true -> is_finite (fsub d c) = true -> fR (fmap a (a, b) (c, d)) = fR c.
Proof.
  intros H K. unfold linear_map. cbn [fst snd]. destruct (fsub_inv b a H) as (Fb & Fa & Eb). destruct (fsub_inv d c K) as (Fd & Fc & Ed).
  assert (Z : is_finite (inv_lerp a b a) = true /\ fR (inv_lerp a b a) = 0).
  { destruct (Req_dec (fR a) (fR b)) as [S|S]; [rewrite C65_inverse_same by assumption; split; [reflexivity|apply f0_R]|].
    split; [|apply (C65_inverse_ends a b H S)]. assert (fR a <= fR b \/ fR b <= fR a) as O by lra. apply (C65_inverse_range a b a H Fa). lra. }
  destruct Z as [Zf Z0]. rewrite lerp_unfold. set (t := inv_lerp a b a) in *.
  destruct (fmul_small (fsub d c) t K Zf) as [D C]; [rewrite Z0, Rmult_0_r, Rabs_R0; apply bpow_ge_0|]. rewrite Z0, Rmult_0_r, rnd_0 in D.
  pose proof (fR_bounds c). destruct (fadd_finite c (fmul (fsub d c) t) Fc C) as [(X & Y & W)|[(X & Y)|(X & Y)]]; rewrite D, Rplus_0_r, rnd_fR in *; [auto|lra|lra].
Qed.
Theorem C65_map_second (a b c d : f32) e : (-125 <= e <= 118)%Z -> is_finite (fsub b a) = true -> fR a <> fR b -> is_finite c = true -> is_finite d = true ->
  Rabs (fR c) <= bpow radix2 e -> Rabs (fR d) <= bpow radix2 e -> Rabs (fR (fmap b (a, b) (c, d)) - fR d) <= 3 * bpow radix2 (e - 24).
Proof.
  intros He H S Fc Fd Bc Bd. unfold linear_map. cbn [fst snd]. destruct (fsub_inv b a H) as (Fb & Fa & Eb). destruct (C65_inverse_ends a b H S) as [_ O].
  assert (fR a <= fR b \/ fR b <= fR a) as Or by lra. destruct (C65_inverse_range a b b H Fb ltac:(lra)) as [Tf T].
  destruct (C65_lerp_error c d (inv_lerp a b b) e He Fc Fd Tf T Bc Bd) as [_ Q]. rewrite O in Q. replace (fR c + (fR d - fR c) * 1) with (fR d) in Q by ring. exact Q.
Qed.
Theorem C65_map_second_refuted : exists a b c d : f32, fR a = 0 /\ fR b = 1 /\ fR c = 1 /\ fR d = bpow radix2 (-30) /\ fR (fmap b (a, b) (c, d)) = 0.
Proof.
  exists f0, f1, (fZ 1), (fdy 1 (-30)). split; [apply f0_R|]. split; [apply f1_R|]. split; [apply fZ_exact; lia|]. split.
  - destruct (fR_const (fdy 1 (-30)) false 8388608 (-53)) as [-> _]; [vm_compute; reflexivity|]. unfold F2R. cbn [Fnum Fexp cond_Zopp]. change (IZR 8388608) with (bpow radix2 23). rewrite <- bpow_plus. reflexivity.
  - replace (linear_map _ _ _) with (f0 : T F); [apply f0_R|]. apply B2SF_inj. vm_compute. reflexivity.
Qed.
(** ** NormalizedAngleLerp lies in [0, 2 pi) *)
Theorem C65_angle_range (a b t : f32) : AngleModel.fmod_exact E ->
  let sum := fadd a (angle_lerp (N := F) f0 (normalized_about_zero (N := F) (fsub b a)) t) in
  is_finite sum = true -> let r : f32 := normalized_angle_lerp (N := F) a b t in is_finite r = true /\ 0 <= fR r < 2 * PI.
Proof.
  intros FM sum H r. destruct (AngleProps.C41_normalized E FM sum H) as (A & B & C & _). unfold r, normalized_angle_lerp.
  change (nadd F) with fadd. change (nsub F) with fsub. change (n0 (N := F)) with (f0 : f32). fold sum. split; [exact A|]. split; [apply B|exact C].
Qed.
End Floats.

(** the hypotheses hold for ordinary numbers *)
Example ex_between : let a := fZ 1 in let b := fZ 4 in let v := fZ 2 in
  is_finite (fsub b a) = true /\ is_finite v = true /\ fR a <= fR v <= fR b /\ fR a <> fR b /\ Rabs (fR a) <= bpow radix2 2 /\ Rabs (fR b) <= bpow radix2 2.
Proof.
  cbv zeta. destruct (fZ_exact 1) as [A _]; [lia|]. destruct (fZ_exact 4) as [B _]; [lia|]. destruct (fZ_exact 2) as [C D]; [lia|]. rewrite A, B, C. change (bpow radix2 2) with 4.
  split; [vm_compute; reflexivity|]. split; [exact D|]. rewrite !Rabs_pos_eq by lra. lra.
Qed.

Print Assumptions C65_inverse_range.
Print Assumptions C65_inverse_ends.
Print Assumptions C65_inverse_order.
Print Assumptions C65_inverse_same.
Print Assumptions C65_inverse_overflow_refuted.
Print Assumptions C65_lerp_same.
Print Assumptions C65_lerp_start.
Print Assumptions C65_lerp_error.
Print Assumptions C65_lerp_order.
Print Assumptions C65_lerp_end_refuted.
Print Assumptions C65_lerp_overshoot_refuted.
Print Assumptions C65_point_ends.
Print Assumptions C65_channel_ends.
Print Assumptions C65_angle_ends.
Print Assumptions C65_point_same_refuted.
Print Assumptions C65_point_same_far_refuted.
Print Assumptions C65_map_first.
Print Assumptions C65_map_second.
Print Assumptions C65_map_second_refuted.
Print Assumptions C65_angle_range.
