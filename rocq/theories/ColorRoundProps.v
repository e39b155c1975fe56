(** C49: 8-bit colors survive a round trip through Color, in every format. *)
From Coq Require Import ZArith Bool Reals Lra Lia Psatz List.
From Flocq Require Import Core Relative IEEE754.BinarySingleNaN.
From Verif Require Import F32 F32Lemmas F64 F64Lemmas NumModel ColorModel EasingBezier ColorProps.
Import ListNotations.
Local Open Scope R_scope.

(** ** Rounding errors of floats up to 256 *)
Lemma rnd_256 x : Rabs x <= 257 -> Rabs (rnd x - x) <= / 65536.
Proof.
  intros H. assert (U : ulp radix2 fexp32 257 = / 32768).
  { rewrite ulp_neq_0 by lra. unfold cexp. rewrite (mag_unique radix2 257 9) by (rewrite Rabs_pos_eq by lra; change (bpow radix2 (9 - 1)) with 256; change (bpow radix2 9) with 512; lra). reflexivity. }
  assert (U2 : ulp radix2 fexp32 x <= / 32768) by (rewrite <- U; apply ulp_le; [apply fexp32_valid|apply fexp32_mono|rewrite (Rabs_pos_eq 257) by lra; exact H]).
  pose proof (error_le_half_ulp radix2 fexp32 (fun z => negb (Z.even z)) x) as Q. lra.
Qed.
Lemma below_big x : Rabs x <= 300 -> Rabs x < big.
Proof. intros H. apply Rle_lt_trans with 512; [lra|]. change 512 with (bpow radix2 9). apply bpow_lt. lia. Qed.
Lemma mul_256 (x y : f32) : is_finite x = true -> is_finite y = true -> Rabs (fR x * fR y) <= 257 -> is_finite (fmul x y) = true /\ Rabs (fR (fmul x y) - fR x * fR y) <= / 65536.
Proof.
  intros Fx Fy H. pose proof (rnd_256 _ H) as E. assert (B : Rabs (rnd (fR x * fR y)) < big) by (apply below_big; apply Rabs_le; apply Rabs_le_inv in H, E; lra). apply Rabs_lt_inv in B.
  destruct (fmul_finite x y Fx Fy) as [(A & C & D)|[(A & C)|(A & C)]]; [rewrite C; auto|lra|lra].
Qed.
Lemma div_256 (x y : f32) : is_finite x = true -> is_finite y = true -> fR y <> 0 -> Rabs (fR x / fR y) <= 257 -> is_finite (fdiv x y) = true /\ Rabs (fR (fdiv x y) - fR x / fR y) <= / 65536.
Proof.
  intros Fx Fy Y H. pose proof (rnd_256 _ H) as E. assert (B : Rabs (rnd (fR x / fR y)) < big) by (apply below_big; apply Rabs_le; apply Rabs_le_inv in H, E; lra). apply Rabs_lt_inv in B.
  destruct (fdiv_finite x y Fx Fy Y) as [(A & C & D)|[(A & C)|(A & C)]]; [rewrite C; auto|lra|lra].
Qed.
(** A float close to r / 255 is read back as the byte r *)
Lemma clamp_same (x : f32) z : is_finite x = true -> fR x = IZR z -> (0 <= z <= 255)%Z -> is_finite (fclamp x f0 (fZ 255)) = true /\ fR (fclamp x f0 (fZ 255)) = IZR z.
Proof.
  intros F R Z. destruct (fZ_exact 255 ltac:(lia)) as [E255 F255]. assert (Z' : 0 <= IZR z <= 255) by (split; apply IZR_le; lia). unfold fclamp. destruct (flt x f0) eqn:L.
  - apply flt_spec in L; [|apply finite_not_nan; exact F|reflexivity]. rewrite X0, fX_finite, R in L by exact F. lra.
  - destruct (flt (fZ 255) x) eqn:L2; [|auto]. apply flt_spec in L2; [|apply finite_not_nan; assumption..]. rewrite !fX_finite, R, E255 in L2 by assumption. lra.
Qed.
Lemma uint8_back (x : f32) r : is_finite x = true -> (0 <= r <= 255)%Z -> Rabs (fR x - IZR r / 255) <= / 1000 -> to_uint8 x = Some r.
Proof.
  intros F Hr C. destruct (fZ_exact 255 ltac:(lia)) as [E255 F255]. assert (Hr' : 0 <= IZR r <= 255) by (split; apply IZR_le; lia). apply Rabs_le_inv in C.
  destruct (mul_256 (fZ 255) x F255 F) as [FM EM]; [rewrite E255; apply Rabs_le; lra|]. rewrite E255 in EM. apply Rabs_le_inv in EM.
  destruct (fround_R (fmul (fZ 255) x)) as [RR FR]. rewrite FM in FR. assert (RZ : ZnearestA (fR (fmul (fZ 255) x)) = r) by (apply Znearest_imp; apply Rabs_lt; lra). rewrite RZ in RR.
  destruct (clamp_same _ r FR RR Hr) as [FC RC]. unfold to_uint8. cbn zeta. unfold fisnan. rewrite (finite_not_nan _ FC). f_equal.
  destruct (ftoZ_spec (fclamp (fround (fmul (fZ 255) x)) f0 (fZ 255))) as [A B]; [rewrite RC; lra|]. rewrite RC in A, B. apply le_IZR in A. rewrite <- succ_IZR in B. apply lt_IZR in B. lia.
Qed.
(** The channel a byte stands for *)
Definition u8 (r : Z) : f32 := fdiv (fZ r) (fZ 255).
Lemma u8_ok r : (0 <= r <= 255)%Z -> is_finite (u8 r) = true /\ Rabs (fR (u8 r) - IZR r / 255) <= / 8388608 /\ 0 <= fR (u8 r) <= 1 /\ fR (u8 r) = rnd (IZR r / 255).
Proof.
  intros Hr. destruct (fZ_exact 255 ltac:(lia)) as [E255 F255]. destruct (fZ_exact r ltac:(lia)) as [Er Fr]. assert (Hr' : 0 <= IZR r <= 255) by (split; apply IZR_le; lia).
  assert (R1 : rnd 1 = 1) by (rewrite <- f1_R; apply rnd_fR). assert (Q : 0 <= rnd (IZR r / 255) <= 1) by (split; [apply rnd_pos; lra|rewrite <- R1; apply rnd_mono; lra]).
  assert (NZ : fR (fZ 255) <> 0) by (rewrite E255; lra). pose proof (div_close 24 128 _ _ eq_refl (fZ r) (fZ 255) Fr NZ) as D. rewrite Er, E255 in D. destruct (close32 _ _ (D ltac:(apply Rabs_le; lra))) as [D1 D2].
  assert (RD : fR (u8 r) = rnd (IZR r / 255)). { unfold u8. destruct (fdiv_finite (fZ r) (fZ 255) Fr F255 NZ) as [(A & C & _)|[(A & C)|(A & C)]]; [rewrite C, Er, E255; reflexivity| |]; change (fdiv (fZ r) (fZ 255)) with (Bdiv mode_NE (fZ r) (fZ 255)) in C; rewrite C in D1; discriminate. }
  split; [exact D1|]. split; [exact D2|]. rewrite RD. auto.
Qed.
Lemma u8_clamp r : (0 <= r <= 255)%Z -> fclamp (nan_to_zero (u8 r)) f0 f1 = u8 r /\ nan_to_zero (u8 r) = u8 r.
Proof.
  intros Hr. destruct (u8_ok r Hr) as (F & _ & B & _). assert (U : in_unit (u8 r)) by (split; assumption). destruct (unit_in_gamut _ U) as [G1 G2].
  assert (N : nan_to_zero (u8 r) = u8 r) by (unfold nan_to_zero, fisnan; rewrite (unit_number _ U); reflexivity). rewrite N. split; [|reflexivity].
  unfold fclamp. rewrite G1. unfold fgt in G2. change (flt f1 (u8 r) = false) in G2. rewrite G2. reflexivity.
Qed.
Lemma back8 (x : f32) r : (0 <= r <= 255)%Z -> is_finite x = true -> Rabs (fR x - fR (u8 r)) <= / 2000 -> to_uint8 x = Some r.
Proof. intros Hr F C. destruct (u8_ok r Hr) as (_ & E & _). apply uint8_back; [exact F|exact Hr|]. apply Rabs_le. apply Rabs_le_inv in C, E. lra. Qed.
Lemma back_u8 r : (0 <= r <= 255)%Z -> to_uint8 (u8 r) = Some r.
Proof. intros Hr. destruct (u8_ok r Hr) as (F & E & _). apply back8; [exact Hr|exact F|]. replace (fR (u8 r) - fR (u8 r)) with 0 by ring. rewrite Rabs_R0. lra. Qed.
(** ** Premultiplied alpha *)
Lemma u8_alpha a : (1 <= a <= 255)%Z -> / 256 <= fR (u8 a) <= 1.
Proof. intros Ha. destruct (u8_ok a ltac:(lia)) as (_ & E & B & _). assert (1 <= IZR a) by (apply IZR_le; lia). apply Rabs_le_inv in E. lra. Qed.
Lemma premul_back r a : (0 <= r <= 255)%Z -> (1 <= a <= 255)%Z -> to_uint8 (fmul (fdiv (u8 r) (u8 a)) (u8 a)) = Some r.
Proof.
  intros Hr Ha. destruct (u8_ok r Hr) as (F & E & B & _). destruct (u8_ok a ltac:(lia)) as (Fa & _ & _ & _). pose proof (u8_alpha a Ha) as A.
  assert (Q : 0 <= fR (u8 r) / fR (u8 a) <= 256). { split; [apply Rmult_le_pos; [lra|left; apply Rinv_0_lt_compat; lra]|]. apply (Rmult_le_reg_r (fR (u8 a))); [lra|]. unfold Rdiv. rewrite Rmult_assoc, Rinv_l by lra. lra. }
  destruct (div_256 (u8 r) (u8 a) F Fa ltac:(lra) ltac:(apply Rabs_le; lra)) as [FD ED]. set (p := fdiv (u8 r) (u8 a)) in *.
  assert (P : Rabs (fR p * fR (u8 a) - fR (u8 r)) <= / 65536). { replace (fR p * fR (u8 a) - fR (u8 r)) with ((fR p - fR (u8 r) / fR (u8 a)) * fR (u8 a)) by (field; lra). rewrite Rabs_mult, (Rabs_pos_eq (fR (u8 a))) by lra. pose proof (Rabs_pos (fR p - fR (u8 r) / fR (u8 a))). nra. }
  apply Rabs_le_inv in P. destruct (mul_256 p (u8 a) FD Fa ltac:(apply Rabs_le; lra)) as [FM EM]. apply back8; [exact Hr|exact FM|]. apply Rabs_le. apply Rabs_le_inv in EM. lra.
Qed.

(** ** The gamma curve *)
(** What is asked of std::pow for bases in [2^-10, 2] and exponents in (0, 3]: relative error at most 2^-40 *)
Definition pow_close (pow : f64 -> f64 -> f64) : Prop :=
  forall x y, is_finite x = true -> is_finite y = true -> / 1024 <= dR x <= 2 -> 0 < dR y <= 3 ->
    is_finite (pow x y) = true /\ Rabs (dR (pow x y) - Rpower (dR x) (dR y)) <= / 1099511627776 * Rpower (dR x) (dR y).
Lemma Rpower_mono_base x y z : 0 < x <= y -> 0 <= z -> Rpower x z <= Rpower y z.
Proof. intros. apply Rle_Rpower_l; lra. Qed.
Lemma Rpower_low x y : 0 < x -> x <= 1 -> y <= 12 / 5 -> Rpower x (12 / 5) <= Rpower x y.
Proof. intros X X1 Y. unfold Rpower. assert (L : ln x <= 0) by (rewrite <- ln_1; destruct X1 as [X1| ->]; [left; apply ln_increasing; lra|right; reflexivity]). assert (12 / 5 * ln x <= y * ln x) by nra. destruct H as [H| ->]; [left; apply exp_increasing, H|right; reflexivity]. Qed.
Lemma power_low s g : 929 / 10000 <= s -> 0 <= g <= 12 / 5 -> 32 / 10000 <= Rpower s g.
Proof.
  intros S G. apply Rle_trans with (Rpower (929 / 10000) g); [|apply Rpower_mono_base; lra]. apply Rle_trans with (Rpower (929 / 10000) (12 / 5)); [|apply Rpower_low; lra].
  set (t := Rpower (929 / 10000) (12 / 5)). assert (T : 0 < t) by apply exp_pos. assert (P : t ^ 5 = (929 / 10000) ^ 12).
  { rewrite <- !Rpower_pow by lra. unfold t. rewrite Rpower_mult. f_equal. change (INR 5) with (1 + 1 + 1 + 1 + 1). cbn [INR]. lra. }
  destruct (Rle_or_lt (32 / 10000) t) as [K|K]; [exact K|]. exfalso. assert (t ^ 5 <= (32 / 10000) ^ 5) by (apply pow_incr; lra). rewrite P in H. lra.
Qed.
Lemma power_high s g : 0 < s <= 11 / 10 -> 0 <= g <= 3 -> Rpower s g <= 1331 / 1000.
Proof.
  intros S G. apply Rle_trans with (Rpower (11 / 10) g); [apply Rpower_mono_base; lra|]. apply Rle_trans with (Rpower (11 / 10) (INR 3)); [apply Rle_Rpower; [lra|cbn [INR]; lra]|]. rewrite Rpower_pow by lra. cbn. lra.
Qed.
Lemma power_near e g : Rabs e <= / 2 -> 0 <= g <= 1 -> Rabs (Rpower (1 + e) g - 1) <= Rabs e.
Proof.
  intros E G. apply Rabs_le_inv in E. assert (O : Rpower 1 g = 1) by (unfold Rpower; rewrite ln_1, Rmult_0_r; apply exp_0). assert (I : Rpower (1 + e) 1 = 1 + e) by (apply Rpower_1; lra). destruct (Rle_or_lt 0 e) as [P|P].
  - assert (Rpower 1 g <= Rpower (1 + e) g) by (apply Rpower_mono_base; lra). assert (Rpower (1 + e) g <= Rpower (1 + e) 1) by (apply Rle_Rpower; lra). rewrite !Rabs_pos_eq by lra. lra.
  - assert (Rpower (1 + e) g <= Rpower 1 g) by (apply Rpower_mono_base; lra).
    assert (1 + e <= Rpower (1 + e) g). { rewrite <- I at 1. unfold Rpower. assert (L : ln (1 + e) < 0) by (rewrite <- ln_1; apply ln_increasing; lra). assert (1 * ln (1 + e) <= g * ln (1 + e)) by nra. destruct H0 as [H0| ->]; [left; apply exp_increasing, H0|right; reflexivity]. }
    rewrite !Rabs_left1 by lra. lra.
Qed.
Lemma exp_near y : Rabs y <= / 2 -> Rabs (exp y - 1) <= 2 * Rabs y.
Proof.
  intros Y. apply Rabs_le_inv in Y. pose proof (exp_ineq1_le y) as A. pose proof (exp_ineq1_le (- y)) as B. assert (M : exp y * exp (- y) = 1) by (rewrite <- exp_plus, Rplus_opp_r; apply exp_0). pose proof (exp_pos y).
  assert (exp y * (1 - y) <= 1) by nra. destruct (Rle_or_lt 0 y).
  - rewrite !Rabs_pos_eq by lra. assert (exp y * (1 - y) <= (1 + 2 * y) * (1 - y)) by nra. apply (Rmult_le_reg_r (1 - y)); [lra|]. lra.
  - rewrite (Rabs_left1 y) by lra. apply Rabs_le. split; [lra|]. assert (exp y <= 1) by nra. lra.
Qed.
Lemma ln_bound s : 929 / 10000 <= s <= 11 / 10 -> Rabs (ln s) <= 11.
Proof.
  intros S. apply Rabs_le. split.
  - pose proof (exp_ineq1_le (- ln s)) as A. rewrite exp_Ropp, exp_ln in A by lra. assert (/ s <= 11) by (apply (Rmult_le_reg_r s); [lra|]; rewrite Rinv_l by lra; lra). lra.
  - pose proof (exp_ineq1_le (ln s)) as A. rewrite exp_ln in A by lra. lra.
Qed.
(** Undoing a power with an almost reciprocal exponent *)
Lemma power_back s g g' e : 929 / 10000 <= s <= 11 / 10 -> 0 <= g' <= 1 -> Rabs (g * g' - 1) <= / 1000000 -> Rabs e <= / 10000 ->
  Rabs (Rpower (Rpower s g * (1 + e)) g' - s) <= / 5000.
Proof.
  intros S G D E. assert (E2 : Rabs e <= / 2) by lra. pose proof (power_near e g' E2 G) as N. pose proof (ln_bound s S) as L. apply Rabs_le_inv in E.
  rewrite <- Rpower_mult_distr by (try apply exp_pos; lra). rewrite Rpower_mult. replace (g * g') with (1 + (g * g' - 1)) by ring. rewrite Rpower_plus, Rpower_1 by lra. set (d := g * g' - 1) in *.
  assert (Y : Rabs (d * ln s) <= 11 / 1000000) by (rewrite Rabs_mult; pose proof (Rabs_pos d); pose proof (Rabs_pos (ln s)); nra).
  pose proof (exp_near (d * ln s) ltac:(lra)) as X. change (exp (d * ln s)) with (Rpower s d) in X. set (u := Rpower s d) in *. set (w := Rpower (1 + e) g') in *. assert (E' : Rabs e <= / 10000) by (apply Rabs_le; lra). assert (Hu : Rabs (u - 1) <= 22 / 1000000) by lra. assert (Hw : Rabs (w - 1) <= / 10000) by lra.
  apply Rabs_le_inv in Hu, Hw. apply Rabs_le. assert (UW : 1 - 13 / 100000 <= u * w <= 1 + 13 / 100000) by (split; nra). split; nra.
Qed.
Section Gamma.
Variable pow : f64 -> f64 -> f64.
Hypothesis PC : pow_close pow.
Lemma dltb (x y : f64) : is_finite x = true -> is_finite y = true -> (dlt x y = true <-> dR x < dR y).
Proof. intros Fx Fy. unfold dlt. rewrite Bltb_correct by assumption. split; [apply Rlt_bool_true_iff || (destruct (Rlt_bool_spec (dR x) (dR y)); intros; [assumption|discriminate])|apply Rlt_bool_true]. Qed.
Lemma gamma_back r : (0 <= r <= 255)%Z -> to_uint8 (gamma_encode pow (gamma_decode pow (u8 r))) = Some r.
Proof.
  intros Hr. destruct (u8_ok r Hr) as (F & E & B & _). destruct a_val as [Va Fa], b_val as [Vb Fb], c_val as [Vc Fc], d_val as [Vd Fd], g_val as [Vg Fg], gi_val as [Vi Fi], cd_val as [Vcd Fcd].
  destruct (of_f32_R (u8 r)) as [RV FV]. rewrite F in FV. set (v := u8 r) in *. apply Rabs_le_inv in E. unfold gamma_decode.
  destruct (dlt (of_f32 v) srgb_d) eqn:L.
  - apply dltb in L; [|assumption..]. rewrite RV, Vd in L. pose proof (mul_close 53 1024 _ _ eq_refl srgb_c (of_f32 v) Fc FV) as M. rewrite RV, Vc in M. destruct (close64 _ _ (M ltac:(apply Rabs_le; lra))) as [M1 M2]. fold (dmul srgb_c (of_f32 v)) in M1, M2. apply Rabs_le_inv in M2.
    destruct (to_f32_close _ M1 ltac:(apply Rabs_le; lra)) as [T1 T2]. set (w := to_f32 (dmul srgb_c (of_f32 v))) in *. apply Rabs_le_inv in T2. unfold gamma_encode. destruct (of_f32_R w) as [RW FW]. rewrite T1 in FW.
    assert (LT : fR w < 7219144715378787 / 2305843009213693952).
    { assert (rr : (r <= 10)%Z). { destruct (Z_le_gt_dec r 10) as [K|K]; [exact K|exfalso]. assert (11 <= IZR r) by (apply IZR_le; lia). lra. } apply IZR_le in rr. lra. }
    assert (L2 : dlt (of_f32 w) (dmul srgb_c srgb_d) = true) by (apply dltb; [assumption..|]; rewrite RW, Vcd; exact LT). rewrite L2.
    pose proof (div_close 53 1024 _ _ eq_refl (of_f32 w) srgb_c FW ltac:(rewrite Vc; lra)) as D. rewrite RW, Vc in D. destruct (close64 _ _ (D ltac:(apply Rabs_le; lra))) as [D1 D2]. fold (ddiv (of_f32 w) srgb_c) in D1, D2. apply Rabs_le_inv in D2.
    destruct (to_f32_close _ D1 ltac:(apply Rabs_le; lra)) as [U1 U2]. apply Rabs_le_inv in U2. apply back8; [exact Hr|exact U1|]. fold v. apply Rabs_le. lra.
  - assert (L' : 2914729678834185 / 72057594037927936 <= fR v). { rewrite <- RV, <- Vd. apply Rnot_lt_le. intros K. apply dltb in K; [|assumption..]. congruence. }
    assert (rr : (11 <= r)%Z). { destruct (Z_le_gt_dec 11 r) as [K|K]; [exact K|exfalso]. assert (IZR r <= 10) by (apply IZR_le; lia). lra. } apply IZR_le in rr.
    pose proof (mul_close 53 1024 _ _ eq_refl srgb_a (of_f32 v) Fa FV) as M. rewrite RV, Va in M. destruct (close64 _ _ (M ltac:(apply Rabs_le; lra))) as [M1 M2]. fold (dmul srgb_a (of_f32 v)) in M1, M2. apply Rabs_le_inv in M2.
    pose proof (add_close 53 1024 _ _ eq_refl (dmul srgb_a (of_f32 v)) srgb_b M1 Fb) as A. rewrite Vb in A. destruct (close64 _ _ (A ltac:(apply Rabs_le; lra))) as [A1 A2]. fold (dadd (dmul srgb_a (of_f32 v)) srgb_b) in A1, A2. apply Rabs_le_inv in A2.
    set (s := dadd (dmul srgb_a (of_f32 v)) srgb_b) in *. assert (S : 929 / 10000 <= dR s <= 11 / 10) by lra.
    destruct (PC s srgb_g A1 Fg ltac:(lra) ltac:(rewrite Vg; lra)) as [P1 P2]. set (p := pow s srgb_g) in *. set (q := Rpower (dR s) (dR srgb_g)) in *.
    assert (Q : 32 / 10000 <= q <= 1331 / 1000) by (unfold q; split; [apply power_low; rewrite ?Vg; lra|apply power_high; rewrite ?Vg; lra]). apply Rabs_le_inv in P2.
    destruct (to_f32_close p P1 ltac:(apply Rabs_le; lra)) as [T1 T2]. set (w := to_f32 p) in *. apply Rabs_le_inv in T2. destruct (of_f32_R w) as [RW FW]. rewrite T1 in FW.
    assert (L2 : dlt (of_f32 w) (dmul srgb_c srgb_d) = false) by (apply not_true_iff_false; intros K; apply dltb in K; [|assumption..]; rewrite RW, Vcd in K; lra). unfold gamma_encode. rewrite L2.
    set (e := fR w / q - 1). assert (We : fR w = q * (1 + e)) by (unfold e; field; lra).
    assert (He : Rabs e <= / 10000). { apply Rabs_le. split; apply (Rmult_le_reg_l q); try lra; unfold e; replace (q * (fR w / q - 1)) with (fR w - q) by (field; lra); lra. }
    destruct (PC (of_f32 w) (ddiv (dZ 1) srgb_g) FW Fi ltac:(rewrite RW; lra) ltac:(rewrite Vi; lra)) as [K1 K2]. rewrite RW, We in K2. set (k := pow (of_f32 w) (ddiv (dZ 1) srgb_g)) in *.
    pose proof (power_back (dR s) (dR srgb_g) (dR (ddiv (dZ 1) srgb_g)) e S ltac:(rewrite Vi; lra) ltac:(rewrite Vi, Vg; apply Rabs_le; lra) He) as PB. fold q in PB. set (t := Rpower (q * (1 + e)) (dR (ddiv (dZ 1) srgb_g))) in *. apply Rabs_le_inv in PB, K2.
    pose proof (sub_close 53 1024 _ _ eq_refl k srgb_b K1 Fb) as SU. rewrite Vb in SU. destruct (close64 _ _ (SU ltac:(apply Rabs_le; lra))) as [S1 S2]. fold (dsub k srgb_b) in S1, S2. apply Rabs_le_inv in S2.
    pose proof (div_close 53 1024 _ _ eq_refl (dsub k srgb_b) srgb_a S1 ltac:(rewrite Va; lra)) as D. rewrite Va in D. destruct (close64 _ _ (D ltac:(apply Rabs_le; lra))) as [D1 D2]. fold (ddiv (dsub k srgb_b) srgb_a) in D1, D2. apply Rabs_le_inv in D2.
    destruct (to_f32_close _ D1 ltac:(apply Rabs_le; lra)) as [U1 U2]. apply Rabs_le_inv in U2. apply back8; [exact Hr|exact U1|]. fold v. apply Rabs_le. lra.
Qed.
End Gamma.

(** ** C49 *)
(** Such a pow exists: Rpower, cut off after 100 binary places and rounded.  The real std::pow is within one unit in the last place. *)
Definition pow_ref (x y : f64) : f64 := binary_normalize 53 1024 _ _ mode_NE (Zfloor (Rpower (dR x) (dR y) * IZR (2 ^ 100))) (-100) false.
Lemma pow_ref_ok : pow_not_nan pow_ref /\ pow_close pow_ref.
Proof.
  split; [intros x y _ _ _; apply norm_ok|]. intros x y Fx Fy X Y. set (q := Rpower (dR x) (dR y)). set (z := Zfloor (q * IZR (2 ^ 100))).
  assert (Q : / 1073741824 <= q <= 8).
  { split.
    - apply Rle_trans with (Rpower (/ 1024) (INR 3)); [rewrite Rpower_pow by lra; cbn; lra|]. unfold q. apply Rle_trans with (Rpower (/ 1024) (dR y)); [|apply Rpower_mono_base; lra].
      unfold Rpower. assert (L : ln (/ 1024) <= 0) by (rewrite <- ln_1; left; apply ln_increasing; lra). assert (INR 3 * ln (/ 1024) <= dR y * ln (/ 1024)) by (cbn [INR]; nra). destruct H as [H| ->]; [left; apply exp_increasing, H|right; reflexivity].
    - apply Rle_trans with (Rpower 2 (dR y)); [apply Rpower_mono_base; lra|]. apply Rle_trans with (Rpower 2 (INR 3)); [apply Rle_Rpower; cbn [INR]; lra|rewrite Rpower_pow by lra; cbn; lra]. }
  pose proof (Zfloor_lb (q * IZR (2 ^ 100))) as Z1. pose proof (Zfloor_ub (q * IZR (2 ^ 100))) as Z2. fold z in Z1, Z2.
  assert (FE : F2R (Float radix2 z (-100)) = IZR z / IZR (2 ^ 100)) by reflexivity. set (v := F2R (Float radix2 z (-100))) in *. assert (P : 0 < IZR (2 ^ 100)) by (apply IZR_lt; reflexivity).
  assert (V : q - / IZR (2 ^ 100) <= v <= q). { rewrite FE. split; apply (Rmult_le_reg_r (IZR (2 ^ 100))); try assumption; unfold Rdiv; rewrite Rmult_assoc, Rinv_l, Rmult_1_r by lra; [rewrite Rmult_minus_distr_r, Rinv_l by lra|]; lra. }
  assert (T : / IZR (2 ^ 100) <= / 1208925819614629174706176) by (apply Rinv_le_contravar; [lra|apply IZR_le; vm_compute; discriminate]).
  pose proof (binary_normalize_correct 53 1024 _ _ mode_NE z (-100) false) as N. cbn zeta in N. change (F2R {| Fnum := z; Fexp := -100 |}) with v in N.
  assert (RE : Rabs (round radix2 (SpecFloat.fexp 53 1024) (round_mode mode_NE) v - v) <= / 2 * bpow radix2 (- 53 + 1) * Rabs v).
  { apply (relative_error_N_FLT radix2 (-1074) 53 (ltac:(reflexivity)) (fun x => negb (Z.even x))). rewrite Rabs_pos_eq by lra. apply Rle_trans with (bpow radix2 (-31)); [apply bpow_le; lia|]. change (bpow radix2 (-31)) with (/ 2147483648). lra. }
  change (bpow radix2 (- 53 + 1)) with (/ 4503599627370496) in RE. rewrite (Rabs_pos_eq v) in RE by lra. apply Rabs_le_inv in RE.
  rewrite Rlt_bool_true in N.
  - destruct N as (N1' & N2 & _). split; [exact N2|]. unfold pow_ref. fold q z. rewrite N1'. apply Rabs_le. lra.
  - apply Rle_lt_trans with (bpow radix2 5); [|apply bpow_lt; reflexivity]. change (bpow radix2 5) with 32. apply Rabs_le. lra.
Qed.
Lemma u8_zero (a : Z) : (0 <= a <= 255)%Z -> feq (u8 a) f0 = Z.eqb a 0.
Proof.
  intros Ha. destruct (u8_ok a Ha) as (F & _ & B & R). apply eq_iff_eq_true. rewrite (unit_zero _ (conj F B)), Z.eqb_eq. split; [|intros ->; rewrite R; unfold Rdiv; rewrite Rmult_0_l; apply round_0; apply valid_rnd_N].
  intros Z. destruct (Z_le_gt_dec a 0) as [K|K]; [lia|]. pose proof (u8_alpha a ltac:(lia)). lra.
Qed.
Definition is_byte (z : Z) : Prop := (0 <= z <= 255)%Z.
Section C49.
Variable pow : f64 -> f64 -> f64.
Hypothesis PC : pow_close pow.
(** The color of four bytes is refused exactly when it is premultiplied, fully transparent and not black *)
Theorem C49_refused r g b a f s : is_byte r -> is_byte g -> is_byte b -> is_byte a ->
  (from_uint8 pow r g b a f s = None <-> f = kPremultipliedAlpha /\ a = 0%Z /\ (r <> 0 \/ g <> 0 \/ b <> 0)%Z).
Proof.
  intros Hr Hg Hb Ha. unfold from_uint8. fold (u8 r) (u8 g) (u8 b) (u8 a). destruct f; try (split; [discriminate|intros [K _]; discriminate]).
  destruct (Z.eqb a 0) eqn:A; cbn [andb].
  - apply Z.eqb_eq in A. destruct (Z.eqb_spec r 0) as [R|R]; cbn [negb orb]; [|split; [intros _; auto|reflexivity]]. destruct (Z.eqb_spec g 0) as [G|G]; cbn [negb orb]; [|split; [intros _; auto|reflexivity]]. destruct (Z.eqb_spec b 0) as [B|B]; cbn [negb]; [|split; [intros _; auto|reflexivity]].
    split; [|intros (_ & _ & K); lia]. unfold from_float. rewrite !(proj1 (u8_clamp a Ha)), !(proj2 (u8_clamp _ Hr)), !(proj2 (u8_clamp _ Hg)), !(proj2 (u8_clamp _ Hb)). unfold fne. change Beqb with feq. rewrite !u8_zero by assumption. subst. discriminate.
  - split; [|intros (_ & K & _); apply Z.eqb_neq in A; lia]. unfold from_float. rewrite !(proj1 (u8_clamp a Ha)). rewrite u8_zero, A by exact Ha. cbn [andb]. destruct (fne (u8 a) f0); discriminate.
Qed.
(** and in all other cases reading the color back in the same format gives the same bytes *)
Theorem C49_bytes r g b a f s c : is_byte r -> is_byte g -> is_byte b -> is_byte a ->
  from_uint8 pow r g b a f s = Some c -> as_uint8 pow c f = Some (r, g, b, a) /\ cspace c = s.
Proof.
  intros Hr Hg Hb Ha. unfold from_uint8. fold (u8 r) (u8 g) (u8 b) (u8 a). destruct f; unfold from_float; rewrite ?(proj1 (u8_clamp a Ha)), ?(proj2 (u8_clamp _ Hr)), ?(proj2 (u8_clamp _ Hg)), ?(proj2 (u8_clamp _ Hb)).
  - intros H. injection H as <-. split; [|reflexivity]. unfold as_uint8, as_float. cbn [chan red green blue alpha]. rewrite !back_u8 by assumption. reflexivity.
  - intros H. injection H as <-. split; [|reflexivity]. unfold as_uint8, as_float. cbn [chan red green blue alpha]. rewrite !gamma_back, back_u8 by assumption. reflexivity.
  - unfold fne. change Beqb with feq. rewrite !u8_zero by assumption. destruct (Z.eqb a 0) eqn:A; cbn [andb negb].
    + destruct (Z.eqb_spec r 0) as [R|R]; [|discriminate]. destruct (Z.eqb_spec g 0) as [G|G]; [|discriminate]. destruct (Z.eqb_spec b 0) as [B|B]; [|discriminate]. cbn [negb orb]. intros H. injection H as <-. split; [|reflexivity].
      unfold as_uint8, as_float. cbn [chan red green blue alpha]. rewrite u8_zero, A by assumption. cbn [chan red green blue alpha]. rewrite back_u8 by exact Ha. subst r g b.
      assert (Z0 : to_uint8 f0 = Some 0%Z) by (apply uint8_back; [reflexivity|lia|rewrite f0_R; apply Rabs_le; lra]). rewrite Z0. reflexivity.
    + intros H. injection H as <-. split; [|reflexivity]. apply Z.eqb_neq in A. assert (1 <= a <= 255)%Z by (unfold is_byte in Ha; lia). unfold as_uint8, as_float. cbn [chan red green blue alpha]. rewrite u8_zero by assumption. destruct (Z.eqb_spec a 0) as [K|K]; [lia|]. cbn [chan red green blue alpha]. rewrite !premul_back, back_u8 by assumption. reflexivity.
Qed.
(** The packed form is r * 2^24 + g * 2^16 + b * 2^8 + a *)
Lemma byte_mod v : byte v = (v mod 256)%Z. Proof. unfold byte. change 255%Z with (Z.ones 8). rewrite Z.land_ones by lia. reflexivity. Qed.
Lemma lor_add x y n : (0 <= n)%Z -> (0 <= y < 2 ^ n)%Z -> Z.lor (Z.shiftl x n) y = (x * 2 ^ n + y)%Z.
Proof.
  intros N Y. rewrite <- Z.shiftl_mul_pow2 by exact N. rewrite Z.add_nocarry_lxor; [rewrite <- Z.lxor_lor; [reflexivity|]|]; apply Z.bits_inj'; intros k K; rewrite Z.land_spec, Z.bits_0, Z.shiftl_spec by exact K.
  all: destruct (Z_lt_le_dec k n); [rewrite Z.testbit_neg_r by lia; reflexivity|].
  all: assert (T : Z.testbit y k = false) by (destruct (Z.eq_dec y 0) as [-> |Y0]; [apply Z.bits_0|apply Z.bits_above_log2; [lia|apply Z.log2_lt_pow2; [lia|]; eapply Z.lt_le_trans; [apply Y|apply Z.pow_le_mono_r; lia]]]); rewrite T, andb_false_r; reflexivity.
Qed.
Lemma pack4 r g b a : is_byte r -> is_byte g -> is_byte b -> is_byte a ->
  Z.lor (Z.lor (Z.lor (Z.shiftl r 24) (Z.shiftl g 16)) (Z.shiftl b 8)) a = (r * 2 ^ 24 + g * 2 ^ 16 + b * 2 ^ 8 + a)%Z.
Proof.
  unfold is_byte. intros Hr Hg Hb Ha. rewrite <- !Z.lor_assoc. rewrite (lor_add b a) by lia. rewrite (lor_add g) by lia. rewrite (lor_add r) by lia. lia.
Qed.
Lemma unpack4 r g b a v : is_byte r -> is_byte g -> is_byte b -> is_byte a -> v = (r * 2 ^ 24 + g * 2 ^ 16 + b * 2 ^ 8 + a)%Z ->
  byte (Z.shiftr v 24) = r /\ byte (Z.shiftr v 16) = g /\ byte (Z.shiftr v 8) = b /\ byte v = a.
Proof.
  unfold is_byte. intros Hr Hg Hb Ha V. rewrite !byte_mod, !Z.shiftr_div_pow2 by lia. change (2 ^ 24)%Z with 16777216%Z in *. change (2 ^ 16)%Z with 65536%Z in *. change (2 ^ 8)%Z with 256%Z in *.
  split; [|split; [|split]]; symmetry.
  - replace (v / 16777216)%Z with r by (apply Z.div_unique with (g * 65536 + b * 256 + a)%Z; lia). rewrite Z.mod_small; lia.
  - replace (v / 65536)%Z with (r * 256 + g)%Z by (apply Z.div_unique with (b * 256 + a)%Z; lia). apply Z.mod_unique with r; lia.
  - replace (v / 256)%Z with (r * 65536 + g * 256 + b)%Z by (apply Z.div_unique with a; lia). apply Z.mod_unique with (r * 256 + g)%Z; lia.
  - apply Z.mod_unique with (r * 65536 + g * 256 + b)%Z; lia.
Qed.
Theorem C49_packed r g b a v f s : is_byte r -> is_byte g -> is_byte b -> is_byte a -> v = (r * 2 ^ 24 + g * 2 ^ 16 + b * 2 ^ 8 + a)%Z ->
  from_packed pow v f s = from_uint8 pow r g b a f s /\ (forall c, from_packed pow v f s = Some c -> as_packed pow c f = Some v).
Proof.
  intros Hr Hg Hb Ha V. destruct (unpack4 r g b a v Hr Hg Hb Ha V) as (E1 & E2 & E3 & E4). unfold from_packed. rewrite E1, E2, E3, E4. split; [reflexivity|]. intros c H.
  unfold as_packed. rewrite (proj1 (C49_bytes r g b a f s c Hr Hg Hb Ha H)). rewrite pack4, V by assumption. reflexivity.
Qed.
(** every 32-bit value is of that form *)
Theorem C49_all v f s c : (0 <= v < 2 ^ 32)%Z -> from_packed pow v f s = Some c -> as_packed pow c f = Some v.
Proof.
  intros H. apply (C49_packed (v / 16777216) (v / 65536 mod 256) (v / 256 mod 256) (v mod 256)); unfold is_byte; change (2 ^ 32)%Z with 4294967296%Z in H.
  - split; [apply Z.div_pos; lia|apply Z.lt_succ_r, Z.div_lt_upper_bound; lia].
  - pose proof (Z.mod_pos_bound (v / 65536) 256 eq_refl). lia.
  - pose proof (Z.mod_pos_bound (v / 256) 256 eq_refl). lia.
  - pose proof (Z.mod_pos_bound v 256 eq_refl). lia.
  - change (2 ^ 24)%Z with 16777216%Z. change (2 ^ 16)%Z with 65536%Z. change (2 ^ 8)%Z with 256%Z.
    pose proof (Z.div_mod v 256 ltac:(lia)). pose proof (Z.div_mod (v / 256) 256 ltac:(lia)). pose proof (Z.div_mod (v / 65536) 256 ltac:(lia)). rewrite !Z.div_div in * by lia. change (256 * 256)%Z with 65536%Z in *. change (65536 * 256)%Z with 16777216%Z in *. lia.
Qed.
End C49.
(** Android's ARGB integers: alpha * 2^24 + red * 2^16 + green * 2^8 + blue, and the two conversions are inverse *)
Theorem C49_argb r g b a : is_byte r -> is_byte g -> is_byte b -> is_byte a ->
  pack_argb (r, g, b, a) = (a * 2 ^ 24 + r * 2 ^ 16 + g * 2 ^ 8 + b)%Z /\ unpack_argb (pack_argb (r, g, b, a)) = (r, g, b, a).
Proof.
  intros Hr Hg Hb Ha. assert (P : pack_argb (r, g, b, a) = (a * 2 ^ 24 + r * 2 ^ 16 + g * 2 ^ 8 + b)%Z) by (cbn [pack_argb]; apply pack4; assumption). split; [exact P|].
  destruct (unpack4 a r g b _ Ha Hr Hg Hb P) as (E1 & E2 & E3 & E4). unfold unpack_argb. rewrite E1, E2, E3, E4. reflexivity.
Qed.
(** Cases *)
Example c49_case : exists c, from_uint8 pow_ref 200 11 10 0 kGammaEncoded kDisplayP3 = Some c /\ as_uint8 pow_ref c kGammaEncoded = Some (200, 11, 10, 0)%Z.
Proof.
  destruct (from_uint8 pow_ref 200 11 10 0 kGammaEncoded kDisplayP3) as [c|] eqn:E; [|discriminate]. exists c. split; [reflexivity|]. refine (proj1 (C49_bytes pow_ref (proj2 pow_ref_ok) 200 11 10 0 _ _ c _ _ _ _ E)); unfold is_byte; lia.
Qed.
Example c49_refused : from_uint8 pow_ref 1 0 0 0 kPremultipliedAlpha kSrgb = None. Proof. reflexivity. Qed.
Print Assumptions C49_refused.
Print Assumptions C49_bytes.
Print Assumptions C49_packed.
Print Assumptions C49_all.
Print Assumptions C49_argb.
