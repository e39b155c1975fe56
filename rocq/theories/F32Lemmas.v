(** Facts about the float operations of F32.v. *)
From Coq Require Import ZArith Bool Reals Lra Lia.
From Flocq Require Import Core IEEE754.BinarySingleNaN.
From Verif Require Import F32.
Open Scope R_scope.

Notation fexp32 := (SpecFloat.fexp 24 128).
Notation rnd := (round radix2 fexp32 ZnearestE).
Notation big := (bpow radix2 128).
Notation fR := (@B2R 24 128).

Global Instance fexp32_valid : Valid_exp fexp32 := fexp_correct 24 128 _.
Global Instance fexp32_mono : Monotone_exp fexp32 := fexp_monotone 24 128.

(** Position of a non-NaN float on the extended real line; infinities are put
    at +-2^128, just outside the finite floats. *)
Definition fX (x : f32) : R :=
  match x with
  | B754_infinity s => if s then - big else big
  | _ => fR x
  end.

Lemma fX_finite x : is_finite x = true -> fX x = fR x.
Proof. destruct x; cbn; try discriminate; reflexivity. Qed.

Lemma fR_bound (x : f32) : Rabs (fR x) < big.
Proof. apply abs_B2R_lt_emax. Qed.

Lemma fR_bounds (x : f32) : - big < fR x < big.
Proof. pose proof (fR_bound x) as H. apply Rabs_lt_inv in H. exact H. Qed.

Lemma big_pos : 0 < big.
Proof. apply bpow_gt_0. Qed.

Lemma fX_bounds x : - big <= fX x <= big.
Proof.
  destruct x as [s|[]| |s m e H]; cbn [fX]; pose proof big_pos; try lra.
  - cbn; lra.
  - cbn; lra.
  - pose proof (fR_bounds (B754_finite s m e H)). lra.
Qed.

Lemma finite_not_nan (x : f32) : is_finite x = true -> is_nan x = false.
Proof. destruct x; cbn; congruence. Qed.

Lemma flt_spec x y : is_nan x = false -> is_nan y = false ->
  (flt x y = true <-> fX x < fX y).
Proof.
  intros Nx Ny.
  destruct (is_finite x) eqn:Fx; destruct (is_finite y) eqn:Fy.
  - unfold flt. rewrite Bltb_correct by assumption. rewrite !fX_finite by assumption.
    split; [intros H; destruct (Rlt_bool_spec (fR x) (fR y)); [assumption|discriminate]
           |apply Rlt_bool_true].
  - rewrite (fX_finite x) by assumption. pose proof (fR_bounds x).
    destruct y as [|[]| |]; try discriminate; cbn [fX].
    + split; [|lra]. destruct x; cbn in *; discriminate.
    + split; [lra|]. intros _. destruct x; cbn in *; try discriminate; reflexivity.
  - rewrite (fX_finite y) by assumption. pose proof (fR_bounds y).
    destruct x as [|[]| |]; try discriminate; cbn [fX].
    + split; [lra|]. intros _. destruct y; cbn in *; try discriminate; reflexivity.
    + split; [|lra]. destruct y; cbn in *; discriminate.
  - pose proof big_pos.
    destruct x as [|[]| |]; destruct y as [|[]| |]; try discriminate; cbn [fX];
      (split; [intros H'; cbn in H'; try discriminate; lra|intros H'; try lra; reflexivity]).
Qed.

Lemma fle_spec x y : is_nan x = false -> is_nan y = false ->
  (fle x y = true <-> fX x <= fX y).
Proof.
  intros Nx Ny.
  destruct (is_finite x) eqn:Fx; destruct (is_finite y) eqn:Fy.
  - unfold fle. rewrite Bleb_correct by assumption. rewrite !fX_finite by assumption.
    split; [intros H; destruct (Rle_bool_spec (fR x) (fR y)); [assumption|discriminate]
           |apply Rle_bool_true].
  - rewrite (fX_finite x) by assumption. pose proof (fR_bounds x).
    destruct y as [|[]| |]; try discriminate; cbn [fX].
    + split; [|lra]. destruct x; cbn in *; discriminate.
    + split; [lra|]. intros _. destruct x; cbn in *; try discriminate; reflexivity.
  - rewrite (fX_finite y) by assumption. pose proof (fR_bounds y).
    destruct x as [|[]| |]; try discriminate; cbn [fX].
    + split; [lra|]. intros _. destruct y; cbn in *; try discriminate; reflexivity.
    + split; [|lra]. destruct y; cbn in *; discriminate.
  - pose proof big_pos.
    destruct x as [|[]| |]; destruct y as [|[]| |]; try discriminate; cbn [fX];
      (split; [intros H'; cbn in H'; try discriminate; lra|intros H'; try lra; reflexivity]).
Qed.

Lemma feq_spec x y : is_nan x = false -> is_nan y = false ->
  (feq x y = true <-> fX x = fX y).
Proof.
  intros Nx Ny.
  destruct (is_finite x) eqn:Fx; destruct (is_finite y) eqn:Fy.
  - unfold feq. rewrite Beqb_correct by assumption. rewrite !fX_finite by assumption.
    split; [intros H; destruct (Req_bool_spec (fR x) (fR y)); [assumption|discriminate]
           |apply Req_bool_true].
  - rewrite (fX_finite x) by assumption. pose proof (fR_bounds x).
    destruct y as [|[]| |]; try discriminate; cbn [fX].
    + split; [|lra]. destruct x as [|[]| |[]]; cbn in *; discriminate.
    + split; [|lra]. destruct x as [|[]| |[]]; cbn in *; discriminate.
  - rewrite (fX_finite y) by assumption. pose proof (fR_bounds y).
    destruct x as [|[]| |]; try discriminate; cbn [fX].
    + split; [|lra]. destruct y as [|[]| |[]]; cbn in *; discriminate.
    + split; [|lra]. destruct y as [|[]| |[]]; cbn in *; discriminate.
  - pose proof big_pos.
    destruct x as [|[]| |]; destruct y as [|[]| |]; try discriminate; cbn [fX];
      (split; [intros H'; cbn in H'; try discriminate; lra|intros H'; try lra; reflexivity]).
Qed.

Lemma flt_nan_l x y : is_nan x = true -> flt x y = false.
Proof. destruct x; try discriminate. reflexivity. Qed.
Lemma flt_nan_r x y : is_nan y = true -> flt x y = false.
Proof. destruct y; try discriminate. destruct x as [|[]| |[]]; reflexivity. Qed.
Lemma fle_nan_l x y : is_nan x = true -> fle x y = false.
Proof. destruct x; try discriminate. reflexivity. Qed.
Lemma fle_nan_r x y : is_nan y = true -> fle x y = false.
Proof. destruct y; try discriminate. destruct x as [|[]| |[]]; reflexivity. Qed.
Lemma feq_nan_l x y : is_nan x = true -> feq x y = false.
Proof. destruct x; try discriminate. reflexivity. Qed.
Lemma feq_nan_r x y : is_nan y = true -> feq x y = false.
Proof. destruct y; try discriminate. destruct x as [|[]| |[]]; reflexivity. Qed.

(** Order facts that hold for every pair of floats *)
Lemma flt_not_nan x y : flt x y = true -> is_nan x = false /\ is_nan y = false.
Proof.
  intros H. destruct (is_nan x) eqn:Nx; [rewrite flt_nan_l in H by assumption; discriminate|].
  destruct (is_nan y) eqn:Ny; [rewrite flt_nan_r in H by assumption; discriminate|]. auto.
Qed.
Lemma fle_not_nan x y : fle x y = true -> is_nan x = false /\ is_nan y = false.
Proof.
  intros H. destruct (is_nan x) eqn:Nx; [rewrite fle_nan_l in H by assumption; discriminate|].
  destruct (is_nan y) eqn:Ny; [rewrite fle_nan_r in H by assumption; discriminate|]. auto.
Qed.
Lemma feq_not_nan x y : feq x y = true -> is_nan x = false /\ is_nan y = false.
Proof.
  intros H. destruct (is_nan x) eqn:Nx; [rewrite feq_nan_l in H by assumption; discriminate|].
  destruct (is_nan y) eqn:Ny; [rewrite feq_nan_r in H by assumption; discriminate|]. auto.
Qed.

Lemma flt_false x y : is_nan x = false -> is_nan y = false ->
  (flt x y = false <-> fX y <= fX x).
Proof.
  intros Nx Ny. rewrite <- not_true_iff_false, flt_spec by assumption. lra.
Qed.

Lemma fle_false x y : is_nan x = false -> is_nan y = false ->
  (fle x y = false <-> fX y < fX x).
Proof.
  intros Nx Ny. rewrite <- not_true_iff_false, fle_spec by assumption. lra.
Qed.

(** *** Rounding *)
Lemma rnd_mono x y : x <= y -> rnd x <= rnd y.
Proof. apply round_le; auto with typeclass_instances. Qed.
Lemma rnd_0 : rnd 0 = 0.
Proof. apply round_0; auto with typeclass_instances. Qed.
Lemma rnd_fR (x : f32) : rnd (fR x) = fR x.
Proof. apply round_generic; auto with typeclass_instances. apply generic_format_B2R. Qed.
Lemma rnd_pos x : 0 <= x -> 0 <= rnd x.
Proof. intros H. rewrite <- rnd_0. apply rnd_mono, H. Qed.
Lemma rnd_neg x : x <= 0 -> rnd x <= 0.
Proof. intros H. rewrite <- rnd_0. apply rnd_mono, H. Qed.

Lemma big_format : generic_format radix2 fexp32 big.
Proof. apply generic_format_bpow. cbn. lia. Qed.
Lemma rnd_big : rnd big = big.
Proof. apply round_generic; auto with typeclass_instances. apply big_format. Qed.

Lemma rnd_opp x : rnd (- x) = - rnd x.
Proof. apply round_NE_opp. Qed.

(** Addition, subtraction, multiplication and division of finite floats:
    either the rounded exact result, or an infinity of its sign. *)
Lemma B2SF_inf (x : f32) s : B2SF x = SpecFloat.S754_infinity s -> x = B754_infinity s.
Proof. destruct x; cbn; intros H; try discriminate. injection H as ->. reflexivity. Qed.

Lemma fadd_finite x y : is_finite x = true -> is_finite y = true ->
  (Rabs (rnd (fR x + fR y)) < big /\ fR (fadd x y) = rnd (fR x + fR y)
     /\ is_finite (fadd x y) = true)
  \/ (big <= rnd (fR x + fR y) /\ fadd x y = finf)
  \/ (rnd (fR x + fR y) <= - big /\ fadd x y = fninf).
Proof.
  intros Fx Fy. pose proof (Bplus_correct 24 128 _ _ mode_NE x y Fx Fy) as H.
  change (round_mode mode_NE) with ZnearestE in H.
  destruct (Rlt_bool_spec (Rabs (rnd (fR x + fR y))) big) as [Hlt|Hge].
  - left. destruct H as (H1 & H2 & _). auto.
  - right. destruct H as (H1 & H2). unfold binary_overflow in H1. cbn [overflow_to_inf] in H1.
    apply B2SF_inf in H1. unfold fadd. rewrite H1.
    destruct (Bsign x) eqn:Sx.
    + right. split; [|reflexivity].
      assert (fR x <= 0 /\ fR y <= 0) as [Hx Hy].
      { split.
        - destruct x as [|?| |[] m e Hb]; cbn in *; try discriminate; try lra.
          apply F2R_le_0; cbn; lia.
        - symmetry in H2. destruct y as [|?| |[] m e Hb]; cbn in *; try discriminate; try lra.
          apply F2R_le_0; cbn; lia. }
      rewrite Rabs_left1 in Hge by (apply rnd_neg; lra). lra.
    + left. split; [|reflexivity].
      assert (0 <= fR x /\ 0 <= fR y) as [Hx Hy].
      { split.
        - destruct x as [|?| |[] m e Hb]; cbn in *; try discriminate; try lra.
          apply F2R_ge_0; cbn; lia.
        - symmetry in H2. destruct y as [|?| |[] m e Hb]; cbn in *; try discriminate; try lra.
          apply F2R_ge_0; cbn; lia. }
      rewrite Rabs_pos_eq in Hge by (apply rnd_pos; lra). lra.
Qed.

Lemma fsub_fadd x y : fsub x y = fadd x (fopp y).
Proof.
  unfold fsub, fadd, fopp.
  destruct x as [sx|sx| |sx mx ex Hx]; destruct y as [sy|sy| |sy my ey Hy]; cbn; try reflexivity;
  destruct sx, sy; reflexivity.
Qed.

Lemma fsub_finite x y : is_finite x = true -> is_finite y = true ->
  (Rabs (rnd (fR x - fR y)) < big /\ fR (fsub x y) = rnd (fR x - fR y)
     /\ is_finite (fsub x y) = true)
  \/ (big <= rnd (fR x - fR y) /\ fsub x y = finf)
  \/ (rnd (fR x - fR y) <= - big /\ fsub x y = fninf).
Proof.
  intros Fx Fy. rewrite fsub_fadd.
  pose proof (fadd_finite x (fopp y) Fx) as H. unfold fopp in *.
  rewrite is_finite_Bopp, B2R_Bopp in H. apply H, Fy.
Qed.

Lemma sign_xor_ge x y : is_finite x = true -> is_finite y = true ->
  xorb (Bsign x) (Bsign y) = false -> 0 <= fR x * fR y.
Proof.
  intros Fx Fy H.
  destruct x as [|?| |sx mx ex Hx]; try discriminate; destruct y as [|?| |sy my ey Hy]; try discriminate;
    try (cbn; lra).
  cbn [Bsign] in H. destruct sx, sy; try discriminate; cbn [B2R].
  - replace (_ * _) with ((- F2R (Float radix2 (cond_Zopp true (Z.pos mx)) ex)) * (- F2R (Float radix2 (cond_Zopp true (Z.pos my)) ey))) by ring.
    apply Rmult_le_pos; apply Ropp_0_ge_le_contravar; apply Rle_ge, F2R_le_0; cbn; lia.
  - apply Rmult_le_pos; apply F2R_ge_0; cbn; lia.
Qed.

Lemma sign_xor_le x y : is_finite x = true -> is_finite y = true ->
  xorb (Bsign x) (Bsign y) = true -> fR x * fR y <= 0.
Proof.
  intros Fx Fy H.
  assert (0 <= fR (Bopp x) * fR y).
  { apply sign_xor_ge.
    - rewrite is_finite_Bopp; exact Fx.
    - exact Fy.
    - rewrite Bsign_Bopp by (apply finite_not_nan; exact Fx).
      destruct (Bsign x), (Bsign y); cbn in *; congruence. }
  rewrite B2R_Bopp in H0. lra.
Qed.

Lemma fmul_finite x y : is_finite x = true -> is_finite y = true ->
  (Rabs (rnd (fR x * fR y)) < big /\ fR (fmul x y) = rnd (fR x * fR y)
     /\ is_finite (fmul x y) = true)
  \/ (big <= rnd (fR x * fR y) /\ fmul x y = finf)
  \/ (rnd (fR x * fR y) <= - big /\ fmul x y = fninf).
Proof.
  intros Fx Fy. pose proof (Bmult_correct 24 128 _ _ mode_NE x y) as H.
  change (round_mode mode_NE) with ZnearestE in H.
  destruct (Rlt_bool_spec (Rabs (rnd (fR x * fR y))) big) as [Hlt|Hge].
  - left. destruct H as (H1 & H2 & _). unfold fmul. rewrite H2, Fx, Fy. auto.
  - right. unfold binary_overflow in H. cbn [overflow_to_inf] in H.
    apply B2SF_inf in H. unfold fmul. rewrite H.
    destruct (xorb (Bsign x) (Bsign y)) eqn:S.
    + right. split; [|reflexivity]. apply sign_xor_le in S; try assumption.
      rewrite Rabs_left1 in Hge by (apply rnd_neg; lra). lra.
    + left. split; [|reflexivity]. apply sign_xor_ge in S; try assumption.
      rewrite Rabs_pos_eq in Hge by (apply rnd_pos; lra). lra.
Qed.

Lemma div_sign_pos a b : 0 <= a * b -> 0 <= a / b.
Proof.
  intros H. destruct (Req_dec b 0) as [->|Hb].
  - unfold Rdiv. rewrite Rinv_0. lra.
  - replace (a / b) with (a * b * (/ b * / b)) by (field; assumption).
    apply Rmult_le_pos; [assumption|]. apply Rle_0_sqr.
Qed.
Lemma div_sign_neg a b : a * b <= 0 -> a / b <= 0.
Proof.
  intros H. assert (0 <= - a / b) by (apply div_sign_pos; lra).
  unfold Rdiv in *. lra.
Qed.

Lemma fdiv_finite x y : is_finite x = true -> is_finite y = true -> fR y <> 0 ->
  (Rabs (rnd (fR x / fR y)) < big /\ fR (fdiv x y) = rnd (fR x / fR y)
     /\ is_finite (fdiv x y) = true)
  \/ (big <= rnd (fR x / fR y) /\ fdiv x y = finf)
  \/ (rnd (fR x / fR y) <= - big /\ fdiv x y = fninf).
Proof.
  intros Fx Fy Hy. pose proof (Bdiv_correct 24 128 _ _ mode_NE x y Hy) as H.
  change (round_mode mode_NE) with ZnearestE in H.
  destruct (Rlt_bool_spec (Rabs (rnd (fR x / fR y))) big) as [Hlt|Hge].
  - left. destruct H as (H1 & H2 & _). unfold fdiv. rewrite H2, Fx. auto.
  - right. unfold binary_overflow in H. cbn [overflow_to_inf] in H.
    apply B2SF_inf in H. unfold fdiv. rewrite H.
    destruct (xorb (Bsign x) (Bsign y)) eqn:S.
    + right. split; [|reflexivity]. apply sign_xor_le in S; try assumption.
      rewrite Rabs_left1 in Hge by (apply rnd_neg, div_sign_neg, S). lra.
    + left. split; [|reflexivity]. apply sign_xor_ge in S; try assumption.
      rewrite Rabs_pos_eq in Hge by (apply rnd_pos, div_sign_pos, S). lra.
Qed.

(** A uniform formulation: the result's position is the rounded value, clamped. *)
Definition clampX (r : R) : R := Rmax (- big) (Rmin big r).

Lemma clampX_mono a b : a <= b -> clampX a <= clampX b.
Proof.
  intros H. unfold clampX. apply Rle_max_compat_l. apply Rle_min_compat_l. exact H.
Qed.
Lemma clampX_id r : - big <= r <= big -> clampX r = r.
Proof. intros H. unfold clampX. rewrite Rmin_right, Rmax_right; lra. Qed.

Lemma fadd_X x y : is_finite x = true -> is_finite y = true ->
  fX (fadd x y) = clampX (rnd (fR x + fR y)) /\ is_nan (fadd x y) = false.
Proof.
  intros Fx Fy. pose proof big_pos.
  destruct (fadd_finite x y Fx Fy) as [(Hb & Hr & Hf)|[(Hb & Hr)|(Hb & Hr)]].
  - rewrite fX_finite, Hr by assumption. split; [|apply finite_not_nan, Hf].
    symmetry; apply clampX_id. apply Rabs_lt_inv in Hb. lra.
  - rewrite Hr. split; [|reflexivity]. cbn [fX finf fninf]. unfold finf, fninf, fX, clampX. rewrite Rmin_left, Rmax_right; lra.
  - rewrite Hr. split; [|reflexivity]. cbn [fX finf fninf]. unfold finf, fninf, fX, clampX. rewrite Rmin_right, Rmax_left; lra.
Qed.

Lemma fsub_X x y : is_finite x = true -> is_finite y = true ->
  fX (fsub x y) = clampX (rnd (fR x - fR y)) /\ is_nan (fsub x y) = false.
Proof.
  intros Fx Fy. pose proof big_pos.
  destruct (fsub_finite x y Fx Fy) as [(Hb & Hr & Hf)|[(Hb & Hr)|(Hb & Hr)]].
  - rewrite fX_finite, Hr by assumption. split; [|apply finite_not_nan, Hf].
    symmetry; apply clampX_id. apply Rabs_lt_inv in Hb. lra.
  - rewrite Hr. split; [|reflexivity]. cbn [fX finf fninf]. unfold finf, fninf, fX, clampX. rewrite Rmin_left, Rmax_right; lra.
  - rewrite Hr. split; [|reflexivity]. cbn [fX finf fninf]. unfold finf, fninf, fX, clampX. rewrite Rmin_right, Rmax_left; lra.
Qed.

Lemma fmul_X x y : is_finite x = true -> is_finite y = true ->
  fX (fmul x y) = clampX (rnd (fR x * fR y)) /\ is_nan (fmul x y) = false.
Proof.
  intros Fx Fy. pose proof big_pos.
  destruct (fmul_finite x y Fx Fy) as [(Hb & Hr & Hf)|[(Hb & Hr)|(Hb & Hr)]].
  - rewrite fX_finite, Hr by assumption. split; [|apply finite_not_nan, Hf].
    symmetry; apply clampX_id. apply Rabs_lt_inv in Hb. lra.
  - rewrite Hr. split; [|reflexivity]. cbn [fX finf fninf]. unfold finf, fninf, fX, clampX. rewrite Rmin_left, Rmax_right; lra.
  - rewrite Hr. split; [|reflexivity]. cbn [fX finf fninf]. unfold finf, fninf, fX, clampX. rewrite Rmin_right, Rmax_left; lra.
Qed.

Lemma fdiv_X x y : is_finite x = true -> is_finite y = true -> fR y <> 0 ->
  fX (fdiv x y) = clampX (rnd (fR x / fR y)) /\ is_nan (fdiv x y) = false.
Proof.
  intros Fx Fy Hy. pose proof big_pos.
  destruct (fdiv_finite x y Fx Fy Hy) as [(Hb & Hr & Hf)|[(Hb & Hr)|(Hb & Hr)]].
  - rewrite fX_finite, Hr by assumption. split; [|apply finite_not_nan, Hf].
    symmetry; apply clampX_id. apply Rabs_lt_inv in Hb. lra.
  - rewrite Hr. split; [|reflexivity]. cbn [fX finf fninf]. unfold finf, fninf, fX, clampX. rewrite Rmin_left, Rmax_right; lra.
  - rewrite Hr. split; [|reflexivity]. cbn [fX finf fninf]. unfold finf, fninf, fX, clampX. rewrite Rmin_right, Rmax_left; lra.
Qed.

(** *** Integers and dyadic constants *)
Lemma fdy_exact m e : generic_format radix2 fexp32 (F2R (Float radix2 m e)) ->
  Rabs (F2R (Float radix2 m e)) < big ->
  fR (fdy m e) = F2R (Float radix2 m e) /\ is_finite (fdy m e) = true.
Proof.
  intros Hf Hb. pose proof (binary_normalize_correct 24 128 _ _ mode_NE m e false) as H.  cbv zeta in H.
  change (round_mode mode_NE) with ZnearestE in H.
  rewrite round_generic in H by (auto with typeclass_instances).
  rewrite Rlt_bool_true in H by assumption. destruct H as (H1 & H2 & _). auto.
Qed.

Lemma fZ_format z : (Z.abs z <= 2 ^ 24)%Z -> generic_format radix2 fexp32 (IZR z).
Proof.
  intros Hz. apply generic_format_FLT.
  destruct (Z.eq_dec (Z.abs z) (2 ^ 24)) as [E|N].
  - apply FLT_spec with (Float radix2 (Z.sgn z * 2 ^ 23) 1).
    + unfold F2R; cbn [Fnum Fexp]. change (bpow radix2 1) with 2. rewrite <- mult_IZR. f_equal.
      destruct z; cbn in *; lia.
    + cbn [Fnum]. rewrite Z.abs_mul. destruct z; cbn in *; lia.
    + cbn. lia.
  - apply FLT_spec with (Float radix2 z 0).
    + unfold F2R; cbn [Fnum Fexp]. change (bpow radix2 0) with 1. lra.
    + cbn in *; lia.
    + cbn; lia.
Qed.

Lemma fZ_exact z : (Z.abs z <= 2 ^ 24)%Z -> fR (fZ z) = IZR z /\ is_finite (fZ z) = true.
Proof.
  intros Hz. pose proof (fdy_exact z 0) as H.
  assert (E : F2R (Float radix2 z 0) = IZR z) by (unfold F2R; cbn; lra).
  rewrite E in H. apply H.
  - apply fZ_format, Hz.
  - rewrite <- abs_IZR. apply Rle_lt_trans with (IZR (2 ^ 24)); [apply IZR_le, Hz|].
    change (IZR (2 ^ 24)) with (IZR (radix2 ^ 24)). rewrite IZR_Zpower by lia. apply bpow_lt. lia.
Qed.

Lemma f1_R : fR f1 = 1.
Proof. apply fZ_exact. cbn; lia. Qed.
Lemma f1_finite : is_finite f1 = true.
Proof. apply fZ_exact. cbn; lia. Qed.
Lemma f0_R : fR f0 = 0.
Proof. reflexivity. Qed.

(** *** floor and round *)
Lemma ffloor_R x : fR (ffloor x) = IZR (Zfloor (fR x)) /\ is_finite (ffloor x) = is_finite x.
Proof.
  destruct (Bnearbyint_correct 24 128 _ mode_DN x) as (H1 & H2 & _). unfold ffloor.
  rewrite H1, H2. split; [|reflexivity].
  unfold round, F2R, scaled_mantissa. cbn. rewrite !Rmult_1_r. reflexivity.
Qed.

Lemma fround_R x : fR (fround x) = IZR (ZnearestA (fR x)) /\ is_finite (fround x) = is_finite x.
Proof.
  destruct (Bnearbyint_correct 24 128 _ mode_NA x) as (H1 & H2 & _). unfold fround.
  rewrite H1, H2. split; [|reflexivity].
  unfold round, F2R, scaled_mantissa. cbn. rewrite !Rmult_1_r. reflexivity.
Qed.

Lemma fceil_R x : fR (fceil x) = IZR (Zceil (fR x)) /\ is_finite (fceil x) = is_finite x.
Proof.
  destruct (Bnearbyint_correct 24 128 _ mode_UP x) as (H1 & H2 & _). unfold fceil.
  rewrite H1, H2. split; [|reflexivity].
  unfold round, F2R, scaled_mantissa. cbn. rewrite !Rmult_1_r. reflexivity.
Qed.

(** *** min, max, clamp *)
Lemma fclamp_range v lo hi :
  is_nan v = false -> is_finite lo = true -> is_finite hi = true -> fR lo <= fR hi ->
  is_finite (fclamp v lo hi) = true /\ fR lo <= fR (fclamp v lo hi) <= fR hi.
Proof.
  intros Nv Flo Fhi Hle.
  assert (Nlo := finite_not_nan _ Flo). assert (Nhi := finite_not_nan _ Fhi).
  unfold fclamp. destruct (flt v lo) eqn:E1.
  - split; [assumption|lra].
  - apply flt_false in E1; try assumption. destruct (flt hi v) eqn:E2.
    + split; [assumption|lra].
    + apply flt_false in E2; try assumption. rewrite (fX_finite lo) in E1 by assumption. rewrite (fX_finite hi) in E2 by assumption.
      assert (Fv : is_finite v = true).
      { destruct v as [|[]| |]; cbn [fX] in *; try discriminate; try reflexivity;
        pose proof (fR_bounds lo); pose proof (fR_bounds hi); lra. }
      rewrite fX_finite in E1, E2 by assumption. split; [assumption|lra].
Qed.

(** *** Constants *)
Lemma fR_const (x : f32) s m e : B2SF x = SpecFloat.S754_finite s m e ->
  fR x = F2R (Float radix2 (cond_Zopp s (Zpos m)) e) /\ is_finite x = true.
Proof.
  intros H. destruct x; cbn in H; try discriminate. injection H as -> -> ->. split; reflexivity.
Qed.

(** IEEE equality of a float with a finite non-zero one is identity. *)
Lemma feq_finite_inj x y : is_finite y = true -> fR y <> 0 -> feq x y = true -> x = y.
Proof.
  intros Fy Ny H. destruct (feq_not_nan _ _ H) as [Nx _].
  apply feq_spec in H; [|assumption|apply finite_not_nan, Fy].
  rewrite (fX_finite y) in H by assumption.
  assert (Fx : is_finite x = true).
  { destruct x as [|[]| |]; cbn [fX] in H; try discriminate; try reflexivity;
      pose proof (fR_bounds y); lra. }
  rewrite fX_finite in H by assumption.
  apply B2R_inj; [| |exact H].
  - destruct x; try discriminate; [|reflexivity]. cbn in H. congruence.
  - destruct y; try discriminate; [|reflexivity]. cbn in Ny. congruence.
Qed.

Lemma feq_refl x : is_nan x = false -> feq x x = true.
Proof. intros N. apply feq_spec; auto. Qed.
