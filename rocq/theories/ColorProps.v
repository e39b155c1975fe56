(** C48 (no NaN channel, alpha in range, gamut operations) and C49 (8-bit colors survive a round trip). *)
From Coq Require Import ZArith Bool Reals Lra Lia Psatz List.
From Flocq Require Import Core IEEE754.BinarySingleNaN.
From Verif Require Import F32 F32Lemmas F64 F64Lemmas NumModel ColorModel EasingBezier.
Import ListNotations.
Local Open Scope R_scope.

(** ** C48 *)
(** What the C standard (7.12.7.4, F.10.4.4) says about pow's NaNs: none for a base that is not negative *)
Definition pow_not_nan (pow : f64 -> f64 -> f64) : Prop :=
  forall x y, is_nan x = false -> Bsign x = false -> is_finite y = true -> is_nan (pow x y) = false.
(** Specification: no channel is NaN, alpha is in [0, 1] *)
Definition number (x : f32) : Prop := is_nan x = false.
Definition in_unit (x : f32) : Prop := is_finite x = true /\ 0 <= fR x <= 1.
Definition rgba_ok (v : rgba) : Prop := number (red v) /\ number (green v) /\ number (blue v) /\ in_unit (alpha v).
Definition color_ok (c : color) : Prop := rgba_ok (chan c).
Definition bright (x : f32) : Prop := x = B754_infinity false.

Lemma dconst (x : f64) s m e : B2SF x = SpecFloat.S754_finite s m e -> dR x = F2R (Float radix2 (cond_Zopp s (Zpos m)) e) /\ is_finite x = true.
Proof. intros H. destruct x; cbn in H; try discriminate. injection H as -> -> ->. split; reflexivity. Qed.
Ltac dcst x := let v := eval vm_compute in (B2SF x) in
  match v with SpecFloat.S754_finite ?s ?m ?e => pose proof (dconst x s m e ltac:(vm_compute; reflexivity)) end.
Ltac dval x := dcst x; match goal with H : dR _ = _ /\ _ |- _ => destruct H as [-> ->] end; split; [unfold F2R; cbn -[IZR]; lra|reflexivity].
Lemma a_val : dR srgb_a = 266800925792091 / 281474976710656 /\ is_finite srgb_a = true. Proof. dval srgb_a. Qed.
Lemma b_val : dR srgb_b = 7513114070305283 / 144115188075855872 /\ is_finite srgb_b = true. Proof. dval srgb_b. Qed.
Lemma c_val : dR srgb_c = 43571977818987 / 562949953421312 /\ is_finite srgb_c = true. Proof. dval srgb_c. Qed.
Lemma d_val : dR srgb_d = 2914729678834185 / 72057594037927936 /\ is_finite srgb_d = true. Proof. dval srgb_d. Qed.
Lemma g_val : dR srgb_g = 5404319552844595 / 2251799813685248 /\ is_finite srgb_g = true. Proof. dval srgb_g. Qed.
Lemma gi_val : dR (ddiv (dZ 1) srgb_g) = 7505999378950827 / 18014398509481984 /\ is_finite (ddiv (dZ 1) srgb_g) = true. Proof. dval (ddiv (dZ 1) srgb_g). Qed.
Lemma cd_val : dR (dmul srgb_c srgb_d) = 7219144715378787 / 2305843009213693952 /\ is_finite (dmul srgb_c srgb_d) = true. Proof. dval (dmul srgb_c srgb_d). Qed.

Lemma unit_clamp (x : f32) : number x -> in_unit (fclamp x f0 f1).
Proof. intros H. destruct (fclamp_range x f0 f1 H eq_refl f1_finite) as [A B]; rewrite ?f0_R, ?f1_R in *; [lra|]. split; assumption. Qed.
Lemma nan_zero (x : f32) : number (nan_to_zero x).
Proof. unfold nan_to_zero, number, fisnan. destruct (is_nan x) eqn:N; [reflexivity|exact N]. Qed.
Lemma unit_number (x : f32) : in_unit x -> number x.
Proof. intros [F _]. apply finite_not_nan, F. Qed.

Section WithPow.
Variable pow : f64 -> f64 -> f64.
Hypothesis PW : pow_not_nan pow.
Lemma decode_number (x : f32) : number x -> number (gamma_decode pow x).
Proof.
  unfold number. intros N. unfold gamma_decode. destruct a_val as [Va Fa], b_val as [Vb Fb], c_val as [Vc Fc], d_val as [Vd Fd], g_val as [_ Fg].
  assert (N' : is_nan (of_f32 x) = false) by (rewrite of_f32_ok; exact N). unfold dlt. destruct (Bltb (of_f32 x) srgb_d) eqn:L; rewrite to_f32_ok.
  - apply (mult_ok_l 53 1024 _ _ srgb_c (of_f32 x) Fc); [rewrite Vc; lra|exact N'].
  - assert (S : Bsign (of_f32 x) = false) by (apply (not_below 53 1024 _ srgb_d N' Fd); [rewrite Vd; lra|exact L]).
    assert (M : is_nan (dmul srgb_a (of_f32 x)) = false /\ Bsign (dmul srgb_a (of_f32 x)) = xorb (Bsign srgb_a) (Bsign (of_f32 x))) by (apply (mult_ok_l 53 1024 _ _ srgb_a (of_f32 x) Fa); [rewrite Va; lra|exact N']).
    assert (Sa : Bsign srgb_a = false) by (vm_compute; reflexivity). rewrite Sa, S in M.
    destruct M as [M1 M2]. destruct (plus_ok 53 1024 _ _ (dmul srgb_a (of_f32 x)) srgb_b M1 Fb) as [Q1 Q2]. apply PW; [exact Q1|apply Q2; [exact M2|rewrite Vb; lra]|exact Fg].
Qed.
Lemma encode_number (x : f32) : number x -> number (gamma_encode pow x).
Proof.
  unfold number. intros N. unfold gamma_encode. destruct a_val as [Va Fa], b_val as [Vb Fb], c_val as [Vc Fc], cd_val as [Vd Fd], gi_val as [_ Fg].
  assert (N' : is_nan (of_f32 x) = false) by (rewrite of_f32_ok; exact N). unfold dlt. destruct (Bltb (of_f32 x) (dmul srgb_c srgb_d)) eqn:L; rewrite to_f32_ok.
  - apply (div_ok 53 1024); [exact N'|exact Fc|rewrite Vc; lra].
  - assert (S : Bsign (of_f32 x) = false) by (apply (not_below 53 1024 _ (dmul srgb_c srgb_d) N' Fd); [rewrite Vd; lra|exact L]).
    apply (div_ok 53 1024); [|exact Fa|rewrite Va; lra]. apply (minus_ok 53 1024); [|exact Fb]. apply PW; assumption.
Qed.
Lemma div_number (x y : f32) : number x -> in_unit y -> fR y <> 0 -> number (fdiv x y).
Proof. intros N [F _] Y. apply (div_ok 24 128); assumption. Qed.
Lemma from_float_ok r g b a f s c : from_float pow r g b a f s = Some c -> color_ok c.
Proof.
  unfold from_float, color_ok, rgba_ok. pose proof (nan_zero r) as R1. pose proof (nan_zero g) as G1. pose proof (nan_zero b) as B1. pose proof (unit_clamp _ (nan_zero a)) as A1.
  set (r1 := nan_to_zero r) in *. set (g1 := nan_to_zero g) in *. set (b1 := nan_to_zero b) in *. set (a1 := fclamp (nan_to_zero a) f0 f1) in *. destruct f; intros H.
  - injection H as <-. auto.
  - injection H as <-. cbn [chan red green blue alpha]. auto using decode_number.
  - destruct (feq a1 f0 && _); [discriminate|]. destruct (fne a1 f0) eqn:Q; injection H as <-; cbn [chan red green blue alpha]; auto.
    assert (Z : fR a1 <> 0).
    { intros Z. unfold fne in Q. apply negb_true_iff in Q. change (feq a1 f0 = false) in Q. rewrite <- not_true_iff_false in Q. apply Q. destruct A1 as [F _]. rewrite feq_spec by (try apply finite_not_nan; auto). rewrite !fX_finite by auto. rewrite Z, f0_R. reflexivity. }
    auto using div_number.
Qed.
(** Every color a user can get, except by ScaledToGamut on a color with an infinitely bright channel *)
Inductive made : color -> Prop :=
  | made_default : made default_color
  | made_float r g b a f s c : from_float pow r g b a f s = Some c -> made c
  | made_uint8 r g b a f s c : from_uint8 pow r g b a f s = Some c -> made c
  | made_packed v f s c : from_packed pow v f s = Some c -> made c
  | made_clamped c : made c -> made (clamped c)
  | made_scaled c : made c -> ~ bright (red (chan c)) -> ~ bright (green (chan c)) -> ~ bright (blue (chan c)) -> made (scaled c)
  | made_space c t c' : made c -> in_space pow c t = Some c' -> made c'
  | made_alpha c a c' : made c -> with_alpha pow c a = Some c' -> made c'.
Lemma from_uint8_ok r g b a f s c : from_uint8 pow r g b a f s = Some c -> color_ok c.
Proof. unfold from_uint8. destruct f; try apply from_float_ok. destruct (_ && _); [discriminate|apply from_float_ok]. Qed.
End WithPow.

(** order of floats *)
Lemma fmax_X (x y : f32) : number x -> number y -> number (fmax x y) /\ fX (fmax x y) = Rmax (fX x) (fX y) /\ (fmax x y = x \/ fmax x y = y).
Proof.
  unfold number, fmax. intros Nx Ny. destruct (flt x y) eqn:L.
  - apply flt_spec in L; [|assumption..]. rewrite Rmax_right by lra. auto.
  - apply (flt_false x y Nx Ny) in L. rewrite Rmax_left by lra. auto.
Qed.
Lemma clamped_ok c : color_ok c -> color_ok (clamped c) /\ in_unit (red (chan (clamped c))) /\ in_unit (green (chan (clamped c))) /\ in_unit (blue (chan (clamped c))).
Proof. intros (R1 & G1 & B1 & A1). unfold color_ok, rgba_ok, clamped. cbn [chan red green blue alpha]. auto 8 using unit_clamp, unit_number. Qed.
Lemma bright_X (x : f32) : number x -> ~ bright x -> fX x < big.
Proof.
  intros N B. destruct x as [s|[]| |s m e H]; try discriminate; cbn [fX].
  - cbn. apply big_pos.
  - pose proof big_pos. lra.
  - elim B. reflexivity.
  - apply (fR_bounds (B754_finite s m e H)).
Qed.
Lemma pos_finite (x : f32) : number x -> 0 <= fX x < big -> is_finite x = true.
Proof. intros N H. destruct x as [s|[]| |s m e B]; try discriminate; try reflexivity; cbn in H; pose proof big_pos; lra. Qed.
Lemma scale_unit (x m : f32) : is_finite x = true -> is_finite m = true -> 0 <= fR x <= fR m -> 1 < fR m -> in_unit (fdiv x m).
Proof.
  intros Fx Fm X M. assert (Q : 0 <= fR x / fR m <= 1). { split; [apply Rmult_le_pos; [lra|left; apply Rinv_0_lt_compat; lra]|]. apply (Rmult_le_reg_r (fR m)); [lra|]. unfold Rdiv. rewrite Rmult_assoc, Rinv_l by lra. lra. }
  assert (R1 : rnd 1 = 1) by (rewrite <- f1_R; apply rnd_fR). assert (0 <= rnd (fR x / fR m) <= 1) by (split; [apply rnd_pos; lra|rewrite <- R1; apply rnd_mono; lra]).
  assert (1 < big) by (change 1 with (bpow radix2 0); apply bpow_lt; lia). destruct (fdiv_finite x m Fx Fm ltac:(lra)) as [(A & C & D)|[(A & C)|(A & C)]]; [split; [exact D|rewrite C; lra]|lra|lra].
Qed.
Lemma scaled_ok c : color_ok c -> ~ bright (red (chan c)) -> ~ bright (green (chan c)) -> ~ bright (blue (chan c)) ->
  color_ok (scaled c) /\ in_unit (red (chan (scaled c))) /\ in_unit (green (chan (scaled c))) /\ in_unit (blue (chan (scaled c))).
Proof.
  intros (R1 & G1 & B1 & A1) R2 G2 B2. assert (N0 : number f0) by reflexivity. assert (X0 : fX f0 = 0) by (rewrite fX_finite by reflexivity; apply f0_R). assert (N1 : number f1) by (apply finite_not_nan, f1_finite). assert (X1 : fX f1 = 1) by (rewrite fX_finite by apply f1_finite; apply f1_R).
  pose proof (fmax_X f0 _ N0 R1) as (R3 & R4 & _). pose proof (fmax_X f0 _ N0 G1) as (G3 & G4 & _). pose proof (fmax_X f0 _ N0 B1) as (B3 & B4 & _). pose proof (fmax_X f0 _ N0 (unit_number _ A1)) as (A3 & A4 & A5).
  apply (bright_X _ R1) in R2. apply (bright_X _ G1) in G2. apply (bright_X _ B1) in B2. unfold scaled.
  set (r := fmax f0 (red (chan c))) in *. set (g := fmax f0 (green (chan c))) in *. set (b := fmax f0 (blue (chan c))) in *. set (a := fmax f0 (alpha (chan c))) in *.
  pose proof (fmax_X g b G3 B3) as (K3 & K4 & _). pose proof (fmax_X r _ R3 K3) as (M3 & M4 & _). set (m := fmax r (fmax g b)) in *. rewrite X0 in *. pose proof big_pos as BP.
  assert (Hr : 0 <= fX r < big) by (rewrite R4; split; [apply Rmax_l|apply Rmax_lub_lt; assumption]). assert (Hg : 0 <= fX g < big) by (rewrite G4; split; [apply Rmax_l|apply Rmax_lub_lt; assumption]). assert (Hb : 0 <= fX b < big) by (rewrite B4; split; [apply Rmax_l|apply Rmax_lub_lt; assumption]).
  assert (Hm : 0 <= fX m < big) by (rewrite M4, K4; split; [eapply Rle_trans; [apply (proj1 Hr)|apply Rmax_l]|repeat apply Rmax_lub_lt; lra]).
  pose proof (pos_finite r R3 Hr) as Fr. pose proof (pos_finite g G3 Hg) as Fg. pose proof (pos_finite b B3 Hb) as Fb. pose proof (pos_finite m M3 Hm) as Fm.
  assert (Lr : fR r <= fR m) by (rewrite <- !fX_finite by assumption; rewrite M4; apply Rmax_l). assert (Lg : fR g <= fR m) by (rewrite <- !fX_finite by assumption; rewrite M4, K4; eapply Rle_trans; [|apply Rmax_r]; apply Rmax_l). assert (Lb : fR b <= fR m) by (rewrite <- !fX_finite by assumption; rewrite M4, K4; eapply Rle_trans; [|apply Rmax_r]; apply Rmax_r).
  rewrite fX_finite in Hr, Hg, Hb, Hm by assumption.
  assert (UA : in_unit (fmin f1 a)).
  { destruct A1 as [FA BA]. assert (Fa : is_finite a = true) by (destruct A5 as [-> | ->]; [reflexivity|exact FA]). rewrite fX_finite, (fX_finite (alpha (chan c))) in A4 by assumption. rewrite Rmax_right in A4 by lra.
    unfold fmin. destruct (flt a f1); [split; [exact Fa|rewrite A4; exact BA]|split; [apply f1_finite|rewrite f1_R; lra]]. }
  unfold fgt. destruct (Bltb f1 m) eqn:Q.
  - change (flt f1 m = true) in Q. apply flt_spec in Q; [|assumption..]. rewrite X1, fX_finite in Q by assumption.
    assert (Ur : in_unit (fdiv r m)) by (apply scale_unit; auto; lra). assert (Ug : in_unit (fdiv g m)) by (apply scale_unit; auto; lra). assert (Ub : in_unit (fdiv b m)) by (apply scale_unit; auto; lra).
    unfold color_ok, rgba_ok. cbn [chan red green blue alpha]. auto 10 using unit_number.
  - change (flt f1 m = false) in Q. apply flt_false in Q; [|assumption..]. rewrite X1, fX_finite in Q by assumption. unfold color_ok, rgba_ok, in_unit. cbn [chan red green blue alpha]. destruct UA. repeat split; auto; lra.
Qed.
Lemma X0 : fX f0 = 0. Proof. rewrite fX_finite by reflexivity. apply f0_R. Qed.
Lemma X1 : fX f1 = 1. Proof. rewrite fX_finite by apply f1_finite. apply f1_R. Qed.
Lemma N1 : is_nan f1 = false. Proof. apply finite_not_nan, f1_finite. Qed.
Lemma unit_zero (x : f32) : in_unit x -> (feq x f0 = true <-> fR x = 0).
Proof. intros [F _]. rewrite feq_spec by (try apply finite_not_nan; auto). rewrite X0, fX_finite by exact F. reflexivity. Qed.
Lemma clamp_zero (x : f32) : number x -> (fX (fclamp x f0 f1) = 0 <-> fX x <= 0).
Proof.
  intros N. unfold fclamp. destruct (flt x f0) eqn:L1.
  - apply flt_spec in L1; [|exact N|reflexivity]. rewrite X0 in *. lra.
  - apply flt_false in L1; [|exact N|reflexivity]. rewrite X0 in L1. destruct (flt f1 x) eqn:L2.
    + apply flt_spec in L2; [|exact N1|exact N]. rewrite X1 in *. lra.
    + lra.
Qed.
Lemma fround_number (x : f32) : number x -> number (fround x).
Proof. unfold number. intros N. destruct (is_finite x) eqn:F; [apply finite_not_nan; rewrite (proj2 (fround_R x)); exact F|]. destruct x; try discriminate. reflexivity. Qed.
Lemma to_uint8_ok (x : f32) : number x -> exists r, to_uint8 x = Some r /\ (0 <= r <= 255)%Z.
Proof.
  intros N. unfold to_uint8. assert (M : number (fmul (fZ 255) x)). { apply (mult_ok_l 24 128); [apply fZ_exact; lia| |exact N]. change (fR (fZ 255) <> 0). rewrite (proj1 (fZ_exact 255 ltac:(lia))). lra. }
  destruct (fclamp_range (fround (fmul (fZ 255) x)) f0 (fZ 255) (fround_number _ M) eq_refl (proj2 (fZ_exact 255 ltac:(lia)))) as [F B]; rewrite f0_R, (proj1 (fZ_exact 255 ltac:(lia))) in *; [lra|].
  unfold fisnan. rewrite (finite_not_nan _ F). eexists. split; [reflexivity|]. destruct (ftoZ_spec _ (proj1 B)) as [P Q]. split; [apply Z.lt_succ_r, lt_IZR; rewrite succ_IZR; lra|apply le_IZR; lra].
Qed.
Lemma unit_in_gamut (x : f32) : in_unit x -> flt x f0 = false /\ fgt x f1 = false.
Proof. intros U. pose proof (unit_number _ U) as N. unfold fgt. split; [apply flt_false|change (flt f1 x = false); apply flt_false]; try assumption; try reflexivity; try apply N1; rewrite ?X0, ?X1, fX_finite by apply U; destruct U; lra. Qed.
Lemma gamut_spec c : in_unit (red (chan c)) -> in_unit (green (chan c)) -> in_unit (blue (chan c)) -> in_gamut c = true.
Proof. intros A B C. apply unit_in_gamut in A, B, C. destruct A as [A1 A2], B as [B1 B2], C as [C1 C2]. unfold in_gamut. rewrite A1, A2, B1, B2, C1, C2. reflexivity. Qed.
Section C48.
Variable pow : f64 -> f64 -> f64.
Hypothesis PW : pow_not_nan pow.
Theorem C48_invariant c : made pow c -> color_ok c.
Proof.
  induction 1 as [| | | | | |c t c' H IH E|c a c' H IH E].
  - repeat split; try reflexivity; try apply f1_finite; cbn [chan alpha default_color]; rewrite f1_R; lra.
  - eapply from_float_ok; eassumption.
  - eapply from_uint8_ok; eassumption.
  - eapply from_uint8_ok; eassumption.
  - apply clamped_ok; assumption.
  - apply scaled_ok; assumption.
  - unfold in_space in E. eapply from_float_ok; eassumption.
  - unfold with_alpha in E. eapply from_float_ok; eassumption.
Qed.
(** Reading a color in any format gives numbers and an alpha in [0, 1] *)
Theorem C48_as_float c f : made pow c -> rgba_ok (as_float pow c f).
Proof.
  intros M. apply C48_invariant in M. destruct M as (R1 & G1 & B1 & A1). destruct f; unfold rgba_ok, as_float.
  - auto.
  - cbn [red green blue alpha]. auto using encode_number.
  - destruct (feq (alpha (chan c)) f0) eqn:Q; cbn [red green blue alpha]; [split; [|split; [|split]]; auto; reflexivity|].
    assert (Z : fR (alpha (chan c)) <> 0). { intros Z. rewrite <- not_true_iff_false in Q. apply Q, (unit_zero _ A1). exact Z. }
    destruct A1 as [FA BA]. assert (K : forall x : f32, number x -> number (fmul x (alpha (chan c)))) by (intros x N; apply (mult_ok 24 128); assumption). split; [|split; [|split]]; auto. split; assumption.
Qed.
(** Reading a color as bytes never fails *)
Theorem C48_as_uint8 c f : made pow c -> exists r g b a, as_uint8 pow c f = Some (r, g, b, a) /\
  (0 <= r <= 255 /\ 0 <= g <= 255 /\ 0 <= b <= 255 /\ 0 <= a <= 255)%Z.
Proof.
  intros M. apply (C48_as_float c f) in M. destruct M as (R1 & G1 & B1 & A1). unfold as_uint8.
  destruct (to_uint8_ok _ R1) as (r & -> & Hr), (to_uint8_ok _ G1) as (g & -> & Hg), (to_uint8_ok _ B1) as (b & -> & Hb), (to_uint8_ok _ (unit_number _ A1)) as (a & -> & Ha).
  exists r, g, b, a. auto.
Qed.
(** Only a premultiplied color with alpha not above zero and a color that is not black is refused *)
Theorem C48_refused r g b a f s : from_float pow r g b a f s = None <->
  f = kPremultipliedAlpha /\ (is_nan a = true \/ fX a <= 0) /\ exists x, (x = r \/ x = g \/ x = b) /\ is_nan x = false /\ fX x <> 0.
Proof.
  unfold from_float. pose proof (unit_clamp _ (nan_zero a)) as U.
  destruct f; try (split; [discriminate|intros [K _]; discriminate]).
  assert (Z : feq (fclamp (nan_to_zero a) f0 f1) f0 = true <-> is_nan a = true \/ fX a <= 0).
  { rewrite (unit_zero _ U), <- fX_finite by apply U. rewrite clamp_zero by apply nan_zero. unfold nan_to_zero, fisnan. destruct (is_nan a); [rewrite X0|]; split; intros; auto; try lra. }
  assert (NZ : forall x : f32, fne (nan_to_zero x) f0 = true <-> is_nan x = false /\ fX x <> 0).
  { intros x. unfold fne, nan_to_zero, fisnan. rewrite negb_true_iff, <- not_true_iff_false. destruct (is_nan x) eqn:N; [split; [intros K; elim K; reflexivity|intros [K _]; discriminate]|]. change (feq x f0 <> true <-> false = false /\ fX x <> 0). rewrite feq_spec by (try exact N; reflexivity). rewrite X0. tauto. }
  destruct (feq (fclamp (nan_to_zero a) f0 f1) f0) eqn:Q; cbn [andb].
  - destruct (fne (nan_to_zero r) f0 || fne (nan_to_zero g) f0 || fne (nan_to_zero b) f0) eqn:N.
    + split; [intros _|reflexivity]. split; [reflexivity|]. split; [apply Z; reflexivity|]. rewrite !orb_true_iff in N. destruct N as [[N|N]|N]; apply NZ in N; eauto.
    + split; [match goal with |- (if ?b then _ else _) = None -> _ => destruct b; discriminate end|]. intros (_ & _ & x & I & J). apply NZ in J. rewrite !orb_false_iff in N. destruct N as [[N1 N2] N3], I as [-> | [-> | ->]]; congruence.
  - split; [match goal with |- (if ?b then _ else _) = None -> _ => destruct b; discriminate end|]. intros (_ & K & _). apply Z in K. discriminate.
Qed.
End C48.
(** ClampedToGamut and ScaledToGamut give colors in gamut *)
Theorem C48_clamped c : color_ok c -> in_gamut (clamped c) = true /\ in_unit (red (chan (clamped c))) /\ in_unit (green (chan (clamped c))) /\ in_unit (blue (chan (clamped c))).
Proof. intros H. destruct (clamped_ok c H) as (A & B & C & D). auto using gamut_spec. Qed.
Theorem C48_scaled c : color_ok c -> ~ bright (red (chan c)) -> ~ bright (green (chan c)) -> ~ bright (blue (chan c)) ->
  in_gamut (scaled c) = true /\ in_unit (red (chan (scaled c))) /\ in_unit (green (chan (scaled c))) /\ in_unit (blue (chan (scaled c))).
Proof. intros H R2 G2 B2. destruct (scaled_ok c H R2 G2 B2) as (A & B & C & D). auto using gamut_spec. Qed.
(** Both leave a color in gamut as it was, but for the sign of a zero *)
Theorem C48_gamut_kept c : color_ok c -> in_gamut c = true -> color_eqb (clamped c) c = true /\ color_eqb (scaled c) c = true.
Proof.
  intros (R1 & G1 & B1 & A1) H. unfold in_gamut in H. rewrite negb_true_iff, !orb_false_iff in H. destruct H as [[[R2 R3] [G2 G3]] [B2 B3]].
  assert (K : forall x : f32, number x -> flt x f0 = false -> fgt x f1 = false -> fclamp x f0 f1 = x /\ 0 <= fX x <= 1).
  { intros x N L1 L2. unfold fclamp. unfold fgt in L2. change (flt f1 x = false) in L2. rewrite L1, L2. apply flt_false in L1, L2; try exact N; try reflexivity; try exact N1. rewrite X0, X1 in *. auto. }
  assert (RF : forall x : f32, number x -> feq x x = true) by (intros x N; apply feq_spec; auto). pose proof (unit_in_gamut _ A1) as [A2 A3]. pose proof (unit_number _ A1) as A4.
  destruct (K _ R1 R2 R3) as [R4 R5], (K _ G1 G2 G3) as [G4 G5], (K _ B1 B2 B3) as [B4 B5], (K _ A4 A2 A3) as [A5 A6]. assert (S : space_eqb (cspace c) (cspace c) = true) by (destruct (cspace c); reflexivity). split.
  - unfold color_eqb, clamped. cbn [chan cspace red green blue alpha]. rewrite R4, G4, B4, A5, !RF, S by assumption. reflexivity.
  - unfold scaled. pose proof (fmax_X f0 _ (eq_refl : number f0) R1) as (R6 & R7 & _). pose proof (fmax_X f0 _ (eq_refl : number f0) G1) as (G6 & G7 & _). pose proof (fmax_X f0 _ (eq_refl : number f0) B1) as (B6 & B7 & _). pose proof (fmax_X f0 _ (eq_refl : number f0) A4) as (A7 & A8 & _). rewrite X0 in *.
    rewrite Rmax_right in R7, G7, B7, A8 by lra. pose proof (fmax_X _ _ G6 B6) as (M1 & M2 & _). pose proof (fmax_X _ _ R6 M1) as (M3 & M4 & _). rewrite M2, R7, G7, B7 in M4.
    assert (L : fgt (fmax (fmax f0 (red (chan c))) (fmax (fmax f0 (green (chan c))) (fmax f0 (blue (chan c))))) f1 = false).
    { unfold fgt. apply (flt_false f1); [exact N1|exact M3|]. rewrite M4, X1. repeat apply Rmax_lub; lra. }
    rewrite L. unfold color_eqb. cbn [chan cspace red green blue alpha]. rewrite S. rewrite !andb_true_iff. repeat split; try (apply feq_spec; assumption).
    unfold fmin. destruct (flt (fmax f0 (alpha (chan c))) f1) eqn:Q; [apply feq_spec; assumption|]. apply flt_false in Q; [|exact A7|exact N1]. rewrite A8, X1 in Q. apply feq_spec; [exact N1|exact A4|]. rewrite X1. lra.
Qed.
(** An infinitely bright channel becomes NaN *)
Theorem C48_scaled_refuted c : color_ok c ->
  (bright (red (chan c)) -> is_nan (red (chan (scaled c))) = true) /\ (bright (green (chan c)) -> is_nan (green (chan (scaled c))) = true) /\ (bright (blue (chan c)) -> is_nan (blue (chan (scaled c))) = true).
Proof.
  intros (R1 & G1 & B1 & A1). unfold scaled. pose proof (fmax_X f0 _ (eq_refl : number f0) R1) as (R6 & R7 & _). pose proof (fmax_X f0 _ (eq_refl : number f0) G1) as (G6 & G7 & _). pose proof (fmax_X f0 _ (eq_refl : number f0) B1) as (B6 & B7 & _).
  pose proof (fmax_X _ _ G6 B6) as (M1 & M2 & _). pose proof (fmax_X _ _ R6 M1) as (M3 & M4 & _). rewrite M2 in M4. rewrite X0 in *. pose proof big_pos as BP.
  set (r := fmax f0 (red (chan c))) in *. set (g := fmax f0 (green (chan c))) in *. set (b := fmax f0 (blue (chan c))) in *. set (m := fmax r (fmax g b)) in *.
  assert (I : forall x : f32, number x -> big <= fX x -> x = B754_infinity false). { intros x N H. destruct x as [s|[]| |s k e B]; try discriminate; try reflexivity; cbn [fX] in H; [cbn in H; lra|lra|]. pose proof (fR_bounds (B754_finite s k e B)) as K. lra. }
  assert (L : forall x : f32, bright x -> fX x = big) by (intros x ->; reflexivity).
  assert (B1' : 1 < big) by (change 1 with (bpow radix2 0); apply bpow_lt; lia).
  assert (P : big <= fX m -> fgt m f1 = true /\ m = B754_infinity false). { intros H. split; [|apply I; assumption]. unfold fgt. apply (flt_spec f1); [exact N1|exact M3|]. rewrite X1. lra. }
  split; [|split]; intros BR; apply L in BR.
  - assert (Er : r = B754_infinity false) by (apply I; [exact R6|rewrite R7, BR; apply Rmax_r]). destruct P as [-> Em]; [rewrite M4, R7, BR; eapply Rle_trans; [apply Rmax_r|apply Rmax_l]|]. cbn [chan red]. rewrite Em, Er. reflexivity.
  - assert (Er : g = B754_infinity false) by (apply I; [exact G6|rewrite G7, BR; apply Rmax_r]). destruct P as [-> Em]; [rewrite M4, G7, BR; eapply Rle_trans; [|apply Rmax_r]; eapply Rle_trans; [|apply Rmax_l]; apply Rmax_r|]. cbn [chan green]. rewrite Em, Er. reflexivity.
  - assert (Er : b = B754_infinity false) by (apply I; [exact B6|rewrite B7, BR; apply Rmax_r]). destruct P as [-> Em]; [rewrite M4, B7, BR; eapply Rle_trans; [|apply Rmax_r]; eapply Rle_trans; [|apply Rmax_r]; apply Rmax_r|]. cbn [chan blue]. rewrite Em, Er. reflexivity.
Qed.
(** Cases *)
Definition pow_any (x _ : f64) : f64 := x.
Lemma pow_any_ok : pow_not_nan pow_any. Proof. intros x y H _ _. exact H. Qed.
Definition sunlit (s : space) : color := Color (RGBA finf fninf f0 f1) s.
Example c48_made : made pow_any (Color (RGBA f0 f0 f0 f0) kSrgb) /\ made pow_any (sunlit kSrgb) /\ made pow_any (clamped (sunlit kSrgb)).
Proof.
  assert (M : made pow_any (sunlit kSrgb)) by (apply (made_float pow_any finf fninf f0 f1 kLinear kSrgb); reflexivity).
  split; [apply (made_float pow_any f0 fnan f0 fnan kPremultipliedAlpha kSrgb); reflexivity|]. split; [exact M|apply made_clamped, M].
Qed.
(** so the invariant does not extend to ScaledToGamut on every color a user can make *)
Theorem C48_scaled_made_refuted : exists c, made pow_any c /\ ~ color_ok (scaled c) /\ in_gamut (scaled c) = true.
Proof.
  exists (sunlit kSrgb). split; [apply c48_made|]. split; [|reflexivity]. intros (K & _). pose proof (proj1 (C48_scaled_refuted (sunlit kSrgb) (C48_invariant pow_any pow_any_ok _ (proj1 (proj2 c48_made)))) eq_refl) as N. unfold number in K. congruence.
Qed.
Example c48_refused : from_float pow_any f1 f0 f0 fnan kPremultipliedAlpha kSrgb = None. Proof. reflexivity. Qed.
Print Assumptions C48_invariant.
Print Assumptions C48_as_float.
Print Assumptions C48_as_uint8.
Print Assumptions C48_refused.
Print Assumptions C48_clamped.
Print Assumptions C48_scaled.
Print Assumptions C48_gamut_kept.
Print Assumptions C48_scaled_refuted.
Print Assumptions C48_scaled_made_refuted.
