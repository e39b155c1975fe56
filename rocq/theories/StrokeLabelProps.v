(** C62: the labels of stroke vertices. *)
From Coq Require Import ZArith Bool Reals Lia Lra List.
From Flocq Require Import Core BinarySingleNaN.
From Verif Require Import F32 F32Lemmas F32Round StrokeVertexModel StrokeVertexSpec.
Import ListNotations.
Local Open Scope R_scope.

Lemma rnd_Z z : (Z.abs z <= 2 ^ 24)%Z -> rnd (IZR z) = IZR z.
Proof. intros H. destruct (fZ_exact z H) as (R & _). rewrite <- R. apply rnd_fR. Qed.
Lemma rnd_le_Z x z : (Z.abs z <= 2 ^ 24)%Z -> x <= IZR z -> rnd x <= IZR z.
Proof. intros H L. apply rnd_mono in L. rewrite (rnd_Z z H) in L. exact L. Qed.
(** what a margin becomes before it is cut to a whole number *)
Definition grade (r : R) : R := rnd (1 + rnd (126 * rnd (r / 4))).
Lemma grade_mono r s : r <= s -> grade r <= grade s.
Proof. intros H. unfold grade. apply rnd_mono, Rplus_le_compat_l, rnd_mono, Rmult_le_compat_l; [lra|]. apply rnd_mono. lra. Qed.
Lemma grade_0 : grade 0 = 1.
Proof. unfold grade. replace (0 / 4) with 0 by lra. rewrite rnd_0, Rmult_0_r, rnd_0, Rplus_0_r. apply (rnd_Z 1). lia. Qed.
Lemma grade_4 : grade 4 = 127.
Proof. unfold grade. replace (4 / 4) with 1 by lra. rewrite (rnd_Z 1) by lia. rewrite Rmult_1_r, (rnd_Z 126) by lia. replace (1 + 126) with 127 by lra. apply (rnd_Z 127). lia. Qed.
Lemma grade_range r : 0 <= r <= 4 -> 1 <= grade r <= 127.
Proof. intros H. rewrite <- grade_0 at 1. rewrite <- grade_4. split; apply grade_mono; lra. Qed.
Lemma grade_near r : 0 <= r <= 4 -> Rabs (grade r - (1 + 126 * (r / 4))) <= / 65536.
Proof.
  intros H. unfold grade. assert (P : bpow radix2 0 = 1 /\ bpow radix2 7 = 128 /\ bpow radix2 (0 - 25) = / 33554432 /\ bpow radix2 (7 - 25) = / 262144) by (repeat split). destruct P as (P0 & P7 & P25 & P18).
  assert (E1 : Rabs (rnd (r / 4) - r / 4) <= / 33554432) by (rewrite <- P25; apply rnd_abs; [lia|rewrite P0, Rabs_pos_eq; lra]).
  assert (B1 : 0 <= rnd (r / 4) <= 1) by (split; [apply rnd_pos; lra|apply (rnd_le_Z _ 1); [lia|lra]]).
  assert (E2 : Rabs (rnd (126 * rnd (r / 4)) - 126 * rnd (r / 4)) <= / 262144) by (rewrite <- P18; apply rnd_abs; [lia|rewrite P7, Rabs_pos_eq; lra]).
  assert (B2 : 0 <= rnd (126 * rnd (r / 4)) <= 126) by (split; [apply rnd_pos; lra|apply (rnd_le_Z _ 126); [lia|lra]]).
  assert (E3 : Rabs (rnd (1 + rnd (126 * rnd (r / 4))) - (1 + rnd (126 * rnd (r / 4)))) <= / 262144) by (rewrite <- P18; apply rnd_abs; [lia|rewrite P7, Rabs_pos_eq; lra]).
  apply Rabs_le_inv in E1, E2, E3. apply Rabs_le. lra.
Qed.
Lemma small_safe x : Rabs x <= 1024 -> Rabs x <= bpow radix2 120.
Proof. intros H. eapply Rle_trans; [exact H|]. change 1024 with (bpow radix2 10). apply bpow_le. lia. Qed.
Lemma encode_value (x : f32) : is_finite x = true -> 0 <= fR x <= 4 ->
  is_finite (linear_map x (f0, kMaximumMargin) encoded_range) = true /\ fR (linear_map x (f0, kMaximumMargin) encoded_range) = grade (fR x).
Proof.
  intros F B. unfold linear_map, finverse_lerp, flerp, encoded_range, kMaximumMargin. cbn [fst snd].
  destruct (fZ_exact 4) as (R4 & F4); [lia|]. destruct (fZ_exact 1) as (R1 & F1); [lia|]. destruct (fZ_exact 127) as (R7 & F7); [lia|].
  destruct (fsub_small (fZ 4) f0 F4 eq_refl) as (D4 & G4); [apply small_safe; rewrite R4, f0_R, Rabs_pos_eq; lra|]. rewrite R4, f0_R, Rminus_0_r, (rnd_Z 4) in D4 by lia.
  assert (Z4 : feq (fsub (fZ 4) f0) f0 = false).
  { destruct (feq (fsub (fZ 4) f0) f0) eqn:E; [|reflexivity]. apply feq_spec in E; [|apply finite_not_nan, G4|reflexivity]. rewrite (fX_finite _ G4), D4 in E. cbn in E. lra. }
  rewrite Z4. destruct (fsub_small x f0 F eq_refl) as (DX & GX); [apply small_safe; rewrite f0_R, Rabs_pos_eq; lra|]. rewrite f0_R, Rminus_0_r, rnd_fR in DX.
  destruct (fdiv_small (fsub x f0) (fsub (fZ 4) f0) GX G4) as (DQ & GQ); [rewrite D4; lra|apply small_safe; rewrite D4, DX, Rabs_pos_eq; lra|]. rewrite DX, D4 in DQ.
  assert (B1 : 0 <= rnd (fR x / 4) <= 1) by (split; [apply rnd_pos; lra|apply (rnd_le_Z _ 1); [lia|lra]]).
  destruct (fsub_small (fZ 127) (fZ 1) F7 F1) as (DW & GW); [apply small_safe; rewrite R7, R1, Rabs_pos_eq; lra|]. rewrite R7, R1 in DW. replace (127 - 1) with 126 in DW by lra. rewrite (rnd_Z 126) in DW by lia.
  destruct (fmul_small _ _ GW GQ) as (DM & GM); [apply small_safe; rewrite DW, DQ, Rabs_pos_eq; lra|]. rewrite DW, DQ in DM.
  assert (B2 : 0 <= rnd (126 * rnd (fR x / 4)) <= 126) by (split; [apply rnd_pos; lra|apply (rnd_le_Z _ 126); [lia|lra]]).
  destruct (fadd_small _ _ F1 GM) as (DA & GA); [apply small_safe; rewrite R1, DM, Rabs_pos_eq; lra|]. split; [exact GA|]. rewrite DA, R1, DM. reflexivity.
Qed.
(** the asked margin *)
Lemma clamp_asked (m : f32) x : asked m x -> is_finite (fclamp m f0 kMaximumMargin) = true /\ fR (fclamp m f0 kMaximumMargin) = x /\ 0 <= x <= 4.
Proof.
  destruct (fZ_exact 4) as (R4 & F4); [lia|]. unfold kMaximumMargin. intros [(-> & ->)|[(-> & ->)|(F & ->)]].
  - change (fclamp finf f0 (fZ 4)) with (fZ 4). rewrite R4, F4. repeat split; lra.
  - change (fclamp fninf f0 (fZ 4)) with f0. repeat split; cbn; lra.
  - unfold fclamp. pose proof (finite_not_nan _ F) as NM. destruct (flt m f0) eqn:E1.
    + apply flt_spec in E1; [|exact NM|reflexivity]. rewrite fX_finite in E1 by exact F. cbn [fX f0] in E1. split; [reflexivity|]. rewrite Rmax_left, Rmin_right by (rewrite ?f0_R in *; lra). rewrite f0_R. lra.
    + apply flt_false in E1; [|exact NM|reflexivity]. rewrite (fX_finite m) in E1 by exact F. cbn [fX f0] in E1. rewrite f0_R in E1. rewrite Rmax_right by lra. destruct (flt (fZ 4) m) eqn:E2.
      * apply flt_spec in E2; [|reflexivity|exact NM]. rewrite !fX_finite, R4 in E2 by assumption. rewrite Rmin_left by lra. rewrite R4, F4. repeat split; lra.
      * apply flt_false in E2; [|reflexivity|exact NM]. rewrite !fX_finite, R4 in E2 by assumption. rewrite Rmin_right by lra. repeat split; assumption || lra.
Qed.
(** the whole number that is kept *)
Definition kept_level (x : R) : Z := Zfloor (grade x).
Lemma kept_level_range x : 0 <= x <= 4 -> (1 <= kept_level x <= 127)%Z.
Proof. intros H. pose proof (grade_range x H) as G. unfold kept_level. split; [apply Zfloor_lub; apply G|]. rewrite <- (Zfloor_IZR 127). apply Zfloor_le. apply G. Qed.
Lemma lies_sign l s : lies l s -> outset_sign l = fZ s /\ feq l f0 = Z.eqb s 0.
Proof.
  intros [l' F H| |l' F H|l' F H|]; try (split; reflexivity); pose proof (finite_not_nan _ F) as NL; unfold outset_sign; change (fgt l' f0) with (flt f0 l').
  - assert (A : flt f0 l' = false) by (apply flt_false; [reflexivity|exact NL|rewrite (fX_finite l') by exact F; cbn [fX f0]; rewrite ?f0_R; lra]). assert (B : flt l' f0 = true) by (apply flt_spec; [exact NL|reflexivity|rewrite (fX_finite l') by exact F; cbn [fX f0]; rewrite ?f0_R; lra]). rewrite A, B. split; [reflexivity|].
    destruct (feq l' f0) eqn:E; [|reflexivity]. apply feq_spec in E; [|exact NL|reflexivity]. rewrite (fX_finite l') in E by exact F. cbn [fX f0] in E. rewrite ?f0_R in E. lra.
  - assert (A : flt f0 l' = false) by (apply flt_false; [reflexivity|exact NL|rewrite (fX_finite l') by exact F; cbn [fX f0]; rewrite ?f0_R; lra]). assert (B : flt l' f0 = false) by (apply flt_false; [exact NL|reflexivity|rewrite (fX_finite l') by exact F; cbn [fX f0]; rewrite ?f0_R; lra]). rewrite A, B. split; [reflexivity|].
    apply feq_spec; [exact NL|reflexivity|]. rewrite (fX_finite l') by exact F. cbn [fX f0]. rewrite ?f0_R. exact H.
  - assert (A : flt f0 l' = true) by (apply flt_spec; [reflexivity|exact NL|rewrite (fX_finite l') by exact F; cbn [fX f0]; rewrite ?f0_R; lra]). assert (B : flt l' f0 = false) by (apply flt_false; [exact NL|reflexivity|rewrite (fX_finite l') by exact F; cbn [fX f0]; rewrite ?f0_R; lra]). rewrite A, B. split; [reflexivity|].
    destruct (feq l' f0) eqn:E; [|reflexivity]. apply feq_spec in E; [|exact NL|reflexivity]. rewrite (fX_finite l') in E by exact F. cbn [fX f0] in E. rewrite ?f0_R in E. lra.
Qed.
Lemma with_margin_value l s m x : lies l s -> s <> 0%Z -> asked m x -> whole (with_margin l m) (s * kept_level x).
Proof.
  intros L S A. destruct (lies_sign l s L) as (SG & EQ). unfold with_margin. rewrite EQ. assert (N : (s =? 0)%Z = false) by (apply Z.eqb_neq, S). rewrite N, SG.
  destruct (clamp_asked m x A) as (FC & RC & B). rewrite <- RC in B. destruct (encode_value _ FC B) as (FE & RE). rewrite RC in RE, B. destruct (ffloor_R (linear_map (fclamp m f0 kMaximumMargin) (f0, kMaximumMargin) encoded_range)) as (RF & FF). rewrite FE in FF. rewrite RE in RF. fold (kept_level x) in RF.
  pose proof (kept_level_range x B) as K. assert (S1 : (Z.abs s <= 1)%Z) by (destruct L; lia). destruct (fZ_exact s) as (RS & FS); [lia|].
  assert (KR : 1 <= IZR (kept_level x) <= 127) by (split; apply IZR_le; lia). assert (SR : -1 <= IZR s <= 1) by (split; apply IZR_le; lia).
  destruct (fmul_small _ _ FS FF) as (RM & FM). { rewrite RS, RF. apply small_safe. rewrite <- mult_IZR, <- abs_IZR. apply IZR_le. rewrite Z.abs_mul. nia. }
  split; [exact FM|]. rewrite RM, RS, RF, <- mult_IZR. apply rnd_Z. rewrite Z.abs_mul. nia.
Qed.
(** WithMargin: the side stays, and the label becomes a whole number from 1 to 127 away from zero that tells the margin, cut off to
    [0, 4] and rounded down to the next multiple of 4/126; interior labels stay as they are *)
Theorem C62_encode l s m x : lies l s -> asked m x -> lies (with_margin l m) s /\
  (s = 0%Z -> with_margin l m = l) /\
  (s <> 0%Z -> exists k, (1 <= k <= 127)%Z /\ whole (with_margin l m) (s * k) /\ 126 * (x / 4) - / 65536 < IZR k <= 1 + 126 * (x / 4) + / 65536).
Proof.
  intros L A. destruct (clamp_asked m x A) as (_ & _ & B). pose proof (kept_level_range x B) as K. destruct (Z.eq_dec s 0) as [Z0|NZ].
  - assert (W : with_margin l m = l) by (unfold with_margin; rewrite (proj2 (lies_sign l s L)), Z0; reflexivity). rewrite W. repeat split; try assumption. intros; contradiction.
  - pose proof (with_margin_value l s m x L NZ A) as W. split; [|split; [contradiction|intros _; exists (kept_level x); split; [exact K|]; split; [exact W|]]].
    + destruct W as (F & R). assert (KR : 1 <= IZR (kept_level x)) by (apply IZR_le; lia). rewrite mult_IZR in R.
      assert (S : s = (-1)%Z \/ s = 1%Z) by (destruct L; auto; contradiction). destruct S as [-> | ->]; constructor; try assumption; rewrite R; lra.
    + pose proof (grade_near x B) as G. apply Rabs_le_inv in G. unfold kept_level. pose proof (Zfloor_lb (grade x)). pose proof (Zfloor_ub (grade x)). lra.
Qed.
Theorem C62_monotone l s m m' x x' : lies l s -> asked m x -> asked m' x' -> x <= x' ->
  exists k k', (0 <= k <= k')%Z /\ whole (with_margin l m) (s * k) /\ whole (with_margin l m') (s * k').
Proof.
  intros L A A' X. destruct (Z.eq_dec s 0) as [Z0|NZ].
  - exists 0%Z, 0%Z. assert (W : forall m, with_margin l m = l) by (intros; unfold with_margin; rewrite (proj2 (lies_sign l s L)), Z0; reflexivity). rewrite !W, Z.mul_0_r. split; [lia|]. inversion L; subst; try discriminate. split; split; assumption.
  - exists (kept_level x), (kept_level x'). destruct (clamp_asked m x A) as (_ & _ & B). pose proof (kept_level_range x B). split; [split; [lia|unfold kept_level; apply Zfloor_le, grade_mono, X]|]. split; eapply with_margin_value; eassumption.
Qed.
(** DecodeMargin *)
Lemma fabs_whole l k : whole l k -> whole (fabs l) (Z.abs k).
Proof. intros (F & R). split; [unfold fabs; rewrite is_finite_Babs; exact F|]. unfold fabs. rewrite B2R_Babs, R. symmetry. apply abs_IZR. Qed.
Theorem C62_decode l k : whole l k -> (Z.abs k <= 127)%Z -> is_finite (decode_margin l) = true /\
  (k = 0%Z -> B2R (decode_margin l) = 0) /\ (k <> 0%Z -> Rabs (B2R (decode_margin l) - 4 * (IZR (Z.abs k) - 1) / 126) <= / 4194304).
Proof.
  intros W K. pose proof W as (F & R). pose proof (finite_not_nan _ F) as NL. unfold decode_margin. destruct (feq l f0) eqn:E.
  - apply feq_spec in E; [|exact NL|reflexivity]. rewrite (fX_finite l) in E by exact F. cbn [fX f0] in E. rewrite ?f0_R in E. rewrite R in E. apply (eq_IZR k 0) in E. split; [reflexivity|]. split; [intros _; reflexivity|intros; contradiction].
  - assert (KZ : k <> 0%Z). { intros ->. assert (feq l f0 = true); [|congruence]. apply feq_spec; [exact NL|reflexivity|]. rewrite (fX_finite l) by exact F. cbn [fX f0]. rewrite ?f0_R, R. reflexivity. }
    destruct (fabs_whole l k W) as (FA & RA). set (a := Z.abs k) in *. assert (A : (1 <= a <= 127)%Z) by lia. assert (AR : 1 <= IZR a <= 127) by (split; apply IZR_le; lia).
    unfold linear_map, finverse_lerp, flerp, encoded_range, kMaximumMargin. cbn [fst snd].
    destruct (fZ_exact 4) as (R4 & F4); [lia|]. destruct (fZ_exact 1) as (R1 & F1); [lia|]. destruct (fZ_exact 127) as (R7 & F7); [lia|].
    destruct (fsub_small (fZ 127) (fZ 1) F7 F1) as (DW & GW); [apply small_safe; rewrite R7, R1, Rabs_pos_eq; lra|]. rewrite R7, R1 in DW. replace (127 - 1) with 126 in DW by lra. rewrite (rnd_Z 126) in DW by lia.
    assert (Z4 : feq (fsub (fZ 127) (fZ 1)) f0 = false).
    { destruct (feq (fsub (fZ 127) (fZ 1)) f0) eqn:E'; [|reflexivity]. apply feq_spec in E'; [|apply finite_not_nan, GW|reflexivity]. rewrite (fX_finite _ GW), DW in E'. cbn in E'. lra. }
    rewrite Z4. destruct (fsub_small (fabs l) (fZ 1) FA F1) as (DX & GX); [apply small_safe; rewrite RA, R1, Rabs_pos_eq; lra|]. rewrite RA, R1 in DX. rewrite <- minus_IZR, rnd_Z, minus_IZR in DX by lia.
    destruct (fdiv_small _ _ GX GW) as (DQ & GQ); [rewrite DW; lra|apply small_safe; rewrite DX, DW, Rabs_pos_eq; lra|]. rewrite DX, DW in DQ.
    assert (B1 : 0 <= rnd ((IZR a - 1) / 126) <= 1) by (split; [apply rnd_pos; lra|apply (rnd_le_Z _ 1); [lia|lra]]).
    assert (E1 : Rabs (rnd ((IZR a - 1) / 126) - (IZR a - 1) / 126) <= / 33554432) by (change (/ 33554432) with (bpow radix2 (0 - 25)); apply rnd_abs; [lia|change (bpow radix2 0) with 1; rewrite Rabs_pos_eq; lra]).
    destruct (fsub_small (fZ 4) f0 F4 eq_refl) as (D4 & G4); [apply small_safe; rewrite R4, f0_R, Rabs_pos_eq; lra|]. rewrite R4, f0_R, Rminus_0_r, (rnd_Z 4) in D4 by lia.
    destruct (fmul_small _ _ G4 GQ) as (DM & GM); [apply small_safe; rewrite D4, DQ, Rabs_pos_eq; lra|]. rewrite D4, DQ in DM.
    assert (B2 : 0 <= rnd (4 * rnd ((IZR a - 1) / 126)) <= 4) by (split; [apply rnd_pos; lra|apply (rnd_le_Z _ 4); [lia|lra]]).
    assert (E2 : Rabs (rnd (4 * rnd ((IZR a - 1) / 126)) - 4 * rnd ((IZR a - 1) / 126)) <= / 8388608) by (change (/ 8388608) with (bpow radix2 (2 - 25)); apply rnd_abs; [lia|change (bpow radix2 2) with 4; rewrite Rabs_pos_eq; lra]).
    destruct (fadd_small f0 _ eq_refl GM) as (DA & GA); [apply small_safe; rewrite f0_R, DM, Rabs_pos_eq; lra|]. split; [exact GA|]. split; [contradiction|]. intros _. rewrite DA, f0_R, Rplus_0_l, DM. rewrite <- DM at 1. rewrite rnd_fR, DM.
    apply Rabs_le_inv in E1, E2. apply Rabs_le. lra.
Qed.
(** so the margin that is read back falls short of the asked one by at most one of 126 steps *)
Theorem C62_margin l s m x : lies l s -> s <> 0%Z -> asked m x -> x - 4 / 126 - / 1048576 <= B2R (decode_margin (with_margin l m)) <= x + / 1048576.
Proof.
  intros L S A. destruct (C62_encode l s m x L A) as (_ & _ & E). destruct (E S) as (k & K & W & N). assert (S1 : Z.abs s = 1%Z) by (destruct L; reflexivity || contradiction).
  assert (AK : Z.abs (s * k) = k) by (rewrite Z.abs_mul, S1; lia). destruct (C62_decode _ _ W ltac:(lia)) as (_ & _ & D). specialize (D ltac:(lia)). rewrite AK in D. apply Rabs_le_inv in D. lra.
Qed.
(** A label that has been read and is written again with the margin that was read does not change *)
Lemma whole_fZ l k : whole l k -> k <> 0%Z -> (Z.abs k <= 2 ^ 24)%Z -> l = fZ k.
Proof.
  intros (F & R) N K. destruct (fZ_exact k K) as (R' & F'). apply feq_finite_inj; [exact F'|rewrite R'; apply IZR_neq, N|]. apply feq_spec; [apply finite_not_nan, F|apply finite_not_nan, F'|]. rewrite !fX_finite by assumption. rewrite R, R'. reflexivity.
Qed.
Definition labels : list Z := map (fun n => Z.of_nat n - 127)%Z (seq 0 255).
Lemma stable_all : forallb (fun k => Z.eqb k 0 || feq (with_margin (fZ k) (decode_margin (fZ k))) (fZ k)) labels = true.
Proof. vm_compute. reflexivity. Qed.
Theorem C62_stable l k : whole l k -> k <> 0%Z -> (Z.abs k <= 127)%Z -> with_margin l (decode_margin l) = l.
Proof.
  intros W N K. rewrite (whole_fZ l k W N) by lia. assert (I : In k labels). { unfold labels. apply in_map_iff. exists (Z.to_nat (k + 127)). split; [lia|]. apply in_seq. lia. }
  pose proof (proj1 (forallb_forall _ _) stable_all k I) as H. cbn beta in H. apply orb_true_iff in H as [H|H]; [apply Z.eqb_eq in H; contradiction|]. destruct (fZ_exact k) as (R & F); [lia|]. apply feq_finite_inj; [exact F|rewrite R; apply IZR_neq, N|exact H].
Qed.
(** The margin of a label that gets another one is forgotten *)
Theorem C62_last l s m x m' : lies l s -> asked m x -> with_margin (with_margin l m) m' = with_margin l m'.
Proof.
  intros L A. destruct (C62_encode l s m x L A) as (L' & _). destruct (lies_sign _ _ L) as (S1 & E1), (lies_sign _ _ L') as (S2 & E2). unfold with_margin at 1 3. rewrite E1, E2, S1, S2. destruct (Z.eqb s 0) eqn:E; [|reflexivity].
  apply Z.eqb_eq in E. destruct (C62_encode l s m x L A) as (_ & W & _). apply W, E.
Qed.
(** The labels of the exterior are those of the greatest margin, 4; a label that is 1 away from zero has margin 0 *)
Theorem C62_exterior l s m : lies l s -> s <> 0%Z -> asked m 4 -> with_margin l m = (if Z.ltb s 0 then kExteriorMinusLabel else kExteriorPlusLabel) /\
  feq (decode_margin (with_margin l m)) (fZ 4) = true.
Proof.
  intros L S A. pose proof (with_margin_value l s m 4 L S A) as W. assert (K : kept_level 4 = 127%Z) by (unfold kept_level; rewrite grade_4; apply (Zfloor_IZR 127)). rewrite K in W.
  assert (SS : s = (-1)%Z \/ s = 1%Z) by (destruct L; auto; contradiction). assert (E : with_margin l m = if (s <? 0)%Z then kExteriorMinusLabel else kExteriorPlusLabel).
  { apply whole_fZ in W; [|lia..]. rewrite W. destruct SS as [-> | ->]; reflexivity. }
  split; [exact E|]. rewrite E. destruct SS as [-> | ->]; vm_compute; reflexivity.
Qed.
(** What the getters of a label say *)
Theorem C62_category l s : lies l s -> decode_category l = (if Z.ltb s 0 then Minus else if Z.eqb s 0 then Interior else Plus) /\ whole (outset_sign l) s.
Proof.
  intros L. destruct (lies_sign l s L) as (S & E). unfold decode_category. rewrite E. split.
  - assert (B : flt l f0 = (s <? 0)%Z); [|rewrite B; reflexivity]. destruct L as [l' F H| |l' F H|l' F H|]; try reflexivity; pose proof (finite_not_nan _ F) as NL; [apply flt_spec|apply flt_false|apply flt_false]; try reflexivity; try exact NL; rewrite (fX_finite l') by exact F; cbn [fX f0]; rewrite ?f0_R; lra.
  - rewrite S. destruct (fZ_exact s) as (R & F); [destruct L; lia|]. split; assumption.
Qed.
(** ** Interpolation *)
Lemma fle_finite (x y : f32) : is_finite x = true -> is_finite y = true -> (fle x y = true <-> fR x <= fR y).
Proof. intros Fx Fy. rewrite (fle_spec x y) by (apply finite_not_nan; assumption). rewrite !fX_finite by assumption. tauto. Qed.
Lemma feq_finite (x y : f32) : is_finite x = true -> is_finite y = true -> (feq x y = true <-> fR x = fR y).
Proof. intros Fx Fy. rewrite (feq_spec x y) by (apply finite_not_nan; assumption). rewrite !fX_finite by assumption. tauto. Qed.
Lemma asked_max : asked kMaximumMargin 4.
Proof. right. right. destruct (fZ_exact 4) as (R & F); [lia|]. split; [exact F|]. unfold kMaximumMargin. rewrite R, Rmax_right, Rmin_left by lra. reflexivity. Qed.
Lemma max_label l s : lies l s -> whole (with_margin l kMaximumMargin) (127 * s).
Proof.
  intros L. destruct (Z.eq_dec s 0) as [E|N].
  - destruct (C62_encode l s _ _ L asked_max) as (_ & W & _). rewrite (W E), E. inversion L; subst; try discriminate. split; assumption.
  - pose proof (with_margin_value l s _ _ L N asked_max) as W. unfold kept_level in W. rewrite grade_4, (Zfloor_IZR 127), Z.mul_comm in W. exact W.
Qed.
(** Lerp on labels: the side as documented, always with the greatest margin *)
Theorem C62_lerp_label a b t sa sb : lies a sa -> lies b sb -> is_finite t = true ->
  exists s, between sa sb (B2R t) s /\ whole (lerp_label a b t) (127 * s).
Proof.
  intros A B T. destruct (max_label a sa A) as (FA & RA), (max_label b sb B) as (FB & RB). unfold lerp_label, label_eqb. set (a' := with_margin a kMaximumMargin) in *. set (b' := with_margin b kMaximumMargin) in *.
  destruct (feq a' b') eqn:E; cbn [orb].
  - apply feq_finite in E; [|assumption..]. rewrite RA, RB in E. apply eq_IZR in E. exists sa. split; [apply both; lia|split; assumption].
  - destruct (fle t f0) eqn:T0.
    + apply (fle_finite t f0 T eq_refl) in T0. rewrite f0_R in T0. exists sa. split; [apply at_first, T0|split; assumption].
    + assert (P0 : 0 < fR t). { destruct (Rle_or_lt (fR t) 0) as [G|G]; [|exact G]. rewrite <- f0_R in G. apply (fle_finite t f0 T eq_refl) in G. congruence. }
      change (fge t f1) with (fle f1 t). destruct (fle f1 t) eqn:T1.
      * apply (fle_finite f1 t f1_finite T) in T1. rewrite f1_R in T1. exists sb. split; [apply at_last, T1|split; assumption].
      * assert (P1 : fR t < 1). { destruct (Rlt_or_le (fR t) 1) as [G|G]; [exact G|]. rewrite <- f1_R in G. apply (fle_finite f1 t f1_finite T) in G. congruence. }
        exists 0%Z. split; [apply neither; [lra|]|split; reflexivity]. intros ->. assert (feq a' b' = true); [|congruence]. apply feq_finite; [assumption..|]. rewrite RA, RB. reflexivity.
Qed.
Theorem C62_barycentric_label a b c t0 t1 t2 sa sb sc : lies a sa -> lies b sb -> lies c sc -> is_finite t0 = true -> is_finite t1 = true -> is_finite t2 = true -> B2R t0 + B2R t1 + B2R t2 = 1 ->
  exists s, whole (barycentric_label a b c (t0, t1, t2)) (127 * s) /\
    (B2R t0 = 0 -> between sb sc (B2R t2) s) /\ (B2R t1 = 0 -> between sa sc (B2R t2) s) /\ (B2R t2 = 0 -> between sa sb (B2R t1) s) /\
    (B2R t0 <> 0 -> B2R t1 <> 0 -> B2R t2 <> 0 -> s = 0%Z).
Proof.
  intros A B D F0 F1 F2 SUM. unfold barycentric_label.
  assert (Q : forall t, is_finite t = true -> feq t f0 = true /\ fR t = 0 \/ feq t f0 = false /\ fR t <> 0).
  { intros t F. destruct (feq t f0) eqn:E; [left|right]; split; try reflexivity; [apply (feq_finite t f0 F eq_refl) in E; exact E|]. intros G. rewrite <- f0_R in G. apply (feq_finite t f0 F eq_refl) in G. congruence. }
  assert (BF : forall x y r s, between x y r s -> 1 <= r -> s = y) by (intros x y r s [H|H|H|H N] R1; subst; reflexivity || lra).
  assert (BL : forall x y r s, between x y r s -> r <= 0 -> s = x) by (intros x y r s [H|H|H|H N] R1; subst; reflexivity || lra).
  destruct (Q t0 F0) as [(E0 & Z0)|(E0 & Z0)]; rewrite E0; [|destruct (Q t1 F1) as [(E1 & Z1)|(E1 & Z1)]; rewrite E1; [|destruct (Q t2 F2) as [(E2 & Z2)|(E2 & Z2)]; rewrite E2]].
  - destruct (C62_lerp_label b c t2 sb sc B D F2) as (s & H & W). exists s. split; [exact W|]. split; [intros _; exact H|]. split; [|split].
    + intros Z1. assert (X : 1 <= fR t2) by lra. rewrite (BF _ _ _ _ H X). apply at_last, X.
    + intros Z2. assert (X : 1 <= fR t1) by lra. rewrite (BL _ _ _ _ H ltac:(lra)). apply at_last, X.
    + contradiction.
  - destruct (C62_lerp_label a c t2 sa sc A D F2) as (s & H & W). exists s. split; [exact W|]. split; [contradiction|]. split; [intros _; exact H|]. split; [|contradiction].
    intros Z2. rewrite (BL _ _ _ _ H ltac:(lra)). apply at_first. lra.
  - destruct (C62_lerp_label a b t1 sa sb A B F1) as (s & H & W). exists s. split; [exact W|]. split; [contradiction|]. split; [contradiction|]. split; [intros _; exact H|contradiction].
  - exists 0%Z. split; [split; reflexivity|]. split; [contradiction|]. split; [contradiction|]. split; [contradiction|reflexivity].
Qed.
(** stroke_vertex.h 235-240 says that the label is the value on [a] when [t <= 0]; its margin is lost *)
Theorem C62_lerp_keeps_label_refuted : exists a b t, lies a 1 /\ lies b 0 /\ fle t f0 = true /\ lerp_label a b t <> a.
Proof.
  exists (fZ 64), f0, f0. destruct (fZ_exact 64) as (R & F); [lia|]. split; [apply lies_plus; [exact F|rewrite R; lra]|]. split; [apply lies_interior; reflexivity|]. split; [reflexivity|].
  intros E. assert (feq (lerp_label (fZ 64) f0 f0) (fZ 64) = true) by (rewrite E; vm_compute; reflexivity). vm_compute in H. discriminate.
Qed.
(** numbers *)
Lemma unit_safe x : Rabs x <= 8 -> Rabs x <= bpow radix2 120.
Proof. intros H. apply small_safe. lra. Qed.
Lemma abs_bound x b : - b <= x <= b -> Rabs x <= b. Proof. intros H. apply Rabs_le. lra. Qed.
Lemma rnd_ge_m1 r : -1 - u24 <= r -> -1 <= rnd r.
Proof. intros H. assert (K : rnd (- r) <= 1) by (apply rnd_le_1; lra). rewrite rnd_opp in K. lra. Qed.
Lemma rnd_in_unit r : -1 - u24 <= r <= 1 + u24 -> -1 <= rnd r <= 1.
Proof. intros H. split; [apply rnd_ge_m1; lra|apply rnd_le_1; lra]. Qed.
Lemma rnd_near1 r : Rabs r <= 1 -> Rabs (rnd r - r) <= / 33554432.
Proof. intros H. change (/ 33554432) with (bpow radix2 (0 - 25)). apply rnd_abs; [lia|exact H]. Qed.
Lemma rnd_near2 r : Rabs r <= 2 -> Rabs (rnd r - r) <= / 16777216.
Proof. intros H. change (/ 16777216) with (bpow radix2 (1 - 25)). apply rnd_abs; [lia|exact H]. Qed.
Lemma flerp_tame (a b t : f32) : inside (-1) 1 a -> inside (-1) 1 b -> inside 0 1 t -> inside (-1) 1 (flerp a b t) /\ Rabs (fR (flerp a b t) - (fR a + (fR b - fR a) * fR t)) <= / 4194304.
Proof.
  intros (FA & A) (FB & B) (FT & T). unfold flerp.
  destruct (fsub_small b a FB FA) as (RD & FD); [apply unit_safe, abs_bound; lra|]. pose proof (rnd_near2 (fR b - fR a) ltac:(apply abs_bound; lra)) as ED. set (d := rnd (fR b - fR a)) in *. apply Rabs_le_inv in ED.
  assert (D2 : -2 <= d <= 2). { unfold d. split; [rewrite <- (rnd_Z (-2)) by lia|rewrite <- (rnd_Z 2) by lia]; apply rnd_mono; lra. }
  assert (DT : -2 <= d * fR t <= 2) by (split; nra). destruct (fmul_small _ _ FD FT) as (RM & FM); [rewrite RD; apply unit_safe, abs_bound; lra|]. rewrite RD in RM. fold d in RM. pose proof (rnd_near2 (d * fR t) ltac:(apply abs_bound; lra)) as EM. apply Rabs_le_inv in EM.
  set (p := rnd (d * fR t)) in *. assert (P : Rmin d 0 <= p <= Rmax d 0).
  { assert (DD : rnd d = d) by (rewrite <- RD; apply rnd_fR). unfold p. destruct (Rle_or_lt 0 d) as [G|G].
    - rewrite Rmin_right, Rmax_left by lra. split; [apply rnd_pos; nra|]. rewrite <- DD at 2. apply rnd_mono. nra.
    - rewrite Rmin_left, Rmax_right by lra. split; [|apply rnd_neg; nra]. rewrite <- DD at 1. apply rnd_mono. nra. }
  assert (S : -1 - u24 <= fR a + p <= 1 + u24). { unfold u24. unfold Rmin, Rmax in P. destruct (Rle_dec d 0); lra. }
  destruct (fadd_small _ _ FA FM) as (RS & FS); [rewrite RM; apply unit_safe, abs_bound; unfold u24 in S; lra|]. rewrite RM in RS. split; [split; [exact FS|rewrite RS; apply rnd_in_unit, S]|]. rewrite RS.
  assert (ES : Rabs (rnd (fR a + p) - (fR a + p)) <= / 16777216) by (apply rnd_near2, abs_bound; unfold u24 in S; lra). apply Rabs_le_inv in ES.
  assert (X : Rabs (d * fR t - (fR b - fR a) * fR t) <= / 16777216). { replace (d * fR t - (fR b - fR a) * fR t) with ((d - (fR b - fR a)) * fR t) by ring. rewrite Rabs_mult, (Rabs_pos_eq (fR t)) by lra. assert (Rabs (d - (fR b - fR a)) <= / 16777216) by (apply Rabs_le; lra). pose proof (Rabs_pos (d - (fR b - fR a))). nra. }
  apply Rabs_le_inv in X. apply Rabs_le. lra.
Qed.

Lemma mul_le_unit (a t : f32) : inside (-1) 1 a -> inside 0 1 t -> is_finite (fmul a t) = true /\ - fR t <= fR (fmul a t) <= fR t /\ (0 <= fR a -> 0 <= fR (fmul a t)) /\ Rabs (fR (fmul a t) - fR a * fR t) <= / 33554432.
Proof.
  intros (FA & A) (FT & T). assert (P : - fR t <= fR a * fR t <= fR t) by (split; nra). destruct (fmul_small a t FA FT) as (RM & FM); [apply unit_safe, abs_bound; lra|]. rewrite RM. split; [exact FM|]. split; [|split; [intros; apply rnd_pos; nra|apply rnd_near1, abs_bound; lra]].
  pose proof (rnd_mono _ _ (proj1 P)) as L. pose proof (rnd_mono _ _ (proj2 P)) as U. rewrite rnd_opp in L. rewrite rnd_fR in L, U. lra.
Qed.
Lemma weighted_tame (a b c t0 t1 t2 : f32) : inside (-1) 1 a -> inside (-1) 1 b -> inside (-1) 1 c -> inside 0 1 t0 -> inside 0 1 t1 -> inside 0 1 t2 -> fR t0 + fR t1 + fR t2 = 1 ->
  inside (-1) 1 (weighted a b c (t0, t1, t2)) /\ (0 <= fR a -> 0 <= fR b -> 0 <= fR c -> 0 <= fR (weighted a b c (t0, t1, t2))) /\
  Rabs (fR (weighted a b c (t0, t1, t2)) - (fR a * fR t0 + fR b * fR t1 + fR c * fR t2)) <= / 4194304.
Proof.
  intros A B D T0 T1 T2 SUM. unfold weighted. destruct (mul_le_unit a t0 A T0) as (F0 & B0 & P0 & E0), (mul_le_unit b t1 B T1) as (F1 & B1 & P1 & E1), (mul_le_unit c t2 D T2) as (F2 & B2 & P2 & E2). destruct A as (_ & A), B as (_ & B), D as (_ & D), T0 as (_ & T0), T1 as (_ & T1), T2 as (_ & T2). apply Rabs_le_inv in E0, E1, E2.
  set (x := fmul a t0) in *. set (y := fmul b t1) in *. set (z := fmul c t2) in *.
  destruct (fadd_small x y F0 F1) as (RS & FS); [apply unit_safe, abs_bound; lra|]. pose proof (rnd_near1 (fR x + fR y) ltac:(apply abs_bound; lra)) as ES. apply Rabs_le_inv in ES. rewrite <- RS in ES.
  destruct (fadd_small (fadd x y) z FS F2) as (RU & FU); [apply unit_safe, abs_bound; lra|].
  assert (IN : -1 - u24 <= fR (fadd x y) + fR z <= 1 + u24) by (unfold u24; lra).
  split; [split; [exact FU|rewrite RU; apply rnd_in_unit, IN]|]. split.
  - intros PA PB PC. rewrite RU. apply rnd_pos. rewrite RS. pose proof (rnd_pos (fR x + fR y) ltac:(specialize (P0 PA); specialize (P1 PB); lra)). specialize (P2 PC). lra.
  - assert (EU : Rabs (rnd (fR (fadd x y) + fR z) - (fR (fadd x y) + fR z)) <= / 16777216) by (apply rnd_near2, abs_bound; unfold u24 in IN; lra). rewrite RU. apply Rabs_le_inv in EU. apply Rabs_le. lra.
Qed.
Lemma uv_tame (a b t : f32) : inside 0 1 a -> inside 0 1 b -> inside 0 1 t -> let v := fadd (fmul a (fsub f1 t)) (fmul b t) in
  inside 0 1 v /\ Rabs (fR v - (fR a + (fR b - fR a) * fR t)) <= / 4194304.
Proof.
  intros A B T v. pose proof T as (FT & TR). destruct (fsub_small f1 t f1_finite FT) as (RU & FU); [rewrite f1_R; apply unit_safe, abs_bound; lra|]. rewrite f1_R in RU. pose proof (rnd_near1 (1 - fR t) ltac:(apply abs_bound; lra)) as EU. rewrite <- RU in EU. apply Rabs_le_inv in EU. set (u := fsub f1 t) in *.
  assert (U : inside 0 1 u). { split; [exact FU|]. rewrite RU. split; [apply rnd_pos; lra|apply (rnd_le_Z _ 1); [lia|lra]]. }
  assert (W : forall x, inside 0 1 x -> inside (-1) 1 x) by (intros x (F & H); split; [exact F|lra]).
  destruct (mul_le_unit a u (W _ A) U) as (F0 & B0 & P0 & E0), (mul_le_unit b t (W _ B) T) as (F1 & B1 & P1 & E1). destruct A as (FA & A), B as (FB & B), U as (_ & U). specialize (P0 (proj1 A)). specialize (P1 (proj1 B)). apply Rabs_le_inv in E0, E1.
  destruct (fadd_small _ _ F0 F1) as (RV & FV); [apply unit_safe, abs_bound; lra|]. fold v in RV, FV. assert (IN : 0 <= fR (fmul a u) + fR (fmul b t) <= 1 + u24) by (unfold u24; lra).
  split; [split; [exact FV|rewrite RV; split; [apply rnd_pos; lra|apply rnd_le_1; lra]]|]. rewrite RV.
  assert (EV : Rabs (rnd (fR (fmul a u) + fR (fmul b t)) - (fR (fmul a u) + fR (fmul b t))) <= / 16777216) by (apply rnd_near2, abs_bound; unfold u24 in IN; lra). apply Rabs_le_inv in EV.
  assert (X : Rabs (fR a * fR u - fR a * (1 - fR t)) <= / 33554432). { replace (fR a * fR u - fR a * (1 - fR t)) with (fR a * (fR u - (1 - fR t))) by ring. rewrite Rabs_mult, (Rabs_pos_eq (fR a)) by lra. assert (Y : Rabs (fR u - (1 - fR t)) <= / 33554432) by (apply Rabs_le; lra). pose proof (Rabs_pos (fR u - (1 - fR t))). nra. }
  apply Rabs_le_inv in X. apply Rabs_le. lra.
Qed.
Definition close (x : f32) (r : R) : Prop := Rabs (B2R x - r) <= / 4194304.
Definition mixed (t : R) (a b c : f32) : Prop := close c (B2R a + (B2R b - B2R a) * t).
(** Between two vertices whose shifts and texture coordinates are within their limits, every interpolated vertex is within them too,
    and each value is the interpolated one but for rounding; derivatives are zero *)
Theorem C62_lerp a b t : tame a -> tame b -> inside 0 1 t -> let c := lerp_attributes a b t in
  tame c /\ side_derivative c = (f0, f0) /\ forward_derivative c = (f0, f0) /\
  side_label c = lerp_label (side_label a) (side_label b) t /\ forward_label c = lerp_label (forward_label a) (forward_label b) t /\
  let '(ha, sa, la) := hsl a in let '(hb, sb, lb) := hsl b in let '(hc, sc, lc) := hsl c in
  mixed (B2R t) (opacity a) (opacity b) (opacity c) /\ mixed (B2R t) ha hb hc /\ mixed (B2R t) sa sb sc /\ mixed (B2R t) la lb lc /\
  mixed (B2R t) (fst (surface_uv a)) (fst (surface_uv b)) (fst (surface_uv c)) /\ mixed (B2R t) (snd (surface_uv a)) (snd (surface_uv b)) (snd (surface_uv c)).
Proof.
  destruct a as [oa [[ha sa] la] sda sla fda fla [ua va]], b as [ob [[hb sb] lb] sdb slb fdb flb [ub vb]]. unfold tame. cbn [hsl opacity surface_uv fst snd]. intros (A1 & A2 & A3 & A4 & A5 & A6) (B1 & B2 & B3 & B4 & B5 & B6) T.
  unfold lerp_attributes, mixed, close, flerp_point. cbn [hsl opacity surface_uv fst snd side_derivative forward_derivative side_label forward_label].
  destruct (flerp_tame oa ob t A1 B1 T), (flerp_tame ha hb t A2 B2 T), (flerp_tame sa sb t A3 B3 T), (flerp_tame la lb t A4 B4 T), (uv_tame ua ub t A5 B5 T), (uv_tame va vb t A6 B6 T). split; [repeat (split; [assumption|]); assumption|]. do 4 (split; [reflexivity|]). repeat (split; [assumption|]); assumption.
Qed.
Definition mixed3 (t0 t1 t2 : R) (a b c d : f32) : Prop := close d (B2R a * t0 + B2R b * t1 + B2R c * t2).
Theorem C62_barycentric a b c t0 t1 t2 : tame a -> tame b -> tame c -> inside 0 1 t0 -> inside 0 1 t1 -> inside 0 1 t2 -> B2R t0 + B2R t1 + B2R t2 = 1 -> let d := barycentric_attributes a b c (t0, t1, t2) in
  tame d /\ side_derivative d = (f0, f0) /\ forward_derivative d = (f0, f0) /\
  side_label d = barycentric_label (side_label a) (side_label b) (side_label c) (t0, t1, t2) /\ forward_label d = barycentric_label (forward_label a) (forward_label b) (forward_label c) (t0, t1, t2) /\
  let m := mixed3 (B2R t0) (B2R t1) (B2R t2) in
  let '(ha, sa, la) := hsl a in let '(hb, sb, lb) := hsl b in let '(hc, sc, lc) := hsl c in let '(hd, sd, ld) := hsl d in
  m (opacity a) (opacity b) (opacity c) (opacity d) /\ m ha hb hc hd /\ m sa sb sc sd /\ m la lb lc ld /\
  m (fst (surface_uv a)) (fst (surface_uv b)) (fst (surface_uv c)) (fst (surface_uv d)) /\ m (snd (surface_uv a)) (snd (surface_uv b)) (snd (surface_uv c)) (snd (surface_uv d)).
Proof.
  destruct a as [oa [[ha sa] la] sda sla fda fla [ua va]], b as [ob [[hb sb] lb] sdb slb fdb flb [ub vb]], c as [oc [[hc sc] lc] sdc slc fdc flc [uc vc]]. unfold tame. cbn [hsl opacity surface_uv fst snd]. intros (A1 & A2 & A3 & A4 & A5 & A6) (B1 & B2 & B3 & B4 & B5 & B6) (D1 & D2 & D3 & D4 & D5 & D6) T0 T1 T2 SUM.
  unfold barycentric_attributes, mixed3, close. cbn [hsl opacity surface_uv fst snd side_derivative forward_derivative side_label forward_label].
  assert (W : forall x, inside 0 1 x -> inside (-1) 1 x) by (intros x (F & H); split; [exact F|lra]).
  assert (UV : forall a b c, inside 0 1 a -> inside 0 1 b -> inside 0 1 c -> inside 0 1 (weighted a b c (t0, t1, t2)) /\ Rabs (fR (weighted a b c (t0, t1, t2)) - (fR a * fR t0 + fR b * fR t1 + fR c * fR t2)) <= / 4194304).
  { intros a b c A B D. destruct (weighted_tame a b c t0 t1 t2 (W _ A) (W _ B) (W _ D) T0 T1 T2 SUM) as ((F & H) & P & E). split; [|exact E]. split; [exact F|]. split; [apply P; [apply A|apply B|apply D]|apply H]. }
  destruct (weighted_tame oa ob oc t0 t1 t2 A1 B1 D1 T0 T1 T2 SUM) as (? & _ & ?), (weighted_tame ha hb hc t0 t1 t2 A2 B2 D2 T0 T1 T2 SUM) as (? & _ & ?), (weighted_tame sa sb sc t0 t1 t2 A3 B3 D3 T0 T1 T2 SUM) as (? & _ & ?), (weighted_tame la lb lc t0 t1 t2 A4 B4 D4 T0 T1 T2 SUM) as (? & _ & ?), (UV ua ub uc A5 B5 D5), (UV va vb vc A6 B6 D6).
  split; [repeat (split; [assumption|]); assumption|]. do 4 (split; [reflexivity|]). repeat (split; [assumption|]); assumption.
Qed.
(** ** Cases *)
Example C62_case : lies (fZ (-64)) (-1) /\ asked (fZ 2) 2 /\ whole (with_margin (fZ (-64)) (fZ 2)) (-64).
Proof.
  destruct (fZ_exact (-64)) as (R & F); [lia|]. destruct (fZ_exact 2) as (R2 & F2); [lia|]. split; [apply lies_minus; [exact F|rewrite R; lra]|]. split; [right; right; split; [exact F2|rewrite R2, Rmax_right, Rmin_right by lra; reflexivity]|].
  assert (E : with_margin (fZ (-64)) (fZ 2) = fZ (-64)) by (apply feq_finite_inj; [exact F|rewrite R; lra|vm_compute; reflexivity]). rewrite E. split; assumption.
Qed.
Definition ex_attributes (z : Z) (u : f32) : attributes := Attributes (fZ z) (f0, fZ z, f1) (f1, f1) kExteriorPlusLabel (f0, f1) kInteriorLabel (u, f1).
Example C62_lerp_case : tame (ex_attributes (-1) f0) /\ tame (ex_attributes 1 f1) /\ inside 0 1 f0.
Proof.
  destruct (fZ_exact (-1)) as (Rm & Fm); [lia|]. destruct (fZ_exact 1) as (R1 & F1); [lia|]. unfold tame, inside, ex_attributes. cbn [hsl opacity surface_uv fst snd]. rewrite Fm, F1, Rm, R1, f0_R, f1_R. repeat split; lra.
Qed.
Print Assumptions C62_encode.
Print Assumptions C62_monotone.
Print Assumptions C62_decode.
Print Assumptions C62_margin.
Print Assumptions C62_stable.
Print Assumptions C62_last.
Print Assumptions C62_exterior.
Print Assumptions C62_category.
Print Assumptions C62_lerp_label.
Print Assumptions C62_barycentric_label.
Print Assumptions C62_lerp_keeps_label_refuted.
Print Assumptions C62_lerp.
Print Assumptions C62_barycentric.
