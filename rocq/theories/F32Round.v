(** Rounding error facts for binary32: operations of bounded magnitude, relative error. *)
From Coq Require Import ZArith Bool Reals Lra Lia.
From Flocq Require Import Core IEEE754.BinarySingleNaN Relative.
From Verif Require Import F32 F32Lemmas.
Open Scope R_scope.

Notation safe := (bpow radix2 120).
Lemma safe_big : safe < big.
Proof. apply bpow_lt. lia. Qed.
Lemma rnd_bpow e : (-149 <= e)%Z -> rnd (bpow radix2 e) = bpow radix2 e.
Proof. intros H. apply round_generic; auto with typeclass_instances. apply generic_format_bpow. unfold SpecFloat.fexp, SpecFloat.emin. lia. Qed.
Lemma rnd_safe r : Rabs r <= safe -> Rabs (rnd r) < big.
Proof.
  intros H. apply Rle_lt_trans with safe; [|apply safe_big].
  apply Rabs_le_inv in H. apply Rabs_le. split.
  - rewrite <- (rnd_bpow 120) at 1 by lia. rewrite <- rnd_opp. apply rnd_mono. lra.
  - rewrite <- (rnd_bpow 120) at 1 by lia. apply rnd_mono. lra.
Qed.
Lemma fadd_small x y : is_finite x = true -> is_finite y = true -> Rabs (fR x + fR y) <= safe ->
  fR (fadd x y) = rnd (fR x + fR y) /\ is_finite (fadd x y) = true.
Proof.
  intros Fx Fy H. apply rnd_safe in H. destruct (fadd_finite x y Fx Fy) as [(_&A&B)|[(A&_)|(A&_)]]; [auto| |];
    apply Rabs_lt_inv in H; lra.
Qed.
Lemma fsub_small x y : is_finite x = true -> is_finite y = true -> Rabs (fR x - fR y) <= safe ->
  fR (fsub x y) = rnd (fR x - fR y) /\ is_finite (fsub x y) = true.
Proof.
  intros Fx Fy H. apply rnd_safe in H. destruct (fsub_finite x y Fx Fy) as [(_&A&B)|[(A&_)|(A&_)]]; [auto| |];
    apply Rabs_lt_inv in H; lra.
Qed.
Lemma fmul_small x y : is_finite x = true -> is_finite y = true -> Rabs (fR x * fR y) <= safe ->
  fR (fmul x y) = rnd (fR x * fR y) /\ is_finite (fmul x y) = true.
Proof.
  intros Fx Fy H. apply rnd_safe in H. destruct (fmul_finite x y Fx Fy) as [(_&A&B)|[(A&_)|(A&_)]]; [auto| |];
    apply Rabs_lt_inv in H; lra.
Qed.
Lemma fdiv_small x y : is_finite x = true -> is_finite y = true -> fR y <> 0 -> Rabs (fR x / fR y) <= safe ->
  fR (fdiv x y) = rnd (fR x / fR y) /\ is_finite (fdiv x y) = true.
Proof.
  intros Fx Fy N H. apply rnd_safe in H. destruct (fdiv_finite x y Fx Fy N) as [(_&A&B)|[(A&_)|(A&_)]]; [auto| |];
    apply Rabs_lt_inv in H; lra.
Qed.

(** half an ulp of 1 *)
Definition u24 : R := / 16777216.
Lemma u24_bpow : bpow radix2 (-24) = u24.
Proof. unfold u24. change (bpow radix2 (-24)) with (/ IZR (2 ^ 24)). f_equal. Qed.
Lemma rnd_rel r : bpow radix2 (-126) <= Rabs r -> Rabs (rnd r - r) <= u24 * Rabs r.
Proof.
  intros H. pose proof (relative_error_N_FLT radix2 (-149) 24 ltac:(lia) (fun z => negb (Z.even z)) r H) as K.
  eapply Rle_trans; [exact K|]. apply Rmult_le_compat_r; [apply Rabs_pos|].
  change (-24 + 1)%Z with (-23)%Z. rewrite <- u24_bpow. change (bpow radix2 (-23)) with (bpow radix2 (-24 + 1)).
  rewrite bpow_plus. change (bpow radix2 1) with 2. change (- (24))%Z with (-24)%Z. lra.
Qed.
Lemma rnd_upper r : bpow radix2 (-126) <= r -> rnd r <= r * (1 + u24).
Proof.
  intros H. pose proof (bpow_gt_0 radix2 (-126)). pose proof (rnd_rel r) as K. rewrite Rabs_pos_eq in K by lra.
  specialize (K H). apply Rabs_le_inv in K. lra.
Qed.
Lemma rnd_lower r : bpow radix2 (-126) <= r -> r * (1 - u24) <= rnd r.
Proof.
  intros H. pose proof (bpow_gt_0 radix2 (-126)). pose proof (rnd_rel r) as K. rewrite Rabs_pos_eq in K by lra.
  specialize (K H). apply Rabs_le_inv in K. lra.
Qed.
(** absolute error for values of size at most 2^e *)
Lemma rnd_abs e r : (-125 <= e)%Z -> Rabs r <= bpow radix2 e -> Rabs (rnd r - r) <= bpow radix2 (e - 25).
Proof.
  intros He H. destruct (Rlt_or_le (Rabs r) (bpow radix2 e)) as [L|L].
  - destruct (Req_dec r 0) as [->|Nz]; [rewrite rnd_0, Rminus_0_r, Rabs_R0; apply bpow_ge_0|].
    pose proof (error_le_half_ulp radix2 fexp32 (fun z => negb (Z.even z)) r) as K.
    eapply Rle_trans; [exact K|]. rewrite ulp_neq_0 by exact Nz. unfold cexp.
    replace (/ 2) with (bpow radix2 (-1)) by reflexivity. rewrite <- bpow_plus. apply bpow_le.
    assert (mag radix2 r <= e)%Z by (apply mag_le_bpow; assumption).
    unfold SpecFloat.fexp, SpecFloat.emin. lia.
  - assert (E : Rabs r = bpow radix2 e) by lra.
    assert (G : rnd r = r).
    { apply round_generic; auto with typeclass_instances. apply generic_format_abs_inv. rewrite E. apply generic_format_bpow. unfold SpecFloat.fexp, SpecFloat.emin. lia. }
    rewrite G. unfold Rminus. rewrite Rplus_opp_r, Rabs_R0. apply bpow_ge_0.
Qed.

Lemma fbits_eqb_eq x y : fbits_eqb x y = true -> x = y.
Proof.
  intros H. apply B2SF_inj. destruct x as [s|s| |s m e B], y as [t|t| |t n f C]; cbn in *; try discriminate H; try reflexivity.
  - apply Bool.eqb_prop in H. congruence.
  - apply Bool.eqb_prop in H. congruence.
  - apply andb_prop in H. destruct H as [H H3]. apply andb_prop in H. destruct H as [H1 H2].
    apply Bool.eqb_prop in H1. apply Pos.eqb_eq in H2. apply Z.eqb_eq in H3. congruence.
Qed.

(** Values up to 1 + 2^-24 round to at most 1 (ties to even). *)
Lemma rnd_le_1 r : r <= 1 + u24 -> rnd r <= 1.
Proof.
  intros H. eapply Rle_trans; [apply rnd_mono, H|].
  assert (E : fbits_eqb (fadd f1 (fdy 1 (-24))) f1 = true) by (vm_compute; reflexivity).
  assert (G : fR (fadd f1 (fdy 1 (-24))) = 1) by (rewrite (fbits_eqb_eq _ _ E); apply f1_R).
  assert (D : fR (fdy 1 (-24)) = u24 /\ is_finite (fdy 1 (-24)) = true).
  { assert (E2 : F2R (Float radix2 1 (-24)) = u24) by (unfold F2R; cbn [Fnum Fexp]; rewrite u24_bpow; lra).
    rewrite <- E2. apply fdy_exact; rewrite E2, <- u24_bpow.
    - apply generic_format_bpow. unfold SpecFloat.fexp, SpecFloat.emin. lia.
    - rewrite Rabs_pos_eq by apply bpow_ge_0. apply bpow_lt. lia. }
  destruct D as [D1 D2].
  destruct (fadd_small f1 (fdy 1 (-24)) f1_finite D2) as [S _].
  - rewrite f1_R, D1. unfold u24. rewrite Rabs_pos_eq by lra. apply Rle_trans with (bpow radix2 1); [cbn; lra|apply bpow_le; lia].
  - rewrite f1_R, D1 in S. lra.
Qed.
