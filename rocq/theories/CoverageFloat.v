(** Float facts for coverage: sums of areas never decrease, and when two ways to compare a ratio agree. *)
From Coq Require Import ZArith Bool Reals Lra Lia List.
From Flocq Require Import Core BinarySingleNaN Relative.
From Verif Require Import F32 F32Lemmas.
Import ListNotations.
Local Open Scope R_scope.

(** a number that is not negative *)
Definition nonneg (x : f32) : Prop := is_nan x = false /\ 0 <= fX x.
Lemma inf_fX (s : bool) : fX (B754_infinity s) = if s then - big else big. Proof. destruct s; reflexivity. Qed.
Lemma clamp_ge (x : f32) r : is_finite x = true -> fR x <= r -> fR x <= clampX (rnd r).
Proof. intros F L. pose proof (fX_bounds x) as R. rewrite fX_finite in R by exact F. pose proof (clampX_mono (rnd (fR x)) (rnd r) (rnd_mono _ _ L)) as Q. rewrite rnd_fR, (clampX_id (fR x) R) in Q. exact Q. Qed.
Lemma clamp_le (x : f32) r : is_finite x = true -> r <= fR x -> clampX (rnd r) <= fR x.
Proof. intros F L. pose proof (fX_bounds x) as R. rewrite fX_finite in R by exact F. pose proof (clampX_mono (rnd r) (rnd (fR x)) (rnd_mono _ _ L)) as Q. rewrite rnd_fR, (clampX_id (fR x) R) in Q. exact Q. Qed.
Lemma add_up (a b : f32) : nonneg a -> nonneg b -> nonneg (fadd a b) /\ fX a <= fX (fadd a b).
Proof.
  intros [Na A] [Nb B]. pose proof big_pos as BP.
  destruct (is_finite a) eqn:Fa; [destruct (is_finite b) eqn:Fb|].
  - destruct (fadd_X a b Fa Fb) as [E Nn]. rewrite fX_finite in A, B by assumption. rewrite (fX_finite a) by exact Fa.
    assert (fR a <= clampX (rnd (fR a + fR b))). { apply clamp_ge; [exact Fa|lra]. }
    split; [split; [exact Nn|rewrite E; lra]|rewrite E; exact H].
  - destruct b as [s|s| |s m e Hb]; try discriminate. destruct s; [rewrite inf_fX in B; lra|]. assert (fadd a (B754_infinity false) = B754_infinity false) as ->. { destruct a; try discriminate; reflexivity. }
    split; [split; [reflexivity|rewrite inf_fX; lra]|]. rewrite inf_fX. apply fX_bounds.
  - destruct a as [s|s| |s m e Ha]; try discriminate. destruct s; [rewrite inf_fX in A; lra|]. assert (fadd (B754_infinity false) b = B754_infinity false) as ->. { destruct b as [s|s| |s m e Hb]; try discriminate; try reflexivity. destruct s; [rewrite inf_fX in B; lra|reflexivity]. }
    split; [split; [reflexivity|rewrite inf_fX; lra]|lra].
Qed.
Lemma abs_nonneg (a : f32) : is_nan a = false -> nonneg (fabs a).
Proof. pose proof big_pos. intros H0. split; [destruct a; auto|]. destruct a as [s|s| |s m e Hb]; cbn [fabs Babs fX]; try lra; try discriminate; cbn [B2R]; try lra. apply F2R_ge_0. cbn. lia. Qed.
Lemma lt_up (l a b : f32) : is_nan a = false -> is_nan b = false -> fX a <= fX b -> flt l a = true -> flt l b = true.
Proof.
  intros Na Nb L H. assert (Nl : is_nan l = false) by (destruct l; auto; destruct a; discriminate). apply flt_spec in H; [|assumption|assumption]. apply flt_spec; [assumption|assumption|lra].
Qed.
(** ** c / t > th against c > th * t *)
Lemma no_more (c t th : f32) : is_finite c = true -> is_finite t = true -> is_finite th = true -> 0 < fR t -> fR c <= fR th * fR t ->
  flt th (fdiv c t) = false /\ flt (fmul th t) c = false.
Proof.
  intros Fc Ft Fh T L. destruct (fdiv_X c t Fc Ft ltac:(lra)) as [E1 N1]. destruct (fmul_X th t Fh Ft) as [E2 N2]. split.
  - apply flt_false; [apply finite_not_nan, Fh|exact N1|]. rewrite E1, (fX_finite th) by exact Fh. apply clamp_le; [exact Fh|]. apply Rmult_le_reg_r with (fR t); [exact T|]. unfold Rdiv. rewrite Rmult_assoc, Rinv_l, Rmult_1_r by lra. exact L.
  - apply flt_false; [exact N2|apply finite_not_nan, Fc|]. rewrite E2, (fX_finite c) by exact Fc. apply clamp_ge; [exact Fc|exact L].
Qed.
Lemma rnd_err x : exists e n, Rabs e <= bpow radix2 (-24) /\ Rabs n <= bpow radix2 (-150) /\ rnd x = x * (1 + e) + n.
Proof.
  destruct (error_N_FLT radix2 (-149) 24 eq_refl (fun z => negb (Z.even z)) x) as (e & n & E & H & _ & R). exists e, n. split; [|split].
  - eapply Rle_trans; [exact E|]. change (/ 2 * bpow radix2 (- (24) + 1) <= bpow radix2 (-24)). change (bpow radix2 (- (24) + 1)) with (/ 8388608). change (bpow radix2 (-24)) with (/ 16777216). lra.
  - eapply Rle_trans; [exact H|]. replace (/ 2 * bpow radix2 (-149)) with (bpow radix2 (-150)); [lra|]. change (-150)%Z with (-1 + -149)%Z. rewrite bpow_plus. change (bpow radix2 (-1)) with (/ 2). reflexivity.
  - exact R.
Qed.
Definition apart (c t th : R) : Prop := th * t + (c * bpow radix2 (-23) + (1 + t) * bpow radix2 (-149)) < c.
Lemma more (c t th : f32) : is_finite c = true -> is_finite t = true -> is_finite th = true -> 0 < fR t -> 0 <= fR c -> apart (fR c) (fR t) (fR th) ->
  flt th (fdiv c t) = true /\ flt (fmul th t) c = true.
Proof.
  unfold apart. intros Fc Ft Fh T C L. destruct (fdiv_X c t Fc Ft ltac:(lra)) as [E1 N1]. destruct (fmul_X th t Fh Ft) as [E2 N2]. pose proof big_pos as BP.
  pose proof (bpow_gt_0 radix2 (-149)) as P1. assert (D150 : bpow radix2 (-149) = 2 * bpow radix2 (-150)). { change (-149)%Z with (1 + -150)%Z. rewrite bpow_plus. reflexivity. }
  rewrite D150 in L, P1. set (u := bpow radix2 (-150)) in *. change (bpow radix2 (-23)) with (/ 8388608) in L.
  split.
  - apply flt_spec; [apply finite_not_nan, Fh|exact N1|]. rewrite E1, (fX_finite th) by exact Fh. pose proof (fX_bounds th) as R. rewrite fX_finite in R by exact Fh.
    assert (fR th < big). { pose proof (abs_B2R_lt_emax 24 128 th) as Q. apply Rabs_lt_inv in Q. lra. }
    assert (fR th < rnd (fR c / fR t)).
    { destruct (rnd_err (fR c / fR t)) as (e & n & He & Hn & ->). fold u in Hn. apply Rabs_le_inv in He, Hn. change (bpow radix2 (-24)) with (/ 16777216) in He.
      assert (Q0 : 0 <= fR c / fR t) by (apply Rmult_le_pos; [exact C|left; apply Rinv_0_lt_compat, T]).
      assert (Q1 : fR th + (fR c / fR t) * / 8388608 + 2 * u < fR c / fR t).
      { apply Rmult_lt_reg_r with (fR t); [exact T|]. replace ((fR th + fR c / fR t * / 8388608 + 2 * u) * fR t) with (fR th * fR t + (fR c * / 8388608 + fR t * (2 * u))) by (field; lra). replace (fR c / fR t * fR t) with (fR c) by (field; lra). lra. }
      assert (fR c / fR t * e >= - (fR c / fR t) * / 16777216) by nra. lra. }
    unfold clampX. rewrite Rmax_right. 2:{ apply Rmin_case; lra. } apply Rmin_case; lra.
  - apply flt_spec; [exact N2|apply finite_not_nan, Fc|]. rewrite E2, (fX_finite c) by exact Fc.
    assert (fR c < big). { pose proof (abs_B2R_lt_emax 24 128 c) as Q. apply Rabs_lt_inv in Q. lra. }
    assert (rnd (fR th * fR t) < fR c).
    { destruct (rnd_err (fR th * fR t)) as (e & n & He & Hn & ->). fold u in Hn. apply Rabs_le_inv in He, Hn. change (bpow radix2 (-24)) with (/ 16777216) in He. set (x := fR th * fR t) in *.
      assert (0 < fR t * (2 * u)) by (apply Rmult_lt_0_compat; lra). destruct (Rle_dec 0 x) as [X|X]; [assert (x * e <= x * / 16777216) by nra; nra|].
      assert (x * e <= - x * / 16777216) by nra. nra. }
    unfold clampX. pose proof (Rmin_r big (rnd (fR th * fR t))). apply Rmax_case; lra.
Qed.
