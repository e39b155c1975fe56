(** Halving an interval in floats, and interpolated tips. *)
From Coq Require Import ZArith Reals Lra Lia Psatz Bool List.
From Flocq Require Import Core IEEE754.BinarySingleNaN Plus_error.
From Verif Require Import F32 F32Lemmas F32Round F64 NumModel AngleModel AngleProps BehaviorModel GeomModel DistanceModel LerpProps ConstrainModel.
Import ListNotations.
Local Open Scope R_scope.

(** ** Ratios *)
(** [x] is exactly [k / 2^i] *)
Definition dyadic (x : f32) (k : Z) (i : nat) : Prop := is_finite x = true /\ fR x = IZR k * bpow radix2 (- Z.of_nat i).
Lemma bpow_half i : bpow radix2 (- Z.of_nat i) = 2 * bpow radix2 (- Z.of_nat (S i)).
Proof. rewrite Nat2Z.inj_succ. replace (- Z.of_nat i)%Z with (1 + (- Z.succ (Z.of_nat i)))%Z by lia. rewrite bpow_plus. reflexivity. Qed.
Lemma dyadic_double x k i : dyadic x k i -> dyadic x (2 * k) (S i).
Proof. intros [F H]. split; [exact F|]. rewrite H, bpow_half, mult_IZR. ring. Qed.
Lemma dyadic_format k i : (Z.abs k < 2 ^ 24)%Z -> (i <= 100)%nat -> rnd (IZR k * bpow radix2 (- Z.of_nat i)) = IZR k * bpow radix2 (- Z.of_nat i).
Proof. intros H Hi. apply round_generic; auto with typeclass_instances. apply (small_format k (- Z.of_nat i)); [exact H|lia]. Qed.
Lemma pow_i i : bpow radix2 (- Z.of_nat i) * IZR (2 ^ Z.of_nat i) = 1.
Proof. change (IZR (2 ^ Z.of_nat i)) with (IZR (radix2 ^ Z.of_nat i)). rewrite IZR_Zpower by lia. rewrite <- bpow_plus. replace (_ + _)%Z with 0%Z by lia. reflexivity. Qed.
Lemma safe_1 r : 0 <= r <= 1 -> Rabs r <= safe.
Proof. intros H. rewrite Rabs_pos_eq by lra. apply Rle_trans with 1; [lra|]. change 1 with (bpow radix2 0). apply bpow_le. lia. Qed.
Lemma half_step E lo hi k i : (i < 24)%nat -> (0 <= k < 2 ^ Z.of_nat i)%Z -> dyadic lo k i -> dyadic hi (k + 1) i -> dyadic (lerp (N := fnum E) lo hi (fdy 1 (-1))) (2 * k + 1) (S i).
Proof.
  intros Hi Hk [Fl Rl] [Fh Rh]. change (lerp (N := fnum E) lo hi (fdy 1 (-1))) with (fadd lo (fmul (fsub hi lo) (fdy 1 (-1)))). set (b := bpow radix2 (- Z.of_nat i)) in *.
  assert (B0 : 0 < b) by apply bpow_gt_0. assert (B1 : b <= 1) by (change 1 with (bpow radix2 0); apply bpow_le; lia).
  assert (D : fR hi - fR lo = b) by (rewrite Rl, Rh, plus_IZR; ring).
  destruct (fsub_small hi lo Fh Fl) as [S1 S2]; [rewrite D; apply safe_1; lra|]. rewrite D in S1. unfold b in S1. rewrite rnd_bpow in S1 by lia. fold b in S1.
  assert (H1 : is_finite (fdy 1 (-1)) = true /\ fR (fdy 1 (-1)) = / 2).
  { destruct (fR_const (fdy 1 (-1)) false 8388608 (-24)) as [-> F]; [vm_compute; reflexivity|]. split; [exact F|]. unfold F2R. cbn [Fnum Fexp cond_Zopp]. change (bpow radix2 (-24)) with (/ 16777216). lra. }
  destruct H1 as [Fq Rq]. assert (Hh : b * / 2 = bpow radix2 (- Z.of_nat (S i))) by (unfold b; rewrite bpow_half; field).
  destruct (fmul_small (fsub hi lo) (fdy 1 (-1)) S2 Fq) as [M1 M2]; [rewrite S1, Rq; apply safe_1; lra|]. rewrite S1, Rq, Hh, rnd_bpow in M1 by lia.
  assert (Su : fR lo + fR (fmul (fsub hi lo) (fdy 1 (-1))) = IZR (2 * k + 1) * bpow radix2 (- Z.of_nat (S i))). { rewrite M1, Rl. unfold b. rewrite bpow_half, plus_IZR, mult_IZR. ring. }
  assert (P : (2 ^ Z.of_nat i <= 2 ^ 23)%Z) by (apply Z.pow_le_mono_r; lia).
  destruct (fadd_small lo _ Fl M2) as [A1 A2].
  - rewrite M1, Rl. apply safe_1. assert (IZR k + 1 <= IZR (2 ^ Z.of_nat i)). { rewrite <- plus_IZR. apply IZR_le. lia. } assert (0 <= IZR k) by (apply IZR_le; lia). pose proof (pow_i i) as Q. fold b in Q. rewrite <- Hh. nra.
  - split; [exact A2|]. rewrite A1, Su. apply dyadic_format; [|lia]. change (2 ^ 24)%Z with (2 * 2 ^ 23)%Z. lia.
Qed.

(** ** Interpolation stays between the ends *)
Lemma frac (a b : f32) t : fR a <= fR b -> 0 <= t <= 1 - / 1048576 -> 0 <= rnd (rnd (fR b - fR a) * t) <= fR b - fR a.
Proof.
  intros H Ht. set (d := fR b - fR a). assert (D0 : 0 <= d) by (unfold d; lra). assert (X0 : 0 <= rnd d) by (apply rnd_pos; exact D0). split; [apply rnd_pos; nra|].
  destruct (Rle_lt_dec (bpow radix2 (-125)) d) as [L|L].
  - assert (Q : bpow radix2 (-125) = 2 * bpow radix2 (-126)) by (replace (-125)%Z with (1 + -126)%Z by lia; rewrite bpow_plus; reflexivity). pose proof (bpow_gt_0 radix2 (-126)) as Q0.
    pose proof (rnd_upper d ltac:(lra)) as U. set (r := d * ((1 + u24) * (1 - / 1048576))).
    assert (C1 : /2 <= (1 + u24) * (1 - / 1048576)) by (unfold u24; lra). assert (C2 : ((1 + u24) * (1 - / 1048576)) * (1 + u24) <= 1) by (unfold u24; lra).
    apply Rle_trans with (rnd r).
    + apply rnd_mono. unfold r. apply Rle_trans with (d * (1 + u24) * (1 - / 1048576)); [|right; ring]. apply Rmult_le_compat; try lra.
    + apply Rle_trans with (r * (1 + u24)); [apply rnd_upper; unfold r; nra|]. unfold r. rewrite Rmult_assoc. rewrite <- (Rmult_1_r d) at 2. apply Rmult_le_compat_l; assumption.
  - assert (Ex : rnd d = d). { apply round_generic; auto with typeclass_instances. unfold d, Rminus. apply (FLT_format_plus_small radix2 (-149) 24); [apply (generic_format_B2R 24 128 b)|apply generic_format_opp, (generic_format_B2R 24 128 a)|]. change (24 + -149)%Z with (-125)%Z. fold (fR b - fR a). fold d. rewrite Rabs_pos_eq; lra. }
    rewrite Ex. rewrite <- Ex at 2. apply rnd_mono. nra.
Qed.
Lemma frac_down (a b : f32) t : fR b <= fR a -> 0 <= t <= 1 - / 1048576 -> fR b - fR a <= rnd (rnd (fR b - fR a) * t) <= 0.
Proof.
  intros H Ht. pose proof (frac b a t H Ht) as F. replace (fR b - fR a) with (- (fR a - fR b)) by ring. rewrite rnd_opp. replace (- rnd (fR a - fR b) * t) with (- (rnd (fR a - fR b) * t)) by ring. rewrite rnd_opp. lra.
Qed.
Definition between (a b x : R) : Prop := a <= x <= b \/ b <= x <= a.
Lemma lerp_between E (a b t : f32) : is_finite (fsub b a) = true -> is_finite t = true -> 0 <= fR t <= 1 - / 1048576 ->
  is_finite (lerp (N := fnum E) a b t : f32) = true /\ between (fR a) (fR b) (fR (lerp (N := fnum E) a b t)).
Proof.
  intros Hs Ft Ht. change (lerp (N := fnum E) a b t) with (fadd a (fmul (fsub b a) t)). destruct (fsub_inv b a Hs) as (Fb & Fa & Rs).
  pose proof (fR_bounds (fsub b a)) as Bs. pose proof (fR_bounds a) as Ba. pose proof (fR_bounds b) as Bb.
  assert (Pr : is_finite (fmul (fsub b a) t) = true /\ fR (fmul (fsub b a) t) = rnd (rnd (fR b - fR a) * fR t)).
  { rewrite <- Rs. assert (Rr := rnd_fR (fsub b a)). assert (K : - big < rnd (fR (fsub b a) * fR t) < big).
    { destruct (Rle_lt_dec 0 (fR (fsub b a))) as [S0|S0].
      - pose proof (rnd_pos (fR (fsub b a) * fR t) ltac:(nra)). pose proof (rnd_mono (fR (fsub b a) * fR t) (fR (fsub b a)) ltac:(nra)). lra.
      - pose proof (rnd_neg (fR (fsub b a) * fR t) ltac:(nra)). pose proof (rnd_mono (fR (fsub b a)) (fR (fsub b a) * fR t) ltac:(nra)). lra. }
    destruct (fmul_finite (fsub b a) t Hs Ft) as [(X & Y & Z)|[(X & Y)|(X & Y)]]; [auto|lra|lra]. }
  destruct Pr as [Fp Rp]. assert (Bt : between (fR a) (fR b) (fR a + fR (fmul (fsub b a) t))).
  { rewrite Rp. unfold between. destruct (Rle_lt_dec (fR a) (fR b)) as [L|L]; [pose proof (frac a b (fR t) L Ht); lra|pose proof (frac_down a b (fR t) ltac:(lra) Ht); lra]. }
  assert (Br : between (fR a) (fR b) (rnd (fR a + fR (fmul (fsub b a) t)))).
  { pose proof (rnd_fR a) as Ra. pose proof (rnd_fR b) as Rb. destruct Bt as [[B1 B2]|[B1 B2]]; apply rnd_mono in B1; apply rnd_mono in B2; rewrite ?Ra, ?Rb in *; unfold between; lra. }
  destruct (fadd_finite a (fmul (fsub b a) t) Fa Fp) as [(X & Y & Z)|[(X & Y)|(X & Y)]]; [rewrite Y; auto| |]; exfalso; unfold between in Br; lra.
Qed.
