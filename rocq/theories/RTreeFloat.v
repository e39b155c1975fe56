(** The ceilings that static_rtree.{h,cc} computes in double precision are exact. *)
From Coq Require Import ZArith Reals Lra Lia Psatz Arith.
From Flocq Require Import Core.
From Flocq Require Import Relative.
From Verif Require Import RTreeModel RTreeProofs.
Local Open Scope R_scope.

Notation rnd64 := (round radix2 (FLT_exp (-1074) 53) ZnearestE).
Lemma rnd64_int (z : Z) : (Z.abs z <= 2 ^ 53)%Z -> rnd64 (IZR z) = IZR z.
Proof.
  intros H. apply round_generic; [apply valid_rnd_N|]. destruct (Z.eq_dec (Z.abs z) (2 ^ 53)) as [Q|Q].
  - replace (IZR z) with (F2R (Float radix2 (z / 2) 1)).
    + apply generic_format_FLT. exists (Float radix2 (z / 2) 1); cbn; try lia; [reflexivity|]. destruct (Z.abs_eq_or_opp z) as [S|S]; rewrite S in Q; [rewrite Q|assert (z = (- 2 ^ 53)%Z) as -> by lia]; vm_compute; reflexivity.
    + unfold F2R. cbn [Fnum Fexp]. change (bpow radix2 1) with 2. replace (IZR z) with (IZR (2 * (z / 2))) by (f_equal; destruct (Z.abs_eq_or_opp z) as [S|S]; rewrite S in Q; [rewrite Q|assert (z = (- 2 ^ 53)%Z) as -> by lia]; reflexivity). rewrite mult_IZR. lra.
  - apply generic_format_FLT. exists (Float radix2 z 0); cbn; try lia. unfold F2R. cbn. lra.
Qed.
Lemma rnd64_err x : bpow radix2 (-1022) <= x -> Rabs (rnd64 x - x) <= / 9007199254740992 * x.
Proof.
  intros H. assert (0 < bpow radix2 (-1022)) by apply bpow_gt_0. 
  pose proof (relative_error_N_FLT radix2 (-1074) 53 eq_refl (fun x => negb (Z.even x)) x) as G. rewrite (Rabs_pos_eq x) in G by lra. specialize (G H).
  change ((- (53) + 1)%Z) with (-52)%Z in G. replace (/ 2 * bpow radix2 (-52)) with (/ 9007199254740992) in G; [exact G|]. change (bpow radix2 (-52)) with (/ 4503599627370496). lra.
Qed.
Lemma one_min : bpow radix2 (-1022) <= bpow radix2 (-40). Proof. apply bpow_le. lia. Qed.
Lemma Zceil_in (k : Z) x : IZR k < x -> x <= IZR (k + 1) -> Zceil x = (k + 1)%Z.
Proof. intros A B. apply Zceil_imp. split; [|exact B]. replace (k + 1 - 1)%Z with k by lia. exact A. Qed.
(** ceil(static_cast<double>(n) / d) *)
Theorem double_ceil_div (n d : nat) : (0 < n)%nat -> (0 < d)%nat -> (Z.of_nat n <= 2 ^ 32)%Z -> (Z.of_nat d <= 2 ^ 32)%Z ->
  Zceil (rnd64 (INR n / INR d)) = Z.of_nat (ceil_div n d).
Proof.
  intros Hn Hd Bn Bd. pose proof (ceil_div_le n d Hd) as L. pose proof (ceil_div_pos n d Hd Hn) as P. pose proof (ceil_div_lt n d (ceil_div n d - 1) Hd ltac:(lia)) as U.
  set (c := ceil_div n d) in *. clearbody c. assert (Hnr : 1 <= INR n) by (change 1 with (INR 1); apply le_INR; lia). assert (Hdr : 1 <= INR d) by (change 1 with (INR 1); apply le_INR; lia).
  apply le_INR in L. rewrite mult_INR in L. assert (U' : (((c - 1) * d) + 1 <= n)%nat) by lia. apply le_INR in U'. rewrite plus_INR, mult_INR in U'. change (INR 1) with 1 in U'.
  assert (Nb : INR n <= 4294967296) by (rewrite INR_IZR_INZ; apply IZR_le; lia). assert (Db : INR d <= 4294967296) by (rewrite INR_IZR_INZ; apply IZR_le; lia).
  assert (Q : INR n / INR d * INR d = INR n) by (field; lra).
  assert (Q1 : INR n / INR d <= INR c). { apply Rmult_le_reg_r with (INR d); [lra|]. rewrite Q. exact L. }
  assert (Q2 : INR (c - 1) + / INR d <= INR n / INR d). { apply Rmult_le_reg_r with (INR d); [lra|]. rewrite Q. replace ((INR (c - 1) + / INR d) * INR d) with (INR (c - 1) * INR d + 1) by (field; lra). exact U'. }
  assert (Id : / 4294967296 <= / INR d) by (apply Rinv_le; lra).
  assert (Low : / 4294967296 <= INR n / INR d) by (pose proof (pos_INR (c - 1)); lra).
  pose proof (rnd64_err (INR n / INR d)) as Er. 
  assert (bpow radix2 (-1022) <= INR n / INR d) by (pose proof one_min; change (bpow radix2 (-40)) with (/ 1099511627776) in *; lra).
  specialize (Er H). apply Rabs_le_inv in Er.
  replace (Z.of_nat c) with (Z.of_nat (c - 1) + 1)%Z by lia. apply Zceil_in.
  - rewrite <- INR_IZR_INZ. assert (S : / 9007199254740992 * (INR n / INR d) < / INR d).
    { unfold Rdiv. rewrite <- Rmult_assoc. rewrite <- (Rmult_1_l (/ INR d)) at 2. apply Rmult_lt_compat_r; [apply Rinv_0_lt_compat; lra|]. lra. }
    lra.
  - replace (Z.of_nat (c - 1) + 1)%Z with (Z.of_nat c) by lia. rewrite (INR_IZR_INZ c) in Q1.
    assert (Cn : (c <= n)%nat). { destruct d; [lia|]. assert (INR (c - 1) * 1 <= INR (c - 1) * INR (S d)) by (apply Rmult_le_compat_l; [apply pos_INR|exact Hdr]). assert (G : INR (c - 1) + 1 <= INR n) by lra. change 1 with (INR 1) in G. rewrite <- plus_INR in G. apply INR_le in G. lia. }
    rewrite <- (rnd64_int (Z.of_nat c)) by lia. apply round_le; [apply FLT_exp_valid; reflexivity|apply valid_rnd_N|exact Q1].
Qed.
(** ceil(sqrt(static_cast<double>(n))) *)
Theorem double_ceil_sqrt (n : nat) : (0 < n)%nat -> (Z.of_nat n <= 2 ^ 32)%Z -> Zceil (rnd64 (sqrt (INR n))) = Z.of_nat (ceil_sqrt n).
Proof.
  intros Hn Bn. assert (S : exists k, (k * k < n <= (k + 1) * (k + 1))%nat /\ ceil_sqrt n = (k + 1)%nat).
  { pose proof (Nat.sqrt_spec n ltac:(lia)) as Sp. cbn zeta in Sp. unfold ceil_sqrt. destruct (Nat.eqb_spec (Nat.sqrt n * Nat.sqrt n) n) as [Q|Q].
    - exists (Nat.sqrt n - 1)%nat. destruct (Nat.sqrt n); [lia|]. split; nia.
    - exists (Nat.sqrt n). split; nia. }
  destruct S as (k & [S1 S2] & ->). assert (S1' : (k * k + 1 <= n)%nat) by lia. apply le_INR in S1', S2. rewrite plus_INR, mult_INR in S1'. rewrite mult_INR, plus_INR in S2. change (INR 1) with 1 in *.
  assert (Nb : INR n <= 4294967296) by (rewrite INR_IZR_INZ; apply IZR_le; lia). assert (Hnr : 1 <= INR n) by (change 1 with (INR 1); apply le_INR; lia). pose proof (pos_INR k) as Pk.
  set (s := sqrt (INR n)). assert (Ss : s * s = INR n) by (apply sqrt_sqrt; lra). assert (Ps : 0 <= s) by apply sqrt_pos.
  assert (s1 : 1 <= s) by nra. assert (Sk : INR k < s) by nra. assert (Su : s <= INR k + 1) by nra. assert (Sb : s <= 65536) by nra.
  pose proof (rnd64_err s) as Er. assert (bpow radix2 (-1022) <= s) by (pose proof one_min; change (bpow radix2 (-40)) with (/ 1099511627776) in *; lra). specialize (Er H). apply Rabs_le_inv in Er.
  rewrite Nat2Z.inj_add. change (Z.of_nat 1) with 1%Z. apply Zceil_in.
  - rewrite <- INR_IZR_INZ. assert (G : / 9007199254740992 * s < s - INR k); [|lra]. nra.
  - rewrite plus_IZR, <- INR_IZR_INZ. apply Rle_trans with (rnd64 (INR k + 1)); [apply round_le; [apply FLT_exp_valid; reflexivity|apply valid_rnd_N|exact Su]|].
    replace (INR k + 1) with (IZR (Z.of_nat (k + 1))) by (rewrite <- INR_IZR_INZ, plus_INR; reflexivity). rewrite rnd64_int; [lra|]. 
    assert (INR k <= 65536) by lra. rewrite INR_IZR_INZ in H0. apply le_IZR in H0. lia.
Qed.
