(** Segment::Lerp in floats does not overflow between the end points. *)
From Coq Require Import ZArith Reals Lra Lia Psatz Bool.
From Flocq Require Import Core BinarySingleNaN Relative Sterbenz.
From Verif Require Import F32 F32Lemmas NumModel GeomModel.
Local Open Scope R_scope.

Notation top := (bpow radix2 128 - bpow radix2 104).
Lemma b128 : bpow radix2 128 = 340282366920938463463374607431768211456. Proof. reflexivity. Qed.
Lemma b104 : bpow radix2 104 = 20282409603651670423947251286016. Proof. reflexivity. Qed.
Lemma b103 : bpow radix2 103 = 10141204801825835211973625643008. Proof. reflexivity. Qed.
Lemma b24 : bpow radix2 (-24) = / 16777216. Proof. reflexivity. Qed.
Lemma b25 : bpow radix2 (-25) = / 33554432. Proof. reflexivity. Qed.
Lemma steps_format (k : Z) : (0 <= k <= 2 ^ 24)%Z -> generic_format radix2 fexp32 (IZR k * bpow radix2 104).
Proof.
  intros K. destruct (Z.eq_dec k (2 ^ 24)) as [->|D].
  - replace (IZR (2 ^ 24) * bpow radix2 104) with (bpow radix2 128) by (rewrite b128, b104; lra). apply generic_format_bpow. apply Z.leb_le; reflexivity.
  - apply (generic_format_FLT radix2 (-149) 24). exists (Float radix2 k 104); [reflexivity|cbn; lia|cbn; lia].
Qed.
Lemma mag_top x : bpow radix2 127 <= x < bpow radix2 128 -> ulp radix2 fexp32 x = bpow radix2 104.
Proof.
  intros H. rewrite ulp_neq_0 by (pose proof (bpow_gt_0 radix2 127); lra). unfold cexp. rewrite (mag_unique radix2 x 128); [reflexivity|]. rewrite Rabs_pos_eq; [exact H|pose proof (bpow_gt_0 radix2 127); lra].
Qed.
Lemma unit_steps t : generic_format radix2 fexp32 t -> / 2 <= t <= 1 -> exists k : Z, (2 ^ 23 <= k <= 2 ^ 24)%Z /\ t = IZR k * bpow radix2 (-24).
Proof.
  intros F B. destruct (Req_dec t 1) as [->|D].
  - exists (2 ^ 24)%Z. split; [lia|]. rewrite b24. cbn. lra.
  - assert (M : mag radix2 t = 0%Z :> Z). { apply mag_unique. rewrite Rabs_pos_eq by lra. change (bpow radix2 (0 - 1)) with (/ 2). change (bpow radix2 0) with 1. lra. }
    unfold generic_format, F2R, scaled_mantissa, cexp in F. rewrite M in F. change (fexp32 0) with (-24)%Z in F. cbn [Fnum Fexp] in F. exists (Ztrunc (t * bpow radix2 (- -24))). split; [|exact F].
    set (k := Ztrunc (t * bpow radix2 (- -24))) in *. rewrite b24 in F. split; apply le_IZR; cbn; lra.
Qed.
Lemma top_bound (x : f32) : Rabs (fR x) <= top.
Proof. apply (abs_B2R_le_emax_minus_prec 24 128). reflexivity. Qed.
Lemma scaled_top t : generic_format radix2 fexp32 t -> / 2 < t <= 1 -> rnd (top * t) <= t * bpow radix2 128 - bpow radix2 104.
Proof.
  intros F B. destruct (unit_steps t F) as (k & K & E); [lra|]. assert (K1 : (2 ^ 23 < k)%Z) by (apply lt_IZR; rewrite b24 in E; cbn; lra).
  replace (t * bpow radix2 128 - bpow radix2 104) with (IZR (k - 1) * bpow radix2 104) by (rewrite minus_IZR, E, b24, b128, b104; field).
  assert (KR : 8388609 <= IZR k <= 16777216) by (split; [apply (IZR_le 8388609); lia|apply (IZR_le k 16777216); lia]).
  apply round_N_le_midp; [apply fexp32_valid|apply steps_format; lia|].
  rewrite succ_eq_pos by (apply Rmult_le_pos; [apply IZR_le; lia|apply bpow_ge_0]).
  rewrite mag_top; [rewrite minus_IZR, E, b24, b128, b104; lra|].
  rewrite minus_IZR, b104, b128. change (bpow radix2 127) with 170141183460469231731687303715884105728. lra.
Qed.
Lemma rnd_top : rnd top = top.
Proof. replace top with (IZR (2 ^ 24 - 1) * bpow radix2 104) by (rewrite b128, b104; cbn; lra). apply round_generic; [apply valid_rnd_N|]. apply steps_format. lia. Qed.
Lemma rnd_half_top : rnd (top * / 2) = top * / 2.
Proof.
  replace (top * / 2) with (F2R (Float radix2 (2 ^ 24 - 1) 103)) by (unfold F2R; cbn [Fnum Fexp]; rewrite b128, b104, b103; cbn; lra).
  apply round_generic; [apply valid_rnd_N|]. apply (generic_format_FLT radix2 (-149) 24). eexists; [reflexivity|cbn; lia|cbn; lia].
Qed.
Lemma rnd_rel x : 0 <= x -> rnd x <= x * (1 + bpow radix2 (-24)) + bpow radix2 (-126).
Proof.
  intros H. destruct (Rle_or_lt (bpow radix2 (-126)) x) as [L|L].
  - pose proof (relative_error_N_FLT radix2 (-149) 24 ltac:(reflexivity) (fun n => negb (Z.even n)) x) as Q. rewrite (Rabs_pos_eq x) in Q by exact H. specialize (Q L).
    change (bpow radix2 (- (24) + 1)) with (/ 8388608) in Q. change (round radix2 (FLT_exp (-149) 24) (Znearest (fun n => negb (Z.even n))) x) with (rnd x) in Q.
    rewrite b24. pose proof (bpow_gt_0 radix2 (-126)). unfold Rabs in Q. destruct (Rcase_abs (rnd x - x)); lra.
  - pose proof (rnd_mono x (bpow radix2 (-126)) (Rlt_le _ _ L)) as Q. assert (G : rnd (bpow radix2 (-126)) = bpow radix2 (-126)) by (apply round_generic; [apply valid_rnd_N|apply generic_format_bpow; apply Z.leb_le; reflexivity]).
    rewrite G in Q. rewrite b24. lra.
Qed.
Lemma pair_bound t w : generic_format radix2 fexp32 t -> / 2 <= t <= 1 -> 0 <= w -> w <= 1 - t + bpow radix2 (-25) -> (t = / 2 -> w <= / 2) ->
  rnd (top * t) + rnd (top * w) < top + bpow radix2 103.
Proof.
  intros F B W L H. destruct (Req_dec t (/ 2)) as [->|D].
  - specialize (H eq_refl). rewrite rnd_half_top. assert (rnd (top * w) <= top * / 2). { rewrite <- rnd_half_top. apply rnd_mono. rewrite b128, b104. nra. } rewrite b103. rewrite b128, b104 in *. lra.
  - pose proof (scaled_top t F ltac:(lra)) as S1. destruct (Req_dec w 0) as [->|W0].
    + rewrite Rmult_0_r, rnd_0. rewrite b128, b104, b103 in *. lra.
    + destruct (Rle_or_lt w (bpow radix2 (-30))) as [Sm|Sm].
      * assert (0 <= top * w) by (rewrite b128, b104; nra). pose proof (rnd_rel (top * w) H0) as S2. change (bpow radix2 (-30)) with (/ 1073741824) in Sm.
        assert (bpow radix2 (-126) < 1) by (change 1 with (bpow radix2 0); apply bpow_lt; lia). rewrite b24, b25, b128, b104, b103 in *. lra.
      * assert (0 <= top * w) by (rewrite b128, b104; nra). pose proof (rnd_rel (top * w) H0) as S2. change (bpow radix2 (-30)) with (/ 1073741824) in Sm.
        assert (bpow radix2 (-126) < 1) by (change 1 with (bpow radix2 0); apply bpow_lt; lia). rewrite b24, b25, b128, b104, b103 in *. lra.
Qed.
Lemma below_big z : Rabs z < top + bpow radix2 103 -> Rabs (rnd z) < bpow radix2 128.
Proof.
  assert (G : forall z, z < top + bpow radix2 103 -> rnd z < bpow radix2 128).
  { intros y H. apply Rle_lt_trans with top; [|pose proof (bpow_gt_0 radix2 104); lra]. 
    replace top with (IZR (2 ^ 24 - 1) * bpow radix2 104) in * by (rewrite b128, b104; cbn; lra).
    apply round_N_le_midp; [apply fexp32_valid|apply steps_format; lia|]. rewrite succ_eq_pos by (apply Rmult_le_pos; [apply IZR_le; lia|apply bpow_ge_0]).
    rewrite mag_top; [rewrite b104, b103 in *; lra|]. rewrite b104, b128. change (bpow radix2 127) with 170141183460469231731687303715884105728. cbn. lra. }
  intros H. apply Rabs_def2 in H. apply Rabs_def1; [apply G; lra|]. pose proof (G (- z) ltac:(lra)) as K. rewrite rnd_opp in K. lra.
Qed.
Lemma rnd_abs x : Rabs (rnd x) = rnd (Rabs x).
Proof. unfold Rabs. destruct (Rcase_abs x); [|destruct (Rcase_abs (rnd x)); [|reflexivity]]. - pose proof (rnd_neg x ltac:(lra)). destruct (Rcase_abs (rnd x)); rewrite rnd_opp; lra. - pose proof (rnd_pos x ltac:(lra)). lra. Qed.
(** the two weights 1 - r (rounded) and r *)
Lemma weights (r : f32) : is_finite r = true -> 0 <= fR r <= 1 -> is_finite (fsub f1 r) = true /\ fR (fsub f1 r) = rnd (1 - fR r) /\ 0 <= rnd (1 - fR r) <= 1.
Proof.
  intros F B. assert (R1 : rnd 1 = 1) by (rewrite <- f1_R at 1; rewrite rnd_fR; apply f1_R).
  assert (V : 0 <= rnd (1 - fR r) <= 1) by (split; [apply rnd_pos; lra|rewrite <- R1 at 2; apply rnd_mono; lra]).
  pose proof big_pos. assert (1 < big) by (change 1 with (bpow radix2 0); apply bpow_lt; lia).
  destruct (fsub_finite f1 r f1_finite F) as [(A & C & D)|[(A & C)|(A & C)]]; rewrite f1_R in *; try lra. auto.
Qed.
Lemma sum_bound (r : f32) : is_finite r = true -> 0 <= fR r <= 1 -> rnd (top * rnd (1 - fR r)) + rnd (top * fR r) < top + bpow radix2 103.
Proof.
  intros F B. destruct (weights r F B) as (_ & _ & V). set (u := fR r) in *.
  assert (Fu : generic_format radix2 fexp32 u) by apply generic_format_B2R. assert (Fv : generic_format radix2 fexp32 (rnd (1 - u))) by (apply generic_format_round; [apply fexp32_valid|apply valid_rnd_N]).
  destruct (Rle_or_lt (/ 2) u) as [L|L].
  - assert (X : rnd (1 - u) = 1 - u).
    { apply round_generic; [apply valid_rnd_N|]. apply sterbenz; [apply fexp32_valid|apply fexp32_mono|rewrite <- f1_R; apply generic_format_B2R|exact Fu|lra]. }
    rewrite Rplus_comm. apply pair_bound; [exact Fu|lra|lra|rewrite X; pose proof (bpow_ge_0 radix2 (-25)); lra|rewrite X; lra].
  - assert (H2 : rnd (/ 2) = / 2). { apply round_generic; [apply valid_rnd_N|]. change (/ 2) with (bpow radix2 (-1)). apply generic_format_bpow. apply Z.leb_le; reflexivity. }
    assert (HL : / 2 <= rnd (1 - u)) by (rewrite <- H2; apply rnd_mono; lra).
    apply pair_bound; [exact Fv|lra|lra| |intros; lra].
    (* rounding 1 - u moves it by at most half a unit in the last place *)
    pose proof (error_le_half_ulp radix2 fexp32 (fun n => negb (Z.even n)) (1 - u)) as Q. destruct (Req_dec u 0) as [U0|U0].
    + rewrite U0 in *. rewrite Rminus_0_r in *. assert (R1 : rnd 1 = 1) by (rewrite <- f1_R at 1; rewrite rnd_fR; apply f1_R). rewrite R1. pose proof (bpow_ge_0 radix2 (-25)). lra.
    + assert (UL : ulp radix2 fexp32 (1 - u) = bpow radix2 (-24)).
      { rewrite ulp_neq_0 by lra. unfold cexp. rewrite (mag_unique radix2 (1 - u) 0); [reflexivity|]. rewrite Rabs_pos_eq by lra. change (bpow radix2 (0 - 1)) with (/ 2). change (bpow radix2 0) with 1. lra. }
      rewrite UL in Q. change (round radix2 fexp32 (Znearest (fun n => negb (Z.even n))) (1 - u)) with (rnd (1 - u)) in Q. rewrite b24 in Q. rewrite b25. unfold Rabs in Q. destruct (Rcase_abs (rnd (1 - u) - (1 - u))); lra.
Qed.
Lemma scaled_fin (x r : f32) : is_finite x = true -> is_finite r = true -> 0 <= fR r <= 1 -> is_finite (fmul x r) = true /\ Rabs (fR (fmul x r)) <= rnd (top * fR r).
Proof.
  intros Fx Fr B. assert (Q : Rabs (rnd (fR x * fR r)) <= rnd (top * fR r)).
  { rewrite rnd_abs. apply rnd_mono. rewrite Rabs_mult, (Rabs_pos_eq (fR r)) by lra. apply Rmult_le_compat_r; [lra|apply top_bound]. }
  assert (Q2 : rnd (top * fR r) <= top) by (rewrite <- rnd_top at 2; apply rnd_mono; rewrite b128, b104; nra).
  pose proof (bpow_gt_0 radix2 104) as P1. unfold Rabs in Q.
  destruct (fmul_finite x r Fx Fr) as [(A & C & D)|[(A & C)|(A & C)]].
  - split; [exact D|]. rewrite C. unfold Rabs. exact Q.
  - destruct (Rcase_abs (rnd (fR x * fR r))); lra.
  - destruct (Rcase_abs (rnd (fR x * fR r))); lra.
Qed.
Theorem lerp_finite (x y r : f32) : is_finite x = true -> is_finite y = true -> is_finite r = true -> 0 <= fR r <= 1 -> is_finite (fadd (fmul x (fsub f1 r)) (fmul y r)) = true.
Proof.
  intros Fx Fy Fr B. destruct (weights r Fr B) as (Fw & Ew & Bw). pose proof (sum_bound r Fr B) as S.
  destruct (scaled_fin x (fsub f1 r) Fx Fw) as [Fa Ba]; [rewrite Ew; exact Bw|]. rewrite Ew in Ba. destruct (scaled_fin y r Fy Fr B) as [Fb Bb].
  assert (Q : Rabs (rnd (fR (fmul x (fsub f1 r)) + fR (fmul y r))) < big). { apply below_big. eapply Rle_lt_trans; [apply Rabs_triang|]. lra. }
  apply Rabs_def2 in Q. destruct (fadd_finite _ _ Fa Fb) as [(A & C & D)|[(A & C)|(A & C)]]; [exact D|lra|lra].
Qed.
Lemma half_fin (x : f32) : is_finite x = true -> is_finite (fmul (fdy 1 (-1)) x) = true /\ Rabs (fR (fmul (fdy 1 (-1)) x)) <= top * / 2.
Proof.
  intros F. assert (HB : fR (fdy 1 (-1)) = / 2 /\ is_finite (fdy 1 (-1)) = true).
  { assert (E0 : F2R (Float radix2 1 (-1)) = / 2) by (unfold F2R; cbn; lra). rewrite <- E0. apply fdy_exact.
    - apply (generic_format_FLT radix2 (-149) 24). eexists; [reflexivity|cbn; lia|cbn; lia].
    - rewrite E0, Rabs_pos_eq by lra. apply Rlt_trans with (bpow radix2 0); [cbn; lra|apply bpow_lt; lia]. }
  destruct HB as [HR HF].
  assert (Q : Rabs (rnd (/ 2 * fR x)) <= top * / 2). { rewrite rnd_abs, <- rnd_half_top. apply rnd_mono. rewrite Rabs_mult, (Rabs_pos_eq (/ 2)) by lra. pose proof (top_bound x). lra. }
  pose proof (bpow_gt_0 radix2 104). pose proof big_pos. destruct (fmul_finite (fdy 1 (-1)) x HF F) as [(A & C & D)|[(A & C)|(A & C)]]; rewrite HR in *.
  - split; [exact D|]. rewrite C. exact Q.
  - unfold Rabs in Q. destruct (Rcase_abs (rnd (/ 2 * fR x))); lra.
  - unfold Rabs in Q. destruct (Rcase_abs (rnd (/ 2 * fR x))); lra.
Qed.
Lemma le_top z : Rabs z <= top -> Rabs (rnd z) < big.
Proof. intros H. apply below_big. pose proof (bpow_gt_0 radix2 103). lra. Qed.
Lemma semi_finite (x y : f32) : is_finite x = true -> is_finite y = true -> is_finite (fsub (fmul (fdy 1 (-1)) x) (fmul (fdy 1 (-1)) y)) = true /\ is_finite (fadd (fmul (fdy 1 (-1)) x) (fmul (fdy 1 (-1)) y)) = true.
Proof.
  intros Fx Fy. destruct (half_fin x Fx) as [A1 A2], (half_fin y Fy) as [B1 B2]. split.
  - assert (Q : Rabs (rnd (fR (fmul (fdy 1 (-1)) x) - fR (fmul (fdy 1 (-1)) y))) < big) by (apply le_top; eapply Rle_trans; [apply Rabs_triang|]; rewrite Rabs_Ropp; lra).
    apply Rabs_def2 in Q. destruct (fsub_finite _ _ A1 B1) as [(A & C & D)|[(A & C)|(A & C)]]; [exact D|lra|lra].
  - assert (Q : Rabs (rnd (fR (fmul (fdy 1 (-1)) x) + fR (fmul (fdy 1 (-1)) y))) < big) by (apply le_top; eapply Rle_trans; [apply Rabs_triang|]; lra).
    apply Rabs_def2 in Q. destruct (fadd_finite _ _ A1 B1) as [(A & C & D)|[(A & C)|(A & C)]]; [exact D|lra|lra].
Qed.
Lemma lerp_ends (x y : f32) : is_finite x = true -> is_finite y = true -> fR (fadd (fmul x (fsub f1 f0)) (fmul y f0)) = fR x /\ fR (fadd (fmul x (fsub f1 f1)) (fmul y f1)) = fR y.
Proof.
  intros Fx Fy. assert (E0 : fsub f1 f0 = f1) by (apply B2SF_inj; vm_compute; reflexivity). assert (E1 : fsub f1 f1 = f0) by (apply B2SF_inj; vm_compute; reflexivity). rewrite E0, E1.
  assert (M1 : forall z : f32, is_finite z = true -> is_finite (fmul z f1) = true /\ fR (fmul z f1) = fR z).
  { intros z F. pose proof (fR_bounds z). destruct (fmul_finite z f1 F f1_finite) as [(A & C & D)|[(A & C)|(A & C)]]; rewrite f1_R, Rmult_1_r, rnd_fR in *; [auto|lra|lra]. }
  assert (M0 : forall z : f32, is_finite z = true -> is_finite (fmul z f0) = true /\ fR (fmul z f0) = 0).
  { intros z F. assert (F0 : is_finite f0 = true) by reflexivity. pose proof big_pos. destruct (fmul_finite z f0 F F0) as [(A & C & D)|[(A & C)|(A & C)]]; rewrite f0_R, Rmult_0_r, rnd_0 in *; [auto|lra|lra]. }
  pose proof (fR_bounds x). pose proof (fR_bounds y). destruct (M1 x Fx) as [A1 A2], (M1 y Fy) as [B1 B2], (M0 x Fx) as [C1 C2], (M0 y Fy) as [D1 D2]. split.
  - destruct (fadd_finite _ _ A1 D1) as [(A & C & D)|[(A & C)|(A & C)]]; rewrite A2, D2, Rplus_0_r, rnd_fR in *; [exact C|lra|lra].
  - destruct (fadd_finite _ _ C1 B1) as [(A & C & D)|[(A & C)|(A & C)]]; rewrite B2, C2, Rplus_0_l, rnd_fR in *; [exact C|lra|lra].
Qed.
