(** Rounding to the grid of a coding, in floats: stable as long as the offset is not too large for the scale *)
From Coq Require Import ZArith Bool Reals Lia Lra List.
From Flocq Require Import Core Relative IEEE754.BinarySingleNaN.
From Verif Require Import F32 F32Lemmas F32Round NumModel EasingBezier MeshFormatModel PackModel PackProps PackQuantProps.
Import ListNotations.
Local Open Scope R_scope.

Lemma rnd_any x : Rabs (rnd x - x) <= u24 * Rabs x + tiny.
Proof.
  destruct (error_N_FLT radix2 (-149) 24 eq_refl (fun z => negb (Z.even z)) x) as (e & t & E & T & _ & R).
  change (round radix2 (FLT_exp (-149) 24) ZnearestE x) with (rnd x) in R. rewrite R.
  replace (x * (1 + e) + t - x) with (e * x + t) by ring. eapply Rle_trans; [apply Rabs_triang|]. apply Rplus_le_compat.
  - rewrite Rabs_mult. apply Rmult_le_compat_r; [apply Rabs_pos|]. eapply Rle_trans; [exact E|]. change (bpow radix2 (- (24) + 1)) with (/ 8388608). unfold u24. lra.
  - eapply Rle_trans; [exact T|]. unfold tiny. change (-149)%Z with (-150 + 1)%Z. rewrite bpow_plus. change (bpow radix2 1) with 2. lra.
Qed.
Lemma rnd_within x y e : Rabs (x - y) <= e -> Rabs (rnd x - y) <= e + u24 * (Rabs y + e) + tiny.
Proof.
  intros H. pose proof (rnd_any x) as A. replace (rnd x - y) with ((rnd x - x) + (x - y)) by ring. eapply Rle_trans; [apply Rabs_triang|]. assert (Rabs x <= Rabs y + e). { replace x with (y + (x - y)) by ring. eapply Rle_trans; [apply Rabs_triang|]. lra. } unfold u24 in *. lra.
Qed.

(** What a coding must satisfy: 5 (M + 2) s + 2 |o| <= 8000000 s, with M the largest integer *)
Definition moderate (p : params) (M : Z) : Prop :=
  is_finite (offset p) = true /\ is_finite (scale p) = true /\ bpow radix2 (-100) <= B2R (scale p) <= bpow radix2 100 /\ (0 <= M <= 1048575)%Z /\
  5 * (IZR M + 2) * B2R (scale p) + 2 * Rabs (B2R (offset p)) <= 8000000 * B2R (scale p).
Definition gridR (p : params) (k : Z) : R := rnd (rnd (IZR k * fR (scale p)) + fR (offset p)).

Section Grid.
Variables (p : params) (M : Z).
Hypothesis Hm : moderate p M.
Notation o := (fR (offset p)).
Notation t := (fR (scale p)).
Notation K := (IZR M + 2).
Lemma t_pos : 0 < t. Proof. destruct Hm as (_ & _ & [H _] & _). pose proof (bpow_gt_0 radix2 (-100)). change (B2R (scale p)) with t in H. lra. Qed.
Lemma tiny_t : tiny <= t / 1000000000.
Proof.
  destruct Hm as (_ & _ & [H _] & _). unfold tiny. change (-150)%Z with (-50 + -100)%Z. rewrite bpow_plus. pose proof (bpow_gt_0 radix2 (-100)). assert (bpow radix2 (-50) <= / 1000000000).
  { change (bpow radix2 (-50)) with (/ 1125899906842624). lra. }
  change (B2R (scale p)) with t in H. apply Rle_trans with (/ 1000000000 * bpow radix2 (-100)); [apply Rmult_le_compat_r; lra|lra].
Qed.
Lemma M_bounds : 0 <= IZR M <= 1048575. Proof. destruct Hm as (_ & _ & _ & H & _). split; apply IZR_le; lia. Qed.
Lemma size_ok : 5 * K * t + 2 * Rabs o <= 8000000 * t. Proof. apply Hm. Qed.
Lemma small_fin x : Rabs x <= 16000000 * t -> Rabs (rnd x) < big.
Proof.
  intros H. destruct Hm as (_ & _ & [_ B] & _). change (B2R (scale p)) with t in B. pose proof (rnd_any x) as A. pose proof tiny_small. pose proof t_pos.
  assert (Rabs (rnd x) <= Rabs x + (u24 * Rabs x + tiny)). { replace (rnd x) with (x + (rnd x - x)) by ring. eapply Rle_trans; [apply Rabs_triang|]. lra. }
  assert (L : 17000000 * bpow radix2 100 <= bpow radix2 125). { change 125%Z with (25 + 100)%Z. rewrite bpow_plus. pose proof (bpow_gt_0 radix2 100). apply Rmult_le_compat_r; [lra|]. change (bpow radix2 25) with 33554432. lra. }
  assert (bpow radix2 125 + bpow radix2 125 <= big). { replace 128%Z with (3 + 125)%Z by reflexivity. rewrite bpow_plus. pose proof (bpow_gt_0 radix2 125). change (bpow radix2 3) with 8. lra. }
  pose proof (bpow_gt_0 radix2 100). assert (1 <= bpow radix2 125) by (change 1 with (bpow radix2 0); apply bpow_le; lia). unfold u24 in *. lra.
Qed.
Lemma grid_err k : Rabs (IZR k) <= K -> Rabs (gridR p k - (IZR k * t + o)) <= u24 * (2 * K * t + Rabs o) + t / 1000.
Proof.
  intros Hk. pose proof t_pos as Tp. pose proof tiny_t as Tt. pose proof M_bounds as MB. pose proof (rnd_any (IZR k * t)) as A. rewrite Rabs_mult, (Rabs_pos_eq t) in A by lra.
  assert (Kt : Rabs (IZR k) * t <= K * t) by (apply Rmult_le_compat_r; lra).
  assert (B : Rabs (rnd (IZR k * t) + o - (IZR k * t + o)) <= u24 * (K * t) + tiny). { replace (rnd (IZR k * t) + o - (IZR k * t + o)) with (rnd (IZR k * t) - IZR k * t) by ring. unfold u24 in *. lra. }
  pose proof (rnd_within _ _ _ B) as C. fold (gridR p k) in C.
  assert (D : Rabs (IZR k * t + o) <= K * t + Rabs o). { eapply Rle_trans; [apply Rabs_triang|]. rewrite Rabs_mult, (Rabs_pos_eq t) by lra. lra. }
  assert (Kb : K * t <= 1048577 * t) by (apply Rmult_le_compat_r; lra). unfold u24 in *. lra.
Qed.
(** The quotient, for a value within [e] steps of level [k] *)
Lemma quot_near (v : f32) k e : is_finite v = true -> Rabs (IZR k) <= K -> 0 <= e -> e + 2 * u24 * K + / 500 < / 2 -> Rabs (fR v - (IZR k * t + o)) <= e * t ->
  let q := fdiv (fsub v (offset p)) (scale p) in is_finite q = true /\ ZnearestA (fR q) = k.
Proof.
  intros Fv Hk E0 He Hv q. pose proof t_pos as Tp. pose proof tiny_t as Tt. pose proof tiny_small as Ts. pose proof tiny_pos as Tp0. pose proof M_bounds as MB. pose proof size_ok as SZ. destruct Hm as (Fo & Fs & _).
  assert (Ke : Rabs (IZR k * t) <= K * t) by (rewrite Rabs_mult, (Rabs_pos_eq t) by lra; apply Rmult_le_compat_r; lra).
  assert (Kb : K * t <= 1048577 * t) by (apply Rmult_le_compat_r; lra). assert (E5 : e < / 2) by (unfold u24 in He; lra).
  assert (Et : e * t <= / 2 * t) by (apply Rmult_le_compat_r; lra).
  assert (D1 : Rabs (fR v - o - IZR k * t) <= e * t) by (replace (fR v - o - IZR k * t) with (fR v - (IZR k * t + o)) by ring; exact Hv).
  assert (S1 : Rabs (rnd (fR v - o)) < big). { apply small_fin. replace (fR v - o) with (IZR k * t + (fR v - o - IZR k * t)) by ring. eapply Rle_trans; [apply Rabs_triang|]. lra. }
  destruct (fsub_finite v (offset p) Fv Fo) as [(_ & Vd & Fd)|[(B & _)|(B & _)]]; [|exfalso; apply Rabs_lt_inv in S1; lra|exfalso; apply Rabs_lt_inv in S1; lra].
  pose proof (rnd_within _ _ _ D1) as D2. rewrite <- Vd in D2. set (d := fR (fsub v (offset p))) in *.
  set (e2 := e + u24 * (K + e) + / 1000000000).
  assert (D3 : Rabs (d - IZR k * t) <= e2 * t). { unfold e2. eapply Rle_trans; [exact D2|]. replace ((e + u24 * (K + e) + / 1000000000) * t) with (e * t + u24 * (K * t + e * t) + t / 1000000000) by (field). unfold u24. lra. }
  assert (D4 : Rabs (d / t - IZR k) <= e2). { replace (d / t - IZR k) with ((d - IZR k * t) / t) by (field; lra). unfold Rdiv. rewrite Rabs_mult, Rabs_inv, (Rabs_pos_eq t) by lra. apply Rmult_le_reg_r with t; [exact Tp|]. rewrite Rmult_assoc, Rinv_l, Rmult_1_r by lra. exact D3. }
  pose proof (rnd_within _ _ _ D4) as D5.
  assert (S2 : Rabs (rnd (d / t)) < big).
  { assert (Rabs (rnd (d / t)) <= Rabs (IZR k) + Rabs (rnd (d / t) - IZR k)). { replace (rnd (d / t)) with (IZR k + (rnd (d / t) - IZR k)) at 1 by ring. apply Rabs_triang. } assert (2000000 < big) by (change 2000000 with (IZR 2000000); apply Rlt_le_trans with (bpow radix2 22); [change (bpow radix2 22) with 4194304; apply IZR_lt; lia|apply bpow_le; lia]). unfold e2, u24 in *. lra. }
  destruct (fdiv_finite (fsub v (offset p)) (scale p) Fd Fs ltac:(lra)) as [(_ & Vq & Fq)|[(B & _)|(B & _)]]; [|exfalso; fold d in B; apply Rabs_lt_inv in S2; lra|exfalso; fold d in B; apply Rabs_lt_inv in S2; lra].
  fold q in Vq, Fq. fold d in Vq. split; [exact Fq|]. apply near_int. rewrite Vq. eapply Rle_lt_trans; [exact D5|]. unfold e2, u24 in *. lra.
Qed.
(** The value at an integer *)
Lemma value_at (f : f32) k : is_finite f = true -> fR f = IZR k -> Rabs (IZR k) <= K -> is_finite (fadd (fmul f (scale p)) (offset p)) = true /\ fR (fadd (fmul f (scale p)) (offset p)) = gridR p k.
Proof.
  intros Ff Rf Hk. pose proof t_pos as Tp. pose proof tiny_t as Tt. pose proof M_bounds as MB. pose proof size_ok as SZ. pose proof Hm as (Fo & Fs & _).
  assert (Ke : Rabs (IZR k * t) <= K * t) by (rewrite Rabs_mult, (Rabs_pos_eq t) by lra; apply Rmult_le_compat_r; lra).
  assert (Kb : K * t <= 1048577 * t) by (apply Rmult_le_compat_r; lra).
  assert (S1 : Rabs (rnd (IZR k * t)) < big) by (apply small_fin; lra).
  destruct (fmul_finite f (scale p) Ff Fs) as [(_ & Vd & Fd)|[(B & _)|(B & _)]]; [|exfalso; rewrite Rf in B; apply Rabs_lt_inv in S1; lra|exfalso; rewrite Rf in B; apply Rabs_lt_inv in S1; lra].
  rewrite Rf in Vd. assert (S2 : Rabs (rnd (rnd (IZR k * t) + o)) < big).
  { apply small_fin. eapply Rle_trans; [apply Rabs_triang|]. pose proof (rnd_any (IZR k * t)) as A. assert (Rabs (rnd (IZR k * t)) <= Rabs (IZR k * t) + Rabs (rnd (IZR k * t) - IZR k * t)). { replace (rnd (IZR k * t)) with (IZR k * t + (rnd (IZR k * t) - IZR k * t)) at 1 by ring. apply Rabs_triang. } assert (0 <= K * t) by (apply Rmult_le_pos; lra). unfold u24 in *. lra. }
  destruct (fadd_finite (fmul f (scale p)) (offset p) Fd Fo) as [(_ & Va & Fa)|[(B & _)|(B & _)]]; [|exfalso; rewrite Vd in B; apply Rabs_lt_inv in S2; lra|exfalso; rewrite Vd in B; apply Rabs_lt_inv in S2; lra].
  split; [exact Fa|]. rewrite Va, Vd. reflexivity.
Qed.
Definition quant (v : f32) : f32 := fadd (fmul (fround (fdiv (fsub v (offset p)) (scale p))) (scale p)) (offset p).
Lemma quant_at (v : f32) k : let q := fdiv (fsub v (offset p)) (scale p) in is_finite q = true -> ZnearestA (fR q) = k -> Rabs (IZR k) <= K ->
  is_finite (quant v) = true /\ fR (quant v) = gridR p k.
Proof. intros q Fq Zq Hk. destruct (fround_R q) as [R F]. apply value_at; [fold q; rewrite F; exact Fq|fold q; rewrite R, Zq; reflexivity|exact Hk]. Qed.
Definition atG (v : f32) (k : Z) : Prop := is_finite v = true /\ fR v = gridR p k.
(** Values on the grid stay *)
Lemma stable_near (v : f32) k : Rabs (IZR k) <= K -> atG v k -> let q := fdiv (fsub v (offset p)) (scale p) in is_finite q = true /\ ZnearestA (fR q) = k.
Proof.
  intros Hk [Fv Rv]. pose proof (grid_err k Hk) as G. rewrite <- Rv in G. pose proof t_pos as Tp. pose proof size_ok as SZ. pose proof M_bounds as MB. pose proof (Rabs_pos o) as Op.
  assert (OA : Rabs o / t * t = Rabs o) by (field; lra). set (A := Rabs o / t) in *. assert (A0 : 0 <= A) by (apply Rmult_le_reg_r with t; lra).
  assert (SA : 5 * K + 2 * A <= 8000000) by (apply Rmult_le_reg_r with t; [exact Tp|]; rewrite <- OA in SZ; lra).
  apply quot_near with (e := u24 * (2 * K + A) + / 1000); [exact Fv|exact Hk|unfold u24; lra|unfold u24; lra|]. rewrite <- OA in G. eapply Rle_trans; [exact G|]. unfold u24. right. field.
Qed.
(** A step up or down from a value on the grid goes to the next value *)
Lemma step_near (v w : f32) k s : Rabs (IZR k) <= K -> Rabs (IZR (k + s)) <= K -> (s = 1 \/ s = -1)%Z -> atG v k -> is_finite w = true -> fR w = IZR s * t ->
  is_finite (fadd w v) = true /\ let q := fdiv (fsub (fadd w v) (offset p)) (scale p) in is_finite q = true /\ ZnearestA (fR q) = (k + s)%Z.
Proof.
  intros Hk Hks Hs [Fv Rv] Fw Rw. pose proof (grid_err k Hk) as G. rewrite <- Rv in G. pose proof t_pos as Tp. pose proof size_ok as SZ. pose proof M_bounds as MB. pose proof (Rabs_pos o) as Op. pose proof tiny_t as Tt.
  assert (OA : Rabs o / t * t = Rabs o) by (field; lra). set (A := Rabs o / t) in *. assert (A0 : 0 <= A) by (apply Rmult_le_reg_r with t; lra).
  assert (SA : 5 * K + 2 * A <= 8000000) by (apply Rmult_le_reg_r with t; [exact Tp|]; rewrite <- OA in SZ; lra).
  set (e0 := u24 * (2 * K + A) + / 1000). assert (G0 : Rabs (fR v - (IZR k * t + o)) <= e0 * t) by (eapply Rle_trans; [exact G|]; rewrite <- OA; unfold e0, u24; right; field).
  assert (B1 : Rabs (IZR (k + s) * t + o) <= K * t + A * t). { rewrite OA. eapply Rle_trans; [apply Rabs_triang|]. rewrite Rabs_mult, (Rabs_pos_eq t) by lra. assert (Rabs (IZR (k + s)) * t <= K * t) by (apply Rmult_le_compat_r; lra). lra. }
  assert (D : Rabs (fR w + fR v - (IZR (k + s) * t + o)) <= e0 * t). { rewrite Rw, plus_IZR. replace (IZR s * t + fR v - ((IZR k + IZR s) * t + o)) with (fR v - (IZR k * t + o)) by ring. exact G0. }
  pose proof (rnd_within _ _ _ D) as D2.
  assert (E0 : e0 <= / 2) by (unfold e0, u24; lra). assert (E0t : e0 * t <= / 2 * t) by (apply Rmult_le_compat_r; lra).
  assert (SAt : (5 * K + 2 * A) * t <= 8000000 * t) by (apply Rmult_le_compat_r; lra).
  assert (S1 : Rabs (rnd (fR w + fR v)) < big). { apply small_fin. replace (fR w + fR v) with ((IZR (k + s) * t + o) + (fR w + fR v - (IZR (k + s) * t + o))) by ring. eapply Rle_trans; [apply Rabs_triang|]. assert (0 <= K * t) by (apply Rmult_le_pos; lra). assert (0 <= A * t) by (apply Rmult_le_pos; lra). lra. }
  destruct (fadd_finite w v Fw Fv) as [(_ & Va & Fa)|[(B & _)|(B & _)]]; [|exfalso; apply Rabs_lt_inv in S1; lra|exfalso; apply Rabs_lt_inv in S1; lra].
  split; [exact Fa|]. apply quot_near with (e := e0 + u24 * (K + A + e0) + / 1000000000); [exact Fa|exact Hks|unfold e0, u24; lra|unfold e0, u24; lra|].
  rewrite Va. eapply Rle_trans; [exact D2|]. replace ((e0 + u24 * (K + A + e0) + / 1000000000) * t) with (e0 * t + u24 * (K * t + A * t + e0 * t) + t / 1000000000) by field. unfold u24. lra.
Qed.
Lemma grid_lt j k : (j < k)%Z -> Rabs (IZR j) <= K -> Rabs (IZR k) <= K -> gridR p j < gridR p k.
Proof.
  intros H Hj Hk. pose proof (grid_err j Hj) as A. pose proof (grid_err k Hk) as B. pose proof t_pos as Tp. pose proof size_ok as SZ. pose proof M_bounds as MB. assert (IZR j + 1 <= IZR k) by (rewrite <- plus_IZR; apply IZR_le; lia). apply Rabs_le_inv in A, B.
  assert ((IZR j + 1) * t <= IZR k * t) by (apply Rmult_le_compat_r; lra). pose proof (Rabs_pos o) as Op. assert (0 <= K * t) by (apply Rmult_le_pos; lra). unfold u24 in *. lra.
Qed.
Lemma grid_0 : gridR p 0 = o.
Proof. unfold gridR. rewrite Rmult_0_l. rewrite round_0 by auto with typeclass_instances. rewrite Rplus_0_l. apply rnd_fR. Qed.
Lemma small_k k : (-1 <= k <= M + 1)%Z -> Rabs (IZR k) <= K.
Proof. intros H. apply Rabs_le. pose proof M_bounds. assert (IZR (-1) <= IZR k <= IZR (M + 1)) by (split; apply IZR_le; lia). rewrite plus_IZR in *. lra. Qed.
Lemma pack_of (v : f32) k : let q := fdiv (fsub v (offset p)) (scale p) in is_finite q = true -> ZnearestA (fR q) = k -> (0 <= k <= 1048576)%Z -> pack_single p v = Some k.
Proof.
  intros q F Zq B. unfold pack_single. fold q. destruct (fround_R q) as [RR FF]. rewrite F in FF. rewrite Zq in RR. unfold fisfinite. rewrite FF. cbn [andb].
  assert (T : is_float (fdy 1 32) (bpow radix2 32)).
  { destruct (fdy_exact 1 32) as [X Y]; [unfold F2R; cbn [Fnum Fexp]; rewrite Rmult_1_l; apply generic_format_bpow; unfold fexp32; cbn; lia|unfold F2R; cbn [Fnum Fexp]; rewrite Rmult_1_l, Rabs_pos_eq by apply bpow_ge_0; apply bpow_lt; lia|]. split; [exact Y|]. rewrite X. unfold F2R. cbn [Fnum Fexp]. ring. }
  destruct T as [TF TR]. assert (B0 : 0 <= IZR k <= 1048576) by (split; apply IZR_le; lia).
  assert (G : fge (fround q) f0 = true) by (apply fle_spec; [reflexivity|apply finite_not_nan, FF|]; rewrite (fX_finite (fround q)) by exact FF; rewrite RR; change (fX f0) with 0; lra).
  assert (L : flt (fround q) (fdy 1 32) = true). { apply flt_spec; [apply finite_not_nan, FF|apply finite_not_nan, TF|]. rewrite !fX_finite by assumption. rewrite RR, TR. change (bpow radix2 32) with 4294967296. lra. }
  rewrite G, L. cbn [andb]. f_equal. destruct (ftoZ_spec (fround q)) as [Z1 Z2]; [rewrite RR; lra|]. rewrite RR in Z1, Z2. apply le_IZR in Z1. rewrite <- plus_IZR in Z2. apply lt_IZR in Z2. lia.
Qed.
Lemma unpack_at k : (0 <= k <= M)%Z -> atG (unpack_single p k) k.
Proof.
  intros H. pose proof Hm as (_ & _ & _ & MM & _). destruct (fZ_exact k) as [A B]; [lia|]. unfold unpack_single, to_float. apply value_at; [exact B|exact A|apply small_k; lia].
Qed.
(** Adding zero, or one step, to a value on the grid *)
Definition is_step (w : f32) : Prop := w = f0 \/ w = fabs (fmul f1 (scale p)) \/ w = fopp (fabs (fmul f1 (scale p))).
Lemma add_step (v w : f32) k : (0 <= k <= M)%Z -> atG v k -> is_step w -> exists j, (-1 <= j <= M + 1)%Z /\ (Z.abs (j - k) <= 1)%Z /\ (w = f0 -> j = k) /\
  let q := fdiv (fsub (fadd w v) (offset p)) (scale p) in is_finite q = true /\ ZnearestA (fR q) = j.
Proof.
  intros B G W. pose proof t_pos as Tp. pose proof Hm as (_ & Fs & _).
  assert (One : is_finite (fmul f1 (scale p)) = true /\ fR (fmul f1 (scale p)) = t).
  { destruct (fmul_finite f1 (scale p) eq_refl Fs) as [(_ & V & F)|[(X & _)|(X & _)]]; change (fR f1) with (fR (fZ 1)) in *; destruct (fZ_exact 1) as [R1 _]; try lia; rewrite R1, Rmult_1_l, rnd_fR in *; [auto| |]; pose proof (abs_B2R_lt_emax _ _ (scale p)) as Q; apply Rabs_lt_inv in Q; change (B2R (scale p)) with t in Q; lra. }
  destruct One as [F1 R1]. destruct W as [-> |W].
  - exists k. split; [lia|]. split; [lia|]. split; [reflexivity|]. destruct G as [Fv Rv]. assert (A : atG (fadd f0 v) k).
    { destruct (fadd_finite f0 v eq_refl Fv) as [(_ & V & F)|[(X & _)|(X & _)]]; change (fR f0) with 0 in *; rewrite Rplus_0_l, rnd_fR in *; [split; [exact F|rewrite V; exact Rv]| |]; pose proof (abs_B2R_lt_emax _ _ v) as Q; apply Rabs_lt_inv in Q; change (B2R v) with (fR v) in Q; lra. }
    apply stable_near; [apply small_k; lia|exact A].
  - assert (S : exists s, (s = 1 \/ s = -1)%Z /\ is_finite w = true /\ fR w = IZR s * t).
    { destruct W as [-> | ->]; [exists 1%Z|exists (-1)%Z]; (split; [auto|]); unfold fopp, fabs; rewrite ?is_finite_Bopp, ?is_finite_Babs; (split; [exact F1|]); rewrite ?B2R_Bopp, ?B2R_Babs; change (B2R (fmul f1 (scale p))) with (fR (fmul f1 (scale p))); rewrite R1, Rabs_pos_eq by lra; ring. }
    destruct S as (s & Hs & Fw & Rw). exists (k + s)%Z. split; [lia|]. split; [lia|]. split.
    + intros ->. exfalso. change (fR f0) with 0 in Rw. destruct Hs as [-> | ->]; lra.
    + apply step_near; try assumption; apply small_k; lia.
Qed.
End Grid.
