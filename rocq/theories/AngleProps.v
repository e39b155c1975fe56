(** C41: Angle::Normalized and NormalizedAboutZero in float arithmetic. *)
From Coq Require Import ZArith Reals Lra Lia Psatz Bool.
From Flocq Require Import Core Sterbenz Digits BinarySingleNaN.
From Verif Require Import F32 F32Lemmas NumModel AngleModel BehaviorMeaning AffineProofs.
Local Open Scope R_scope.

(** ** fmod is exact *)
Lemma small_format m e : (Z.abs m < 2 ^ 24)%Z -> (-149 <= e)%Z -> generic_format radix2 fexp32 (F2R (Float radix2 m e)).
Proof.
  intros M Ee. apply (generic_format_FLT radix2 (-149) 24). exists (Float radix2 m e); [reflexivity|exact M|exact Ee].
Qed.
Lemma bounded_bits m e : SpecFloat.bounded 24 128 m e = true -> (Zpos m < 2 ^ 24)%Z /\ (-149 <= e)%Z.
Proof.
  intros H. apply andb_prop in H. destruct H as [H _]. apply Zeq_bool_eq in H. unfold SpecFloat.fexp, SpecFloat.emin in H. rewrite Digits.Zpos_digits2_pos in H.
  pose proof (Digits.Zdigits_correct radix2 (Zpos m)) as [_ D]. rewrite Z.abs_eq in D by lia. split; [|lia].
  eapply Z.lt_le_trans; [exact D|]. change (radix_val radix2) with 2%Z. apply Z.pow_le_mono_r; lia.
Qed.
Lemma quot_real X Y : (Y <> 0)%Z -> IZR X - IZR Y * IZR (Ztrunc (IZR X / IZR Y)) = IZR (Z.rem X Y).
Proof. intros H. rewrite Ztrunc_div by exact H. rewrite <- mult_IZR, <- minus_IZR. f_equal. pose proof (Z.quot_rem' X Y). lia. Qed.
Lemma rem_small X Y : (Y <> 0)%Z -> (Z.abs (Z.rem X Y) < Z.abs Y /\ Z.abs (Z.rem X Y) <= Z.abs X)%Z.
Proof.
  intros H. pose proof (Z.rem_bound_abs X Y H). split; [assumption|]. destruct (Z.le_gt_cases (Z.abs Y) (Z.abs X)); [lia|]. rewrite (proj2 (Z.rem_small_iff X Y H)); lia.
Qed.
Theorem ffmod_exact (x y : f32) : is_finite x = true -> is_finite y = true -> fR y <> 0 ->
  is_finite (ffmod x y) = true /\ fR (ffmod x y) = fmodR (fR x) (fR y).
Proof.
  intros Fx Fy Y. destruct y as [sy|sy| |sy my ey Hy]; try discriminate; [elim Y; reflexivity|]. destruct x as [sx|sx| |sx mx ex Hx]; try discriminate.
  - split; [reflexivity|]. cbn [ffmod B2R]. unfold fmodR. replace (0 / _) with 0 by (unfold Rdiv; ring). rewrite Ztrunc_IZR. ring.
  - clear Fx Fy. destruct (bounded_bits _ _ Hx) as [X1 X2], (bounded_bits _ _ Hy) as [Y1 Y2]. cbn [ffmod B2R]. set (e := Z.min ex ey). set (X := (cond_Zopp sx (Zpos mx) * 2 ^ (ex - e))%Z). set (Z0 := (cond_Zopp sy (Zpos my) * 2 ^ (ey - e))%Z).
    assert (P1 : (0 < 2 ^ (ex - e))%Z) by (apply Z.pow_pos_nonneg; lia). assert (P2 : (0 < 2 ^ (ey - e))%Z) by (apply Z.pow_pos_nonneg; lia).
    assert (NZ : (Z0 <> 0)%Z) by (unfold Z0; destruct sy; cbn [cond_Zopp]; nia).
    assert (A1 : Z.abs X = (Zpos mx * 2 ^ (ex - e))%Z) by (unfold X; rewrite Z.abs_mul, (Z.abs_eq (2 ^ _)) by lia; destruct sx; reflexivity).
    assert (A2 : Z.abs Z0 = (Zpos my * 2 ^ (ey - e))%Z) by (unfold Z0; rewrite Z.abs_mul, (Z.abs_eq (2 ^ _)) by lia; destruct sy; reflexivity).
    assert (B1 : F2R (Float radix2 (cond_Zopp sx (Zpos mx)) ex) = IZR X * bpow radix2 e).
    { unfold X. rewrite (F2R_change_exp radix2 e) by lia. reflexivity. }
    assert (B2 : F2R (Float radix2 (cond_Zopp sy (Zpos my)) ey) = IZR Z0 * bpow radix2 e).
    { unfold Z0. rewrite (F2R_change_exp radix2 e) by lia. reflexivity. }
    assert (BE : 0 < bpow radix2 e) by apply bpow_gt_0. assert (NZR : IZR Z0 <> 0) by (apply IZR_neq; exact NZ).
    assert (Q : fmodR (IZR X * bpow radix2 e) (IZR Z0 * bpow radix2 e) = F2R (Float radix2 (Z.rem X Z0) e)).
    { unfold fmodR. replace (IZR X * bpow radix2 e / (IZR Z0 * bpow radix2 e)) with (IZR X / IZR Z0) by (field; lra). unfold F2R. cbn [Fnum Fexp]. rewrite <- quot_real by exact NZ. ring. }
    rewrite B1, B2, Q. destruct (rem_small X Z0 NZ) as [R1 R2].
    assert (G : generic_format radix2 fexp32 (F2R (Float radix2 (Z.rem X Z0) e))).
    { apply small_format; [|lia]. destruct (Z.le_gt_cases ex ey).
      - replace (ex - e)%Z with 0%Z in A1 by lia. rewrite Z.pow_0_r in A1. lia.
      - replace (ey - e)%Z with 0%Z in A2 by lia. rewrite Z.pow_0_r in A2. lia. }
    assert (SM : Rabs (F2R (Float radix2 (Z.rem X Z0) e)) < big).
    { pose proof (fR_bound (B754_finite sx mx ex Hx)) as K. cbn [B2R] in K. rewrite B1 in K. unfold F2R. cbn [Fnum Fexp]. rewrite Rabs_mult in *. rewrite <- abs_IZR in *. eapply Rle_lt_trans; [|exact K].
      apply Rmult_le_compat_r; [apply Rabs_pos|]. apply IZR_le. exact R2. }
    pose proof (binary_normalize_correct 24 128 _ _ mode_NE (Z.rem X Z0) e sx) as N1. cbn zeta in N1. rewrite round_generic in N1; [|apply valid_rnd_N|exact G]. rewrite Rlt_bool_true in N1 by exact SM. destruct N1 as (N1 & N2 & _). split; assumption.
Qed.

(** ** The two normalisations *)
Definition T : R := 13176795 / 2097152.
Lemma T_pi : T - 2 / 10000000 < 2 * PI < T.
Proof. pose proof turn_pi. unfold BehaviorMeaning.turn, BehaviorMeaning.pi32 in *. unfold T. lra. Qed.
Lemma fmodT a : - T < fmodR a T < T /\ (0 <= a -> 0 <= fmodR a T) /\ (a <= 0 -> fmodR a T <= 0) /\ exists k, fmodR a T = a - IZR k * T.
Proof.
  unfold fmodR. assert (P : 0 < T) by (unfold T; lra). assert (D : a = a / T * T) by (field; lra). repeat split.
  - destruct (Rle_or_lt 0 (a / T)) as [L|L].
    + rewrite Ztrunc_floor by exact L. pose proof (Zfloor_lb (a / T)). nra.
    + rewrite Ztrunc_ceil by lra. pose proof (Zceil_lb (a / T)). nra.
  - destruct (Rle_or_lt 0 (a / T)) as [L|L].
    + rewrite Ztrunc_floor by exact L. pose proof (Zfloor_ub (a / T)). nra.
    + rewrite Ztrunc_ceil by lra. pose proof (Zceil_ub (a / T)). nra.
  - intros A. assert (L : 0 <= a / T) by (apply Rmult_le_pos; [exact A|left; apply Rinv_0_lt_compat, P]). rewrite Ztrunc_floor by exact L. pose proof (Zfloor_lb (a / T)). nra.
  - intros A. assert (L : a / T <= 0) by nra. rewrite Ztrunc_ceil by exact L. pose proof (Zceil_ub (a / T)). nra.
  - exists (Ztrunc (a / T)). ring.
Qed.
(** a float below [T] is at least one float step below it *)
Lemma float_step (x : f32) : fR x < T -> fR x <= T - / 2097152.
Proof.
  intros H. destruct (Rlt_or_le (fR x) 4) as [L|L]; [unfold T; lra|].
  pose proof (generic_format_B2R 24 128 x) as G. unfold generic_format in G.
  assert (M : mag radix2 (fR x) = 3%Z :> Z) by (apply mag_unique; rewrite Rabs_pos_eq by lra; change (bpow radix2 (3 - 1)) with 4; change (bpow radix2 3) with 8; unfold T in H; lra).
  assert (C : cexp radix2 fexp32 (fR x) = (-21)%Z) by (unfold cexp; rewrite M; reflexivity). rewrite C in G. set (z := Ztrunc _) in G. unfold F2R in G. cbn [Fnum Fexp] in G. change (bpow radix2 (-21)) with (/ 2097152) in G.
  rewrite G in *. assert (Z1 : (z < 13176795)%Z) by (apply lt_IZR; unfold T in H; lra). assert (Z2 : (z <= 13176794)%Z) by lia. apply IZR_le in Z2. unfold T. lra.
Qed.

Lemma rnd_small x : Rabs x <= 7 -> Rabs (rnd x - x) <= / 4194304.
Proof.
  intros H. assert (U : ulp radix2 fexp32 7 = / 2097152).
  { rewrite ulp_neq_0 by lra. unfold cexp. rewrite (mag_unique radix2 7 3) by (rewrite Rabs_pos_eq by lra; change (bpow radix2 (3 - 1)) with 4; change (bpow radix2 3) with 8; lra). reflexivity. }
  assert (U2 : ulp radix2 fexp32 x <= / 2097152) by (rewrite <- U; apply ulp_le; [apply fexp32_valid|apply fexp32_mono|rewrite (Rabs_pos_eq 7) by lra; exact H]).
  pose proof (error_le_half_ulp radix2 fexp32 (fun z => negb (Z.even z)) x) as Q. lra.
Qed.
Section Angle.
Variable E : elem.
Hypothesis FM : fmod_exact E.
Notation N := (fnum E).
Definition turn32 : f32 := full_turn (N := N).
Definition half32 : f32 := half_turn (N := N).
Lemma turn_R : is_finite turn32 = true /\ fR turn32 = T.
Proof.
  destruct (fdy_exact 13176795 (-21)) as [A B]; [apply small_format; lia| |split; [exact B|]].
  - unfold F2R. cbn [Fnum Fexp]. change (bpow radix2 (-21)) with (/ 2097152). rewrite Rabs_pos_eq by lra. eapply Rlt_trans with 8; [lra|]. change 8 with (bpow radix2 3). apply bpow_lt. lia.
  - etransitivity; [exact A|]. unfold F2R. cbn [Fnum Fexp]. change (bpow radix2 (-21)) with (/ 2097152). unfold T. lra.
Qed.
Lemma half_R : is_finite half32 = true /\ fR half32 = T / 2.
Proof.
  destruct (fdy_exact 13176795 (-22)) as [A B]; [apply small_format; lia| |split; [exact B|]].
  - unfold F2R. cbn [Fnum Fexp]. change (bpow radix2 (-22)) with (/ 4194304). rewrite Rabs_pos_eq by lra. eapply Rlt_trans with 8; [lra|]. change 8 with (bpow radix2 3). apply bpow_lt. lia.
  - etransitivity; [exact A|]. unfold F2R. cbn [Fnum Fexp]. change (bpow radix2 (-22)) with (/ 4194304). unfold T. lra.
Qed.
Lemma rem_R (a : f32) : is_finite a = true -> is_finite (e_fmod E a turn32) = true /\ fR (e_fmod E a turn32) = fmodR (fR a) T.
Proof. intros F. destruct turn_R as [A B]. rewrite <- B. apply FM; [exact F|exact A|rewrite B; unfold T; lra]. Qed.
Lemma add_small (x y : f32) : is_finite x = true -> is_finite y = true -> Rabs (fR x + fR y) <= 8 -> is_finite (fadd x y) = true /\ fR (fadd x y) = rnd (fR x + fR y).
Proof.
  intros Fx Fy S. assert (G : generic_format radix2 fexp32 8) by (change 8 with (bpow radix2 3); apply generic_format_bpow; apply Z.leb_le; reflexivity).
  assert (B8 : 8 < big) by (change 8 with (bpow radix2 3); apply bpow_lt; lia).
  assert (Q : Rabs (rnd (fR x + fR y)) <= 8) by (apply abs_round_le_generic; [apply fexp32_valid|apply valid_rnd_N|exact G|exact S]).
  apply Rabs_le_inv in Q. destruct (fadd_finite x y Fx Fy) as [(A & C & D)|[(A & C)|(A & C)]]; [auto|lra|lra].
Qed.
Lemma flt_f (x y : f32) : is_finite x = true -> is_finite y = true -> flt x y = true <-> fR x < fR y.
Proof. intros Fx Fy. rewrite flt_spec by (apply finite_not_nan; assumption). rewrite !fX_finite by assumption. tauto. Qed.

(** Normalized lies in [0, 2 pi) and differs from the angle by a whole number of turns, up to half a float step;
    exactly when the angle is not negative *)
Theorem C41_normalized (a : f32) : is_finite a = true ->
  let r : f32 := normalized (N := N) a in
  is_finite r = true /\ 0 <= fR r < fR turn32 /\ fR r < 2 * PI /\
  (exists k : Z, Rabs (fR r - (fR a - IZR k * fR turn32)) <= / 4194304) /\
  (0 <= fR a -> exists k : Z, fR r = fR a - IZR k * fR turn32).
Proof.
  intros Fa r. destruct turn_R as [FT RT], (rem_R a Fa) as [FR RR]. destruct (fmodT (fR a)) as (B & P0 & N0 & k & K). rewrite RT. pose proof T_pi as PI1.
  assert (UP : forall x : f32, fR x < T -> fR x < 2 * PI) by (intros x Hx; apply float_step in Hx; unfold T in *; lra).
  unfold r, normalized. change (nfmod N a full_turn) with (e_fmod E a turn32). change (nadd N) with fadd. change (full_turn (N := N)) with turn32. set (f := e_fmod E a turn32) in *.
  change (nlt N f n0) with (flt f f0). change (neqb N) with feq. change (n0 (N := N)) with (f0 : f32). clear r. destruct (flt f f0) eqn:L.
  - apply flt_f in L; [|exact FR|reflexivity]. rewrite f0_R in L. assert (NA : fR a < 0) by (destruct (Rlt_or_le (fR a) 0); [assumption|specialize (P0 H); lra]).
    destruct (add_small f turn32 FR FT) as [FA RA]; [rewrite RT, RR; unfold T in *; apply Rabs_le; lra|]. rewrite RT in RA.
    assert (RE : Rabs (rnd (fR f + T) - (fR f + T)) <= / 4194304).
    { apply rnd_small. apply Rabs_le. rewrite RR. unfold T in *. lra. }
    assert (RB : 0 <= rnd (fR f + T) <= T).
    { split; [apply rnd_pos; rewrite RR; lra|]. assert (GT : rnd T = T) by (rewrite <- RT; apply rnd_fR). rewrite <- GT at 2. apply rnd_mono. lra. }
    destruct (feq (fadd f turn32) turn32) eqn:Q.
    + rewrite feq_spec, !fX_finite, RA, RT in Q by (try apply finite_not_nan; assumption). split; [reflexivity|]. rewrite f0_R. unfold T in PI1 |- *. split; [lra|]. split; [lra|]. split; [|lra].
      exists k. fold T. rewrite Q in RE. rewrite RR, K in RE. eapply Rle_trans; [|exact RE]. right. f_equal. ring.
    + assert (NE : rnd (fR f + T) <> T) by (intros C; rewrite <- not_true_iff_false in Q; apply Q; rewrite feq_spec, !fX_finite, RA, RT by (try apply finite_not_nan; assumption); exact C).
      split; [exact FA|]. rewrite RA. split; [lra|]. split; [rewrite <- RA; apply UP; rewrite RA; lra|]. split; [|lra].
      exists (k - 1)%Z. rewrite minus_IZR. rewrite RR, K in RE |- *. eapply Rle_trans; [|exact RE]. right. f_equal. rewrite <- K, <- RR. lra.
  - assert (L' : ~ fR f < 0) by (intros C; rewrite <- not_true_iff_false in L; apply L; apply flt_f; [exact FR|reflexivity|rewrite f0_R; exact C]). apply Rnot_lt_le in L'.
    split; [exact FR|]. rewrite RR in *. split; [lra|]. split; [rewrite <- RR; apply UP; rewrite RR; lra|]. split; [|intros _]; exists k; rewrite K; [|reflexivity]. replace (_ - _) with 0 by ring. rewrite Rabs_R0. lra.
Qed.
(** NormalizedAboutZero lies in (-pi, pi] and differs from the angle by exactly a whole number of turns *)
Theorem C41_about_zero (a : f32) : is_finite a = true ->
  let r : f32 := normalized_about_zero (N := N) a in
  is_finite r = true /\ - fR half32 < fR r <= fR half32 /\ exists k : Z, fR r = fR a - IZR k * fR turn32.
Proof.
  intros Fa r. destruct turn_R as [FT RT], half_R as [FH RH], (rem_R a Fa) as [FR RR]. destruct (fmodT (fR a)) as (B & P0 & N0 & k & K). rewrite RT, RH.
  assert (EX : forall s : f32, is_finite s = true -> (fR s = T \/ fR s = - T) -> T / 2 <= Rabs (fR (e_fmod E a turn32)) -> fR (e_fmod E a turn32) * fR s <= 0 -> is_finite (fadd (e_fmod E a turn32) s) = true /\ fR (fadd (e_fmod E a turn32) s) = fR (e_fmod E a turn32) + fR s).
  { intros s Fs V L SG. assert (Rabs (fR s) = T) by (destruct V as [-> | ->]; [|rewrite Rabs_Ropp]; rewrite Rabs_pos_eq; unfold T; lra).
    assert (Rabs (fR (e_fmod E a turn32)) <= T) by (rewrite RR; apply Rabs_le; lra).
    assert (Rabs (fR (e_fmod E a turn32) + fR s) <= 8).
    { unfold Rabs in *. destruct (Rcase_abs (fR (e_fmod E a turn32) + fR s)), (Rcase_abs (fR (e_fmod E a turn32))), (Rcase_abs (fR s)); unfold T in *; try lra; nra. }
    destruct (add_small _ _ FR Fs) as [A C]; [assumption|]. split; [exact A|]. rewrite C. apply round_generic; [apply valid_rnd_N|].
    replace (fR (e_fmod E a turn32) + fR s) with (fR (e_fmod E a turn32) - (- fR s)) by ring. replace (- fR s) with (fR (fopp s)) by (unfold fopp; apply B2R_Bopp).
    assert (GG : forall u v : f32, 0 < fR v -> fR v / 2 <= fR u <= 2 * fR v -> generic_format radix2 fexp32 (fR u - fR v)).
    { intros u v V1 V2. apply sterbenz; [apply fexp32_valid|apply fexp32_mono|apply generic_format_B2R|apply generic_format_B2R|exact V2]. }
    assert (RO : fR (fopp s) = - fR s) by (unfold fopp; apply B2R_Bopp).
    assert (RO2 : fR (fopp (e_fmod E a turn32)) = - fR (e_fmod E a turn32)) by (unfold fopp; apply B2R_Bopp).
    destruct V as [V|V].
    - replace (fR (e_fmod E a turn32) - fR (fopp s)) with (- (fR (fopp (e_fmod E a turn32)) - fR s)) by lra. apply generic_format_opp. apply GG; [rewrite V; unfold T; lra|]. rewrite RO2, V in *. assert (fR (e_fmod E a turn32) <= 0) by (unfold T in *; nra). rewrite Rabs_left1 in * by assumption. unfold T in *. lra.
    - apply GG; [rewrite RO, V; unfold T; lra|]. rewrite RO, V in *. assert (0 <= fR (e_fmod E a turn32)) by (unfold T in *; nra). rewrite Rabs_pos_eq in * by assumption. unfold T in *. lra. }
  unfold r, normalized_about_zero. change (nfmod N a full_turn) with (e_fmod E a turn32). change (nadd N) with fadd. change (nsub N) with fsub. change (full_turn (N := N)) with turn32. set (f := e_fmod E a turn32) in *.
  change (half_turn (N := N)) with half32. change (nopp N) with fopp. change (nlt N) with flt. change (nle N) with fle. clear r.
  assert (FO : is_finite (fopp half32) = true) by (rewrite <- FH; apply is_finite_Bopp). assert (RO : fR (fopp half32) = - (T / 2)) by (rewrite <- RH; apply B2R_Bopp).
  assert (FO' : is_finite (fopp turn32) = true) by (rewrite <- FT; apply is_finite_Bopp). assert (RO' : fR (fopp turn32) = - T) by (rewrite <- RT; apply B2R_Bopp).
  destruct (flt half32 f) eqn:L1.
  - apply flt_f in L1; [|assumption..]. rewrite RH in L1. destruct (EX (fopp turn32) FO' (or_intror RO')) as [A C]; [rewrite Rabs_pos_eq by (unfold T in *; lra); lra|rewrite RO'; unfold T in *; nra|]. rewrite fsub_fadd. split; [exact A|]. rewrite C, RO', RR. split; [lra|]. exists (k + 1)%Z. rewrite plus_IZR, K. ring.
  - assert (L1' : fR f <= T / 2) by (apply Rnot_lt_le; intros C; rewrite <- not_true_iff_false in L1; apply L1; apply flt_f; [assumption..|rewrite RH; exact C]).
    destruct (fle f (fopp half32)) eqn:L2.
    + rewrite fle_spec, !fX_finite, RO in L2 by (try apply finite_not_nan; assumption). destruct (EX turn32 FT (or_introl RT)) as [A C]; [rewrite Rabs_left1 by (unfold T in *; lra); lra|rewrite RT; unfold T in *; nra|]. split; [exact A|]. rewrite C, RT, RR. split; [lra|]. exists (k - 1)%Z. rewrite minus_IZR, K. ring.
    + assert (L2' : - (T / 2) < fR f) by (apply Rnot_le_lt; intros C; rewrite <- not_true_iff_false in L2; apply L2; rewrite fle_spec, !fX_finite, RO by (try apply finite_not_nan; assumption); exact C).
      split; [exact FR|]. split; [lra|]. exists k. rewrite RR. exact K.
Qed.
(** normalising twice changes nothing *)
Theorem C41_idempotent (a : f32) : is_finite a = true ->
  fR (normalized (N := N) (normalized (N := N) a) : f32) = fR (normalized (N := N) a : f32) /\
  fR (normalized_about_zero (N := N) (normalized_about_zero (N := N) a) : f32) = fR (normalized_about_zero (N := N) a : f32).
Proof.
  intros Fa. destruct turn_R as [FT RT], half_R as [FH RH]. split.
  - destruct (C41_normalized a Fa) as (F1 & B1 & _). destruct (C41_normalized _ F1) as (F2 & B2 & _ & _ & H). destruct (H (proj1 B1)) as [k K]. rewrite K. rewrite K in B2. rewrite RT in *.
    assert (k = 0)%Z; [|subst; lra]. assert (-1 < IZR k < 1) by (unfold T in *; lra). destruct H0 as [X Y]. apply lt_IZR in X. apply lt_IZR in Y. lia.
  - destruct (C41_about_zero a Fa) as (F1 & B1 & _). destruct (C41_about_zero _ F1) as (F2 & B2 & k & K). rewrite K. rewrite K in B2. rewrite RT, RH in *.
    assert (k = 0)%Z; [|subst; lra]. assert (-1 < IZR k < 1) by (unfold T in *; lra). destruct H as [X Y]. apply lt_IZR in X. apply lt_IZR in Y. lia.
Qed.
End Angle.
Print Assumptions C41_normalized.
Print Assumptions C41_about_zero.
Print Assumptions C41_idempotent.

(** The hypothesis holds for [ffmod], and concrete cases: a tiny negative angle normalises to 0, not to a full turn;
    minus half a turn becomes plus half a turn; a large angle. *)
Definition lib : elem := {| e_exp := fun x => x; e_sin := fun x => x; e_cos := fun x => x; e_tan := fun x => x; e_atan := fun x => x;
  e_atan2 := fun x _ => x; e_hypot := fun x _ => x; e_fmod := ffmod |}.
Example ex_lib : fmod_exact lib. Proof. exact ffmod_exact. Qed.
Example ex_tiny : feq (normalized (N := fnum lib) (fopp (fdy 1 (-40)) : f32) : f32) f0 = true. Proof. vm_compute. reflexivity. Qed.
Example ex_half : feq (normalized_about_zero (N := fnum lib) (fopp (fdy 13176795 (-22)) : f32) : f32) (fdy 13176795 (-22)) = true. Proof. vm_compute. reflexivity. Qed.
Example ex_large : feq (normalized (N := fnum lib) (fZ 1000000) : f32) (fdy 13176794 (-21)) = false /\ fle f0 (normalized (N := fnum lib) (fZ 1000000) : f32) = true. Proof. split; vm_compute; reflexivity. Qed.
