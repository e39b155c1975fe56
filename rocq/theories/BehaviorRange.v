(** Value ranges in 32-bit floats: out-of-range handling and modified tip states. *)
From Coq Require Import ZArith Bool Reals Lra Lia List.
From Flocq Require Import Core IEEE754.BinarySingleNaN Mult_error.
From Verif Require Import F32 F32Lemmas F32Round NumModel BehaviorModel BehaviorSpec EasingSteps EasingBezier.
Import ListNotations.
Open Scope R_scope.

Section Range.
Variable E : elem.
Local Notation N := (fnum E).

Definition unit_or_nan (y : f32) : Prop := is_nan y = true \/ (is_finite y = true /\ 0 <= fR y <= 1).

Lemma rnd_unit r : 0 <= r <= 1 -> 0 <= rnd r <= 1.
Proof.
  intros H. split.
  - rewrite <- rnd_0. apply rnd_mono. lra.
  - rewrite <- f1_R at 1. rewrite <- (rnd_fR f1). apply rnd_mono. rewrite f1_R. lra.
Qed.
Lemma unit_big r : 0 <= r <= 1 -> Rabs r < big.
Proof. intros H. apply Rabs_lt. pose proof (fR_bounds f1) as B. rewrite f1_R in B. lra. Qed.

Lemma clamp_unit (x : f32) : unit_or_nan (apply_out_of_range (N := N) kClamp x).
Proof.
  unfold unit_or_nan. change (apply_out_of_range (N := N) kClamp x) with (fclamp x f0 f1).
  destruct (is_nan x) eqn:Nx.
  - left. destruct x; try discriminate. reflexivity.
  - right. destruct (fclamp_range x f0 f1 Nx eq_refl f1_finite) as [A B]; [rewrite f1_R, f0_R; lra|]. rewrite f1_R, f0_R in B. auto.
Qed.
Lemma clamp_same (x : f32) : fle f0 x = true -> fle x f1 = true -> apply_out_of_range (N := N) kClamp x = x.
Proof.
  intros A B. change (apply_out_of_range (N := N) kClamp x) with (fclamp x f0 f1). unfold fclamp.
  assert (Nx : is_nan x = false) by (destruct x; try reflexivity; discriminate A).
  apply fle_spec in A; [|reflexivity|exact Nx]. apply fle_spec in B; [|exact Nx|reflexivity].
  replace (flt x f0) with false by (symmetry; apply flt_false; auto). replace (flt f1 x) with false by (symmetry; apply flt_false; auto). reflexivity.
Qed.
Lemma repeat_value (x : f32) : is_finite x = true ->
  is_finite (apply_out_of_range (N := N) kRepeat x) = true /\ fR (apply_out_of_range (N := N) kRepeat x) = rnd (fR x - IZR (Zfloor (fR x))).
Proof.
  intros Fx. change (apply_out_of_range (N := N) kRepeat x) with (fsub x (ffloor x)).
  destruct (ffloor_R x) as [R1 R2]. rewrite Fx in R2.
  assert (H : 0 <= fR x - IZR (Zfloor (fR x)) <= 1) by (pose proof (Zfloor_lb (fR x)); pose proof (Zfloor_ub (fR x)); lra).
  apply rnd_unit in H. pose proof (unit_big _ H). rewrite <- R1 in *.
  destruct (fsub_finite x (ffloor x) Fx R2) as [(_ & A & B)|[(A & _)|(A & _)]]; auto; exfalso; apply Rabs_def2 in H0; lra.
Qed.
Lemma repeat_unit (x : f32) : unit_or_nan (apply_out_of_range (N := N) kRepeat x).
Proof.
  destruct (is_finite x) eqn:Fx.
  - right. destruct (repeat_value x Fx) as [A B]. rewrite B. split; [exact A|]. apply rnd_unit.
    pose proof (Zfloor_lb (fR x)); pose proof (Zfloor_ub (fR x)); lra.
  - left. change (apply_out_of_range (N := N) kRepeat x) with (fsub x (ffloor x)). destruct x as [| [] | |]; try discriminate; reflexivity.
Qed.

Lemma half_exact (x : f32) : bpow radix2 (-125) <= Rabs (fR x) -> rnd (fR x * bpow radix2 (-1)) = fR x * bpow radix2 (-1).
Proof.
  intros H. apply round_generic; auto with typeclass_instances. apply mult_bpow_exact_FLT; [apply generic_format_B2R|].
  assert (-124 <= mag radix2 (fR x))%Z; [|change (SpecFloat.emin 24 128) with (-149)%Z; lia]. apply mag_ge_bpow. exact H.
Qed.
Lemma nearest_half r : Rabs (r - IZR (ZnearestA r)) <= / 2.
Proof. apply Znearest_half. Qed.
Lemma nearest_small r : Rabs r < / 2 -> ZnearestA r = 0%Z.
Proof. intros H. apply Znearest_imp. rewrite Rminus_0_r. exact H. Qed.
Lemma fhalf_R : fR (fdy 1 (-1)) = / 2 /\ is_finite (fdy 1 (-1)) = true.
Proof.
  assert (E0 : F2R (Float radix2 1 (-1)) = / 2) by (unfold F2R; cbn; lra). rewrite <- E0. apply fdy_exact.
  - apply generic_format_FLT. eexists; [reflexivity|cbn; lia|cbn; lia].
  - rewrite E0, Rabs_pos_eq by lra. apply Rlt_trans with (bpow radix2 0); [cbn; lra|apply bpow_lt; lia].
Qed.
Lemma bp_m1 : bpow radix2 (-1) = / 2. Proof. cbn. lra. Qed.
Lemma rnd_half (x : f32) : (rnd (/ 2 * fR x) = / 2 * fR x) \/ (Rabs (fR x) < bpow radix2 (-125) /\ Rabs (rnd (/ 2 * fR x)) <= bpow radix2 (-125)).
Proof.
  destruct (Rlt_or_le (Rabs (fR x)) (bpow radix2 (-125))) as [H|H].
  - right. split; [exact H|]. apply Rabs_def2 in H. apply Rabs_le. apply rnd_between; [lia|]. pose proof (bpow_gt_0 radix2 (-125)). lra.
  - left. rewrite Rmult_comm, <- bp_m1. apply half_exact, H.
Qed.
Lemma tiny : 0 < bpow radix2 (-125) < / 4.
Proof. split; [apply bpow_gt_0|]. apply Rlt_le_trans with (bpow radix2 (-2)); [apply bpow_lt; lia|cbn; lra]. Qed.
Lemma nearest_rnd_half (x : f32) : ZnearestA (rnd (/ 2 * fR x)) = ZnearestA (fR x / 2).
Proof.
  pose proof tiny. destruct (rnd_half x) as [->|[A B]]; [f_equal; lra|].
  rewrite !nearest_small; [reflexivity| |lra]. apply Rabs_def2 in A. apply Rabs_lt. lra.
Qed.
Lemma double_exact (y : f32) (k : Z) : fR y = IZR k -> Rabs (2 * IZR k) < big -> rnd (2 * IZR k) = 2 * IZR k.
Proof.
  intros H _. apply round_generic; auto with typeclass_instances. rewrite Rmult_comm. change 2 with (bpow radix2 1). rewrite <- H.
  destruct (Z.eq_dec k 0) as [->|K]; [rewrite H, Rmult_0_l; apply generic_format_0|].
  apply mult_bpow_exact_FLT; [apply generic_format_B2R|]. assert (1 <= mag radix2 (fR y))%Z; [|change (SpecFloat.emin 24 128) with (-149)%Z; lia]. apply mag_ge_bpow. rewrite H. cbn.
  rewrite <- abs_IZR. apply IZR_le. lia.
Qed.
Lemma mirror_value (x : f32) : is_finite x = true ->
  is_finite (apply_out_of_range (N := N) kMirror x) = true /\
  let k := ZnearestA (fR x / 2) in
  Rabs (fR x - 2 * IZR k) <= 1 /\ fR (apply_out_of_range (N := N) kMirror x) = rnd (Rabs (fR x - 2 * IZR k)).
Proof.
  intros Fx.
  change (apply_out_of_range (N := N) kMirror x) with (fabs (fsub x (fmul (fZ 2) (fround (fmul (fdy 1 (-1)) x))))).
  destruct fhalf_R as [RH FH]. destruct (fZ_exact 2) as [R2 F2]; [cbn; lia|].
  pose proof (abs_B2R_le_emax_minus_prec 24 128 eq_refl x) as BX. change (B2R x) with (fR x) in BX.
  remember (fmul (fdy 1 (-1)) x) as h eqn:Eh.
  assert (HH : is_finite h = true /\ fR h = rnd (/ 2 * fR x)).
  { subst h. destruct (fmul_finite (fdy 1 (-1)) x FH Fx) as [(_ & A & B)|[(A & _)|(A & _)]]; rewrite RH in *; auto; exfalso.
    all: assert (Q : Rabs (rnd (/ 2 * fR x)) < big) by
      (destruct (rnd_half x) as [->|[_ Q]];
       [rewrite Rabs_mult, (Rabs_pos_eq (/ 2)) by lra; pose proof (fR_bound x); pose proof (Rabs_pos (fR x)); lra
       |eapply Rle_lt_trans; [exact Q|apply bpow_lt; lia]]); apply Rabs_def2 in Q; lra. }
  destruct HH as [Fh Rh].
  destruct (fround_R h) as [Rn Fn]. rewrite Fh in Fn. rewrite Rh, nearest_rnd_half in Rn.
  set (k := ZnearestA (fR x / 2)) in *. cbv zeta.
  pose proof (nearest_half (fR x / 2)) as HK. fold k in HK.
  assert (K1 : Rabs (fR x - 2 * IZR k) <= 1).
  { replace (fR x - 2 * IZR k) with (2 * (fR x / 2 - IZR k)) by field. rewrite Rabs_mult, (Rabs_pos_eq 2) by lra. lra. }
  assert (KB : Rabs (2 * IZR k) < big).
  { replace (2 * IZR k) with (fR x - (fR x - 2 * IZR k)) by ring. eapply Rle_lt_trans; [apply Rabs_triang|]. rewrite Rabs_Ropp.
    assert (1 < bpow radix2 104) by (apply (bpow_lt radix2 0 104); lia). change (128 - 24)%Z with 104%Z in BX. lra. }
  remember (fmul (fZ 2) (fround h)) as d eqn:Ed.
  assert (HD : is_finite d = true /\ fR d = 2 * IZR k).
  { subst d. destruct (fmul_finite (fZ 2) (fround h) F2 Fn) as [(_ & A & B)|[(A & _)|(A & _)]]; rewrite R2, Rn, (double_exact (fround h) k Rn KB) in A; auto;
      exfalso; apply Rabs_def2 in KB; lra. }
  destruct HD as [Fd Rd].
  assert (HS : is_finite (fsub x d) = true /\ fR (fsub x d) = rnd (fR x - 2 * IZR k)).
  { assert (B1 : Rabs (rnd (fR x - 2 * IZR k)) < big).
    { apply Rle_lt_trans with 1.
      - apply Rabs_le. apply Rabs_def2b in K1 || apply Rabs_le_inv in K1. apply (rnd_between 0); [lia|]. cbn. lra.
      - apply (bpow_lt radix2 0 128). lia. }
    destruct (fsub_finite x d Fx Fd) as [(_ & A & B)|[(A & _)|(A & _)]]; rewrite Rd in *; auto; exfalso; apply Rabs_def2 in B1; lra. }
  destruct HS as [Fs Rs]. split; [destruct (fsub x d); try discriminate; reflexivity|]. split; [exact K1|].
  change (fR (fabs (fsub x d))) with (B2R (Babs (fsub x d))). rewrite B2R_Babs. change (B2R (fsub x d)) with (fR (fsub x d)). rewrite Rs. symmetry. apply round_NE_abs. auto with typeclass_instances.
Qed.
Lemma mirror_unit (x : f32) : unit_or_nan (apply_out_of_range (N := N) kMirror x).
Proof.
  destruct (is_finite x) eqn:Fx.
  - right. destruct (mirror_value x Fx) as [A [B C]]. rewrite C. split; [exact A|]. apply rnd_unit. split; [apply Rabs_pos|exact B].
  - left. change (apply_out_of_range (N := N) kMirror x) with (fabs (fsub x (fmul (fZ 2) (fround (fmul (fdy 1 (-1)) x))))).
    destruct x as [| [] | |]; try discriminate; reflexivity.
Qed.
Lemma mirror_same (x : f32) : fle f0 x = true -> fle x f1 = true -> feq (apply_out_of_range (N := N) kMirror x) x = true.
Proof.
  intros A B. destruct (fle_finite _ _ _ (eq_refl : is_finite f0 = true) f1_finite A B) as [Fx Hx]. rewrite f0_R, f1_R in Hx.
  destruct (mirror_value x Fx) as [F1 [_ V]]. apply feq_spec; [apply finite_not_nan, F1|apply finite_not_nan, Fx|].
  rewrite !fX_finite by assumption. rewrite V. transitivity (rnd (fR x)); [|apply rnd_fR]. f_equal.
  destruct (Rlt_or_le (fR x) 1) as [L|L].
  - rewrite nearest_small by (apply Rabs_lt; lra). rewrite Rmult_0_r, Rminus_0_r. apply Rabs_pos_eq. lra.
  - replace (fR x) with 1 by lra. replace (ZnearestA (1 / 2)) with 1%Z.
    + unfold Rabs. destruct (Rcase_abs (1 - 2 * 1)); lra.
    + symmetry. unfold Znearest. replace (Zfloor (1 / 2)) with 0%Z by (symmetry; apply Zfloor_imp; cbn; lra).
      replace (1 / 2 - IZR 0) with (/ 2) by lra. rewrite Rcompare_Eq by reflexivity. cbn.
      replace (Zceil (1 / 2)) with 1%Z; [reflexivity|]. symmetry. apply Zceil_imp. cbn. lra.
Qed.
Lemma repeat_same (x : f32) : fle f0 x = true -> flt x f1 = true -> feq (apply_out_of_range (N := N) kRepeat x) x = true.
Proof.
  intros A B. assert (B' : fle x f1 = true).
  { assert (Nx : is_nan x = false) by (destruct x; try reflexivity; discriminate B). apply flt_spec in B; auto. apply fle_spec; auto. lra. }
  destruct (fle_finite _ _ _ (eq_refl : is_finite f0 = true) f1_finite A B') as [Fx Hx]. rewrite f0_R, f1_R in Hx.
  apply flt_spec in B; [|apply finite_not_nan, Fx|reflexivity]. rewrite !fX_finite, f1_R in B by (assumption || apply f1_finite).
  destruct (repeat_value x Fx) as [F1 V]. apply feq_spec; [apply finite_not_nan, F1|apply finite_not_nan, Fx|].
  rewrite !fX_finite by assumption. rewrite V. replace (Zfloor (fR x)) with 0%Z by (symmetry; apply Zfloor_imp; cbn; lra).
  rewrite Rminus_0_r. apply rnd_fR.
Qed.

(** *** Modified tip states *)
Local Notation mods := (tip_modifiers N).
Lemma fold_inv (P : mods -> Prop) (dir : option f32) (size : f32) (tms : list (target * f32)) : forall m,
  P m -> (forall m tm, In tm tms -> P m -> P (apply_modifier (N := N) dir size m tm)) -> P (fold_left (apply_modifier (N := N) dir size) tms m).
Proof.
  induction tms as [|tm tms IH]; intros m Hm H; cbn [fold_left]; [exact Hm|]. apply IH; [apply H; [left; reflexivity|exact Hm]|].
  intros m' tm' I. apply H. right. exact I.
Qed.
Lemma add_not_nan (a v : f32) : is_nan a = false -> is_finite v = true -> is_nan (fadd a v) = false.
Proof.
  intros Na Fv. destruct (is_finite a) eqn:Fa; [apply fadd_X; assumption|]. destruct a as [|s| |]; try discriminate. destruct v; try discriminate; reflexivity.
Qed.
Lemma mul_not_nan (a v : f32) : is_nan a = false -> is_finite v = true -> feq v f0 = false -> is_nan (fmul a v) = false.
Proof.
  intros Na Fv Zv. destruct (is_finite a) eqn:Fa; [apply fmul_X; assumption|]. destruct a as [|s| |]; try discriminate. destruct v; try discriminate; reflexivity.
Qed.
Definition sums_ok (m : mods) : Prop :=
  is_nan (mo_slant (N := N) m) = false /\ is_nan (mo_rounding (N := N) m) = false /\ is_nan (mo_pinch (N := N) m) = false /\
  is_nan (mo_luminosity (N := N) m) = false /\ is_nan (mo_rotation (N := N) m) = false /\ is_nan (mo_hue (N := N) m) = false.
Lemma sums_step dir size m t v : sums_ok m -> is_finite v = true -> sums_ok (apply_modifier (N := N) dir size m (t, v)).
Proof.
  intros (A & B & C & D & H1 & H2) Fv.
  destruct t; cbn [apply_modifier]; try (destruct dir); unfold sums_ok;
    cbn [mo_slant mo_rounding mo_pinch mo_luminosity mo_rotation mo_hue];
    repeat match goal with |- _ /\ _ => split | |- is_nan (nadd _ _ _) = false => apply add_not_nan | _ => assumption end.
Qed.
Lemma sums_no : sums_ok (no_modifiers (N := N)).
Proof. unfold sums_ok, no_modifiers. cbn. auto 10. Qed.
Definition products_ok (P : f32 -> Prop) (m : mods) : Prop :=
  P (mo_width (N := N) m) /\ P (mo_height (N := N) m) /\ P (mo_saturation (N := N) m) /\ P (mo_opacity (N := N) m).
Lemma products_step (P : f32 -> Prop) dir size m t (v : f32) : products_ok P m ->
  (multiplies t = true -> forall a : f32, P a -> P (fmul a v)) -> products_ok P (apply_modifier (N := N) dir size m (t, v)).
Proof.
  intros (A & B & C & D) H.
  destruct t; cbn [apply_modifier]; try (destruct dir); unfold products_ok;
    cbn [mo_width mo_height mo_saturation mo_opacity];
    repeat match goal with |- _ /\ _ => split | |- P (nmul _ _ _) => apply H; [reflexivity|] | _ => assumption end.
Qed.

Definition finite_tms (tms : list (target * f32)) : Prop := Forall (fun tm => is_finite (snd tm) = true) tms.
Lemma tms_sums dir size tms : finite_tms tms -> sums_ok (fold_left (apply_modifier (N := N) dir size) tms (no_modifiers (N := N))).
Proof.
  intros H. apply fold_inv; [apply sums_no|]. intros m [t v] I Hm. apply sums_step; [exact Hm|].
  unfold finite_tms in H. rewrite Forall_forall in H. exact (H _ I).
Qed.

(** clamping *)
Lemma clamp_le (v lo hi : f32) : is_finite lo = true -> is_finite hi = true -> fR lo <= fR hi -> is_nan v = false ->
  fle lo (fclamp v lo hi) = true /\ fle (fclamp v lo hi) hi = true.
Proof.
  intros Fl Fh H Nv. destruct (fclamp_range v lo hi Nv Fl Fh H) as [A B].
  split; apply fle_spec; auto using finite_not_nan; rewrite !fX_finite by assumption; lra.
Qed.
Lemma clamp_nan (v lo hi : f32) : is_nan v = true -> is_nan (fclamp v lo hi) = true.
Proof. intros H. destruct v; try discriminate. destruct hi; reflexivity. Qed.

Lemma quarter_fin : is_finite (quarter_turn (N := N)) = true /\ is_finite (fopp (quarter_turn (N := N))) = true /\
  fR (fopp (quarter_turn (N := N))) <= fR (quarter_turn (N := N)).
Proof.
  assert (Q : fle (fopp (quarter_turn (N := N))) (quarter_turn (N := N)) = true) by (vm_compute; reflexivity).
  assert (F1 : is_finite (quarter_turn (N := N)) = true) by (vm_compute; reflexivity).
  assert (F2 : is_finite (fopp (quarter_turn (N := N))) = true) by (vm_compute; reflexivity).
  split; [exact F1|]. split; [exact F2|]. apply fle_spec in Q; [|apply finite_not_nan, F2|apply finite_not_nan, F1]. rewrite (fX_finite _ F1), (fX_finite _ F2) in Q. exact Q.
Qed.
Lemma f2_R : fR (fZ 2) = 2 /\ is_finite (fZ 2) = true. Proof. apply fZ_exact. cbn. lia. Qed.
Lemma fm1_R : fR (fZ (-1)) = -1 /\ is_finite (fZ (-1)) = true. Proof. apply fZ_exact. cbn. lia. Qed.

Definition within (lo hi x : f32) : Prop := fle lo x = true /\ fle x hi = true.
Lemma within_finite lo hi x : is_finite lo = true -> is_finite hi = true -> within lo hi x -> is_finite x = true.
Proof. intros A B [C D]. apply (fle_finite lo x hi A B C D). Qed.
Definition in_or_nan (lo hi x : f32) : Prop := is_nan x = true \/ within lo hi x.

Lemma clamp_within (v lo hi : f32) : is_finite lo = true -> is_finite hi = true -> fR lo <= fR hi ->
  (is_nan v = false -> within lo hi (fclamp v lo hi)) /\ in_or_nan lo hi (fclamp v lo hi).
Proof.
  intros A B C. split; [intros; apply clamp_le; auto|]. destruct (is_nan v) eqn:Nv; [left; apply clamp_nan, Nv|right; apply clamp_le; auto].
Qed.

Variable t : brush_tip N.
Hypothesis Vt : valid_tip (N := N) t = true.
Lemma tip_facts : within f0 f1 (corner_rounding (N := N) t) /\ within (fopp (quarter_turn (N := N))) (quarter_turn (N := N)) (slant (N := N) t) /\
  within f0 f1 (pinch (N := N) t) /\ within f0 (fZ 2) (opacity_multiplier (N := N) t) /\
  fle f0 (scale_x (N := N) t : f32) = true /\ fle f0 (scale_y (N := N) t : f32) = true.
Proof.
  unfold valid_tip in Vt.
  repeat match type of Vt with (if ?b then false else _) = true => destruct b eqn:?; [discriminate|] end.
  repeat match goal with H : orb _ _ = false |- _ => apply orb_false_iff in H; destruct H | H : negb (andb _ _) = false |- _ => apply negb_false_iff in H; apply andb_prop in H end.
  unfold within. repeat split; try tauto.
  - match goal with A : negb (nfin N (scale_x t)) = false, B : nlt N (scale_x t) n0 = false |- _ => apply negb_false_iff in A; apply (flt_false (scale_x t) f0) in B; [apply (fle_spec f0 (scale_x t))| |] end; try reflexivity; try apply finite_not_nan; try assumption.
  - match goal with A : negb (nfin N (scale_y t)) = false, B : nlt N (scale_y t) n0 = false |- _ => apply negb_false_iff in A; apply (flt_false (scale_y t) f0) in B; [apply (fle_spec f0 (scale_y t))| |] end; try reflexivity; try apply finite_not_nan; try assumption.
Qed.

Section State.
Variables (x y : f32) (dir : option f32) (size : f32) (tms : list (target * f32)).
Hypothesis Hf : finite_tms tms.
Local Notation m := (fold_left (apply_modifier (N := N) dir size) tms (no_modifiers (N := N))).
Local Notation s := (create_tip_state (N := N) x y dir t size tms).
Lemma add_within (a d lo hi : f32) : within lo hi a -> is_finite lo = true -> is_finite hi = true -> fR lo <= fR hi -> is_nan d = false ->
  within lo hi (if feq d f0 then a else fclamp (fadd a d) lo hi).
Proof.
  intros W Fl Fh L Nd. destruct (feq d f0); [exact W|]. apply clamp_within; auto.
  pose proof (within_finite _ _ _ Fl Fh W) as Fa.
  destruct (is_finite d) eqn:Fd; [apply fadd_X; assumption|]. destruct d as [|sg| |]; try discriminate. destruct a; try discriminate; reflexivity.
Qed.
Lemma additive_ranges :
  within (fopp (quarter_turn (N := N))) (quarter_turn (N := N)) (ts_slant (N := N) s) /\
  within f0 f1 (ts_pinch (N := N) s) /\ within f0 f1 (ts_percent_radius (N := N) s) /\ within (fZ (-1)) f1 (ts_luminosity (N := N) s).
Proof.
  destruct tip_facts as (T1 & T2 & T3 & T4 & _). destruct (tms_sums dir size tms Hf) as (S1 & S2 & S3 & S4 & _).
  destruct quarter_fin as (Q1 & Q2 & Q3). pose proof f1_finite as F1. assert (F0 : is_finite f0 = true) by reflexivity.
  assert (L01 : fR f0 <= fR f1) by (rewrite f0_R, f1_R; lra). destruct fm1_R as [Rm Fm].
  split; [|split; [|split]].
  - change (ts_slant (N := N) s) with (if feq (mo_slant (N := N) m) f0 then (slant (N := N) t : f32) else fclamp (fadd (slant (N := N) t) (mo_slant (N := N) m)) (fopp (quarter_turn (N := N))) (quarter_turn (N := N))).
    apply add_within; assumption.
  - change (ts_pinch (N := N) s) with (if feq (mo_pinch (N := N) m) f0 then (pinch (N := N) t : f32) else fclamp (fadd (pinch (N := N) t) (mo_pinch (N := N) m)) f0 f1).
    apply add_within; assumption.
  - change (ts_percent_radius (N := N) s) with (if feq (mo_rounding (N := N) m) f0 then (corner_rounding (N := N) t : f32) else fclamp (fadd (corner_rounding (N := N) t) (mo_rounding (N := N) m)) f0 f1).
    apply add_within; assumption.
  - change (ts_luminosity (N := N) s) with (if feq (mo_luminosity (N := N) m) f0 then f0 else fclamp (mo_luminosity (N := N) m) (fZ (-1)) f1).
    destruct (feq (mo_luminosity (N := N) m) f0); [split; vm_compute; reflexivity|]. apply clamp_within; auto. rewrite Rm, f1_R. lra.
Qed.

Lemma width_ok (b k : f32) : is_nan b = false -> fle f0 b = true ->
  let w := if feq k f1 then b else fmul b (fclamp k f0 (fZ 2)) in
  (is_nan w = true \/ (fle f0 w = true /\ fle w (fmul b (fZ 2)) = true)) /\ (is_finite b = true -> is_nan k = false -> is_nan w = false).
Proof.
  intros Nb Hb. cbv zeta. destruct f2_R as [R2 F2].
  destruct (is_finite b) eqn:Fb.
  2: { split; [|discriminate]. destruct b as [|[]| |]; try discriminate Hb; try discriminate Nb; try discriminate Fb.
       destruct (feq k f1); [right; split; reflexivity|].
       destruct (is_nan k) eqn:Nk; [left; destruct (fclamp k f0 (fZ 2)) eqn:C; try reflexivity; exfalso; pose proof (clamp_nan k f0 (fZ 2) Nk) as X; rewrite C in X; discriminate X|].
       destruct (clamp_within k f0 (fZ 2) eq_refl F2) as [W _]; [rewrite f0_R, R2; lra|]. specialize (W Nk). destruct W as [W1 W2].
       destruct (fclamp k f0 (fZ 2)) as [sg|sg| |[] mm ee HH] eqn:C; try (left; reflexivity); try discriminate W1; try (right; split; reflexivity).
       destruct sg; [discriminate W1|]. right. split; reflexivity. }
  apply fle_spec in Hb; [|reflexivity|exact Nb]. rewrite (fX_finite b Fb) in Hb. change (fX f0) with 0 in Hb.
  assert (M2 : fX (fmul b (fZ 2)) = clampX (rnd (fR b * 2)) /\ is_nan (fmul b (fZ 2)) = false) by (rewrite <- R2; apply fmul_X; assumption).
  destruct M2 as [M2 N2]. pose proof big_pos as BP. pose proof (fR_bounds b) as BB.
  destruct (feq k f1) eqn:K1.
  - split; [|intros; exact Nb]. right. split; apply fle_spec; auto; [rewrite (fX_finite b Fb); exact Hb|].
    rewrite M2, (fX_finite b Fb). apply Rle_trans with (clampX (fR b)); [rewrite clampX_id by lra; lra|]. apply clampX_mono. apply Rle_trans with (rnd (fR b)); [rewrite rnd_fR; lra|]. apply rnd_mono. lra.
  - destruct (is_nan k) eqn:Nk.
    + split; [|discriminate]. left. pose proof (clamp_nan k f0 (fZ 2) Nk) as X. destruct (fclamp k f0 (fZ 2)); try discriminate X. destruct b; reflexivity.
    + destruct (fclamp_range k f0 (fZ 2) Nk eq_refl F2) as [FC RC]; [rewrite f0_R, R2; lra|]. rewrite f0_R, R2 in RC.
      destruct (fmul_X b (fclamp k f0 (fZ 2)) Fb FC) as [X1 X2]. split; [|intros; exact X2]. right.
      assert (P : 0 <= fR b * fR (fclamp k f0 (fZ 2)) <= fR b * 2) by (split; [apply Rmult_le_pos; lra|apply Rmult_le_compat_l; lra]).
      split; apply fle_spec; auto; rewrite X1, ?M2.
      * rewrite <- (clampX_id (fX f0)) by (change (fX f0) with 0; lra). apply clampX_mono. change (fX f0) with 0. rewrite <- rnd_0. apply rnd_mono. lra.
      * apply clampX_mono, rnd_mono. lra.
Qed.

Lemma base_ok (c : f32) : is_finite size = true -> fle f0 size = true -> is_finite c = true -> fle f0 c = true ->
  is_nan (fmul size c) = false /\ fle f0 (fmul size c) = true.
Proof.
  intros Fs Hs Fc Hc. destruct (fmul_X size c Fs Fc) as [X1 X2]. split; [exact X2|]. apply fle_spec; auto. rewrite X1.
  apply fle_spec in Hs; [|reflexivity|apply finite_not_nan, Fs]. apply fle_spec in Hc; [|reflexivity|apply finite_not_nan, Fc].
  rewrite (fX_finite size Fs) in Hs. rewrite (fX_finite c Fc) in Hc. change (fX f0) with 0 in *. pose proof big_pos.
  rewrite <- (clampX_id 0) by lra. apply clampX_mono. rewrite <- rnd_0. apply rnd_mono. apply Rmult_le_pos; assumption.
Qed.

Lemma multiplicative_ranges : is_finite size = true -> fle f0 size = true ->
  in_or_nan f0 (fZ 2) (ts_saturation (N := N) s) /\ in_or_nan f0 (fZ 2) (ts_opacity (N := N) s) /\
  in_or_nan f0 (fmul (fmul size (scale_x (N := N) t)) (fZ 2)) (ts_width (N := N) s) /\
  in_or_nan f0 (fmul (fmul size (scale_y (N := N) t)) (fZ 2)) (ts_height (N := N) s).
Proof.
  intros Fs Hs. destruct f2_R as [R2 F2]. destruct tip_facts as (T1 & T2 & T3 & T4 & T5 & T6).
  assert (L2 : fR f0 <= fR (fZ 2)) by (rewrite f0_R, R2; lra).
  assert (SF : is_finite (scale_x (N := N) t) = true /\ is_finite (scale_y (N := N) t) = true).
  { unfold valid_tip in Vt. destruct (nfin N (scale_x t)) eqn:A, (nfin N (scale_y t)) eqn:B; cbn [negb orb] in Vt; try discriminate. auto. }
  destruct SF as [SX SY].
  split; [|split; [|split]].
  - change (ts_saturation (N := N) s) with (if feq (mo_saturation (N := N) m) f1 then f1 else fclamp (mo_saturation (N := N) m) f0 (fZ 2)).
    destruct (feq (mo_saturation (N := N) m) f1); [right; split; vm_compute; reflexivity|]. apply clamp_within; auto.
  - change (ts_opacity (N := N) s) with (if feq (mo_opacity (N := N) m) f1 then (opacity_multiplier (N := N) t : f32) else fclamp (fmul (opacity_multiplier (N := N) t) (mo_opacity (N := N) m)) f0 (fZ 2)).
    destruct (feq (mo_opacity (N := N) m) f1); [right; exact T4|]. apply clamp_within; auto.
  - destruct (base_ok (scale_x (N := N) t) Fs Hs SX T5) as [B1 B2].
    exact (proj1 (width_ok (fmul size (scale_x (N := N) t)) (mo_width (N := N) m) B1 B2)).
  - destruct (base_ok (scale_y (N := N) t) Fs Hs SY T6) as [B1 B2].
    exact (proj1 (width_ok (fmul size (scale_y (N := N) t)) (mo_height (N := N) m) B1 B2)).
Qed.

(** *** no NaN *)
Definition no_zero (l : list (target * f32)) : Prop := Forall (fun tm => multiplies (fst tm) = true -> feq (snd tm) f0 = false) l.
Definition no_gain (l : list (target * f32)) : Prop := Forall (fun tm => multiplies (fst tm) = true -> fle (fabs (snd tm)) f1 = true) l.
Lemma fabs_R (v : f32) : fR (fabs v) = Rabs (fR v) /\ is_finite (fabs v) = is_finite v.
Proof. split; [exact (B2R_Babs 24 128 v)|exact (is_finite_Babs 24 128 v)]. Qed.
Lemma mods_no_zero : no_zero tms -> products_ok (fun a => is_nan a = false) m.
Proof.
  intros Z. apply fold_inv; [unfold products_ok; cbn; auto|]. intros k [tg v] I Hk. apply products_step; [exact Hk|].
  intros Mt a Na. unfold no_zero, finite_tms in *. rewrite Forall_forall in Z, Hf. apply mul_not_nan; [exact Na|exact (Hf _ I)|exact (Z _ I Mt)].
Qed.
Lemma mods_no_gain : no_gain tms -> products_ok (fun a => is_finite a = true /\ Rabs (fR a) <= 1) m.
Proof.
  intros Z. apply fold_inv.
  { unfold products_ok, no_modifiers. cbn [mo_width mo_height mo_saturation mo_opacity]. change (@n1 N) with f1.
    assert (is_finite f1 = true /\ Rabs (fR f1) <= 1) by (split; [apply f1_finite|rewrite f1_R, Rabs_R1; lra]). auto. }
  intros k [tg v] I Hk. apply products_step; [exact Hk|].
  intros Mt a [Fa Ra]. unfold no_gain, finite_tms in *. rewrite Forall_forall in Z, Hf. specialize (Z _ I Mt). specialize (Hf _ I). cbn [fst snd] in *.
  destruct (fabs_R v) as [AV FV]. rewrite Hf in FV. apply fle_spec in Z; [|apply finite_not_nan, FV|reflexivity].
  rewrite (fX_finite _ FV), (fX_finite _ f1_finite), f1_R, AV in Z.
  assert (P : Rabs (rnd (fR a * fR v)) <= 1).
  { apply Rabs_le. apply (rnd_between 0); [lia|]. cbn. apply Rabs_le_inv. rewrite Rabs_mult. replace 1 with (1 * 1) by ring.
    apply Rmult_le_compat; try apply Rabs_pos; assumption. }
  assert (PB : Rabs (rnd (fR a * fR v)) < big) by (eapply Rle_lt_trans; [exact P|apply (bpow_lt radix2 0 128); lia]).
  destruct (fmul_finite a v Fa Hf) as [(_ & Q1 & Q2)|[(Q & _)|(Q & _)]]; [rewrite Q1; auto|exfalso; apply Rabs_def2 in PB; lra..].
Qed.
Lemma no_nan : (no_zero tms /\ feq (opacity_multiplier (N := N) t) f0 = false) \/ no_gain tms ->
  is_finite (fmul size (scale_x (N := N) t)) = true -> is_finite (fmul size (scale_y (N := N) t)) = true ->
  fle f0 (fmul size (scale_x (N := N) t)) = true -> fle f0 (fmul size (scale_y (N := N) t)) = true ->
  is_nan (ts_saturation (N := N) s) = false /\ is_nan (ts_opacity (N := N) s) = false /\
  is_nan (ts_width (N := N) s) = false /\ is_nan (ts_height (N := N) s) = false.
Proof.
  intros C FX FY HX HY. destruct f2_R as [R2 F2]. destruct tip_facts as (T1 & T2 & T3 & T4 & T5 & T6).
  assert (L2 : fR f0 <= fR (fZ 2)) by (rewrite f0_R, R2; lra).
  pose proof (within_finite _ _ _ (eq_refl : is_finite f0 = true) F2 T4) as FO.
  assert (Q : products_ok (fun a => is_nan a = false) m /\ is_nan (fmul (opacity_multiplier (N := N) t) (mo_opacity (N := N) m)) = false).
  { destruct C as [[Z O]|G].
    - pose proof (mods_no_zero Z) as P. split; [exact P|]. destruct P as (_ & _ & _ & P).
      destruct (is_finite (mo_opacity (N := N) m)) eqn:FM; [apply fmul_X; assumption|].
      destruct (mo_opacity (N := N) m) as [|sg| |]; try discriminate P; try discriminate FM.
      destruct (opacity_multiplier (N := N) t) as [|sg'| |]; try discriminate FO; try discriminate O; reflexivity.
    - pose proof (mods_no_gain G) as (P1 & P2 & P3 & P4). split.
      + unfold products_ok. repeat split; apply finite_not_nan; tauto.
      + apply fmul_X; [assumption|tauto]. }
  destruct Q as ((P1 & P2 & P3 & P4) & PO). split; [|split; [|split]].
  - change (ts_saturation (N := N) s) with (if feq (mo_saturation (N := N) m) f1 then f1 else fclamp (mo_saturation (N := N) m) f0 (fZ 2)).
    destruct (feq (mo_saturation (N := N) m) f1); [reflexivity|]. apply finite_not_nan. apply (fclamp_range _ f0 (fZ 2)); auto.
  - change (ts_opacity (N := N) s) with (if feq (mo_opacity (N := N) m) f1 then (opacity_multiplier (N := N) t : f32) else fclamp (fmul (opacity_multiplier (N := N) t) (mo_opacity (N := N) m)) f0 (fZ 2)).
    destruct (feq (mo_opacity (N := N) m) f1); [apply finite_not_nan, FO|]. apply finite_not_nan. apply (fclamp_range _ f0 (fZ 2)); auto.
  - exact (proj2 (width_ok (fmul size (scale_x (N := N) t)) (mo_width (N := N) m) (finite_not_nan _ FX) HX) FX P1).
  - exact (proj2 (width_ok (fmul size (scale_y (N := N) t)) (mo_height (N := N) m) (finite_not_nan _ FY) HY) FY P2).
Qed.
End State.
End Range.
