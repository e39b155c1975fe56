(** C74: the tip found in place of one that cannot be joined. *)
From Coq Require Import ZArith Reals Lra Lia Psatz Bool List.
From Flocq Require Import Core IEEE754.BinarySingleNaN.
From Verif Require Import F32 F32Lemmas F32Round F64 F64Lemmas NumModel AngleModel AngleProps BehaviorModel GeomModel DistanceModel LerpProps ConstrainModel ConstrainProofs.
Import ListNotations.
Local Open Scope R_scope.

Section Props.
Variable E : elem.
Notation N := (fnum E).
Variable internal : extrusion E -> extrusion E -> quality.
Notation evaluate := (evaluate E internal).
Notation constrain := (constrain E internal).
Notation lerp_shape := (lerp_shape E).
(** the tip at a ratio between the last one and the proposed one *)
Definition intermediate (last proposed : extrusion E) (eps t : f32) : extrusion E := Extrusion E (lerp_shape (x_state E last) (x_state E proposed) t) eps.
Definition good (last x : extrusion E) (eps : f32) : Prop := evaluate last x (stationary eps) = GoodTangents.

Lemma is_good_true q : is_good q = true <-> q = GoodTangents. Proof. destruct q; split; intros; (reflexivity || discriminate). Qed.
Lemma is_good_false q : is_good q = false <-> q <> GoodTangents. Proof. destruct q; split; intros; (reflexivity || discriminate || congruence). Qed.

Section Search.
Variables (last : extrusion E) (at_ : f32 -> extrusion E) (tol : f32).
Definition okay (t : f32) : Prop := evaluate last (at_ t) tol = GoodTangents.
Lemma bisect_inv n : forall i k lower upper, (i + n <= 24)%nat -> (0 <= k < 2 ^ Z.of_nat i)%Z -> dyadic lower k i -> dyadic upper (k + 1) i ->
  okay lower -> (k + 1 = 2 ^ Z.of_nat i)%Z \/ ~ okay upper ->
  exists t j, bisect E internal last at_ tol n lower upper (at_ lower) = (t, at_ t) /\ (0 <= j < 2 ^ Z.of_nat (i + n))%Z /\ dyadic t j (i + n) /\ okay t /\
    ((j + 1 = 2 ^ Z.of_nat (i + n))%Z \/ exists u, dyadic u (j + 1) (i + n) /\ ~ okay u).
Proof.
  induction n as [|n IH]; intros i k lower upper Hi Hk Dl Du Gl Gu; cbn [bisect].
  - rewrite Nat.add_0_r. exists lower, k. repeat split; try (exact (proj1 Dl) || exact (proj2 Dl) || lia || assumption). destruct Gu; [left; assumption|right; exists upper; auto].
  - assert (P : (2 ^ Z.of_nat (S i) = 2 * 2 ^ Z.of_nat i)%Z) by (rewrite Nat2Z.inj_succ, Z.pow_succ_r; lia).
    assert (H := half_step E lower upper k i ltac:(lia) Hk Dl Du). set (next := lerp (N := N) lower upper (fdy 1 (-1))) in *.
    replace (i + S n)%nat with (S i + n)%nat by lia.
    destruct (is_good (evaluate last (at_ next) tol)) eqn:G.
    + apply is_good_true in G. apply (IH (S i) (2 * k + 1)%Z next upper); try lia; try assumption.
      * replace (2 * k + 1 + 1)%Z with (2 * (k + 1))%Z by lia. apply dyadic_double. exact Du.
      * destruct Gu; [left; lia|right; assumption].
    + apply is_good_false in G. apply (IH (S i) (2 * k)%Z lower next); try lia; try assumption. apply dyadic_double. exact Dl. right. exact G.
Qed.
End Search.

Lemma zero_dyadic : dyadic f0 0 0. Proof. split; [reflexivity|]. rewrite f0_R. ring. Qed.
Lemma one_dyadic : dyadic f1 (0 + 1) 0. Proof. split; [exact f1_finite|]. rewrite f1_R. cbn. ring. Qed.

(** ** What is found *)
(** a tip is found only for a proposed one that is badly joined; it lies at a ratio [j / 2^n] below 1, is joined well to the
    last one, and at the next ratio the join is not good or the interval ends *)
Theorem C74_found last proposed eps n t x : (n <= 24)%nat -> constrain last proposed eps n = Found E t x ->
  evaluate last proposed (stationary eps) = BadTangents /\ x = intermediate last proposed eps t /\ good last x eps /\
  exists j : Z, (0 <= j < 2 ^ Z.of_nat n)%Z /\ is_finite t = true /\ fR t = IZR j / 2 ^ n /\
    ((j + 1 = 2 ^ Z.of_nat n)%Z \/ exists u, is_finite u = true /\ fR u = IZR (j + 1) / 2 ^ n /\ ~ good last (intermediate last proposed eps u) eps).
Proof.
  intros Hn. unfold ConstrainModel.constrain. fold (intermediate last proposed eps). change (fun t => Extrusion E (lerp_shape (x_state E last) (x_state E proposed) t) eps) with (intermediate last proposed eps).
  destruct (evaluate last proposed (stationary eps)) eqn:Q; try (intros X; discriminate X). destruct (flt _ _); [intros X; discriminate X|]. cbv zeta. fold (intermediate last proposed eps f0).
  destruct (is_good (evaluate last (intermediate last proposed eps f0) (stationary eps))) eqn:G0; cbn [negb]; [|intros X; discriminate X]. apply is_good_true in G0.
  destruct (bisect_inv last (intermediate last proposed eps) (stationary eps) n 0 0 f0 f1 ltac:(lia) ltac:(cbn; lia) zero_dyadic one_dyadic G0 ltac:(left; reflexivity)) as (t' & j & B & Hj & D & G & U).
  rewrite B. intros X. injection X as <- <-. cbn [Nat.add] in *.
  assert (P : forall z : Z, IZR z * bpow radix2 (- Z.of_nat n) = IZR z / 2 ^ n). { intros z. rewrite bpow_opp. unfold Rdiv. f_equal. f_equal. rewrite <- IZR_Zpower by lia. change (radix_val radix2) with 2%Z. rewrite <- pow_IZR. reflexivity. }
  split; [reflexivity|]. split; [reflexivity|]. split; [exact G|]. exists j. split; [exact Hj|]. destruct D as [D1 D2]. split; [exact D1|]. split; [rewrite D2; apply P|].
  destruct U as [U|(u & [U1 U2] & U3)]; [left; exact U|right; exists u]. split; [exact U1|]. split; [rewrite U2; apply P|exact U3].
Qed.
(** it is at the proposed place, with the proposed colors *)
Theorem C74_place last proposed eps n t x : (n <= 24)%nat -> constrain last proposed eps n = Found E t x ->
  let s := x_state E x in let p := x_state E proposed in
  ts_x s = ts_x p /\ ts_y s = ts_y p /\ ts_hue s = ts_hue p /\ ts_saturation s = ts_saturation p /\ ts_luminosity s = ts_luminosity p /\ ts_opacity s = ts_opacity p /\ x_eps E x = eps.
Proof. intros Hn H. destruct (C74_found _ _ _ _ _ _ Hn H) as (_ & -> & _). repeat split. Qed.
(** the other answers say how the proposed tip is joined; only when it is badly joined can there be nothing to find *)
Theorem C74_answers last proposed eps n : let q := evaluate last proposed (stationary eps) in let r := constrain last proposed eps n in
  (r = ProposedIsValid E <-> q = GoodTangents) /\ (r = ProposedContainsLast E <-> q = SecondContainsFirst) /\ (r = LastContainsProposed E <-> q = FirstContainsSecond) /\
  (r = CannotFind E <-> q = BadTangents /\ (flt (dist_points (place E last) (place E proposed)) (stationary eps) = true \/ evaluate last (intermediate last proposed eps f0) (stationary eps) <> GoodTangents)).
Proof.
  cbv zeta. unfold ConstrainModel.constrain. generalize (stationary eps) as tol. intros tol. destruct (evaluate last proposed tol) eqn:Q.
  1,2,4: split; [|split; [|split]]; split; intros Z; (discriminate Z || reflexivity || (destruct Z as [Z _]; discriminate Z)).
  generalize (flt (dist_points (place E last) (place E proposed)) tol) as close. intros [|]; [split; [|split; [|split]]; split; intros Z; (discriminate Z || reflexivity || auto)|].
  cbv zeta. fold (intermediate last proposed eps f0). destruct (is_good (evaluate last (intermediate last proposed eps f0) tol)) eqn:G; cbn [negb].
  - destruct (bisect _ _ _ _ _ _ _ _ _) as [t x]. split; [|split; [|split]]; split; intros Z; try discriminate Z. destruct Z as [_ [Z|Z]]; [discriminate Z|]. exfalso. apply Z. apply is_good_true. exact G.
  - apply is_good_false in G. split; [|split; [|split]]; split; intros Z; (discriminate Z || reflexivity || auto).
Qed.
(** the documented error: no ratio with a good join is more than [2^-n] above the one found, provided a good join at a ratio
    means good joins at all smaller ones *)
Theorem C74_error last proposed eps n t x : (n <= 24)%nat -> constrain last proposed eps n = Found E t x ->
  (forall r s : f32, is_finite r = true -> is_finite s = true -> 0 <= fR r <= fR s -> fR s <= 1 -> good last (intermediate last proposed eps s) eps -> good last (intermediate last proposed eps r) eps) ->
  forall s : f32, is_finite s = true -> 0 <= fR s <= 1 -> good last (intermediate last proposed eps s) eps -> fR s <= fR t + 1 / 2 ^ n.
Proof.
  intros Hn H M s Fs Rs G. destruct (C74_found _ _ _ _ _ _ Hn H) as (_ & _ & _ & j & Hj & Ft & Rt & [U|(u & Fu & Ru & Gu)]).
  - rewrite Rt. replace (IZR j / 2 ^ n + 1 / 2 ^ n) with 1; [lra|]. assert (P : IZR j + 1 = 2 ^ n). { rewrite <- plus_IZR, U, <- pow_IZR. reflexivity. } rewrite <- P. field. rewrite P. apply pow_nonzero. lra.
  - rewrite Rt. replace (IZR j / 2 ^ n + 1 / 2 ^ n) with (fR u) by (rewrite Ru, plus_IZR; unfold Rdiv; ring). destruct (Rle_lt_dec (fR s) (fR u)) as [L|L]; [exact L|]. exfalso. apply Gu. apply (M u s Fu Fs); try lra; auto. split; [|lra]. rewrite Ru.
    apply Rmult_le_pos; [apply IZR_le; lia|]. left. apply Rinv_0_lt_compat, pow_lt. lra.
Qed.

(** ** Every tip tried is a valid one *)
(** what the tip shape demands of a state *)
Definition valid_shape (s : @tip_state N) : Prop :=
  (is_finite (ts_width s : f32) = true /\ 0 <= fR (ts_width s)) /\ (is_finite (ts_height s : f32) = true /\ 0 <= fR (ts_height s)) /\
  (is_finite (ts_percent_radius s : f32) = true /\ 0 <= fR (ts_percent_radius s) <= 1) /\ (is_finite (ts_pinch s : f32) = true /\ 0 <= fR (ts_pinch s) <= 1).
Lemma sub_finite (a b : f32) : is_finite a = true -> is_finite b = true -> 0 <= fR a -> 0 <= fR b -> is_finite (fsub b a) = true.
Proof.
  intros Fa Fb A B. pose proof (fR_bounds a). pose proof (fR_bounds b). pose proof (rnd_mono (- fR a) (fR b - fR a) ltac:(lra)) as L. pose proof (rnd_mono (fR b - fR a) (fR b) ltac:(lra)) as U. rewrite rnd_opp, !rnd_fR in *.
  destruct (fsub_finite b a Fb Fa) as [(X & Y & Z)|[(X & Y)|(X & Y)]]; [exact Z|lra|lra].
Qed.
Theorem C74_valid last proposed t : valid_shape last -> valid_shape proposed -> is_finite t = true -> 0 <= fR t <= 1 - / 1048576 -> valid_shape (lerp_shape last proposed t).
Proof.
  intros ((F1 & R1) & (F2 & R2) & (F3 & R3) & F4 & R4) ((G1 & S1) & (G2 & S2) & (G3 & S3) & G4 & S4) Ft Ht.
  destruct (lerp_between E (ts_width last) (ts_width proposed) t) as [A1 B1]; [apply sub_finite; assumption|assumption|assumption|].
  destruct (lerp_between E (ts_height last) (ts_height proposed) t) as [A2 B2]; [apply sub_finite; assumption|assumption|assumption|].
  destruct (lerp_between E (ts_percent_radius last) (ts_percent_radius proposed) t) as [A3 B3]; [apply sub_finite; tauto|assumption|assumption|].
  destruct (lerp_between E (ts_pinch last) (ts_pinch proposed) t) as [A4 B4]; [apply sub_finite; tauto|assumption|assumption|].
  unfold between in *. unfold valid_shape. cbn [lerp_shape ts_width ts_height ts_percent_radius ts_pinch]. repeat split; try assumption; lra.
Qed.
(** only ratios [j / 2^i] below 1 are tried: tips at other ratios do not matter to the search *)
Theorem C74_tried last at1 at2 tol n : (n <= 24)%nat ->
  (forall (s : f32) j i, (i <= n)%nat -> (0 <= j < 2 ^ Z.of_nat i)%Z -> is_finite s = true -> fR s = IZR j * bpow radix2 (- Z.of_nat i) -> at1 s = at2 s) ->
  bisect E internal last at1 tol n f0 f1 (at1 f0) = bisect E internal last at2 tol n f0 f1 (at2 f0).
Proof.
  intros Hn H. assert (G : forall m i k lower upper g, (i + m <= n)%nat -> (0 <= k < 2 ^ Z.of_nat i)%Z -> dyadic lower k i -> dyadic upper (k + 1) i ->
    bisect E internal last at1 tol m lower upper g = bisect E internal last at2 tol m lower upper g).
  { induction m as [|m IH]; intros i k lower upper g Hi Hk Dl Du; cbn [bisect]; [reflexivity|].
    assert (P : (2 ^ Z.of_nat (S i) = 2 * 2 ^ Z.of_nat i)%Z) by (rewrite Nat2Z.inj_succ, Z.pow_succ_r; lia).
    assert (D := half_step E lower upper k i ltac:(lia) Hk Dl Du). set (next := lerp (N := N) lower upper (fdy 1 (-1))) in *.
    rewrite (H next (2 * k + 1)%Z (S i) ltac:(lia) ltac:(lia) (proj1 D) (proj2 D)). destruct (is_good _).
    - apply (IH (S i) (2 * k + 1)%Z); try lia; try assumption. replace (2 * k + 1 + 1)%Z with (2 * (k + 1))%Z by lia. apply dyadic_double. exact Du.
    - apply (IH (S i) (2 * k)%Z); try lia; try assumption. apply dyadic_double. exact Dl. }
  rewrite (H f0 0%Z 0%nat ltac:(lia) ltac:(cbn; lia) eq_refl ltac:(rewrite f0_R; ring)). apply (G n 0%nat 0%Z f0 f1); [lia|cbn; lia|exact zero_dyadic|exact one_dyadic].
Qed.
(** so, with at most 20 steps, every tip tried meets the demands *)
Corollary C74_ratio j i : (i <= 20)%nat -> (0 <= j < 2 ^ Z.of_nat i)%Z -> 0 <= IZR j * bpow radix2 (- Z.of_nat i) <= 1 - / 1048576.
Proof.
  intros Hi Hj. pose proof (pow_i i) as P. assert (B : bpow radix2 (-20) <= bpow radix2 (- Z.of_nat i)) by (apply bpow_le; lia). change (bpow radix2 (-20)) with (/ 1048576) in B.
  assert (0 <= IZR j) by (apply IZR_le; lia). assert (IZR j + 1 <= IZR (2 ^ Z.of_nat i)) by (rewrite <- plus_IZR; apply IZR_le; lia). set (b := bpow radix2 (- Z.of_nat i)) in *. assert (0 < / 1048576) by lra. nra.
Qed.

(** ** The tip at ratio 0 is the last one, moved *)
Section Start.
Hypothesis FM : fmod_exact E.
Lemma feq_fR (x y : f32) : is_finite x = true -> is_finite y = true -> fR x = fR y -> feq x y = true.
Proof. intros Fx Fy H. apply feq_spec; try (apply finite_not_nan; assumption). rewrite !fX_finite by assumption. exact H. Qed.
Lemma lerp_0 (a b : f32) : is_finite (fsub b a) = true -> feq a (lerp (N := N) a b f0) = true.
Proof.
  intros H. destruct (fsub_inv b a H) as (Fb & Fa & _). destruct (lerp_between E a b f0 H eq_refl) as [F _]; [rewrite f0_R; lra|]. apply feq_fR; [assumption|exact F|]. symmetry. exact (C65_lerp_start E a b H).
Qed.
Lemma mul_1 (z : f32) : is_finite z = true -> is_finite (fmul f1 z) = true /\ fR (fmul f1 z) = fR z.
Proof. intros Fz. pose proof (fR_bounds z). destruct (fmul_finite f1 z f1_finite Fz) as [(A & C & D)|[(A & C)|(A & C)]]; rewrite f1_R, Rmult_1_l, rnd_fR in *; [auto|lra|lra]. Qed.
Lemma mul_0 (z : f32) : is_finite z = true -> is_finite (fmul f0 z) = true /\ fR (fmul f0 z) = 0.
Proof. intros Fz. destruct (fmul_small f0 z eq_refl Fz) as [D C]; rewrite f0_R, Rmult_0_l in *; [rewrite Rabs_R0; apply bpow_ge_0|]. rewrite rnd_0 in D. auto. Qed.
Lemma add_r0 (x z : f32) : is_finite x = true -> is_finite z = true -> fR z = 0 -> is_finite (fadd x z) = true /\ fR (fadd x z) = fR x.
Proof. intros Fx Fz Z. pose proof (fR_bounds x). destruct (fadd_finite x z Fx Fz) as [(A & C & D)|[(A & C)|(A & C)]]; rewrite Z, Rplus_0_r, rnd_fR in *; [auto|lra|lra]. Qed.
Lemma angle_0 (a b : f32) : is_finite a = true -> is_finite b = true -> is_finite (angle_lerp (N := N) a b f0 : f32) = true /\ fR (angle_lerp (N := N) a b f0) = fR a.
Proof.
  intros Fa Fb. change (angle_lerp (N := N) a b f0) with (fadd (fmul (fsub f1 f0) a) (fmul f0 b)). replace (fsub f1 f0) with (f1 : f32) by (apply B2SF_inj; vm_compute; reflexivity).
  destruct (mul_1 a Fa) as [A1 A2], (mul_0 b Fb) as [B1 B2]. rewrite <- A2. apply add_r0; assumption.
Qed.
Lemma normalized_0 (a b : f32) : is_finite (fsub b a) = true -> 0 <= fR a < fR (turn32 E) -> feq a (normalized_angle_lerp (N := N) a b f0) = true.
Proof using FM.
  intros H R. destruct (fsub_inv b a H) as (Fb & Fa & _). unfold normalized_angle_lerp. change (nadd N) with fadd. change (nsub N) with fsub.
  destruct (C41_about_zero E FM _ H) as (F1 & _). destruct (angle_0 f0 _ eq_refl F1) as [A1 A2]. rewrite f0_R in A2.
  destruct (add_r0 a _ Fa A1 A2) as [S1 S2]. change (@n0 N) with (f0 : f32). set (s := fadd a _) in *. destruct (C41_normalized E FM s S1) as (F2 & R2 & _ & _ & K). destruct (K ltac:(lra)) as [k Hk]. apply feq_fR; [assumption|exact F2|]. rewrite Hk, S2 in *.
  assert (k = 0)%Z; [|subst; lra]. destruct (turn_R E) as [_ RT]. rewrite RT in *. assert (Q : -1 < IZR k < 1) by (unfold T in *; nra). destruct Q as [X Y]. apply lt_IZR in X. apply lt_IZR in Y. lia.
Qed.
Theorem C74_start (a b : @tip_state N) :
  is_finite (fsub (ts_width b) (ts_width a)) = true -> is_finite (fsub (ts_height b) (ts_height a)) = true -> is_finite (fsub (ts_percent_radius b) (ts_percent_radius a)) = true ->
  is_finite (fsub (ts_rotation b) (ts_rotation a)) = true -> is_finite (ts_slant a : f32) = true -> is_finite (ts_slant b : f32) = true -> is_finite (fsub (ts_pinch b) (ts_pinch a)) = true ->
  0 <= fR (ts_rotation a) < fR (turn32 E) -> equal_shape E a (lerp_shape a b f0) = true.
Proof using FM.
  intros. unfold equal_shape. cbn [lerp_shape ts_width ts_height ts_percent_radius ts_rotation ts_slant ts_pinch]. rewrite !lerp_0, normalized_0 by assumption.
  destruct (angle_0 (ts_slant a) (ts_slant b)) as [A1 A2]; [assumption|assumption|]. rewrite feq_fR; auto.
Qed.
(** so when the tip has moved enough there is always something to find *)
Theorem C74_finds last proposed eps n : let a := x_state E last in let b := x_state E proposed in
  is_finite (fsub (ts_width b) (ts_width a)) = true -> is_finite (fsub (ts_height b) (ts_height a)) = true -> is_finite (fsub (ts_percent_radius b) (ts_percent_radius a)) = true ->
  is_finite (fsub (ts_rotation b) (ts_rotation a)) = true -> is_finite (ts_slant a : f32) = true -> is_finite (ts_slant b : f32) = true -> is_finite (fsub (ts_pinch b) (ts_pinch a)) = true ->
  0 <= fR (ts_rotation a) < fR (turn32 E) -> flt (stationary eps) (dist_points (place E last) (place E proposed)) = true -> constrain last proposed eps n <> CannotFind E.
Proof using FM.
  cbv zeta. intros H1 H2 H3 H4 H5 H6 H7 H8 D X. apply (proj2 (proj2 (proj2 (C74_answers last proposed eps n)))) in X. destruct X as [_ [X|X]].
  - set (d := dist_points _ _) in *. clear - D X. destruct (flt_not_nan _ _ D) as [N1 N2]. apply flt_spec in D; [|assumption|assumption]. apply flt_spec in X; [|assumption|assumption]. lra.
  - apply X. unfold good, ConstrainModel.evaluate. change (place E (intermediate last proposed eps f0)) with (place E proposed). rewrite D. cbn [intermediate x_state]. rewrite C74_start by assumption. reflexivity.
Qed.
End Start.
End Props.

(** ** Cases *)
Definition lib1 : elem := {| e_exp := fun x => x; e_sin := fun x => x; e_cos := fun x => x; e_tan := fun x => x; e_atan := fun x => x;
  e_atan2 := fun x _ => x; e_hypot := fun x y => fadd (fabs x) (fabs y); e_fmod := ffmod |}.
Definition tip (x w rot pinch : f32) : @tip_state (fnum lib1) := @Build_tip_state (fnum lib1) x f0 w (fZ 2) f1 rot f0 pinch f0 f1 f0 f1.
Definition eps1 : f32 := fdy 1 (-4).
Definition last1 := Extrusion lib1 (tip f0 (fZ 4) f0 f0) eps1.
Definition next1 := Extrusion lib1 (tip (fZ 10) (fZ 12) f0 f0) eps1.
(** joins are good up to width 9 *)
Definition upto9 (a b : extrusion lib1) : quality := if flt (fZ 9) (ts_width (x_state lib1 b)) then BadTangents else GoodTangents.
Example ex_found : exists t x, constrain lib1 upto9 last1 next1 eps1 3 = Found lib1 t x /\ feq t (fdy 5 (-3)) = true /\ feq (ts_width (x_state lib1 x)) (fZ 9) = true /\ feq (ts_x (x_state lib1 x)) (fZ 10) = true.
Proof.
  assert (T : (match constrain lib1 upto9 last1 next1 eps1 3 with Found _ t x => feq t (fdy 5 (-3)) && feq (ts_width (x_state lib1 x)) (fZ 9) && feq (ts_x (x_state lib1 x)) (fZ 10) | _ => false end) = true) by (vm_compute; reflexivity).
  destruct (constrain lib1 upto9 last1 next1 eps1 3) as [|t x| | |]; try discriminate T. exists t, x. apply andb_true_iff in T. destruct T as [T T3]. apply andb_true_iff in T. tauto.
Qed.
Example ex_valid : constrain lib1 upto9 next1 last1 eps1 3 = ProposedIsValid lib1.
Proof. assert (T : match constrain lib1 upto9 next1 last1 eps1 3 with ProposedIsValid _ => true | _ => false end = true) by (vm_compute; reflexivity). destruct (constrain lib1 upto9 next1 last1 eps1 3); try discriminate T. reflexivity. Qed.
Example ex_moved : constrain lib1 (fun _ _ => BadTangents) last1 next1 eps1 7 <> CannotFind lib1.
Proof. apply (C74_finds lib1 (fun _ _ => BadTangents) ffmod_exact); try (match goal with |- _ = true => vm_compute; reflexivity end). destruct (turn_R lib1) as [_ ->]. cbn [last1 x_state tip ts_rotation]. rewrite f0_R. unfold T. lra. Qed.

(** the joins need not be monotone: here width 10, three quarters of the way, is joined well and half of the way is not *)
Definition upto5or10 (a b : extrusion lib1) : quality := if flt (fZ 5) (ts_width (x_state lib1 b)) && negb (feq (ts_width (x_state lib1 b)) (fZ 10)) then BadTangents else GoodTangents.
Theorem C74_error_refuted : exists (internal : extrusion lib1 -> extrusion lib1 -> quality) last proposed eps n t x s, constrain lib1 internal last proposed eps n = Found lib1 t x /\
  is_finite s = true /\ 0 <= fR s <= 1 /\ good lib1 internal last (intermediate lib1 last proposed eps s) eps /\ fR t + 1 / 2 ^ n < fR s.
Proof.
  exists upto5or10, last1, next1, eps1, 2%nat.   assert (T : (match constrain lib1 upto5or10 last1 next1 eps1 2 with Found _ t x => feq t f0 && is_finite t | _ => false end) = true) by (vm_compute; reflexivity).
  destruct (constrain lib1 upto5or10 last1 next1 eps1 2) as [|t x| | |]; try discriminate T. exists t, x, (fdy 3 (-2)). split; [reflexivity|]. apply andb_true_iff in T. destruct T as [T F]. apply feq_0 in T; [|exact F]. rewrite T.
  destruct (fR_const (fdy 3 (-2)) false 12582912 (-24)) as [-> F3]; [vm_compute; reflexivity|]. unfold F2R. cbn [Fnum Fexp cond_Zopp]. change (bpow radix2 (-24)) with (/ 16777216). split; [exact F3|]. split; [lra|]. split; [vm_compute; reflexivity|]. cbn [pow]. lra.
Qed.
(** the tip at ratio 0 is not the same shape when the rotation of the last tip is not normalized; then the search may end before it began *)
Theorem C74_start_refuted : exists (internal : extrusion lib1 -> extrusion lib1 -> quality) last proposed eps, is_finite (ts_rotation (x_state lib1 last) : f32) = true /\ fR (ts_rotation (x_state lib1 last)) = -1 /\
  flt (stationary eps) (dist_points (place lib1 last) (place lib1 proposed)) = true /\
  equal_shape lib1 (x_state lib1 last) (lerp_shape lib1 (x_state lib1 last) (x_state lib1 proposed) f0) = false /\ constrain lib1 internal last proposed eps 7 = CannotFind lib1.
Proof.
  exists (fun _ _ => BadTangents), (Extrusion lib1 (tip f0 (fZ 4) (fZ (-1)) f0) eps1), next1, eps1. split; [vm_compute; reflexivity|]. split; [apply fZ_exact; lia|]. split; [vm_compute; reflexivity|]. split; [vm_compute; reflexivity|].
  assert (T : match constrain lib1 (fun _ _ => BadTangents) (Extrusion lib1 (tip f0 (fZ 4) (fZ (-1)) f0) eps1) next1 eps1 7 with CannotFind _ => true | _ => false end = true) by (vm_compute; reflexivity). destruct (constrain lib1 _ _ _ _ _); try discriminate T. reflexivity.
Qed.
(** the pinch is interpolated as well, although it is not among the documented attributes *)
Theorem C74_pinch_refuted : exists a b t, feq (ts_pinch (lerp_shape lib1 a b t)) (ts_pinch b) = false.
Proof. exists (tip f0 f1 f0 f0), (tip f0 f1 f0 f1), (fdy 1 (-1)). vm_compute. reflexivity. Qed.

(** ** When the shapes are not looked at *)
(** only for tips that are the same apart from their place and color, and farther apart than the tolerance *)
Theorem C74_same E (a b : extrusion E) tol : (forall internal, evaluate E internal a b tol = GoodTangents) <->
  flt tol (dist_points (place E a) (place E b)) = true /\
  feq (ts_width (x_state E a)) (ts_width (x_state E b)) = true /\ feq (ts_height (x_state E a)) (ts_height (x_state E b)) = true /\ feq (ts_percent_radius (x_state E a)) (ts_percent_radius (x_state E b)) = true /\
  feq (ts_rotation (x_state E a)) (ts_rotation (x_state E b)) = true /\ feq (ts_slant (x_state E a)) (ts_slant (x_state E b)) = true /\ feq (ts_pinch (x_state E a)) (ts_pinch (x_state E b)) = true.
Proof.
  unfold evaluate, equal_shape. split.
  - intros H. specialize (H (fun _ _ => BadTangents)). destruct (flt _ _ && _) eqn:Q; [|discriminate H]. rewrite !andb_true_iff in Q. tauto.
  - intros (H0 & H1 & H2 & H3 & H4 & H5 & H6) internal. rewrite H0, H1, H2, H3, H4, H5, H6. reflexivity.
Qed.
(** the tolerance is a tenth of the epsilon *)
Theorem C74_tolerance eps : is_finite eps = true -> 0 <= fR eps <= 1 -> Rabs (fR (stationary eps) - fR eps / 10) <= / 4194304.
Proof.
  intros F B. unfold stationary. destruct (of_f32_R eps) as [R Fd]. rewrite F in Fd.
  assert (Q : B2SF (dlit 1 1) = SpecFloat.S754_finite false 7205759403792794 (-56)) by (vm_compute; reflexivity).
  assert (L : dR (dlit 1 1) = IZR 7205759403792794 / IZR 72057594037927936 /\ is_finite (dlit 1 1) = true).
  { destruct (dlit 1 1) as [s|s| |s m e Be]; try discriminate Q. cbn [B2SF] in Q. injection Q as -> -> ->. split; [|reflexivity]. cbn [B2R cond_Zopp]. unfold F2R. cbn [Fnum Fexp]. change (bpow radix2 (-56)) with (/ IZR 72057594037927936). reflexivity. }
  destruct L as [L Fl]. pose proof (mul_close 53 1024 _ _ eq_refl (dlit 1 1) (of_f32 eps) Fl Fd) as M. rewrite R, L in M. destruct (close64 _ _ (M ltac:(apply Rabs_le; lra))) as [Fm M2]. fold (dmul (dlit 1 1) (of_f32 eps)) in Fm, M2. apply Rabs_le_inv in M2.
  destruct (to_f32_close (dmul (dlit 1 1) (of_f32 eps)) Fm ltac:(apply Rabs_le; lra)) as [_ T]. apply Rabs_le_inv in T. apply Rabs_le. lra.
Qed.
Print Assumptions C74_same.
Print Assumptions C74_tolerance.
Print Assumptions C74_found.
Print Assumptions C74_place.
Print Assumptions C74_answers.
Print Assumptions C74_error.
Print Assumptions C74_valid.
Print Assumptions C74_tried.
Print Assumptions C74_ratio.
Print Assumptions C74_start.
Print Assumptions C74_finds.
Print Assumptions C74_error_refuted.
Print Assumptions C74_start_refuted.
Print Assumptions C74_pinch_refuted.
