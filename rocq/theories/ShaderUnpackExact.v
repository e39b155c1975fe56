(** Exact arithmetic of 32-bit floats on small non-negative dyadic numbers, with the sign of zero. *)
From Coq Require Import ZArith Bool Reals Lia Lra List.
From Flocq Require Import Core IEEE754.BinarySingleNaN.
From Verif Require Import F32 F32Lemmas F32Round ShaderUnpackModel.
Import ListNotations.
Local Open Scope R_scope.

(** [f] is the number [r], and not -0 *)
Definition at_value (f : f32) (r : R) : Prop := is_finite f = true /\ Bsign f = false /\ fR f = r.
Lemma at_unique f g r : at_value f r -> at_value g r -> f = g.
Proof. intros (A & B & C) (A' & B' & C'). apply B2R_Bsign_inj; congruence. Qed.
(** [r] is a multiple of 2^-k that fits into a float *)
Definition fine (k : Z) (r : R) : Prop := exists m, r = IZR m * bpow radix2 (- k) /\ (0 <= m < 2 ^ 24)%Z.
Lemma fine_rnd k r : (0 <= k <= 100)%Z -> fine k r -> rnd r = r.
Proof.
  intros K (m & -> & M). apply round_generic; [auto with typeclass_instances|]. apply generic_format_FLT. exists (Float radix2 m (- k)); [reflexivity|cbn [Fnum]; change (Zpower (IZR radix2) 24) with 0%Z || idtac; rewrite Z.abs_eq by lia; apply M|cbn; lia].
Qed.
Lemma fine_pos k r : fine k r -> 0 <= r.
Proof. intros (m & -> & M). apply Rmult_le_pos; [apply IZR_le; lia|apply bpow_ge_0]. Qed.
Lemma fine_small k r : (0 <= k)%Z -> fine k r -> Rabs r < bpow radix2 128.
Proof.
  intros K F. pose proof (fine_pos k r F) as P. destruct F as (m & E & M). rewrite Rabs_pos_eq by exact P. apply Rle_lt_trans with (IZR m * 1).
  - rewrite E. apply Rmult_le_compat_l; [apply IZR_le; lia|]. change 1 with (bpow radix2 0). apply bpow_le. lia.
  - rewrite Rmult_1_r. apply Rlt_trans with (IZR (2 ^ 24)); [apply IZR_lt; lia|]. change (IZR (2 ^ 24)) with (bpow radix2 24). apply bpow_lt. lia.
Qed.
Lemma at_add x y a b k : (0 <= k <= 100)%Z -> at_value x a -> at_value y b -> fine k (a + b) -> at_value (fadd x y) (a + b).
Proof.
  intros K (Fx & Sx & Rx) (Fy & Sy & Ry) F. pose proof (Bplus_correct 24 128 _ _ mode_NE x y Fx Fy) as H. rewrite Rx, Ry in H. change (round_mode mode_NE) with ZnearestE in H. change (round radix2 (SpecFloat.fexp 24 128) ZnearestE (a + b)) with (rnd (a + b)) in H. rewrite (fine_rnd k _ K F) in H. rewrite Rlt_bool_true in H by (apply (fine_small k); [lia|exact F]).
  destruct H as (A & B & C). split; [exact B|]. split; [|exact A]. unfold fadd. rewrite C, Sx, Sy. pose proof (fine_pos k _ F). destruct (Rcompare_spec (a + b) 0); [lra|reflexivity|reflexivity].
Qed.
Lemma at_sub x y a b k : (0 <= k <= 100)%Z -> at_value x a -> at_value y b -> fine k (a - b) -> at_value (fsub x y) (a - b).
Proof.
  intros K (Fx & Sx & Rx) (Fy & Sy & Ry) F. pose proof (Bminus_correct 24 128 _ _ mode_NE x y Fx Fy) as H. rewrite Rx, Ry in H. change (round_mode mode_NE) with ZnearestE in H. change (round radix2 (SpecFloat.fexp 24 128) ZnearestE (a - b)) with (rnd (a - b)) in H. rewrite (fine_rnd k _ K F) in H. rewrite Rlt_bool_true in H by (apply (fine_small k); [lia|exact F]).
  destruct H as (A & B & C). split; [exact B|]. split; [|exact A]. unfold fsub. rewrite C, Sx, Sy. pose proof (fine_pos k _ F). destruct (Rcompare_spec (a - b) 0); [lra|reflexivity|reflexivity].
Qed.
Lemma at_mul x y a b k : (0 <= k <= 100)%Z -> at_value x a -> at_value y b -> fine k (a * b) -> at_value (fmul x y) (a * b).
Proof.
  intros K (Fx & Sx & Rx) (Fy & Sy & Ry) F. pose proof (Bmult_correct 24 128 _ _ mode_NE x y) as H. rewrite Rx, Ry in H. change (round_mode mode_NE) with ZnearestE in H. change (round radix2 (SpecFloat.fexp 24 128) ZnearestE (a * b)) with (rnd (a * b)) in H. rewrite (fine_rnd k _ K F) in H. rewrite Rlt_bool_true in H by (apply (fine_small k); [lia|exact F]).
  destruct H as (A & B & C). rewrite Fx, Fy in B. split; [exact B|]. split; [|exact A]. unfold fmul. rewrite C; [rewrite Sx, Sy; reflexivity|apply finite_not_nan, B].
Qed.
Lemma at_div x y a b k : (0 <= k <= 100)%Z -> at_value x a -> at_value y b -> b <> 0 -> fine k (a / b) -> at_value (fdiv x y) (a / b).
Proof.
  intros K (Fx & Sx & Rx) (Fy & Sy & Ry) NB F. pose proof (Bdiv_correct 24 128 _ _ mode_NE x y) as H. rewrite Rx, Ry in H. specialize (H NB). change (round_mode mode_NE) with ZnearestE in H. change (round radix2 (SpecFloat.fexp 24 128) ZnearestE (a / b)) with (rnd (a / b)) in H. rewrite (fine_rnd k _ K F) in H. rewrite Rlt_bool_true in H by (apply (fine_small k); [lia|exact F]).
  destruct H as (A & B & C). rewrite Fx in B. split; [exact B|]. split; [|exact A]. unfold fdiv. rewrite C; [rewrite Sx, Sy; reflexivity|apply finite_not_nan, B].
Qed.
Lemma at_floor x a : at_value x a -> at_value (ffloor x) (IZR (Zfloor a)).
Proof.
  intros (F & S & R). destruct (ffloor_R x) as [A B]. rewrite R in A. rewrite F in B. split; [exact B|]. split; [|exact A]. destruct (Bnearbyint_correct 24 128 _ mode_DN x) as (_ & _ & C). unfold ffloor. rewrite C; [exact S|]. apply finite_not_nan, B.
Qed.
Lemma at_Z z : (0 <= z <= 2 ^ 24)%Z -> at_value (fZ z) (IZR z).
Proof.
  intros Z0. destruct (fZ_exact z) as [A B]; [lia|]. split; [exact B|]. split; [|exact A]. pose proof (binary_normalize_correct 24 128 _ _ mode_NE z 0 false) as H. cbv zeta in H. change (round_mode mode_NE) with ZnearestE in H.
  assert (E : F2R (Float radix2 z 0) = IZR z) by (unfold F2R; cbn; lra). rewrite E in H. rewrite round_generic in H by (auto with typeclass_instances; apply fZ_format; lia). rewrite Rlt_bool_true in H.
  - destruct H as (_ & _ & H). unfold fZ. rewrite H. destruct (Rcompare_spec (IZR z) 0) as [L|L|L]; [apply lt_IZR in L; lia|reflexivity|reflexivity].
  - rewrite <- abs_IZR. apply Rle_lt_trans with (IZR (2 ^ 24)); [apply IZR_le; lia|]. change (IZR (2 ^ 24)) with (bpow radix2 24). apply bpow_lt. lia.
Qed.
Lemma at_dy x s m e : B2SF x = SpecFloat.S754_finite s m e -> s = false -> at_value x (IZR (Zpos m) * bpow radix2 e).
Proof. intros H ->. destruct x; cbn in H; try discriminate. injection H as -> -> ->. split; [reflexivity|]. split; reflexivity. Qed.
(** multiplication commutes, bit for bit *)
Lemma mul_comm (x y : f32) : fmul x y = fmul y x.
Proof.
  unfold fmul. destruct x as [sx|sx| |sx mx ex Hx], y as [sy|sy| |sy my ey Hy]; try reflexivity; cbn [Bmult]; try (f_equal; apply xorb_comm).
  apply B2SF_inj. rewrite !B2SF_SF2B. rewrite xorb_comm, Pos.mul_comm, Z.add_comm. reflexivity.
Qed.

(** ** Bytes *)
Definition bytes : list Z := map Z.of_nat (seq 0 256).
Lemma in_bytes b : (0 <= b < 256)%Z -> In b bytes.
Proof. intros B. unfold bytes. apply in_map_iff. exists (Z.to_nat b). split; [lia|]. apply in_seq. lia. Qed.
Lemma fbits_eq x y : fbits_eqb x y = true -> x = y.
Proof.
  destruct x as [s|s| |s m e H], y as [t|t| |t n f K]; cbn; try discriminate; intros E; try (apply Bool.eqb_prop in E; congruence); try reflexivity.
  apply andb_prop in E. destruct E as [E E3]. apply andb_prop in E. destruct E as [E1 E2]. apply Bool.eqb_prop in E1. apply Pos.eqb_eq in E2. apply Z.eqb_eq in E3. subst. apply B2SF_inj. reflexivity.
Qed.
Lemma load_at b : (0 <= b < 256)%Z -> exists r, at_value (load32 b) r /\ Rabs (r - IZR b / 255) <= IZR b / 255 * / 16777216.
Proof.
  intros B. destruct (at_Z b ltac:(lia)) as (F & S & R). destruct (at_Z 255 ltac:(lia)) as (F' & S' & R').
  assert (Q : 0 <= IZR b <= 255) by (split; apply IZR_le; lia).
  pose proof (Bdiv_correct 24 128 _ _ mode_NE (fZ b) (fZ 255)) as H. rewrite R, R' in H. specialize (H ltac:(lra)). change (round_mode mode_NE) with ZnearestE in H. change (round radix2 (SpecFloat.fexp 24 128) ZnearestE (IZR b / 255)) with (rnd (IZR b / 255)) in H.
  assert (D : 0 <= IZR b / 255 <= 1) by lra.
  rewrite Rlt_bool_true in H by (apply rnd_safe; rewrite Rabs_pos_eq by lra; apply Rle_trans with 1; [lra|change 1 with (bpow radix2 0); apply bpow_le; lia]).
  destruct H as (A1 & A2 & A3). rewrite F in A2. assert (L : at_value (load32 b) (rnd (IZR b / 255))).
  { split; [exact A2|]. split; [|exact A1]. unfold load32, fdiv. rewrite A3; [rewrite S, S'; reflexivity|apply finite_not_nan, A2]. }
  exists (rnd (IZR b / 255)). split; [exact L|].
  destruct (Z.eq_dec b 0) as [->|NZ]; [replace (0 / 255) with 0 by lra; rewrite rnd_0, Rminus_0_r, Rabs_R0; lra|]. assert (1 <= IZR b) by (apply IZR_le; lia).
    pose proof (rnd_rel (IZR b / 255)) as K. rewrite (Rabs_pos_eq (IZR b / 255)) in K by lra. unfold u24 in K. rewrite Rmult_comm. apply K. apply Rle_trans with (bpow radix2 (-8)); [apply bpow_le; lia|]. change (bpow radix2 (-8)) with (/ 256). lra.
Qed.

Lemma at_fdy b j : (0 <= b < 256)%Z -> (-20 <= j <= 20)%Z -> at_value (fdy b j) (IZR b * bpow radix2 j).
Proof.
  intros B J. assert (P : 0 <= IZR b < 256) by (split; [apply IZR_le|apply IZR_lt]; lia).
  assert (G : generic_format radix2 fexp32 (F2R (Float radix2 b j))) by (apply generic_format_FLT; exists (Float radix2 b j); [reflexivity|cbn [Fnum]; rewrite Z.abs_eq by lia; apply Z.lt_trans with 256%Z; [lia|reflexivity]|cbn; lia]).
  assert (S : Rabs (F2R (Float radix2 b j)) < big).
  { unfold F2R. cbn [Fnum Fexp]. pose proof (bpow_gt_0 radix2 j). rewrite Rabs_pos_eq by (apply Rmult_le_pos; lra). apply Rlt_le_trans with (256 * bpow radix2 j); [apply Rmult_lt_compat_r; lra|]. change 256 with (bpow radix2 8). rewrite <- bpow_plus. apply bpow_le. lia. }
  destruct (fdy_exact b j G S) as [R F]. split; [exact F|]. split; [|exact R].
  pose proof (binary_normalize_correct 24 128 _ _ mode_NE b j false) as H. cbv zeta in H. change (round_mode mode_NE) with ZnearestE in H. rewrite round_generic in H by (auto with typeclass_instances). rewrite Rlt_bool_true in H by exact S. destruct H as (_ & _ & H). unfold fdy. rewrite H.
  destruct (Rcompare_spec (F2R (Float radix2 b j)) 0) as [L|L|L]; try reflexivity. exfalso. unfold F2R in L. cbn [Fnum Fexp] in L. pose proof (bpow_gt_0 radix2 j). assert (0 <= IZR b * bpow radix2 j) by (apply Rmult_le_pos; lra). lra.
Qed.
(** The constants of the shader: 255 times a power of two *)
Definition undoes (c : f32) (j : Z) : Prop := forall b, (0 <= b < 256)%Z -> at_value (fmul c (load32 b)) (IZR b * bpow radix2 j).
Lemma undoes_check c j : (-20 <= j <= 20)%Z -> forallb (fun b => fbits_eqb (fmul c (load32 b)) (fdy b j)) bytes = true -> undoes c j.
Proof. intros J H b B. rewrite (fbits_eq _ _ (proj1 (forallb_forall _ _) H b (in_bytes b B))). apply at_fdy; assumption. Qed.
Lemma undoes_255 : undoes (fZ 255) 0. Proof. apply undoes_check; [lia|vm_compute; reflexivity]. Qed.
Lemma undoes_4080 : undoes (fZ 4080) 4. Proof. apply undoes_check; [lia|vm_compute; reflexivity]. Qed.
Lemma undoes_1020 : undoes (fZ 1020) 2. Proof. apply undoes_check; [lia|vm_compute; reflexivity]. Qed.
Lemma undoes_65280 : undoes (fZ 65280) 8. Proof. apply undoes_check; [lia|vm_compute; reflexivity]. Qed.
Lemma undoes_16th : undoes (fdy 255 (-4)) (-4). Proof. apply undoes_check; [lia|vm_compute; reflexivity]. Qed.
Lemma undoes_64th : undoes (fdy 255 (-6)) (-6). Proof. apply undoes_check; [lia|vm_compute; reflexivity]. Qed.
Lemma undoes_4th : undoes (fdy 255 (-2)) (-2). Proof. apply undoes_check; [lia|vm_compute; reflexivity]. Qed.
(** ** Whole numbers and parts *)
Lemma fine_Z n : (0 <= n < 2 ^ 24)%Z -> fine 0 (IZR n).
Proof. intros N. exists n. split; [cbn; lra|exact N]. Qed.
Lemma pow_inv k : (0 <= k)%Z -> bpow radix2 (- k) = / IZR (2 ^ k).
Proof. intros K. rewrite bpow_opp. f_equal. symmetry. apply (IZR_Zpower radix2 k K). Qed.
Lemma floor_part n k : (0 <= k)%Z -> Zfloor (IZR n * bpow radix2 (- k)) = (n / 2 ^ k)%Z.
Proof.
  intros K. rewrite pow_inv by exact K. assert (P : (0 < 2 ^ k)%Z) by (apply Z.pow_pos_nonneg; lia). pose proof (IZR_lt _ _ P). apply Zfloor_imp.
  pose proof (Z.div_mod n (2 ^ k) ltac:(lia)) as D. pose proof (Z.mod_pos_bound n (2 ^ k) P) as M.
  split; [apply Rmult_le_reg_r with (IZR (2 ^ k)); [lra|]|apply Rmult_lt_reg_r with (IZR (2 ^ k)); [lra|]]; rewrite Rmult_assoc, Rinv_l, Rmult_1_r by lra; rewrite <- mult_IZR; [apply IZR_le|apply IZR_lt]; nia.
Qed.
Lemma at_whole_part x n k : (0 <= k)%Z -> at_value x (IZR n * bpow radix2 (- k)) -> at_value (ffloor x) (IZR (n / 2 ^ k)).
Proof. intros K H. apply at_floor in H. rewrite floor_part in H by exact K. exact H. Qed.
Lemma at_fract x n k : (0 <= k <= 24)%Z -> at_value x (IZR n * bpow radix2 (- k)) -> at_value (fract x) (IZR (n mod 2 ^ k) * bpow radix2 (- k)).
Proof.
  intros K H. assert (P : (0 < 2 ^ k)%Z) by (apply Z.pow_pos_nonneg; lia). pose proof (Z.mod_pos_bound n (2 ^ k) P) as M.
  assert (E : IZR n * bpow radix2 (- k) - IZR (n / 2 ^ k) = IZR (n mod 2 ^ k) * bpow radix2 (- k)).
  { rewrite Z.mod_eq by lia. rewrite minus_IZR, mult_IZR. rewrite pow_inv by lia. assert (IZR (2 ^ k) <> 0) by (apply IZR_neq; lia). field. assumption. }
  rewrite <- E. apply at_sub with k; [lia|exact H|apply at_whole_part; [lia|exact H]|]. rewrite E. exists (n mod 2 ^ k)%Z. split; [reflexivity|]. assert (2 ^ k <= 2 ^ 24)%Z by (apply Z.pow_le_mono_r; lia). lia.
Qed.
(** a sum, a product of whole numbers *)
Lemma at_add_Z x y a b : at_value x (IZR a) -> at_value y (IZR b) -> (0 <= a + b < 2 ^ 24)%Z -> at_value (fadd x y) (IZR (a + b)).
Proof. intros X Y B. rewrite plus_IZR. apply at_add with 0%Z; [lia|exact X|exact Y|]. rewrite <- plus_IZR. apply fine_Z, B. Qed.
Lemma at_scale c x n k j : (0 <= k)%Z -> (0 <= j - k)%Z -> at_value c (bpow radix2 j) -> at_value x (IZR n * bpow radix2 (- k)) -> (0 <= n * 2 ^ (j - k) < 2 ^ 24)%Z -> at_value (fmul c x) (IZR (n * 2 ^ (j - k))).
Proof.
  intros K J C X B. assert (E : bpow radix2 j * (IZR n * bpow radix2 (- k)) = IZR (n * 2 ^ (j - k))).
  { rewrite mult_IZR. change 2%Z with (radix_val radix2). rewrite (IZR_Zpower radix2 (j - k) J). replace (j - k)%Z with (j + - k)%Z by lia. rewrite bpow_plus. ring. }
  rewrite <- E. apply at_mul with 0%Z; [lia|exact C|exact X|]. rewrite E. apply fine_Z, B.
Qed.
Lemma undoes_Z c j b : undoes c j -> (0 <= j)%Z -> (0 <= b < 256)%Z -> at_value (fmul c (load32 b)) (IZR (b * 2 ^ j)).
Proof. intros U J B. pose proof (U b B) as H. rewrite mult_IZR. change 2%Z with (radix_val radix2). rewrite (IZR_Zpower radix2 j J). exact H. Qed.
