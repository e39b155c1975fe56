(** C70: the vertex shader reads what was packed. *)
From Coq Require Import ZArith Bool Reals Lia Lra List.
From Flocq Require Import Core IEEE754.BinarySingleNaN.
From Verif Require Import F32 F32Lemmas F32Round MeshFormatModel PackModel PackProps PackQuantProps StrokeVertexModel StrokeVertexSpec StrokeLabelProps StrokePackingProps ShaderUnpackModel ShaderUnpackExact ShaderUnpackSpec.
Import ListNotations.
Local Open Scope R_scope.

(** ** The whole numbers that the shader finds *)
Lemma pow_4096 : at_value (fZ 4096) (bpow radix2 12). Proof. change (bpow radix2 12) with 4096. apply at_Z. lia. Qed.
Lemma pow_1024 : at_value (fZ 1024) (bpow radix2 10). Proof. change (bpow radix2 10) with 1024. apply at_Z. lia. Qed.
Lemma pow_1048576 : at_value (fZ 1048576) (bpow radix2 20). Proof. change (bpow radix2 20) with 1048576. apply at_Z. lia. Qed.
Lemma div_range b k : (0 <= b < 256)%Z -> (0 <= k)%Z -> (0 <= b / 2 ^ k < 256)%Z.
Proof. intros B K. assert (P : (0 < 2 ^ k)%Z) by (apply Z.pow_pos_nonneg; lia). split; [apply Z.div_pos; lia|]. apply Z.le_lt_trans with b; [|lia]. apply Z.div_le_upper_bound; nia. Qed.
(** a number made of the whole byte [a] and the top of the byte [b] *)
Lemma upper c a d b j k : undoes c j -> undoes d (- k) -> (0 <= j <= 4)%Z -> (0 <= k <= 8)%Z -> (0 <= a < 256)%Z -> (0 <= b < 256)%Z ->
  at_value (fadd (fmul c (load32 a)) (ffloor (fmul d (load32 b)))) (IZR (a * 2 ^ j + b / 2 ^ k)).
Proof.
  intros UC UD J K A B. apply at_add_Z; [apply undoes_Z; [exact UC|lia|exact A]|apply at_whole_part; [lia|apply UD, B]|].
  pose proof (div_range b k B ltac:(lia)). assert (1 <= 2 ^ j <= 16)%Z by (split; [apply (Z.pow_le_mono_r 2 0 j); lia|apply (Z.pow_le_mono_r 2 j 4); lia]). change (2 ^ 24)%Z with 16777216%Z. nia.
Qed.
(** the rest of the byte [b] *)
Lemma lower m d b i k : at_value m (bpow radix2 i) -> undoes d (- k) -> (0 <= k <= 8)%Z -> (k <= i <= 20)%Z -> (0 <= b < 256)%Z ->
  at_value (fmul m (fract (fmul d (load32 b)))) (IZR (b mod 2 ^ k * 2 ^ (i - k))) /\ (0 <= b mod 2 ^ k * 2 ^ (i - k) < 2 ^ i)%Z.
Proof.
  intros M UD K I B. assert (P : (0 < 2 ^ k)%Z) by (apply Z.pow_pos_nonneg; lia). pose proof (Z.mod_pos_bound b (2 ^ k) P) as MB.
  assert (Q : (0 < 2 ^ (i - k))%Z) by (apply Z.pow_pos_nonneg; lia). assert (E : (2 ^ i = 2 ^ k * 2 ^ (i - k))%Z) by (rewrite <- Z.pow_add_r by lia; f_equal; lia).
  assert (R : (0 <= b mod 2 ^ k * 2 ^ (i - k) < 2 ^ i)%Z) by (rewrite E; nia). split; [|exact R].
  apply at_scale; [lia|lia|exact M|apply at_fract; [lia|apply UD, B]|]. assert (2 ^ i <= 2 ^ 20)%Z by (apply Z.pow_le_mono_r; lia). lia.
Qed.
Ltac word := change (2 ^ 4)%Z with 16%Z in *; change (2 ^ 8)%Z with 256%Z in *; change (2 ^ 6)%Z with 64%Z in *; change (2 ^ 2)%Z with 4%Z in *; change (2 ^ 12)%Z with 4096%Z in *; change (2 ^ 10)%Z with 1024%Z in *; change (2 ^ 16)%Z with 65536%Z in *; change (2 ^ 20)%Z with 1048576%Z in *; change (2 ^ 24)%Z with 16777216%Z in *.
Lemma xy12 t a b c : (0 <= a < 256)%Z -> (0 <= b < 256)%Z -> (0 <= c < 256)%Z ->
  unpack_float2_ubyte3 t (load32 a) (load32 b) (load32 c) = transformed t (fZ (a * 16 + b / 16)) (fZ (b mod 16 * 256 + c)).
Proof.
  intros A B C. unfold unpack_float2_ubyte3. pose proof (div_range b 4 B ltac:(lia)) as D. pose proof (Z.mod_pos_bound b 16 ltac:(lia)). pose proof (upper _ a _ b 4 4 undoes_4080 undoes_16th ltac:(lia) ltac:(lia) A B) as U.
  destruct (lower _ _ b 12 4 pow_4096 undoes_16th ltac:(lia) ltac:(lia) B) as (L & R). change (12 - 4)%Z with 8%Z in *. word. f_equal.
  - eapply at_unique; [exact U|]. apply at_Z. lia.
  - eapply at_unique; [|apply at_Z; lia]. apply at_add_Z; [exact L| |word; lia]. pose proof (undoes_Z _ 0 c undoes_255 ltac:(lia) C) as E. rewrite Z.mul_1_r in E. exact E.
Qed.
Lemma one_float t n : (0 <= n < 2 ^ 24)%Z -> unpack_float2_float t (fZ n) = transformed t (fZ (n / 4096)) (fZ (n mod 4096)).
Proof.
  intros N. word. unfold unpack_float2_float. assert (V : at_value (fdiv (fZ n) (fZ 4096)) (IZR n * bpow radix2 (- (12)))).
  { change (bpow radix2 (- (12))) with (/ 4096). apply at_div with 12%Z; [lia|apply at_Z; word; lia|apply (at_Z 4096); lia|lra|]. exists n. split; [reflexivity|word; lia]. }
  pose proof (Z.mod_pos_bound n 4096 ltac:(lia)) as M. assert (D : (0 <= n / 4096 < 4096)%Z) by (split; [apply Z.div_pos; lia|apply Z.div_lt_upper_bound; lia]). f_equal.
  - eapply at_unique; [apply at_whole_part with (k := 12%Z); [lia|exact V]|]. word. apply at_Z. word. lia.
  - rewrite mul_comm. apply at_fract in V; [|lia]. word. pose proof (at_scale _ _ (n mod 4096) 12 12 ltac:(lia) ltac:(lia) pow_4096 V) as E. rewrite Z.sub_diag, Z.mul_1_r in E. eapply at_unique; [apply E; word; lia|]. apply at_Z. word. lia.
Qed.
Lemma transformed_params px py a b : transformed (as_transform px py) (fZ a) (fZ b) = (unpack_single px a, unpack_single py b).
Proof. unfold transformed, unpack_single, to_float, as_transform. cbn [x_scale x_offset y_scale y_offset]. rewrite (mul_comm (scale px)), (mul_comm (scale py)). reflexivity. Qed.

(** ** C70 *)
(** A point packed into a float or into three bytes: the shader gets, bit for bit, the coordinates that the mesh reports *)
Theorem C70_points : forall t px py ns p, t = Float2In1Float \/ t = Float2In3Bytes_XY12 -> in_range t ns -> pack_ints t ns = Some p ->
  exists x y, shader_point (as_transform px py) (fed in_full p) = Some (x, y) /\ unpack_attribute t [px; py] p = Some [x; y].
Proof.
  intros t px py ns p T R P. pose proof (pack_words t ns R) as W. rewrite W in P. injection P as <-. unfold unpack_attribute, is_unpacked. rewrite (unpack_words t ns R).
  destruct T as [-> | ->]; open_range R; cbn [words as_packed is_packed_as_float fed map shader_point packed_bits unpack_singles]; (eexists; eexists; split; [|reflexivity]); unfold in_full.
  - unfold to_float. rewrite one_float by arith. rewrite <- transformed_params. do 3 f_equal; arith.
  - rewrite xy12 by arith. rewrite <- transformed_params. do 3 f_equal; arith.
Qed.
(** ** Values up to an error *)
Definition near (f : f32) (r e : R) : Prop := is_finite f = true /\ Rabs (fR f - r) <= e.
Lemma near_Z z : (Z.abs z <= 2 ^ 24)%Z -> near (fZ z) (IZR z) 0.
Proof. intros H. destruct (fZ_exact z H) as (R & F). split; [exact F|]. rewrite R, Rminus_diag_eq, Rabs_R0 by reflexivity. lra. Qed.
Lemma near_rnd x r e k : (-100 <= k <= 20)%Z -> Rabs (x - r) <= e -> Rabs r + e <= bpow radix2 k -> Rabs x <= safe /\ Rabs (rnd x - r) <= e + bpow radix2 (k - 25).
Proof.
  intros K D B. assert (X : Rabs x <= bpow radix2 k). { replace x with ((x - r) + r) by ring. eapply Rle_trans; [apply Rabs_triang|]. lra. }
  split; [eapply Rle_trans; [exact X|]; apply bpow_le; lia|]. pose proof (rnd_abs k x ltac:(lia) X) as E. replace (rnd x - r) with ((rnd x - x) + (x - r)) by ring. eapply Rle_trans; [apply Rabs_triang|]. lra.
Qed.
Lemma near_add x y a b e d k : near x a e -> near y b d -> (-100 <= k <= 20)%Z -> Rabs (a + b) + (e + d) <= bpow radix2 k -> near (fadd x y) (a + b) (e + d + bpow radix2 (k - 25)).
Proof.
  intros (Fx & X) (Fy & Y) K B. assert (D : Rabs (fR x + fR y - (a + b)) <= e + d). { replace (fR x + fR y - (a + b)) with ((fR x - a) + (fR y - b)) by ring. eapply Rle_trans; [apply Rabs_triang|]. lra. }
  destruct (near_rnd _ _ _ k K D B) as (S & E). destruct (fadd_small x y Fx Fy S) as (R & F). split; [exact F|]. rewrite R. exact E.
Qed.
Lemma near_sub x y a b e d k : near x a e -> near y b d -> (-100 <= k <= 20)%Z -> Rabs (a - b) + (e + d) <= bpow radix2 k -> near (fsub x y) (a - b) (e + d + bpow radix2 (k - 25)).
Proof.
  intros (Fx & X) (Fy & Y) K B. assert (D : Rabs (fR x - fR y - (a - b)) <= e + d). { replace (fR x - fR y - (a - b)) with ((fR x - a) + - (fR y - b)) by ring. eapply Rle_trans; [apply Rabs_triang|]. rewrite Rabs_Ropp. lra. }
  destruct (near_rnd _ _ _ k K D B) as (S & E). destruct (fsub_small x y Fx Fy S) as (R & F). split; [exact F|]. rewrite R. exact E.
Qed.
Lemma near_mul x y a b e d A B k : near x a e -> near y b d -> Rabs a <= A -> Rabs b <= B -> (-100 <= k <= 20)%Z -> Rabs (a * b) + (A * d + B * e + e * d) <= bpow radix2 k -> near (fmul x y) (a * b) (A * d + B * e + e * d + bpow radix2 (k - 25)).
Proof.
  intros (Fx & X) (Fy & Y) HA HB K Q. assert (D : Rabs (fR x * fR y - a * b) <= A * d + B * e + e * d).
  { replace (fR x * fR y - a * b) with (a * (fR y - b) + b * (fR x - a) + (fR x - a) * (fR y - b)) by ring. eapply Rle_trans; [apply Rabs_triang|]. apply Rplus_le_compat; [eapply Rle_trans; [apply Rabs_triang|]; apply Rplus_le_compat|]; rewrite Rabs_mult; apply Rmult_le_compat; try apply Rabs_pos; assumption. }
  destruct (near_rnd _ _ _ k K D Q) as (S & E). destruct (fmul_small x y Fx Fy S) as (R & F). split; [exact F|]. rewrite R. exact E.
Qed.
Lemma near_quot n z k : (0 <= n <= 2 ^ 24)%Z -> (1 <= z <= 2 ^ 24)%Z -> (-100 <= k <= 20)%Z -> IZR n / IZR z <= bpow radix2 k -> near (fdiv (fZ n) (fZ z)) (IZR n / IZR z) (bpow radix2 (k - 25)).
Proof.
  intros N Z0 K B. destruct (fZ_exact n) as (RN & FN); [lia|]. destruct (fZ_exact z) as (RZ & FZ); [lia|]. assert (1 <= IZR z) by (apply IZR_le; lia). assert (0 <= IZR n) by (apply IZR_le; lia).
  assert (P : 0 <= IZR n / IZR z) by (apply Rmult_le_pos; [lra|apply Rlt_le, Rinv_0_lt_compat; lra]). assert (NZ : IZR z <> 0) by lra.
  destruct (near_rnd (IZR n / IZR z) (IZR n / IZR z) 0 k K) as (S & E); [rewrite Rminus_diag_eq, Rabs_R0 by reflexivity; lra|rewrite Rabs_pos_eq by lra; lra|].
  destruct (fdiv_small (fZ n) (fZ z) FN FZ) as (R & F); [rewrite RZ; exact NZ|rewrite RN, RZ; exact S|]. split; [exact F|]. rewrite R, RN, RZ. rewrite Rplus_0_l in E. exact E.
Qed.
Lemma near_weaken f r r' e e' : near f r e -> r = r' -> e <= e' -> near f r' e'.
Proof. intros (F & D) <- L. split; [exact F|lra]. Qed.
Lemma near_both x y r e d : near x r e -> near y r d -> Rabs (fR x - fR y) <= e + d.
Proof. intros (_ & X) (_ & Y). replace (fR x - fR y) with ((fR x - r) + - (fR y - r)) by ring. eapply Rle_trans; [apply Rabs_triang|]. rewrite Rabs_Ropp. lra. Qed.
Lemma p0 : bpow radix2 (2 - 25) = / 8388608. Proof. reflexivity. Qed.
Lemma p1 : bpow radix2 (1 - 25) = / 16777216. Proof. reflexivity. Qed.
Lemma p2 : bpow radix2 (0 - 25) = / 33554432. Proof. reflexivity. Qed.
Lemma p3 : bpow radix2 (-6 - 25) = / 2147483648. Proof. reflexivity. Qed.
Lemma p4 : bpow radix2 (-8 - 25) = / 8589934592. Proof. reflexivity. Qed.
Lemma p5 : bpow radix2 (-11 - 25) = / 68719476736. Proof. reflexivity. Qed.
Lemma p6 : bpow radix2 (-19 - 25) = / 17592186044416. Proof. reflexivity. Qed.
Lemma q0 : bpow radix2 2 = 4. Proof. reflexivity. Qed.
Lemma q1 : bpow radix2 1 = 2. Proof. reflexivity. Qed.
Lemma q2 : bpow radix2 0 = 1. Proof. reflexivity. Qed.
Lemma q3 : bpow radix2 (-6) = / 64. Proof. reflexivity. Qed.
Lemma q4 : bpow radix2 (-8) = / 256. Proof. reflexivity. Qed.
Lemma q5 : bpow radix2 (-11) = / 2048. Proof. reflexivity. Qed.
Lemma q6 : bpow radix2 (-19) = / 524288. Proof. reflexivity. Qed.
Ltac vals := rewrite ?p0, ?p1, ?p2, ?p3, ?p4, ?p5, ?p6, ?q0, ?q1, ?q2, ?q3, ?q4, ?q5, ?q6 in *.
Lemma z_range n m : (0 <= n <= m)%Z -> 0 <= IZR n <= IZR m. Proof. intros H. split; apply IZR_le; lia. Qed.

Lemma shader_hsl n : (0 <= n < 1024)%Z -> near (minus_one (fZ n)) (IZR n / 511 - 1) (/ 8388608 + / 16777216).
Proof.
  intros N. pose proof (z_range n 1023 ltac:(lia)). unfold minus_one. vals.
  assert (Q := near_quot n 511 2 ltac:(lia) ltac:(lia) ltac:(lia) ltac:(rewrite q0; lra)).
  eapply near_weaken; [apply (near_sub _ _ _ _ _ _ 1 Q (near_Z 1 ltac:(lia)) ltac:(lia))|reflexivity|]; vals; [apply Rle_trans with (101/100 + / 8388608); [|lra]; apply Rplus_le_compat; [apply Rabs_le; lra|lra]|lra].
Qed.
Lemma cpu_hsl n : (0 <= n < 1024)%Z -> near (unpack_single hsl_params n) (IZR n / 511 - 1) (2 * / 8388608 + / 16777216).
Proof.
  intros N. pose proof (z_range n 1023 ltac:(lia)). unfold unpack_single, hsl_params, to_float. cbn [scale offset].
  assert (Q := near_quot 2 1022 (-8) ltac:(lia) ltac:(lia) ltac:(lia) ltac:(change (bpow radix2 (-8)) with (/ 256); lra)).
  assert (M := near_mul _ _ _ _ _ _ 1023 (/ 511) 2 (near_Z n ltac:(lia)) Q ltac:(rewrite Rabs_pos_eq; lra) ltac:(rewrite Rabs_pos_eq; lra) ltac:(lia)). vals.
  eapply near_weaken in M; [|apply Rle_trans with (21/10); [|lra]; apply Rle_trans with (2003/1000 + / 1024); [apply Rplus_le_compat; [rewrite Rabs_pos_eq by (apply Rmult_le_pos; lra); lra|lra]|lra]|reflexivity|apply Rle_refl].
  assert (A := near_add _ _ _ _ _ _ 1 M (near_Z (-1) ltac:(lia)) ltac:(lia)). rewrite p1, q1 in A. eapply near_weaken; [apply A|lra|lra].
  apply Rle_trans with (101/100 + / 1024); [|lra]. apply Rplus_le_compat; [apply Rabs_le; lra|lra].
Qed.

Lemma shader_opacity_near b : (0 <= b < 256)%Z -> near (opacity32 (load32 b)) (2 * IZR b / 254 - 1) (4 * / 8388608).
Proof.
  intros B. pose proof (z_range b 255 ltac:(lia)). destruct (load_at b B) as (r & (F & _ & R) & D). unfold opacity32.
  assert (L : near (load32 b) (IZR b / 255) (/ 16777216)) by (split; [exact F|rewrite R; lra]).
  assert (Q := near_quot 255 127 2 ltac:(lia) ltac:(lia) ltac:(lia) ltac:(rewrite q0; lra)).
  assert (M := near_mul _ _ _ _ _ _ (201/100) 1 2 Q L ltac:(rewrite Rabs_pos_eq; lra) ltac:(rewrite Rabs_pos_eq; lra) ltac:(lia)). rewrite p0, q0 in *.
  eapply near_weaken in M; [|apply Rle_trans with (2009/1000 + / 1024); [apply Rplus_le_compat; [rewrite Rabs_pos_eq by (apply Rmult_le_pos; lra); lra|lra]|lra]|reflexivity|apply Rle_refl].
  assert (A := near_sub _ _ _ _ _ _ 1 M (near_Z 1 ltac:(lia)) ltac:(lia)). rewrite p1, q1 in A. eapply near_weaken; [apply A|lra|lra].
  apply Rle_trans with (101/100 + / 1024); [|lra]. apply Rplus_le_compat; [apply Rabs_le; lra|lra].
Qed.
Lemma cpu_opacity_near b : (0 <= b < 256)%Z -> near (unpack_single opacity_params b) (2 * IZR b / 254 - 1) (2 * / 8388608 + / 16777216).
Proof.
  intros N. pose proof (z_range b 255 ltac:(lia)). unfold unpack_single, opacity_params, to_float. cbn [scale offset].
  assert (Q := near_quot 2 254 (-6) ltac:(lia) ltac:(lia) ltac:(lia) ltac:(rewrite q3; lra)).
  assert (M := near_mul _ _ _ _ _ _ 255 (/ 127) 2 (near_Z b ltac:(lia)) Q ltac:(rewrite Rabs_pos_eq; lra) ltac:(rewrite Rabs_pos_eq; lra) ltac:(lia)). vals.
  eapply near_weaken in M; [|apply Rle_trans with (2009/1000 + / 1024); [apply Rplus_le_compat; [rewrite Rabs_pos_eq by (apply Rmult_le_pos; lra); lra|lra]|lra]|reflexivity|apply Rle_refl].
  assert (A := near_add _ _ _ _ _ _ 1 M (near_Z (-1) ltac:(lia)) ltac:(lia)). rewrite p1, q1 in A. eapply near_weaken; [apply A|lra|lra].
  apply Rle_trans with (101/100 + / 1024); [|lra]. apply Rplus_le_compat; [apply Rabs_le; lra|lra].
Qed.
Lemma cpu_unit n z k : (0 <= n <= z)%Z -> (1 < z < 2 ^ 20)%Z -> (-40 <= k <= -1)%Z -> IZR 1 / IZR z <= bpow radix2 k -> IZR z * bpow radix2 (k - 25) <= / 16777216 ->
  near (unpack_single (Params f0 (fdiv (fZ 1) (fZ z))) n) (IZR n / IZR z) (/ 16777216 + / 16777216).
Proof.
  intros N Z0 K B S. word. pose proof (z_range n z ltac:(lia)). assert (1 < IZR z) by (apply IZR_lt; lia). assert (I : 0 < / IZR z) by (apply Rinv_0_lt_compat; lra). assert (I1 : IZR z * / IZR z = 1) by (apply Rinv_r; lra).
  unfold unpack_single, to_float. cbn [scale offset]. assert (Q := near_quot 1 z k ltac:(lia) ltac:(lia) ltac:(lia) B). unfold Rdiv in *. rewrite Rmult_1_l in *.
  assert (NZ : 0 <= IZR n * / IZR z <= 1) by (split; [apply Rmult_le_pos; lra|rewrite <- I1; apply Rmult_le_compat_r; lra]).
  assert (M := near_mul _ _ _ _ _ _ (IZR z) (/ IZR z) 1 (near_Z n ltac:(lia)) Q ltac:(rewrite Rabs_pos_eq; lra) ltac:(rewrite Rabs_pos_eq; lra) ltac:(lia)). rewrite p1, q1 in M.
  eapply near_weaken in M; [|apply Rle_trans with (1 + / 16777216); [apply Rplus_le_compat; [rewrite Rabs_pos_eq; lra|lra]|lra]|reflexivity|apply Rle_refl].
  destruct M as (FM & M). destruct (fadd_small _ f0 FM eq_refl) as (RA & FA).
  { rewrite f0_R, Rplus_0_r. apply Rabs_le_inv in M. apply Rle_trans with 2; [apply Rabs_le; lra|]. change 2 with (bpow radix2 1). apply bpow_le. lia. }
  split; [exact FA|]. rewrite RA, f0_R, Rplus_0_r, rnd_fR. lra.
Qed.
Lemma shader_unit n z : (0 <= n <= z)%Z -> (1 < z < 2 ^ 20)%Z -> near (fdiv (fZ n) (fZ z)) (IZR n / IZR z) (/ 33554432).
Proof.
  intros N Z0. word. rewrite <- p2. apply near_quot; try lia. rewrite q2. assert (0 < IZR z) by (apply IZR_lt; lia). apply Rmult_le_reg_r with (IZR z); [lra|]. unfold Rdiv. rewrite Rmult_assoc, Rinv_l by lra. rewrite Rmult_1_r, Rmult_1_l. apply IZR_le. lia.
Qed.
Lemma u_near n : (0 <= n < 4096)%Z -> Rabs (fR (fdiv (fZ n) (fZ 4095)) - fR (unpack_single u_params n)) <= / 1048576.
Proof.
  intros N. eapply Rle_trans; [eapply near_both; [apply shader_unit; lia|apply (cpu_unit n 4095 (-11)); try lia; [rewrite q5; lra|rewrite p5; lra]]|lra].
Qed.
Lemma v_near n : (0 <= n < 1048576)%Z -> Rabs (fR (fdiv (fZ n) (fZ 1048575)) - fR (unpack_single v_params n)) <= / 1048576.
Proof.
  intros N. eapply Rle_trans; [eapply near_both; [apply shader_unit; lia|apply (cpu_unit n 1048575 (-19)); try lia; [rewrite q6; lra|rewrite p6; lra]]|lra].
Qed.
Lemma hsl_near n : (0 <= n < 1024)%Z -> Rabs (fR (minus_one (fZ n)) - fR (unpack_single hsl_params n)) <= / 1048576.
Proof. intros N. eapply Rle_trans; [eapply near_both; [apply shader_hsl, N|apply cpu_hsl, N]|lra]. Qed.
Lemma opacity_near b : (0 <= b < 256)%Z -> Rabs (fR (opacity32 (load32 b)) - fR (unpack_single opacity_params b)) <= / 1048576.
Proof. intros N. eapply Rle_trans; [eapply near_both; [apply shader_opacity_near, N|apply cpu_opacity_near, N]|lra]. Qed.
(** ** Attributes with parameters of their own *)
Lemma hsl_bytes ns : in_range Float3In4Bytes_XYZ10 ns -> exists a b c, ns = [a; b; c] /\ (0 <= a < 1024)%Z /\ (0 <= b < 1024)%Z /\ (0 <= c < 1024)%Z /\
  shader_color (map load32 (words Float3In4Bytes_XYZ10 ns)) = Some [minus_one (fZ a); minus_one (fZ b); minus_one (fZ c)].
Proof.
  intros R. open_range R. match goal with |- context [[?a; ?b; ?c] = _] => exists a, b, c end. split; [reflexivity|]. repeat split; try (word; lia). cbn [words map shader_color]. unfold unpack_hsl_bytes.
  match goal with |- context [words] => idtac | |- Some [minus_one ?u; minus_one ?v; minus_one ?w] = Some [minus_one (fZ ?a); minus_one (fZ ?b); minus_one (fZ ?c)] =>
    assert (U : u = fZ a); [|assert (V : v = fZ b); [|assert (W : w = fZ c); [|rewrite U, V, W; reflexivity]]] end.
  - eapply at_unique; [apply (upper _ _ _ _ 2 6 undoes_1020 undoes_64th); arith|]. match goal with |- at_value (fZ ?a) (IZR ?e) => replace e with a by arith end. apply at_Z. arith.
  - match goal with |- context [fmul (fdy 255 (-6)) (load32 ?x)] => destruct (lower _ _ x 10 6 pow_1024 undoes_64th ltac:(lia) ltac:(lia)) as (L & LR); [arith|] end.
    match goal with |- context [fmul (fdy 255 (-4)) (load32 ?y)] => assert (F : at_value (ffloor (fmul (fdy 255 (-4)) (load32 y))) (IZR (y / 2 ^ 4))) by (apply at_whole_part; [lia|apply undoes_16th; arith]) end.
    eapply at_unique; [apply at_add_Z; [exact L|exact F|arith]|]. match goal with |- at_value (fZ ?a) (IZR ?e) => replace e with a by arith end. apply at_Z. arith.
  - match goal with |- context [fmul (fdy 255 (-4)) (load32 ?x)] => destruct (lower _ _ x 10 4 pow_1024 undoes_16th ltac:(lia) ltac:(lia)) as (L & LR); [arith|] end.
    match goal with |- context [fmul (fdy 255 (-2)) (load32 ?y)] => assert (F : at_value (fmul (fdy 255 (-2)) (load32 y)) (IZR (y / 2 ^ 2))) end.
    { match goal with |- at_value (fmul _ (load32 ?y)) (IZR ?q) => pose proof (undoes_4th y ltac:(arith)) as E; replace (IZR q) with (IZR y * bpow radix2 (-2)); [exact E|]; change (bpow radix2 (-2)) with (/ 4); replace (IZR y) with (IZR (4 * q)) by (f_equal; arith); rewrite mult_IZR; lra end. }
    eapply at_unique; [apply at_add_Z; [exact L|exact F|arith]|]. match goal with |- at_value (fZ ?a) (IZR ?e) => replace e with a by arith end. apply at_Z. arith.
Qed.
Lemma uv_bytes ns : in_range Float2In4Bytes_X12_Y20 ns -> exists a b, ns = [a; b] /\ (0 <= a < 4096)%Z /\ (0 <= b < 1048576)%Z /\
  shader_uv (map load32 (words Float2In4Bytes_X12_Y20 ns)) = Some [fdiv (fZ a) (fZ 4095); fdiv (fZ b) (fZ 1048575)].
Proof.
  intros R. open_range R. match goal with |- context [[?a; ?b] = _] => exists a, b end. split; [reflexivity|]. repeat split; try (word; lia). cbn [words map shader_uv]. unfold unpack_uv_bytes.
  match goal with |- Some [fdiv ?u _; fdiv ?v _] = Some [fdiv (fZ ?a) _; fdiv (fZ ?b) _] => assert (U : u = fZ a); [|assert (V : v = fZ b); [|rewrite U, V; reflexivity]] end.
  - eapply at_unique; [apply (upper _ _ _ _ 4 4 undoes_4080 undoes_16th); arith|]. match goal with |- at_value (fZ ?a) (IZR ?e) => replace e with a by arith end. apply at_Z. arith.
  - match goal with |- context [fmul (fdy 255 (-4)) (load32 ?x)] => destruct (lower _ _ x 20 4 pow_1048576 undoes_16th ltac:(lia) ltac:(lia)) as (L & LR); [arith|] end.
    match goal with |- fadd (fadd _ (fmul _ (load32 ?y))) (fmul _ (load32 ?z)) = _ => pose proof (undoes_Z _ 8 y undoes_65280 ltac:(lia) ltac:(arith)) as Y; pose proof (undoes_Z _ 0 z undoes_255 ltac:(lia) ltac:(arith)) as W end.
    eapply at_unique; [apply at_add_Z; [apply at_add_Z; [exact L|exact Y|arith]|exact W|arith]|]. match goal with |- at_value (fZ ?a) (IZR ?e) => replace e with a by (change (2 ^ 0)%Z with 1%Z; arith) end. apply at_Z. arith.
Qed.
Lemma label_exact b : (0 <= b < 256)%Z -> label32 (load32 b) = unpack_single label_params b.
Proof.
  intros B. assert (H : forallb (fun b => fbits_eqb (label32 (load32 b)) (unpack_single label_params b)) bytes = true) by (vm_compute; reflexivity).
  apply fbits_eq. exact (proj1 (forallb_forall _ _) H b (in_bytes b B)).
Qed.
Lemma label_finite b : (0 <= b < 256)%Z -> is_finite (label32 (load32 b)) = true.
Proof.
  intros B. assert (H : forallb (fun b => is_finite (label32 (load32 b))) bytes = true) by (vm_compute; reflexivity). exact (proj1 (forallb_forall _ _) H b (in_bytes b B)).
Qed.
Lemma close_to x y e r d : near x r d -> Rabs (fR x - fR y) <= e -> is_finite x = true /\ Rabs (B2R x - B2R y) <= e.
Proof. intros (F & _) H. split; assumption. Qed.
(** Colour, opacity, labels and texture coordinates with the parameters that strokes give them: the shader, which knows these
    parameters by heart, reads the labels bit for bit and the rest up to 2^-20 as the mesh reports them *)
Theorem C70_attributes : forall a ps ns p, custom_params a = Some ps -> in_range (ty a) ns -> pack_ints (ty a) ns = Some p ->
  exists l ws, read_by_shader (aid a) (fed in_full p) = Some l /\ unpack_attribute (ty a) ps p = Some ws /\
    all_close (repeat (slack (aid a)) (length ws)) ws l /\ (aid a = kSideLabel \/ aid a = kForwardLabel -> l = ws).
Proof.
  intros a ps ns p C R P. pose proof (pack_words (ty a) ns R) as W. rewrite W in P. injection P as <-. unfold unpack_attribute, is_unpacked. rewrite (unpack_words (ty a) ns R).
  unfold custom_params in C. set (id := aid a) in *. unfold kOpacityShift, kColorShiftHsl, kSideLabel, kForwardLabel, kSurfaceUv in *.
  destruct id as [|[|[|[|[|[|[|[|[|id]]]]]]]]]; cbn [Nat.eqb orb] in C; try discriminate C; destruct (ty a); try discriminate C; injection C as <-; cbn [packed_bits as_packed is_packed_as_float fed read_by_shader]; unfold in_full.
  - destruct (hsl_bytes ns R) as (x & y & z & -> & X & Y & Z0 & E). exists [minus_one (fZ x); minus_one (fZ y); minus_one (fZ z)]. eexists. split; [exact E|]. split; [reflexivity|]. split; [|intros [?|?]; discriminate].
    cbn [unpack_singles length repeat all_close slack]. split; [apply (shader_hsl x X)|]. split; [apply hsl_near, X|]. split; [apply (shader_hsl y Y)|]. split; [apply hsl_near, Y|]. split; [apply (shader_hsl z Z0)|]. split; [apply hsl_near, Z0|exact I].
  - open_range R. cbn [words map shader_opacity]. eexists. eexists. split; [reflexivity|]. split; [reflexivity|]. split; [|intros [?|?]; discriminate]. cbn [unpack_singles length repeat all_close slack]. match goal with H : (0 <= ?b < 2 ^ 8)%Z |- _ => change (2 ^ 8)%Z with 256%Z in H end.
    split; [eapply shader_opacity_near; eassumption|]. split; [apply opacity_near; assumption|exact I].
  - open_range R. cbn [words map shader_label]. eexists. eexists. split; [reflexivity|]. split; [reflexivity|]. match goal with H : (0 <= ?b < 2 ^ 8)%Z |- _ => change (2 ^ 8)%Z with 256%Z in H end. cbn [unpack_singles length repeat all_close slack].
    split; [|intros _; rewrite label_exact by assumption; reflexivity]. split; [apply label_finite; assumption|]. split; [|exact I]. rewrite label_exact by assumption. rewrite Rminus_diag_eq, Rabs_R0 by reflexivity. lra.
  - open_range R. cbn [words map shader_label]. eexists. eexists. split; [reflexivity|]. split; [reflexivity|]. match goal with H : (0 <= ?b < 2 ^ 8)%Z |- _ => change (2 ^ 8)%Z with 256%Z in H end. cbn [unpack_singles length repeat all_close slack].
    split; [|intros _; rewrite label_exact by assumption; reflexivity]. split; [apply label_finite; assumption|]. split; [|exact I]. rewrite label_exact by assumption. rewrite Rminus_diag_eq, Rabs_R0 by reflexivity. lra.
  - destruct (uv_bytes ns R) as (x & y & -> & X & Y & E). exists [fdiv (fZ x) (fZ 4095); fdiv (fZ y) (fZ 1048575)]. eexists. split; [exact E|]. split; [reflexivity|]. split; [|intros [?|?]; discriminate].
    cbn [unpack_singles length repeat all_close slack]. split; [apply (shader_unit x 4095); lia|]. split; [apply u_near; assumption|]. split; [apply (shader_unit y 1048575); lia|]. split; [apply v_near; assumption|exact I].
Qed.

Lemma all_close_trans es d vs ws l : 0 <= d -> all_close es vs ws -> all_close (repeat d (length ws)) ws l -> all_close (map (fun e => e + d) es) vs l.
Proof.
  intros D. revert vs ws l. induction es as [|e es IH]; intros [|v vs] [|w ws] [|x l] H K; try contradiction; [exact I|]. cbn [all_close map repeat length] in *. destruct H as (F & H & HT). destruct K as (G & K & KT). split; [exact G|]. split; [|exact (IH _ _ _ HT KT)].
  replace (B2R x - B2R v) with ((B2R x - B2R w) + (B2R w - B2R v)) by ring. eapply Rle_trans; [apply Rabs_triang|]. lra.
Qed.
(** From the value given to a vertex to the value in the shader *)
Theorem C70_attribute : forall a ps vs, custom_params a = Some ps -> within_limits (aid a) vs ->
  exists p l, pack_attribute (ty a) ps vs = Some p /\ read_by_shader (aid a) (fed in_full p) = Some l /\ all_close (shader_losses (aid a)) vs l.
Proof.
  intros a ps vs C W. destruct (custom_packs a ps vs C W) as (bits & T & _ & P). destruct (packs_list _ _ _ _ P) as (ns & A & F & K). destruct (packed_widths (ty a) bits T) as (w & k & L & FB).
  assert (R : in_range (ty a) ns) by (exists w, k, (map Z.of_nat bits); split; assumption). destruct (C29_roundtrip (ty a) ns R) as (p & Q & _ & U).
  destruct (C70_attributes a ps ns p C R Q) as (l & ws & S & V & D & _). exists p, l. unfold pack_attribute, is_unpacked. rewrite T, A, Q. split; [reflexivity|]. split; [exact S|].
  unfold unpack_attribute, is_unpacked in V. rewrite T, U in V. injection V as <-. unfold shader_losses. eapply all_close_trans; [|exact K|exact D]. unfold slack. destruct (aid a) as [|[|[|[|[|[|[|[|]]]]]]]]; lra.
Qed.
(** ** Labels and margins *)
(** The label of a vertex, however it is loaded, marks the same edges: away from the left (or front) edge unless the label is
    negative, away from the right (or back) edge unless it is positive *)
Theorem C70_edges : forall l k, whole l k -> (Z.abs k <= 127)%Z ->
  exists b, pack_single label_params l = Some b /\ pack_ints Float1In1Byte [b] = Some (PBytes [b]) /\
    let away := ((0 <=? k)%Z, (k <=? 0)%Z) in
    clear_of_edges (label32 (in_full b)) = away /\ clear_of_edges (label32 (in_half b)) = away /\ clear_of_edges (of_half (label16 (load16 b))) = away.
Proof.
  intros l k W K. destruct (label_packs l k W ltac:(lia)) as (P & _). exists (k + 128)%Z. split; [exact P|]. assert (B : (0 <= k + 128 < 256)%Z) by lia. split; [cbn [pack_ints]; unfold to_byte; rewrite Z.mod_small by lia; reflexivity|].
  assert (H : forallb (fun b => let away := ((128 <=? b)%Z, (b <=? 128)%Z) in let same c := Bool.eqb (fst c) (fst away) && Bool.eqb (snd c) (snd away) in
    same (clear_of_edges (label32 (in_full b))) && same (clear_of_edges (label32 (in_half b))) && same (clear_of_edges (of_half (label16 (load16 b))))) bytes = true) by (vm_compute; reflexivity).
  pose proof (proj1 (forallb_forall _ _) H _ (in_bytes _ B)) as E. cbv zeta beta in E. replace (128 <=? k + 128)%Z with (0 <=? k)%Z in E by (destruct (Z.leb_spec 0 k), (Z.leb_spec 128 (k + 128)); lia). replace (k + 128 <=? 128)%Z with (k <=? 0)%Z in E by (destruct (Z.leb_spec k 0), (Z.leb_spec (k + 128) 128); lia).
  apply andb_prop in E. destruct E as [E E3]. apply andb_prop in E. destruct E as [E1 E2]. cbv zeta. cbn [fst snd] in E1, E2, E3.
  repeat match goal with E : Bool.eqb _ _ && Bool.eqb _ _ = true |- _ => apply andb_prop in E; let X := fresh in let Y := fresh in destruct E as [X Y]; apply Bool.eqb_prop in X, Y end.
  split; [|split]; apply injective_projections; cbn [fst snd]; assumption.
Qed.
(** The margin in a label: the shader and the mesh read the same up to 2^-20 *)
Lemma above_one : forallb (fun k => Z.eqb k 0 || fbits_eqb (fmax (fsub (fabs (fZ k)) (fZ 1)) f0) (fZ (Z.abs k - 1))) labels = true.
Proof. vm_compute. reflexivity. Qed.
Theorem C70_margins : forall l k, whole l k -> (Z.abs k <= 127)%Z -> is_finite (shader_margin l) = true /\
  Rabs (B2R (shader_margin l) - B2R (decode_margin l)) <= / 1048576 /\ (k = 0%Z -> B2R (shader_margin l) = 0).
Proof.
  intros l k W K. destruct (C62_decode l k W K) as (_ & D0 & D1). destruct (Z.eq_dec k 0) as [->|N].
  - assert (E : shader_margin l = shader_margin f0). { destruct W as (F & R). destruct l as [s|s| |s m e H]; try discriminate; [reflexivity|]. exfalso. cbn in R. unfold F2R in R. cbn [Fnum Fexp] in R. pose proof (bpow_gt_0 radix2 e). destruct s; cbn [cond_Zopp] in R; apply Rmult_integral in R; destruct R as [R|R]; try lra; apply eq_IZR in R; discriminate. }
    assert (V : shader_margin f0 = f0) by (apply fbits_eq; vm_compute; reflexivity). rewrite E, V, (D0 eq_refl). cbn [f0 B2R]. rewrite Rminus_0_r, Rabs_R0. split; [reflexivity|]. split; [lra|reflexivity].
  - specialize (D1 N). assert (I : In k labels). { unfold labels. apply in_map_iff. exists (Z.to_nat (k + 127)). split; [lia|]. apply in_seq. lia. }
    pose proof (proj1 (forallb_forall _ _) above_one k I) as H. cbn beta in H. apply orb_true_iff in H as [H|H]; [apply Z.eqb_eq in H; contradiction|]. apply fbits_eq in H.
    rewrite (whole_fZ l k W N) in * by lia. set (a := (Z.abs k - 1)%Z) in *. assert (A : (0 <= a <= 126)%Z) by lia. pose proof (z_range a 126 ltac:(lia)) as AR. replace (IZR (Z.abs k) - 1) with (IZR a) in D1 by (unfold a; rewrite minus_IZR; reflexivity).
    assert (Q := near_quot 4 126 (-4) ltac:(lia) ltac:(lia) ltac:(lia) ltac:(change (bpow radix2 (-4)) with (/ 16); lra)). change (bpow radix2 (-4 - 25)) with (/ 536870912) in Q.
    assert (M := near_mul _ _ _ _ _ _ (4/126) 126 3 Q (near_Z a ltac:(lia)) ltac:(rewrite Rabs_pos_eq; lra) ltac:(rewrite Rabs_pos_eq; lra) ltac:(lia)). change (bpow radix2 3) with 8 in M. change (bpow radix2 (3 - 25)) with (/ 4194304) in M.
    eapply near_weaken in M; [|apply Rle_trans with (5 + / 1024); [apply Rplus_le_compat; [rewrite Rabs_pos_eq by (apply Rmult_le_pos; lra); lra|lra]|lra]|reflexivity|apply Rle_refl].
    unfold shader_margin. rewrite H. destruct M as (F & M). change (fR (fmul (fdiv (fZ 4) (fZ 126)) (fZ a))) with (B2R (fmul (fdiv (fZ 4) (fZ 126)) (fZ a))) in M. split; [exact F|]. split; [|intros ->; contradiction]. apply Rabs_le. apply Rabs_le_inv in M. apply Rabs_le_inv in D1. lra.
Qed.
(** ** Half floats *)
(** Loaded as 16-bit floats the bytes do not always give the whole numbers back *)
Definition misread : list Z := [16; 32; 48; 64; 80; 96; 112; 128; 160; 192; 224]%Z.
Lemma half_table : forallb (fun b => Bool.eqb (fbits_eqb (ffloor (fmul (fdy 255 (-4)) (in_half b))) (fZ (b / 16))) (negb (existsb (Z.eqb b) misread)) && is_finite (ffloor (fmul (fdy 255 (-4)) (in_half b))) &&
  negb (Bsign (ffloor (fmul (fdy 255 (-4)) (in_half b))))) bytes = true.
Proof. vm_compute. reflexivity. Qed.
Theorem C70_half_bytes : forall b, (0 <= b < 256)%Z ->
  (B2R (ffloor (fmul (fdy 255 (-4)) (in_half b))) = IZR (b / 16) <-> ~ In b misread).
Proof.
  intros b B. pose proof (proj1 (forallb_forall _ _) half_table b (in_bytes b B)) as H. cbn beta in H. apply andb_prop in H. destruct H as [H HS]. apply andb_prop in H. destruct H as [H HF]. apply Bool.eqb_prop in H. apply negb_true_iff in HS.
  assert (Q : (0 <= b / 16 < 16)%Z) by (split; [apply Z.div_pos; lia|apply Z.div_lt_upper_bound; lia]). pose proof (at_Z (b / 16) ltac:(lia)) as V.
  assert (I : existsb (Z.eqb b) misread = true <-> In b misread). { rewrite existsb_exists. split; [intros (x & X & E); apply Z.eqb_eq in E; subst; exact X|intros X; exists b; split; [exact X|apply Z.eqb_refl]]. }
  rewrite <- I. set (x := ffloor _) in *. split.
  - intros E C. rewrite C in H. cbn [negb] in H. assert (X : at_value x (IZR (b / 16))) by (split; [exact HF|split; [exact HS|exact E]]). rewrite (at_unique _ _ _ X V) in H. destruct (fZ (b / 16)) as [s|s| |s m e ?] eqn:Y; destruct V as (F & S & _); cbn in *; try discriminate; [rewrite Bool.eqb_reflx in H; discriminate|rewrite Bool.eqb_reflx, Pos.eqb_refl, Z.eqb_refl in H; discriminate].
  - intros C. apply not_true_is_false in C. rewrite C in H. apply fbits_eq in H. rewrite H. exact (proj2 (proj2 V)).
Qed.
(** A vertex at (1, 0), in steps of the packed positions, is drawn at (0, 4095.9...): the other end of the mesh *)
Theorem C70_half_refuted : exists ns p x y, in_range Float2In3Bytes_XY12 ns /\ pack_ints Float2In3Bytes_XY12 ns = Some p /\
  unpack_attribute Float2In3Bytes_XY12 [Params f0 f1; Params f0 f1] p = Some [f1; f0] /\
  shader_point (as_transform (Params f0 f1) (Params f0 f1)) (fed in_half p) = Some (x, y) /\ B2R x = 0 /\ 4095 < B2R y.
Proof.
  exists [1; 0]%Z, (PBytes [0; 16; 0])%Z. eexists. eexists. split; [|split; [vm_compute; reflexivity|split; [|split; [reflexivity|]]]].
  - eexists. eexists. exists [12; 12]%Z. split; [reflexivity|]. repeat constructor; vm_compute; discriminate || reflexivity.
  - change (Some [unpack_single (Params f0 f1) 1; unpack_single (Params f0 f1) 0] = Some [f1; f0]). rewrite (fbits_eq (unpack_single (Params f0 f1) 1) f1) by (vm_compute; reflexivity). rewrite (fbits_eq (unpack_single (Params f0 f1) 0) f0) by (vm_compute; reflexivity). reflexivity.
  - cbn [fst snd unpack_float2_ubyte3 transformed as_transform]. split.
    + match goal with |- B2R ?x = 0 => replace x with f0 by (symmetry; apply fbits_eq; vm_compute; reflexivity) end. reflexivity.
    + match goal with |- _ < B2R ?x => assert (E : flt (fZ 4095) x = true) by (vm_compute; reflexivity); assert (F : is_finite x = true) by (vm_compute; reflexivity); set (y := x) in * end.
      destruct (at_Z 4095 ltac:(lia)) as (F4 & _ & R4). apply flt_spec in E; [|apply finite_not_nan, F4|apply finite_not_nan, F]. rewrite !fX_finite in E by assumption. rewrite R4 in E. exact E.
Qed.
(** ** A case of each *)
(** packed coordinates (3, 4095) and a position in steps of a half from 10; a label of -5 *)
Example C70_applies : in_range Float2In3Bytes_XY12 [3; 4095]%Z /\ in_range Float2In1Float [3; 4095]%Z /\ within_limits kOpacityShift [f0] /\
  custom_params (Attr Float1In1Byte kOpacityShift 8 3 4 1) = Some [opacity_params] /\ whole (fZ (-5)) (-5) /\ clear_of_edges (label32 (in_half 123)) = (false, true).
Proof.
  assert (R : Forall2 fits [12; 12]%Z [3; 4095]%Z) by (repeat constructor; vm_compute; discriminate || reflexivity).
  split; [do 2 eexists; exists [12; 12]%Z; split; [reflexivity|exact R]|]. split; [do 2 eexists; exists [12; 12]%Z; split; [reflexivity|exact R]|].
  split; [split; [reflexivity|repeat constructor; cbn [f0 B2R]; lra]|]. split; [reflexivity|]. destruct (fZ_exact (-5)) as (E & F); [lia|]. split; [split; assumption|vm_compute; reflexivity].
Qed.
Print Assumptions C70_points.
Print Assumptions C70_attributes.
Print Assumptions C70_attribute.
Print Assumptions C70_edges.
Print Assumptions C70_margins.
Print Assumptions C70_half_bytes.
Print Assumptions C70_half_refuted.
