(** The Bezier table in exact arithmetic. *)
From Coq Require Import ZArith Bool Reals Lra Lia List.
From Flocq Require Import Core.
From Verif Require Import NumModel EasingModel EasingBezier.
Import ListNotations.
Open Scope R_scope.

Local Notation N := xnum.
Lemma xdy m e : ndy N m e = Fin (IZR m * bpow radix2 e). Proof. reflexivity. Qed.
Lemma xZ z : @nZ N z = Fin (IZR z).
Proof. unfold nZ. rewrite xdy. change (bpow radix2 0) with 1. rewrite Rmult_1_r. reflexivity. Qed.
Lemma x0 : @n0 N = Fin 0. Proof. apply xZ. Qed.
Lemma x1e : @n1 N = Fin 1. Proof. apply xZ. Qed.
Lemma xdiv_fin a b : b <> 0 -> xdiv (Fin a) (Fin b) = Fin (a / b).
Proof. intros H. cbn. rewrite Req_bool_false by exact H. reflexivity. Qed.
Lemma xsub_fin a b : xsub (Fin a) (Fin b) = Fin (a - b). Proof. reflexivity. Qed.

(** The exact cubic with control points 0, a, b, 1 *)
Definition cubic (a b t : R) : R := 3 * (1 - t) * (1 - t) * t * a + 3 * (1 - t) * t * t * b + t * t * t.

Lemma cubic_x a b t : bezier_coord (N := N) (Fin t) (Fin a) (Fin b) = Fin (cubic a b t).
Proof.
  unfold bezier_coord, bezier_coeffs. rewrite x1e, xZ. cbn [nsub nmul nadd N xnum].
  rewrite xsub_fin. cbn [xmul xadd]. f_equal. 
Qed.
Lemma dx_x : table_dx (N := N) = Fin (/ 13).
Proof.
  unfold table_dx. rewrite x1e, xZ. cbn [ndiv nsub N xnum]. rewrite xsub_fin, xdiv_fin by lra. f_equal. lra.
Qed.
Lemma step_x : t_step (N := N) = Fin (/ 78).
Proof.
  unfold t_step. rewrite dx_x, xdy, xZ. cbn [ndiv nmul N xnum xmul]. rewrite xdiv_fin by lra. f_equal.
  change (bpow radix2 (-1)) with (/ 2). lra.
Qed.
Lemma target_x i : nmul N (nZ (Z.of_nat i)) (table_dx (N := N)) = Fin (INR i / 13).
Proof. rewrite dx_x, xZ. cbn [nmul N xnum xmul]. f_equal. rewrite INR_IZR_INZ. lra. Qed.

Lemma cubic_0 a b : cubic a b 0 = 0. Proof. unfold cubic. ring. Qed.
Lemma cubic_1 a b : cubic a b 1 = 1. Proof. unfold cubic. ring. Qed.
Lemma cubic_pos a b t : 0 <= a -> 0 <= b -> 0 < t <= 1 -> 0 < cubic a b t.
Proof.
  intros A B H. unfold cubic.
  assert (0 <= 3 * (1 - t) * (1 - t) * t * a) by (repeat apply Rmult_le_pos; lra).
  assert (0 <= 3 * (1 - t) * t * t * b) by (repeat apply Rmult_le_pos; lra).
  assert (0 < t * t * t) by (repeat apply Rmult_lt_0_compat; lra). lra.
Qed.
(** the slope of the x coordinate is at most 3 *)
Lemma cubic_slope a b s t : 0 <= a <= 1 -> 0 <= b <= 1 -> 0 <= s -> s <= t -> t <= 1 -> cubic a b t - cubic a b s <= 3 * (t - s).
Proof.
  intros A B S ST Tt.
  set (p := (1 - s) * (1 - s) + (1 - s) * (1 - t) + (1 - t) * (1 - t)).
  set (q := 3 * (s + t) - 2 * (s * s + s * t + t * t)).
  set (r := s * s + s * t + t * t).
  assert (E : cubic a b t - cubic a b s = (t - s) * (a * p + (b - a) * q + (1 - b) * r)) by (unfold cubic, p, q, r; ring).
  assert (E3 : p + q + r = 3) by (unfold p, q, r; ring).
  assert (P : 0 <= p) by (unfold p; nra). assert (R0 : 0 <= r) by (unfold r; nra).
  assert (Q : 0 <= q).
  { replace q with (s * (1 - s) * 2 + t * (1 - t) * 2 + s * (1 - t) + t * (1 - s)) by (unfold q; ring). 
    assert (0 <= s * (1 - s)) by (apply Rmult_le_pos; lra). assert (0 <= t * (1 - t)) by (apply Rmult_le_pos; lra).
    assert (0 <= s * (1 - t)) by (apply Rmult_le_pos; lra). assert (0 <= t * (1 - s)) by (apply Rmult_le_pos; lra). lra. }
  rewrite E, Rmult_comm. apply Rmult_le_compat_r; [lra|].
  assert (a * p <= p) by nra. assert ((b - a) * q <= q) by nra. assert ((1 - b) * r <= r) by nra. lra.
Qed.

Section Run.
Variables x1 y1 x2 y2 : R.
Hypothesis U1 : 0 <= x1 <= 1.
Hypothesis U2 : 0 <= x2 <= 1.
Local Notation tt k := (INR k / 78).
Local Notation X k := (cubic x1 x2 (tt k)).
Local Notation Y k := (cubic y1 y2 (tt k)).

(** entry [y] for abscissa [g] is taken from the chord of the curve over step k-1 .. k *)
Definition on_chord (g y : R) (k : nat) : Prop :=
  X (k - 1) <= g <= X k /\ X (k - 1) < X k /\ y = Y (k - 1) + (Y k - Y (k - 1)) * ((g - X (k - 1)) / (X k - X (k - 1))).

Lemma tt_S k : tt k + / 78 = tt (S k). Proof. rewrite S_INR. lra. Qed.
Lemma tt_78 : tt 78 = 1. Proof. replace (INR 78) with 78 by (rewrite INR_IZR_INZ; reflexivity). lra. Qed.
Lemma tt_le k : (k <= 78)%nat -> tt k <= 1.
Proof. intros H. rewrite <- tt_78. apply Rmult_le_compat_r; [lra|]. apply le_INR, H. Qed.

Lemma entry_x n : forall k g, (78 - k = n)%nat -> (k < 78)%nat -> g <= 1 -> (X k < g \/ (k = 0%nat /\ g = 0)) ->
  exists k' y, (k < k' <= 78)%nat /\ on_chord g y k' /\
    table_entry (N := N) (Fin x1) (Fin y1) (Fin x2) (Fin y2) n (Fin (tt k)) (Fin (X k)) (Fin (Y k)) (Fin g)
      = Some ((78 - k')%nat, Fin (tt k'), Fin (X k'), Fin (Y k'), Fin y).
Proof.
  induction n as [|n IH]; intros k g Hn Hk Hg HX; [lia|].
  rewrite table_entry_S. rewrite step_x. cbn [nadd N xnum xadd]. rewrite tt_S. rewrite !cubic_x. cbn [nlt N xnum xlt].
  destruct (Rlt_bool_spec (X (S k)) g) as [L|L].
  - assert (S k <> 78)%nat. { intros Q. rewrite Q, tt_78, cubic_1 in L. lra. }
    destruct (IH (S k) g) as (k' & y & H1 & H2 & H3); [lia|lia|exact Hg|left; exact L|].
    exists k', y. split; [lia|]. auto.
  - assert (XX : X k < X (S k)).
    { destruct HX as [HX|[-> ->]]; [lra|]. change (INR 0) with 0. unfold Rdiv at 1. rewrite Rmult_0_l, cubic_0.
      apply cubic_pos; [apply U1|apply U2|]. change (INR 1) with 1. lra. }
    exists (S k). eexists. split; [lia|]. split; [|].
    2:{ replace (78 - S k)%nat with n by lia. f_equal. f_equal.
        unfold lerp, inverse_lerp. rewrite x0. cbn [nsub neqb ndiv nadd nmul N xnum]. rewrite !xsub_fin. cbn [xeq].
        rewrite Req_bool_false by lra. rewrite xdiv_fin by lra. cbn [xmul xadd]. reflexivity. }
    unfold on_chord. replace (S k - 1)%nat with k by lia. repeat split; try lra.
    destruct HX as [HX|[-> ->]]; [lra|]. change (INR 0) with 0. unfold Rdiv at 1. rewrite Rmult_0_l, cubic_0. lra.
Qed.

Lemma from_x n : forall i k, (i + n = 14)%nat -> (k <= 78)%nat ->
  (X k < INR i / 13 \/ (k = 0%nat /\ i = 0%nat)) ->
  exists l, table_from (N := N) (Fin x1) (Fin y1) (Fin x2) (Fin y2) (78 - k) i n (Fin (tt k)) (Fin (X k)) (Fin (Y k)) = Some l /\
    length l = n /\
    forall j, (j < n)%nat -> exists y k', (1 <= k' <= 78)%nat /\ on_chord (INR (i + j) / 13) y k' /\ nth_error l j = Some (Fin y).
Proof.
  induction n as [|n IH]; intros i k Hi Hk HX.
  - exists nil. split; [reflexivity|]. split; [reflexivity|]. intros j Hj. lia.
  - rewrite table_from_S, target_x.
    assert (G : INR i / 13 <= 1).
    { apply Rle_trans with (INR 13 / 13); [apply Rmult_le_compat_r; [lra|apply le_INR; lia]|].
      replace (INR 13) with 13 by (rewrite INR_IZR_INZ; reflexivity). lra. }
    assert (k < 78)%nat.
    { destruct (Nat.eq_dec k 78) as [->|]; [|lia]. rewrite tt_78, cubic_1 in HX. destruct HX as [HX|[HX _]]; [lra|discriminate HX]. }
    destruct (entry_x (78 - k) k (INR i / 13) eq_refl H G) as (k' & y & H1 & H2 & H3).
    { destruct HX as [HX|[-> ->]]; [left; exact HX|right; split; [reflexivity|cbn; lra]]. }
    rewrite H3. destruct (IH (S i) k') as (l & L1 & L2 & L3); [lia|lia| |].
    { left. destruct H2 as ((A & B) & _). rewrite S_INR.
      pose proof (cubic_slope x1 x2 (tt (k' - 1)) (tt k') U1 U2) as SL.
      assert (D : tt k' - tt (k' - 1) = / 78). { rewrite <- (tt_S (k' - 1)) || idtac. replace k' with (S (k' - 1)) at 1 by lia. rewrite <- tt_S. lra. }
      assert (0 <= tt (k' - 1)) by (apply Rmult_le_pos; [apply pos_INR|lra]).
      pose proof (tt_le k' (proj2 H1)). specialize (SL H0 ltac:(lra) H2). lra. }
    rewrite L1. exists (Fin y :: l). split; [reflexivity|]. split; [cbn [length]; f_equal; exact L2|].
    intros [|j] Hj.
    + exists y, k'. rewrite Nat.add_0_r. split; [lia|]. split; [exact H2|reflexivity].
    + destruct (L3 j ltac:(lia)) as (y' & k'' & P & Q & S'). exists y', k''. replace (i + S j)%nat with (S i + j)%nat by lia. auto.
Qed.

Lemma table_x : exists l, bezier_table (N := N) (Fin x1) (Fin y1) (Fin x2) (Fin y2) 78 = Some l /\ length l = 14%nat /\
    forall j, (j < 14)%nat -> exists y k, (1 <= k <= 78)%nat /\ on_chord (INR j / 13) y k /\ nth_error l j = Some (Fin y).
Proof.
  pose proof (from_x 14 0 0 eq_refl ltac:(lia) (or_intror (conj eq_refl eq_refl))) as H.
  assert (T0 : tt 0 = 0) by (cbn; lra). rewrite T0, !cubic_0 in H.
  unfold bezier_table. rewrite x0. exact H.
Qed.

(** the ends *)
Lemma chord_first y k : (1 <= k <= 78)%nat -> on_chord 0 y k -> y = 0.
Proof.
  intros Hk ((A & _) & B & ->).
  destruct (Nat.eq_dec k 1) as [->|N1].
  - change (1 - 1)%nat with 0%nat. assert (T0 : tt 0 = 0) by (cbn; lra). rewrite T0, !cubic_0. unfold Rdiv. rewrite !Rminus_0_r. lra.
  - assert (0 < X (k - 1)); [|lra]. apply cubic_pos; [apply U1|apply U2|]. split.
    + apply Rmult_lt_0_compat; [apply lt_0_INR; lia|lra].
    + apply tt_le; lia.
Qed.
Lemma cubic_lt1 t : 0 <= t < 1 -> cubic x1 x2 t < 1.
Proof.
  intros H. assert (E : 1 - cubic x1 x2 t = (1 - t) * (1 - t) * (1 - t) + 3 * (1 - t) * (1 - t) * t * (1 - x1) + 3 * (1 - t) * t * t * (1 - x2)) by (unfold cubic; ring).
  assert (0 < (1 - t) * (1 - t) * (1 - t)) by (repeat apply Rmult_lt_0_compat; lra).
  assert (0 <= 3 * (1 - t) * (1 - t) * t * (1 - x1)) by (repeat apply Rmult_le_pos; lra).
  assert (0 <= 3 * (1 - t) * t * t * (1 - x2)) by (repeat apply Rmult_le_pos; lra). lra.
Qed.
Lemma chord_last y k : (1 <= k <= 78)%nat -> on_chord 1 y k -> y = 1.
Proof.
  intros Hk ((_ & A) & B & ->).
  destruct (Nat.eq_dec k 78) as [->|N1].
  - rewrite tt_78, !cubic_1 in *. unfold Rdiv. rewrite Rinv_r by lra. lra.
  - assert (X k < 1); [|lra]. apply cubic_lt1. split; [apply Rmult_le_pos; [apply pos_INR|lra]|].
    rewrite <- tt_78. apply Rmult_lt_compat_r; [lra|]. apply lt_INR. lia.
Qed.
End Run.
