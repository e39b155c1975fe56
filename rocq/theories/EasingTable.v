(** Bezier easing in floats: it always finishes, starts at 0, and the named curves rise within [0, 1]. *)
From Coq Require Import ZArith Bool Reals Lra Lia List.
From Flocq Require Import Core IEEE754.BinarySingleNaN.
From Verif Require Import F32 F32Lemmas F32Round NumModel EasingModel EasingSteps EasingBezier EasingSpec EasingCurve.
Import ListNotations.
Open Scope R_scope.

Section Table.
Variable E : elem.
Local Notation N := (fnum E).

Lemma unit_of (x : f32) : is_finite x = true -> flt x f0 = false -> flt f1 x = false -> unit32 x.
Proof.
  intros F A B. pose proof (finite_not_nan _ F) as Nx.
  apply flt_false in A; [|exact Nx|reflexivity]. apply flt_false in B; [|apply finite_not_nan, f1_finite|exact Nx].
  rewrite (fX_finite f1), f1_R in B by apply f1_finite. rewrite (fX_finite x) in A, B by exact F. split; [exact F|]. split; [exact A|exact B].
Qed.
Lemma valid_bezier_unit (x1 y1 x2 y2 : f32) : valid_easing (N := N) (EBezier (N := N) x1 y1 x2 y2) = true ->
  unit32 x1 /\ unit32 x2 /\ is_finite y1 = true /\ is_finite y2 = true.
Proof.
  intros H. change (negb (negb (fisfinite x1 && fisfinite y1 && fisfinite x2 && fisfinite y2) || flt x1 f0 || flt f1 x1 || flt x2 f0 || flt f1 x2) = true) in H.
  apply negb_true_iff in H. repeat (apply orb_false_elim in H; let K := fresh in destruct H as [H K]).
  apply negb_false_iff in H. repeat (apply andb_prop in H; let K := fresh in destruct H as [H K]).
  repeat split; try assumption; apply unit_of; assumption.
Qed.
Lemma bezier_built (x1 y1 x2 y2 : f32) : valid_easing (N := N) (EBezier (N := N) x1 y1 x2 y2) = true ->
  exists l, make_impl (N := N) 78 (EBezier (N := N) x1 y1 x2 y2) = Some (ITable (N := N) (f0 :: l)) /\ length l = 13%nat.
Proof.
  intros H. destruct (valid_bezier_unit _ _ _ _ H) as (U1 & U2 & F1 & F2).
  destruct (front_zero E x1 y1 x2 y2 0 U1 U2 F1 F2) as (l & A & B). exists l. split; [|exact B].
  cbn [make_impl]. change (78 + 0)%nat with 78%nat in A. rewrite A. reflexivity.
Qed.
Lemma table_start (l : list f32) (x : f32) : fle x f0 = true -> get_y_table (N := N) (f0 :: l) x = Some f0.
Proof.
  intros H. unfold get_y_table. cbn [nnan nle N fnum]. destruct (fle_not_nan _ _ H) as [Nx _]. unfold fisnan.
  change (@n0 N) with f0. rewrite Nx, H. reflexivity.
Qed.

(** *** Rising tables *)
Fixpoint rising (l : list f32) : bool :=
  match l with
  | a :: ((b :: _) as r) => fle f0 a && fle a b && fle b f1 && fle (fadd a (fsub b a)) b && rising r
  | _ => true
  end.
Definition lerp32 (a b t : f32) : f32 := fadd a (fmul (fsub b a) t).
Lemma fle_R (a b : f32) : is_finite a = true -> is_finite b = true -> fle a b = true -> fR a <= fR b.
Proof. intros A B H. apply fle_spec in H; [|apply finite_not_nan, A|apply finite_not_nan, B]. rewrite !fX_finite in H by assumption. exact H. Qed.
Definition cell (a b : f32) : Prop := is_finite a = true /\ is_finite b = true /\ 0 <= fR a /\ fR a <= fR b /\ fR b <= 1 /\
  rnd (fR a + rnd (fR b - fR a)) <= fR b.
Lemma rising_cell a b r : rising (a :: b :: r) = true -> cell a b /\ rising (b :: r) = true.
Proof.
  intros H. change (fle f0 a && fle a b && fle b f1 && fle (fadd a (fsub b a)) b && rising (b :: r) = true) in H.
  repeat (apply andb_prop in H; let K := fresh "K" in destruct H as [H K]).
  destruct (fle_finite f0 b f1 eq_refl f1_finite) as (Fb & Hb).
  { destruct (fle_not_nan _ _ H) as [_ Na]. destruct (fle_not_nan _ _ K2) as [_ Nb].
    apply fle_spec; [reflexivity|exact Nb|]. apply fle_spec in H; [|reflexivity|exact Na]. apply fle_spec in K2; [|exact Na|exact Nb]. lra. }
  { exact K1. }
  rewrite f0_R, f1_R in Hb.
  destruct (fle_finite f0 a b eq_refl Fb H K2) as (Fa & Ha). rewrite f0_R in Ha.
  split; [|exact K]. pose proof safe_large as SL.
  destruct (fsub_small b a Fb Fa) as [D1 D2]; [apply Rabs_le; lra|].
  assert (R1 : 0 <= rnd (fR b - fR a) <= 1). { split; [apply rnd_pos; lra|]. change 1 with (bpow radix2 0). rewrite <- (rnd_bpow 0) by lia. apply rnd_mono. change (bpow radix2 0) with 1. lra. }
  destruct (fadd_small a (fsub b a) Fa D2) as [S1 S2]; [rewrite D1; apply Rabs_le; lra|].
  repeat split; try assumption; try lra. rewrite <- D1, <- S1. apply fle_R; assumption.
Qed.
Lemma cell_value a b t : cell a b -> is_finite t = true -> 0 <= fR t <= 1 ->
  is_finite (lerp32 a b t) = true /\ fR (lerp32 a b t) = rnd (fR a + rnd (rnd (fR b - fR a) * fR t)) /\ fR a <= fR (lerp32 a b t) <= fR b.
Proof.
  intros (Fa & Fb & H0 & H1 & H2 & H3) Ft Ht. pose proof safe_large as SL. unfold lerp32.
  destruct (fsub_small b a Fb Fa) as [D1 D2]; [apply Rabs_le; lra|].
  assert (R1 : 0 <= rnd (fR b - fR a) <= 1). { split; [apply rnd_pos; lra|]. change 1 with (bpow radix2 0). rewrite <- (rnd_bpow 0) by lia. apply rnd_mono. change (bpow radix2 0) with 1. lra. }
  assert (P : 0 <= rnd (fR b - fR a) * fR t <= rnd (fR b - fR a)) by nra.
  destruct (fmul_small (fsub b a) t D2 Ft) as [M1 M2]; [rewrite D1; apply Rabs_le; lra|]. rewrite D1 in M1.
  assert (Q : 0 <= rnd (rnd (fR b - fR a) * fR t) <= rnd (fR b - fR a)).
  { split; [apply rnd_pos; lra|]. rewrite <- D1 at 2. rewrite <- (rnd_fR (fsub b a)). apply rnd_mono. rewrite D1. lra. }
  destruct (fadd_small a (fmul (fsub b a) t) Fa M2) as [S1 S2]; [rewrite M1; apply Rabs_le; lra|]. rewrite M1 in S1.
  split; [exact S2|]. split; [exact S1|]. rewrite S1. split.
  - rewrite <- (rnd_fR a) at 1. apply rnd_mono. lra.
  - eapply Rle_trans; [|exact H3]. apply rnd_mono. lra.
Qed.
Lemma cell_mono a b s t : cell a b -> is_finite s = true -> is_finite t = true -> 0 <= fR s -> fR s <= fR t -> fR t <= 1 ->
  fR (lerp32 a b s) <= fR (lerp32 a b t).
Proof.
  intros C Fs Ft H0 H1 H2. destruct (cell_value a b s C Fs) as (_ & -> & _); [lra|]. destruct (cell_value a b t C Ft) as (_ & -> & _); [lra|].
  destruct C as (_ & _ & _ & H3 & _). apply rnd_mono, Rplus_le_compat_l, rnd_mono, Rmult_le_compat_l; [apply rnd_pos; lra|lra].
Qed.

Lemma rising_cells l i a b : rising l = true -> nth_error l i = Some a -> nth_error l (S i) = Some b -> cell a b.
Proof.
  revert i. induction l as [|c l IH]; intros i H A B; [destruct i; discriminate A|].
  destruct l as [|d l]; [destruct i as [|[|i]]; discriminate B|].
  apply rising_cell in H. destruct H as [H1 H2]. destruct i as [|i].
  - cbn in A, B. injection A as <-. injection B as <-. exact H1.
  - apply (IH i H2 A B).
Qed.
Lemma rising_le l i k a b : rising l = true -> nth_error l i = Some a -> nth_error l (i + k) = Some b -> fR a <= fR b.
Proof.
  intros H A. revert b. induction k as [|k IH]; intros b B; [rewrite Nat.add_0_r in B; assert (a = b) by congruence; subst; lra|].
  destruct (nth_error l (i + k)) as [c|] eqn:C.
  - rewrite Nat.add_succ_r in B. pose proof (rising_cells l (i + k) c b H C B) as (_ & _ & _ & Q & _). specialize (IH c eq_refl). lra.
  - exfalso. apply nth_error_None in C. assert (nth_error l (i + S k) = None) by (apply nth_error_None; lia). congruence.
Qed.

(** The value in the middle *)
Lemma table_mid (tab : list f32) (x : f32) : length tab = 14%nat -> fisnan x = false -> fle x f0 = false -> fle f1 x = false ->
  exists a b i t, nth_error tab i = Some a /\ nth_error tab (S i) = Some b /\ get_y_table (N := N) tab x = Some (lerp32 a b t) /\
    (0 < fR x < 1) /\ i = Z.to_nat (Zfloor (rnd (fR x * 13))) /\ (0 <= Zfloor (rnd (fR x * 13)) < 13)%Z /\
    is_finite t = true /\ fR t = rnd (rnd (fR x * 13) - IZR (Zfloor (rnd (fR x * 13)))) /\ 0 <= fR t <= 1.
Proof.
  intros L Nx E0 E1.
  destruct (x_cases x Nx) as [A|[A|(Fx & Hx & _)]].
  { exfalso. apply flt_spec in A; [|exact Nx|reflexivity]. apply fle_false in E0; [|exact Nx|reflexivity]. lra. }
  { congruence. }
  assert (X0 : 0 < fR x). { apply fle_false in E0; [|exact Nx|reflexivity]. rewrite (fX_finite x) in E0 by exact Fx. exact E0. }
  destruct (fZ_exact 13) as [R13 F13]; [cbn; lia|].
  assert (Hx' : 0 <= fR x <= 1 - u24) by (split; [lra|apply below_1; lra]).
  pose proof safe_large as SL.
  destruct (fmul_small x (fZ 13) Fx F13) as [M1 M2]; [rewrite R13, Rabs_pos_eq; lra|]. rewrite R13 in M1.
  destruct (count_x 13 (fR x)) as [_ C]; [rewrite <- R13; apply generic_format_B2R|rewrite bp31; lra|exact Hx'|].
  rewrite Rmult_comm in C. rewrite <- M1 in C.
  assert (P : 0 <= fR (fmul x (fZ 13))) by (rewrite M1; apply rnd_pos; lra).
  destruct (ftoZ_spec _ P) as [Z1 Z2].
  assert (ZF : ftoZ (fmul x (fZ 13)) = Zfloor (rnd (fR x * 13))). { symmetry. rewrite <- M1. apply Zfloor_imp. rewrite plus_IZR. split; assumption. }
  rewrite ZF in Z1, Z2. rewrite M1 in Z1, Z2, C, P. set (z := Zfloor (rnd (fR x * 13))) in *.
  assert (Zlo : (0 <= z)%Z). { assert (-1 < z)%Z; [|lia]. apply lt_IZR. lra. }
  assert (Zhi : (z < 13)%Z). { apply lt_IZR. lra. }
  destruct (nth_error tab (Z.to_nat z)) as [a|] eqn:N1; [|apply nth_error_None in N1; lia].
  destruct (nth_error tab (S (Z.to_nat z))) as [b|] eqn:N2; [|apply nth_error_None in N2; lia].
  assert (RZ : fR (fZ z) = IZR z /\ is_finite (fZ z) = true) by (apply fZ_exact; lia). destruct RZ as [RZ FZ].
  destruct (fsub_small (fmul x (fZ 13)) (fZ z) M2 FZ) as [T1 T2]; [rewrite M1, RZ; apply Rabs_le; lra|]. rewrite M1, RZ in T1.
  exists a, b, (Z.to_nat z), (fsub (fmul x (fZ 13)) (fZ z)).
  split; [exact N1|]. split; [exact N2|]. split.
  { unfold get_y_table. change (nnan N x) with (fisnan x). rewrite Nx. change (nle N x n0) with (fle x f0). rewrite E0. change (nle N n1 x) with (fle f1 x). rewrite E1.
    change (nmul N x (nZ 13)) with (fmul x (fZ 13)). change (ntrunc N (fmul x (fZ 13))) with (ftoZ (fmul x (fZ 13))). rewrite ZF, Nat.add_1_r.
    change (@nth_error (T N) tab) with (@nth_error f32 tab). rewrite N1, N2. destruct (Z.ltb_spec z 0); [lia|]. reflexivity. }
  split; [lra|]. split; [reflexivity|]. split; [lia|]. split; [exact T2|]. split; [exact T1|].
  rewrite T1. split; [apply rnd_pos; lra|]. change 1 with (bpow radix2 0). rewrite <- (rnd_bpow 0) by lia. apply rnd_mono. change (bpow radix2 0) with 1. lra.
Qed.

Lemma table_value (tab : list f32) (x y : f32) : length tab = 14%nat -> rising tab = true -> is_nan x = false -> get_y_table (N := N) tab x = Some y ->
  is_finite y = true /\ 0 <= fR y <= 1 /\
  ((fle x f0 = true /\ nth_error tab 0 = Some y) \/ (fle x f0 = false /\ fle f1 x = true /\ nth_error tab 13 = Some y) \/ (fle x f0 = false /\ fle f1 x = false)).
Proof.
  intros L H Nx G.
  assert (Ends : forall i (y : f32), (i < 14)%nat -> nth_error tab i = Some y -> is_finite y = true /\ 0 <= fR y <= 1).
  { intros i z Hi Q. destruct i as [|i].
    - destruct (nth_error tab 1) as [b|] eqn:B; [|apply nth_error_None in B; lia]. destruct (rising_cells tab 0 z b H Q B) as (A1 & _ & A2 & A3 & A4 & _). split; [exact A1|lra].
    - destruct (nth_error tab i) as [b|] eqn:B; [|apply nth_error_None in B; lia]. destruct (rising_cells tab i b z H B Q) as (_ & A1 & A2 & A3 & A4 & _). split; [exact A1|lra]. }
  destruct (fle x f0) eqn:E0.
  - unfold get_y_table in G. change (nnan N x) with (fisnan x) in G. unfold fisnan in G. rewrite Nx in G. change (nle N x n0) with (fle x f0) in G. rewrite E0 in G.
    assert (Q : nth_error tab 0 = Some y) by (destruct tab; [discriminate L|exact G]).
    destruct (Ends 0%nat y ltac:(lia) Q). auto.
  - destruct (fle f1 x) eqn:E1.
    + unfold get_y_table in G. change (nnan N x) with (fisnan x) in G. unfold fisnan in G. rewrite Nx in G. change (nle N x n0) with (fle x f0) in G. rewrite E0 in G.
      change (nle N n1 x) with (fle f1 x) in G. rewrite E1 in G.
      assert (Q : nth_error tab 13 = Some y).
      { clear - L G. do 14 (destruct tab as [|? tab]; [discriminate L|]). destruct tab; [|discriminate L]. cbn in *. exact G. }
      destruct (Ends 13%nat y ltac:(lia) Q) as [Q1 Q2]. split; [exact Q1|]. split; [exact Q2|]. right; left. auto.
    + destruct (table_mid tab x L Nx E0 E1) as (a & b & i & t & A & B & V & _ & _ & _ & Ft & _ & Ht).
      assert (y = lerp32 a b t) as -> by congruence.
      pose proof (rising_cells tab i a b H A B) as C. destruct (cell_value a b t C Ft Ht) as (F & _ & Q).
      destruct C as (_ & _ & C1 & C2 & C3 & _). split; [exact F|]. split; [lra|auto].
Qed.

Lemma table_mono (tab : list f32) (x x' y y' : f32) : length tab = 14%nat -> rising tab = true -> fle x x' = true ->
  get_y_table (N := N) tab x = Some y -> get_y_table (N := N) tab x' = Some y' -> fR y <= fR y'.
Proof.
  intros L H LE G G'. destruct (fle_not_nan _ _ LE) as [Nx Nx'].
  apply fle_spec in LE; [|exact Nx|exact Nx'].
  assert (F0 : forall (z : f32) i, nth_error tab 0 = Some y -> nth_error tab i = Some z -> fR y <= fR z).
  { intros z i A B. apply (rising_le tab 0 i y z H A B). }
  assert (F1 : forall (z : f32) i, (i <= 13)%nat -> nth_error tab 13 = Some y' -> nth_error tab i = Some z -> fR z <= fR y').
  { intros z i Hi A B. apply (rising_le tab i (13 - i) z y' H B). replace (i + (13 - i))%nat with 13%nat by lia. exact A. }
  assert (O0 : fle x f0 = false -> fle x' f0 = false).
  { intros Q. apply fle_false in Q; [|exact Nx|reflexivity]. apply fle_false; [exact Nx'|reflexivity|]. lra. }
  assert (O1 : fle f1 x = true -> fle f1 x' = true).
  { intros Q. apply fle_spec in Q; [|apply finite_not_nan, f1_finite|exact Nx]. apply fle_spec; [apply finite_not_nan, f1_finite|exact Nx'|lra]. }
  destruct (table_value tab x y L H Nx G) as (_ & _ & [(A0 & A)|[(A0 & A1 & A)|(A0 & A1)]]);
    destruct (table_value tab x' y' L H Nx' G') as (_ & _ & [(B0 & B)|[(B0 & B1 & B)|(B0 & B1)]]); try (rewrite O0 in B0; congruence); try (rewrite O1 in B1; congruence).
  - assert (y = y') by congruence. subst. lra.
  - apply (F0 y' 13%nat A B).
  - destruct (table_mid tab x' L Nx' B0 B1) as (a & b & i & t & P & Q & V & _ & _ & _ & Ft & _ & Ht).
    assert (y' = lerp32 a b t) as -> by congruence. pose proof (rising_cells tab i a b H P Q) as C. destruct (cell_value a b t C Ft Ht) as (_ & _ & Z).
    specialize (F0 a i A P). lra.
  - assert (y = y') by congruence. subst. lra.
  - destruct (table_mid tab x L Nx A0 A1) as (a & b & i & t & P & Q & V & _ & Ei & Zi & Ft & _ & Ht).
    assert (y = lerp32 a b t) as -> by congruence. pose proof (rising_cells tab i a b H P Q) as C. destruct (cell_value a b t C Ft Ht) as (_ & _ & Z).
    specialize (F1 b (S i) ltac:(lia) B Q). lra.
  - destruct (table_mid tab x L Nx A0 A1) as (a & b & i & t & P & Q & V & X1 & Ei & Zi & Ft & Vt & Ht).
    destruct (table_mid tab x' L Nx' B0 B1) as (a' & b' & i' & t' & P' & Q' & V' & X1' & Ei' & Zi' & Ft' & Vt' & Ht').
    assert (y = lerp32 a b t) as -> by congruence. assert (y' = lerp32 a' b' t') as -> by congruence.
    assert (XX : fR x <= fR x').
    { assert (Fx : is_finite x = true) by (destruct x; try reflexivity; try discriminate Nx; cbn in X1; lra).
      assert (Fx' : is_finite x' = true) by (destruct x'; try reflexivity; try discriminate Nx'; cbn in X1'; lra).
      rewrite !fX_finite in LE by assumption. exact LE. }
    assert (RX : rnd (fR x * 13) <= rnd (fR x' * 13)) by (apply rnd_mono; lra).
    pose proof (Zfloor_le _ _ RX) as ZL.
    pose proof (rising_cells tab i a b H P Q) as C. destruct (cell_value a b t C Ft Ht) as (_ & _ & Z).
    pose proof (rising_cells tab i' a' b' H P' Q') as C'. destruct (cell_value a' b' t' C' Ft' Ht') as (_ & _ & Z').
    destruct (Z.eq_dec (Zfloor (rnd (fR x * 13))) (Zfloor (rnd (fR x' * 13)))) as [EQ|NE].
    + assert (II : i = i') by congruence. rewrite <- II in P', Q'. assert (a' = a) by congruence. assert (b' = b) by congruence. subst a' b'.
      apply cell_mono; try assumption; try lra. rewrite Vt, Vt', EQ. apply rnd_mono. lra.
    + assert (fR b <= fR a'); [|lra]. apply (rising_le tab (S i) (i' - S i) b a' H Q).
      replace (S i + (i' - S i))%nat with i' by lia. exact P'.
Qed.

(** *** The named curves *)
Definition predef_table (p : Z) : option (list f32) :=
  match predef_bezier (N := N) p with Some (x1, y1, x2, y2) => bezier_table (N := N) x1 y1 x2 y2 78 | None => None end.
Definition check_predef (p : Z) : bool :=
  match predef_table p with
  | Some l => Nat.eqb (length l) 14 && rising l && match nth_error l 0 with Some a => feq a f0 | None => false end
     && match nth_error l 13 with Some a => fle (fdy 16777215 (-24)) a | None => false end
  | None => false
  end.
Lemma predef_checked : forallb check_predef [kEase; kEaseIn; kEaseOut; kEaseInOut] = true.
Proof. vm_compute. reflexivity. Qed.
End Table.
