(** Lemmas for the cubic Bezier table in binary32. *)
From Coq Require Import ZArith Bool Reals Lra Lia List.
From Flocq Require Import Core IEEE754.BinarySingleNaN.
From Verif Require Import F32 F32Lemmas F32Round NumModel EasingModel EasingSteps.
Import ListNotations.
Open Scope R_scope.

(** *** The numbers that occur, without the parameter of [fnum] *)
Definition dx32 : f32 := fdiv f1 (fsub (fZ 14) f1).
Definition ts32 : f32 := fdiv (fmul (fdy 1 (-1)) dx32) (fZ 3).
Fixpoint tseq (k : nat) : f32 := match k with O => f0 | S k' => fadd (tseq k') ts32 end.
Definition coeffs32 (t : f32) : f32 * f32 * f32 :=
  let m := fsub f1 t in (fmul (fmul (fmul (fZ 3) m) m) t, fmul (fmul (fmul (fZ 3) m) t) t, fmul (fmul t t) t).
Definition coord32 (t v1 v2 : f32) : f32 :=
  let '(c1, c2, c3) := coeffs32 t in fadd (fadd (fmul c1 v1) (fmul c2 v2)) c3.
Definition target32 (i : nat) : f32 := fmul (fZ (Z.of_nat i)) dx32.
(** a lower bound of the x coordinate over all control points *)
Definition low32 (t : f32) : f32 := let '(c1, c2, c3) := coeffs32 t in coord32 t f0 (if flt c2 f0 then f1 else f0).
Definition f4 : f32 := fZ 4.
Definition coeffs_ok (t : f32) : bool :=
  let '(c1, c2, c3) := coeffs32 t in
  (fle f0 c1 && fle c1 f4) && (fle (fopp f4) c2 && fle c2 f4) && (fle (fopp f4) c3 && fle c3 f4).

Lemma fle_finite (lo x hi : f32) : is_finite lo = true -> is_finite hi = true -> fle lo x = true -> fle x hi = true ->
  is_finite x = true /\ fR lo <= fR x <= fR hi.
Proof.
  intros Fl Fh L H. destruct (fle_not_nan _ _ L) as [Nl Nx]. destruct (fle_not_nan _ _ H) as [_ Nh].
  apply fle_spec in L; [|assumption|assumption]. apply fle_spec in H; [|assumption|assumption].
  rewrite (fX_finite lo) in L by assumption. rewrite (fX_finite hi) in H by assumption.
  pose proof (fR_bounds lo). pose proof (fR_bounds hi).
  assert (Fx : is_finite x = true). { destruct x as [|[]| |]; cbn [fX] in *; try reflexivity; try discriminate; lra. }
  rewrite fX_finite in L, H by assumption. auto.
Qed.

Lemma f4_R : fR f4 = 4 /\ is_finite f4 = true. Proof. apply fZ_exact. cbn. lia. Qed.

Definition unit32 (x : f32) : Prop := is_finite x = true /\ 0 <= fR x <= 1.
Lemma unit_f0 : unit32 f0. Proof. split; [reflexivity|cbn; lra]. Qed.
Lemma unit_f1 : unit32 f1. Proof. split; [apply f1_finite|rewrite f1_R; lra]. Qed.

Lemma rnd_between e r : (-149 <= e)%Z -> - bpow radix2 e <= r <= bpow radix2 e -> - bpow radix2 e <= rnd r <= bpow radix2 e.
Proof.
  intros He H. rewrite <- (rnd_bpow e He). rewrite <- rnd_opp. split; apply rnd_mono; lra.
Qed.
Lemma rnd_b8 r : -8 <= r <= 8 -> -8 <= rnd r <= 8.
Proof. intros H. pose proof (rnd_between 3 r ltac:(lia)) as K. change (bpow radix2 3) with 8 in K. lra. Qed.
Lemma rnd_b16 r : -16 <= r <= 16 -> -16 <= rnd r <= 16.
Proof. intros H. pose proof (rnd_between 4 r ltac:(lia)) as K. change (bpow radix2 4) with 16 in K. lra. Qed.

Lemma coord_value (c1 c2 c3 v1 v2 : f32) :
  is_finite c1 = true -> is_finite c2 = true -> is_finite c3 = true -> unit32 v1 -> unit32 v2 ->
  0 <= fR c1 <= 4 -> -4 <= fR c2 <= 4 -> -4 <= fR c3 <= 4 ->
  is_finite (fadd (fadd (fmul c1 v1) (fmul c2 v2)) c3) = true /\
  fR (fadd (fadd (fmul c1 v1) (fmul c2 v2)) c3) = rnd (rnd (rnd (fR c1 * fR v1) + rnd (fR c2 * fR v2)) + fR c3).
Proof.
  intros F1 F2 F3 [G1 V1] [G2 V2] B1 B2 B3. pose proof safe_large as SL.
  assert (M1 : -8 <= fR c1 * fR v1 <= 8) by nra. assert (M2 : -8 <= fR c2 * fR v2 <= 8) by nra.
  pose proof (rnd_b8 _ M1) as R1. pose proof (rnd_b8 _ M2) as R2.
  destruct (fmul_small c1 v1 F1 G1) as [P1 Q1]; [apply Rabs_le; lra|].
  destruct (fmul_small c2 v2 F2 G2) as [P2 Q2]; [apply Rabs_le; lra|].
  destruct (fadd_small _ _ Q1 Q2) as [P Q]; [rewrite P1, P2; apply Rabs_le; lra|]. rewrite P1, P2 in P.
  assert (R3 : -16 <= rnd (rnd (fR c1 * fR v1) + rnd (fR c2 * fR v2)) <= 16) by (apply rnd_b16; lra).
  destruct (fadd_small _ _ Q F3) as [P3 Q3]; [rewrite P; apply Rabs_le; lra|]. rewrite P in P3. auto.
Qed.

Lemma low_bound t x1 x2 : coeffs_ok t = true -> unit32 x1 -> unit32 x2 ->
  is_finite (coord32 t x1 x2) = true /\ is_finite (low32 t) = true /\ fR (low32 t) <= fR (coord32 t x1 x2).
Proof.
  unfold coeffs_ok, low32, coord32. destruct (coeffs32 t) as [[c1 c2] c3] eqn:EC. intros H U1 U2.
  destruct f4_R as [R4 F4].
  assert (F4' : is_finite (fopp f4) = true) by (unfold fopp; rewrite is_finite_Bopp; exact F4).
  assert (R4' : fR (fopp f4) = -4) by (unfold fopp; rewrite B2R_Bopp, R4; lra).
  apply andb_prop in H. destruct H as [H H3]. apply andb_prop in H. destruct H as [H1 H2].
  apply andb_prop in H1. apply andb_prop in H2. apply andb_prop in H3.
  destruct H1 as [A1 A2], H2 as [A3 A4], H3 as [A5 A6].
  destruct (fle_finite _ _ _ (eq_refl : is_finite f0 = true) F4 A1 A2) as [F1 B1].
  destruct (fle_finite _ _ _ F4' F4 A3 A4) as [F2 B2].
  destruct (fle_finite _ _ _ F4' F4 A5 A6) as [F3 B3].
  rewrite R4 in *. rewrite R4' in *. rewrite f0_R in *.
  set (w := if flt c2 f0 then f1 else f0).
  assert (Uw : unit32 w) by (unfold w; destruct (flt c2 f0); [apply unit_f1|apply unit_f0]).
  destruct (coord_value c1 c2 c3 x1 x2 F1 F2 F3 U1 U2 B1 B2 B3) as [P Q].
  destruct (coord_value c1 c2 c3 f0 w F1 F2 F3 unit_f0 Uw B1 B2 B3) as [P' Q'].
  repeat split; try assumption. rewrite Q, Q'.
  apply rnd_mono, Rplus_le_compat_r, rnd_mono, Rplus_le_compat.
  - apply rnd_mono. rewrite f0_R, Rmult_0_r. apply Rmult_le_pos; [lra|]. apply U1.
  - apply rnd_mono. unfold w. destruct U2 as [_ U2]. destruct (flt c2 f0) eqn:S.
    + apply flt_spec in S; [|apply finite_not_nan, F2|reflexivity]. rewrite fX_finite in S by assumption. change (fX f0) with 0 in S.
      rewrite f1_R. nra.
    + apply flt_false in S; [|apply finite_not_nan, F2|reflexivity]. rewrite (fX_finite c2) in S by assumption. change (fX f0) with 0 in S.
      rewrite f0_R. nra.
Qed.

(** *** The step by which each table entry is certainly found *)
Definition deadlines : list nat := [1; 34; 42; 48; 53; 57; 61; 64; 67; 70; 72; 74; 76; 78]%nat.
(** walks through the sequence of t values once *)
Definition stop_ok (i : nat) (t : f32) : bool := coeffs_ok t && fle (target32 i) (low32 t).
Fixpoint check_from (fuel k i : nat) (t : f32) (ds : list nat) : bool :=
  match ds with
  | [] => true
  | d :: ds' =>
      match fuel with
      | O => false
      | S f => if Nat.eqb k d then stop_ok i t && check_from f (S k) (S i) (fadd t ts32) ds'
               else check_from f (S k) i (fadd t ts32) ds
      end
  end.
Lemma check_all : check_from 79 0 0 f0 deadlines = true.
Proof. vm_compute. reflexivity. Qed.

Lemma check_from_spec fuel k i ds : check_from fuel k i (tseq k) ds = true ->
  forall j d, nth_error ds j = Some d -> stop_ok (i + j) (tseq d) = true.
Proof.
  revert k i ds. induction fuel as [|f IH]; intros k i ds H j d Hj.
  - destruct ds; [destruct j; discriminate Hj|discriminate H].
  - destruct ds as [|d0 ds]; [destruct j; discriminate Hj|]. cbn [check_from] in H.
    change (fadd (tseq k) ts32) with (tseq (S k)) in H.
    destruct (Nat.eqb_spec k d0) as [->|Nk].
    + apply andb_prop in H. destruct H as [H1 H2]. destruct j as [|j].
      * cbn in Hj. injection Hj as <-. rewrite Nat.add_0_r. exact H1.
      * cbn in Hj. replace (i + S j)%nat with (S i + j)%nat by lia. apply (IH _ _ _ H2 _ _ Hj).
    + apply (IH _ _ _ H _ _ Hj).
Qed.
Lemma deadline_ok i d : nth_error deadlines i = Some d -> stop_ok i (tseq d) = true.
Proof. intros H. exact (check_from_spec 79 0 0 deadlines check_all i d H). Qed.

Section Run.
Variable E : elem.
Local Notation N := (fnum E).
Variables x1 y1 x2 y2 : f32.
Hypothesis U1 : unit32 x1.
Hypothesis U2 : unit32 x2.

Lemma stops i d : nth_error deadlines i = Some d -> flt (coord32 (tseq d) x1 x2) (target32 i) = false.
Proof.
  intros H. apply deadline_ok in H. unfold stop_ok in H. apply andb_prop in H. destruct H as [H1 H2].
  destruct (low_bound _ _ _ H1 U1 U2) as (F & Fl & L).
  destruct (flt _ _) eqn:C; [exfalso|reflexivity].
  destruct (fle_not_nan _ _ H2) as [Nt _].
  apply flt_spec in C; [|apply finite_not_nan, F|exact Nt]. apply fle_spec in H2; [|exact Nt|apply finite_not_nan, Fl].
  rewrite fX_finite in C by exact F. rewrite (fX_finite (low32 _)) in H2 by exact Fl. lra.
Qed.

Lemma entry_run i d : nth_error deadlines i = Some d ->
  forall k m vx vy, (k < d)%nat ->
  exists k' vx' vy' y, (k < k' <= d)%nat /\
    table_entry (N := N) x1 y1 x2 y2 (d - k + m) (tseq k) vx vy (target32 i) = Some ((d - k' + m)%nat, tseq k', vx', vy', y).
Proof.
  intros Hd. intros k m vx vy Hk. remember (d - k)%nat as n eqn:En. revert k vx vy Hk En.
  induction n as [|n IH]; intros k vx vy Hk En; [lia|].
  cbn [Nat.add table_entry].
  change (nadd N (tseq k) (t_step (N := N))) with (tseq (S k)).
  change (bezier_coord (N := N) (tseq (S k)) x1 x2) with (coord32 (tseq (S k)) x1 x2).
  cbn [nlt N fnum].
  destruct (flt (coord32 (tseq (S k)) x1 x2) (target32 i)) eqn:C.
  - assert (S k <> d) by (intros Q; subst d; rewrite (stops i _ Hd) in C; discriminate).
    destruct (IH (S k) (coord32 (tseq (S k)) x1 x2) (bezier_coord (N := N) (tseq (S k)) y1 y2)) as (k' & vx' & vy' & y & Hk' & HR); [lia|lia|].
    exists k', vx', vy', y. split; [lia|]. exact HR.
  - exists (S k), (coord32 (tseq (S k)) x1 x2), (bezier_coord (N := N) (tseq (S k)) y1 y2).
    eexists. split; [lia|]. replace n with (d - S k)%nat by lia. reflexivity.
Qed.

Lemma from_run n : forall i k m vx vy, (i + n = 14)%nat ->
  (k <= match i with O => 0 | S j => nth j deadlines 0 end)%nat ->
  exists l, table_from (N := N) x1 y1 x2 y2 (78 - k + m) i n (tseq k) vx vy = Some l /\ length l = n.
Proof.
  induction n as [|n IH]; intros i k m vx vy Hi Hk.
  - exists nil. split; reflexivity.
  - cbn [table_from].
    change (nmul N (nZ (Z.of_nat i)) (table_dx (N := N))) with (target32 i).
    assert (exists d, nth_error deadlines i = Some d /\ (k < d <= 78)%nat /\ d = nth i deadlines 0%nat) as (d & Hd & Kd & Ed).
    { do 14 (destruct i as [|i]; [cbn in Hk |- *; eexists; split; [reflexivity|split; [lia|reflexivity]]|]). lia. }
    destruct (entry_run i d Hd k (78 - d + m) vx vy ltac:(lia)) as (k' & vx' & vy' & y & Hk' & HR).
    replace (78 - k + m)%nat with (d - k + (78 - d + m))%nat by lia. rewrite HR.
    replace (d - k' + (78 - d + m))%nat with (78 - k' + m)%nat by lia.
    destruct (IH (S i) k' m vx' vy' ltac:(lia)) as (l & Hl & Ll); [cbn [Nat.add]; lia|].
    rewrite Hl. exists (y :: l). cbn. auto.
Qed.

Lemma table_run m : exists l, bezier_table (N := N) x1 y1 x2 y2 (78 + m) = Some l /\ length l = 14%nat.
Proof. apply (from_run 14 0 0 m f0 f0); [reflexivity|lia]. Qed.
End Run.

(** *** Reading the table *)
Lemma ftoZ_spec (x : f32) : 0 <= fR x -> IZR (ftoZ x) <= fR x < IZR (ftoZ x) + 1.
Proof.
  destruct x as [s|s| |[] m e B]; intros H; cbn [ftoZ]; try (cbn in *; lra).
  - exfalso. assert (fR (B754_finite true m e B) < 0); [|lra]. apply F2R_lt_0. reflexivity.
  - unfold B2R, cond_Zopp. unfold F2R; cbn [Fnum Fexp]. destruct e as [|p|p].
    + change (bpow radix2 0) with 1. lra.
    + rewrite mult_IZR. change (2 ^ Z.pos p)%Z with (radix2 ^ Z.pos p)%Z. rewrite IZR_Zpower by lia. lra.
    + change (Z.neg p) with (- Z.pos p)%Z. rewrite bpow_opp, <- IZR_Zpower by lia. change (radix2 ^ Z.pos p)%Z with (2 ^ Z.pos p)%Z.
      assert (0 < 2 ^ Z.pos p)%Z by (apply Z.pow_pos_nonneg; lia).
      pose proof (Z.div_mod (Z.pos m) (2 ^ Z.pos p) ltac:(lia)) as D. pose proof (Z.mod_pos_bound (Z.pos m) (2 ^ Z.pos p) ltac:(lia)) as M.
      set (q := (Z.pos m / 2 ^ Z.pos p)%Z) in *. set (d := (2 ^ Z.pos p)%Z) in *. set (r := (Z.pos m mod d)%Z) in *.
      assert (0 < IZR d) by (apply IZR_lt; lia).
      assert (Dm : IZR (Z.pos m) = IZR d * IZR q + IZR r) by (rewrite D, plus_IZR, mult_IZR; reflexivity).
      assert (0 <= IZR r < IZR d) by (split; [apply IZR_le|apply IZR_lt]; lia).
      rewrite Dm. split.
      * apply Rmult_le_reg_r with (IZR d); [assumption|]. rewrite Rmult_assoc, Rinv_l by lra. lra.
      * apply Rmult_lt_reg_r with (IZR d); [assumption|]. rewrite Rmult_assoc, Rinv_l by lra. lra.
Qed.

Section Read.
Variable E : elem.
Local Notation N := (fnum E).
Lemma table_read (tab : list f32) (x : f32) : length tab = 14%nat ->
  exists y, get_y_table (N := N) tab x = Some y.
Proof.
  intros L. unfold get_y_table. cbn [nnan nle nmul nsub ntrunc N fnum]. change (@n0 N) with f0. change (@n1 N) with f1.
  change (@nZ N 13) with (fZ 13).
  destruct (fisnan x) eqn:Nx; [eauto|].
  destruct (fle x f0) eqn:E0. { destruct tab; [discriminate L|]. cbn. eauto. }
  destruct (fle f1 x) eqn:E1.
  { destruct (@rev f32 tab) as [|f l] eqn:R; [|exists f; change (@rev (T N) tab) with (@rev f32 tab); rewrite R; reflexivity]. apply (f_equal (@length _)) in R. rewrite rev_length, L in R. discriminate R. }
  destruct (x_cases x Nx) as [A|[A|(Fx & Hx & _)]].
  { exfalso. apply flt_spec in A; [|exact Nx|reflexivity]. apply fle_false in E0; [|exact Nx|reflexivity]. lra. }
  { congruence. }
  destruct (fZ_exact 13) as [R13 F13]; [cbn; lia|].
  assert (Hx' : 0 <= fR x <= 1 - u24) by (split; [lra|apply below_1; lra]).
  pose proof safe_large as SL.
  destruct (fmul_small x (fZ 13) Fx F13) as [M1 M2]; [rewrite R13, Rabs_pos_eq; lra|]. rewrite R13 in M1.
  destruct (count_x 13 (fR x)) as [_ C]; [rewrite <- R13; apply generic_format_B2R|rewrite bp31; lra|exact Hx'|].
  rewrite Rmult_comm in C. rewrite <- M1 in C.
  assert (P : 0 <= fR (fmul x (fZ 13))) by (rewrite M1; apply rnd_pos; lra).
  destruct (ftoZ_spec _ P) as [Z1 Z2]. set (z := ftoZ (fmul x (fZ 13))) in *.
  assert (Zlo : (0 <= z)%Z). { assert (-1 < z)%Z; [|lia]. apply lt_IZR. lra. }
  assert (Zhi : (z < 13)%Z). { apply lt_IZR. lra. }
  destruct (nth_error tab (Z.to_nat z)) eqn:N1; [|apply nth_error_None in N1; lia].
  destruct (nth_error tab (Z.to_nat z + 1)) eqn:N2; [|apply nth_error_None in N2; lia].
  change (@nth_error (T N) tab) with (@nth_error f32 tab). rewrite N1, N2. destruct (Z.ltb_spec z 0); [lia|]. eauto.
Qed.
End Read.

(** *** The first table entry is zero *)
Lemma table_from_S {N : num} (x1 y1 x2 y2 : T N) fuel i n t vx vy : table_from x1 y1 x2 y2 fuel i (S n) t vx vy =
  match table_entry x1 y1 x2 y2 fuel t vx vy (nmul N (nZ (Z.of_nat i)) table_dx) with
  | None => None
  | Some (fuel', t', vx', vy', y) =>
      match table_from x1 y1 x2 y2 fuel' (S i) n t' vx' vy' with None => None | Some l => Some (y :: l) end
  end.
Proof. reflexivity. Qed.
Lemma table_entry_S {N : num} (x1 y1 x2 y2 : T N) fuel t vx vy g : table_entry x1 y1 x2 y2 (S fuel) t vx vy g =
  if nlt N (bezier_coord (nadd N t t_step) x1 x2) g
  then table_entry x1 y1 x2 y2 fuel (nadd N t t_step) (bezier_coord (nadd N t t_step) x1 x2) (bezier_coord (nadd N t t_step) y1 y2) g
  else Some (fuel, nadd N t t_step, bezier_coord (nadd N t t_step) x1 x2, bezier_coord (nadd N t t_step) y1 y2,
     lerp vy (bezier_coord (nadd N t t_step) y1 y2) (inverse_lerp vx (bezier_coord (nadd N t t_step) x1 x2) g)).
Proof. reflexivity. Qed.

Lemma flt_pos_R (x : f32) : flt f0 x = true -> is_finite x = true -> 0 < fR x.
Proof.
  intros C F. apply flt_spec in C; [|reflexivity|apply finite_not_nan, F]. rewrite (fX_finite x) in C by exact F. exact C.
Qed.

Section Front.
Variable E : elem.
Local Notation N := (fnum E).
Lemma fmul_f0 (v : f32) : is_finite v = true -> exists s, fmul v f0 = B754_zero s.
Proof. destruct v; try discriminate; intros _; cbn; eauto. Qed.

Lemma lerp_zero (vx vy : f32) : is_finite vx = true -> 0 < fR vx -> is_finite vy = true ->
  lerp (N := N) n0 vy (inverse_lerp (N := N) n0 vx f0) = f0.
Proof.
  intros FX PX FY. unfold lerp, inverse_lerp. change (@n0 N) with f0. cbn [neqb nsub nadd nmul ndiv N fnum].
  assert (SX : fsub vx f0 = vx). { destruct vx as [s| | |]; try discriminate; [cbn in PX; lra|reflexivity]. }
  rewrite SX.
  assert (Q : feq vx f0 = false).
  { destruct (feq vx f0) eqn:Q; [|reflexivity]. apply feq_spec in Q; [|apply finite_not_nan, FX|reflexivity].
    rewrite fX_finite in Q by exact FX. change (fX f0) with 0 in Q. lra. }
  rewrite Q.
  assert (D : fdiv (fsub f0 f0) vx = f0).
  { destruct vx as [s|s| |[] mm ee BB]; try discriminate; try reflexivity.
    exfalso. assert (fR (B754_finite true mm ee BB) < 0) by (apply F2R_lt_0; reflexivity). lra. }
  rewrite D.
  assert (SY : is_finite (fsub vy f0) = true) by (destruct vy as [[]| | |[]]; try discriminate; reflexivity).
  destruct (fmul_f0 _ SY) as [s ->]. destruct s; reflexivity.
Qed.

Definition small_coeffs (t : f32) : bool :=
  let '(c1, c2, c3) := coeffs32 t in
  (fle f0 c1 && fle c1 (fdy 1 (-2))) && (fle f0 c2 && fle c2 (fdy 1 (-2))) && (fle f0 c3 && fle c3 (fdy 1 (-2))).
Lemma small_first : small_coeffs (tseq 1) = true. Proof. vm_compute. reflexivity. Qed.
Lemma quarter_R : fR (fdy 1 (-2)) = / 4 /\ is_finite (fdy 1 (-2)) = true.
Proof.
  assert (E0 : F2R (Float radix2 1 (-2)) = / 4) by (unfold F2R; cbn; lra). rewrite <- E0. apply fdy_exact.
  - apply generic_format_FLT. eexists; [reflexivity|cbn; lia|cbn; lia].
  - rewrite E0, Rabs_pos_eq by lra. apply Rlt_trans with (bpow radix2 0); [cbn; lra|apply bpow_lt; lia].
Qed.
Lemma rnd_half_big r : Rabs r <= bpow radix2 127 -> Rabs (rnd r) <= bpow radix2 127.
Proof.
  intros H. apply Rabs_le_inv in H. apply Rabs_le. apply rnd_between; [lia|lra].
Qed.
Lemma half_big : bpow radix2 127 + bpow radix2 127 = big /\ 0 < bpow radix2 127.
Proof. split; [|apply bpow_gt_0]. change 128%Z with (127 + 1)%Z. rewrite bpow_plus. change (bpow radix2 1) with 2. lra. Qed.

Lemma coord_finite t v1 v2 : small_coeffs t = true -> is_finite v1 = true -> is_finite v2 = true ->
  is_finite (coord32 t v1 v2) = true.
Proof.
  unfold small_coeffs, coord32. destruct (coeffs32 t) as [[c1 c2] c3]. intros H G1 G2.
  destruct quarter_R as [RQ FQ].
  apply andb_prop in H. destruct H as [H H3]. apply andb_prop in H. destruct H as [H1 H2].
  apply andb_prop in H1. apply andb_prop in H2. apply andb_prop in H3.
  destruct H1 as [A1 A2], H2 as [A3 A4], H3 as [A5 A6].
  destruct (fle_finite _ _ _ (eq_refl : is_finite f0 = true) FQ A1 A2) as [F1 B1].
  destruct (fle_finite _ _ _ (eq_refl : is_finite f0 = true) FQ A3 A4) as [F2 B2].
  destruct (fle_finite _ _ _ (eq_refl : is_finite f0 = true) FQ A5 A6) as [F3 B3].
  rewrite RQ in *. rewrite f0_R in *.
  assert (Q126 : forall r, Rabs r <= big / 4 -> Rabs (rnd r) <= big / 4).
  { intros r. replace (big / 4) with (bpow radix2 126).
    2:{ change 128%Z with (126 + 2)%Z. rewrite bpow_plus. change (bpow radix2 2) with 4. lra. }
    intros K. apply Rabs_le_inv in K. apply Rabs_le. apply rnd_between; [lia|lra]. }
  assert (Q127 : forall r, Rabs r <= big / 2 -> Rabs (rnd r) <= big / 2).
  { intros r. replace (big / 2) with (bpow radix2 127).
    2:{ change 128%Z with (127 + 1)%Z. rewrite bpow_plus. change (bpow radix2 1) with 2. lra. }
    apply rnd_half_big. }
  pose proof big_pos as BP.
  assert (Bv : forall c v : f32, 0 <= fR c <= / 4 -> Rabs (fR c * fR v) <= big / 4).
  { intros c v Hc. rewrite Rabs_mult. pose proof (fR_bound v) as Hv. rewrite (Rabs_pos_eq (fR c)) by lra.
    pose proof (Rabs_pos (fR v)). nra. }
  pose proof (Q126 _ (Bv c1 v1 B1)) as M1. pose proof (Q126 _ (Bv c2 v2 B2)) as M2.
  assert (P1 : fR (fmul c1 v1) = rnd (fR c1 * fR v1) /\ is_finite (fmul c1 v1) = true).
  { destruct (fmul_finite c1 v1 F1 G1) as [(_ & A & B)|[(A & _)|(A & _)]]; [auto| |]; apply Rabs_le_inv in M1; lra. }
  assert (P2 : fR (fmul c2 v2) = rnd (fR c2 * fR v2) /\ is_finite (fmul c2 v2) = true).
  { destruct (fmul_finite c2 v2 F2 G2) as [(_ & A & B)|[(A & _)|(A & _)]]; [auto| |]; apply Rabs_le_inv in M2; lra. }
  destruct P1 as [P1 P1f], P2 as [P2 P2f].
  assert (S : Rabs (fR (fmul c1 v1) + fR (fmul c2 v2)) <= big / 2).
  { rewrite P1, P2. eapply Rle_trans; [apply Rabs_triang|]. lra. }
  pose proof (Q127 _ S) as M3.
  assert (P3 : fR (fadd (fmul c1 v1) (fmul c2 v2)) = rnd (fR (fmul c1 v1) + fR (fmul c2 v2)) /\ is_finite (fadd (fmul c1 v1) (fmul c2 v2)) = true).
  { destruct (fadd_finite _ _ P1f P2f) as [(_ & A & B)|[(A & _)|(A & _)]]; [auto| |]; apply Rabs_le_inv in M3; lra. }
  destruct P3 as [P3 P3f].
  destruct (fadd_finite _ _ P3f F3) as [(_ & A & B)|[(A & _)|(A & _)]]; [exact B| |]; exfalso; rewrite P3 in A.
  - (* at most big/2 + 1/4 *)
    assert (K : rnd (rnd (fR (fmul c1 v1) + fR (fmul c2 v2)) + fR c3) <= big * 3 / 4).
    { replace (big * 3 / 4) with (rnd (big * 3 / 4)).
      - apply rnd_mono. apply Rabs_le_inv in M3. assert (1 <= big) by (change 1 with (bpow radix2 0); apply bpow_le; lia). lra.
      - apply round_generic; auto with typeclass_instances. replace (big * 3 / 4) with (F2R (Float radix2 3 126)).
        + apply generic_format_FLT. eexists; [reflexivity|cbn; lia|cbn; lia].
        + unfold F2R; cbn [Fnum Fexp]. change 128%Z with (126 + 2)%Z. rewrite (bpow_plus radix2 126 2). change (bpow radix2 2) with 4. lra. }
    lra.
  - assert (K : - (big / 2) <= rnd (rnd (fR (fmul c1 v1) + fR (fmul c2 v2)) + fR c3)).
    { replace (big / 2) with (bpow radix2 127).
      2:{ change 128%Z with (127 + 1)%Z. rewrite bpow_plus. change (bpow radix2 1) with 2. lra. }
      rewrite <- (rnd_bpow 127), <- rnd_opp by lia. apply rnd_mono.
      replace (bpow radix2 127) with (big / 2).
      2:{ change 128%Z with (127 + 1)%Z. rewrite bpow_plus. change (bpow radix2 1) with 2. lra. }
      apply Rabs_le_inv in M3. lra. }
    lra.
Qed.

Lemma front_zero (x1 y1 x2 y2 : f32) m : unit32 x1 -> unit32 x2 -> is_finite y1 = true -> is_finite y2 = true ->
  exists l, bezier_table (N := N) x1 y1 x2 y2 (78 + m) = Some (f0 :: l) /\ length l = 13%nat.
Proof.
  intros U1 U2 G1 G2. destruct (table_run E x1 y1 x2 y2 U1 U2 m) as (l & Hl & Ll).
  assert (S1 : flt (coord32 (tseq 1) x1 x2) (target32 0) = false) by (apply (stops x1 x2 U1 U2 0 1); reflexivity).
  assert (U : bezier_table (N := N) x1 y1 x2 y2 (78 + m) =
     match table_from (N := N) x1 y1 x2 y2 (77 + m) 1 13 (tseq 1) (coord32 (tseq 1) x1 x2) (coord32 (tseq 1) y1 y2) with
     | None => None
     | Some l => Some (lerp (N := N) n0 (coord32 (tseq 1) y1 y2) (inverse_lerp (N := N) n0 (coord32 (tseq 1) x1 x2) (target32 0)) :: l)
     end).
  { unfold bezier_table. rewrite table_from_S. change (78 + m)%nat with (S (77 + m)). rewrite table_entry_S.
    change (nmul N (nZ (Z.of_nat 0)) (table_dx (N := N))) with (target32 0).
    change (nadd N n0 (t_step (N := N))) with (tseq 1).
    change (bezier_coord (N := N) (tseq 1) x1 x2) with (coord32 (tseq 1) x1 x2).
    change (bezier_coord (N := N) (tseq 1) y1 y2) with (coord32 (tseq 1) y1 y2).
    change (nlt N (coord32 (tseq 1) x1 x2) (target32 0)) with (flt (coord32 (tseq 1) x1 x2) (target32 0)).
    rewrite S1. reflexivity. }
  rewrite U in Hl.
  pose proof (coord_finite (tseq 1) y1 y2 small_first G1 G2) as FY.
  assert (Y : lerp (N := N) n0 (coord32 (tseq 1) y1 y2) (inverse_lerp (N := N) n0 (coord32 (tseq 1) x1 x2) (target32 0)) = f0).
  { assert (T0 : target32 0 = f0) by (apply fbits_eqb_eq; vm_compute; reflexivity). rewrite T0.
    assert (P0 : 0 < fR (low32 (tseq 1)) /\ coeffs_ok (tseq 1) = true).
    { split; [|vm_compute; reflexivity].
      assert (C : flt f0 (low32 (tseq 1)) = true) by (vm_compute; reflexivity).
      destruct (low_bound (tseq 1) f0 f0) as (_ & Fl & _); [vm_compute; reflexivity|apply unit_f0|apply unit_f0|].
      exact (flt_pos_R _ C Fl). }
    destruct P0 as [P0 CO]. destruct (low_bound (tseq 1) x1 x2 CO U1 U2) as (FX & _ & LX).
    apply lerp_zero; [exact FX|lra|exact FY]. }
  rewrite Y in Hl, U.
  destruct (table_from (N := N) x1 y1 x2 y2 (77 + m) 1 13 (tseq 1) _ _) as [l'|]; [|discriminate Hl].
  injection Hl as <-. exists l'. cbn in Ll. split; [exact U|lia].
Qed.
End Front.
