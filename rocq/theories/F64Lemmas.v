(** Facts about single float operations in any binary format, and about [float]/[double] conversions. *)
From Coq Require Import ZArith Bool Reals Lra Lia.
From Flocq Require Import Core IEEE754.BinarySingleNaN.
From Verif Require Import F32 F32Lemmas F64.
Local Open Scope R_scope.

Section Format.
Variables prec emax : Z.
Context (P0 : Prec_gt_0 prec) (P1 : Prec_lt_emax prec emax).
Notation fl := (binary_float prec emax).
Notation fe := (SpecFloat.fexp prec emax).
Notation ro := (round radix2 fe ZnearestE).
Lemma overflow_inf (z : fl) s : B2SF z = binary_overflow prec emax mode_NE s -> z = B754_infinity s.
Proof. destruct z; cbn; intros H; try discriminate. injection H as ->. reflexivity. Qed.
Lemma mult_ok (x y : fl) : is_nan x = false -> is_finite y = true -> B2R y <> 0 ->
  is_nan (Bmult mode_NE x y) = false /\ Bsign (Bmult mode_NE x y) = xorb (Bsign x) (Bsign y).
Proof.
  intros Nx Fy Y. destruct (is_finite x) eqn:Fx.
  - pose proof (Bmult_correct prec emax P0 P1 mode_NE x y) as H. destruct (Rlt_bool _ _).
    + destruct H as (_ & F & S). rewrite Fx, Fy in F. assert (K : is_nan (Bmult mode_NE x y) = false) by (destruct (Bmult mode_NE x y); try reflexivity; discriminate). auto.
    + rewrite (overflow_inf _ _ H). auto.
  - destruct x as [| s | |]; try discriminate. destruct y as [| | |t m e B]; try discriminate; [elim Y; reflexivity|]. split; reflexivity.
Qed.
Lemma mult_ok_l (x y : fl) : is_finite x = true -> B2R x <> 0 -> is_nan y = false ->
  is_nan (Bmult mode_NE x y) = false /\ Bsign (Bmult mode_NE x y) = xorb (Bsign x) (Bsign y).
Proof.
  intros Fx X Ny. destruct (is_finite y) eqn:Fy.
  - pose proof (Bmult_correct prec emax P0 P1 mode_NE x y) as H. destruct (Rlt_bool _ _).
    + destruct H as (_ & F & S). rewrite Fx, Fy in F. assert (K : is_nan (Bmult mode_NE x y) = false) by (destruct (Bmult mode_NE x y); try reflexivity; discriminate). split; [exact K|exact (S K)].
    + rewrite (overflow_inf _ _ H). split; reflexivity.
  - destruct y as [| s | |]; try discriminate. destruct x as [| | |t m e B]; try discriminate; [elim X; reflexivity|]. split; reflexivity.
Qed.
Lemma div_ok (x y : fl) : is_nan x = false -> is_finite y = true -> B2R y <> 0 ->
  is_nan (Bdiv mode_NE x y) = false /\ Bsign (Bdiv mode_NE x y) = xorb (Bsign x) (Bsign y).
Proof.
  intros Nx Fy Y. destruct (is_finite x) eqn:Fx.
  - pose proof (Bdiv_correct prec emax P0 P1 mode_NE x y Y) as H. destruct (Rlt_bool _ _).
    + destruct H as (_ & F & S). rewrite Fx in F. assert (K : is_nan (Bdiv mode_NE x y) = false) by (destruct (Bdiv mode_NE x y); try reflexivity; discriminate). auto.
    + rewrite (overflow_inf _ _ H). auto.
  - destruct x as [| s | |]; try discriminate. destruct y as [| | |t m e B]; try discriminate; [elim Y; reflexivity|]. split; reflexivity.
Qed.
Lemma plus_ok (x y : fl) : is_nan x = false -> is_finite y = true ->
  is_nan (Bplus mode_NE x y) = false /\ (Bsign x = false -> 0 < B2R y -> Bsign (Bplus mode_NE x y) = false).
Proof.
  intros Nx Fy. destruct (is_finite x) eqn:Fx.
  - pose proof (Bplus_correct prec emax P0 P1 mode_NE x y Fx Fy) as H. destruct (Rlt_bool _ _).
    + destruct H as (_ & F & S). split; [destruct (Bplus mode_NE x y); try reflexivity; discriminate|]. intros Sx Y. rewrite S. assert (0 <= B2R x).
      { destruct x as [| | |[] m e B]; try discriminate; cbn; try lra. apply F2R_ge_0. cbn. lia. }
      rewrite Rcompare_Gt by lra. reflexivity.
    + destruct H as [H _]. rewrite (overflow_inf _ _ H). split; [reflexivity|]. intros S _. rewrite S. reflexivity.
  - destruct x as [| s | |]; try discriminate. destruct y as [| | |t m e B]; try discriminate; split; auto.
Qed.
Lemma minus_ok (x y : fl) : is_nan x = false -> is_finite y = true -> is_nan (Bminus mode_NE x y) = false.
Proof.
  intros Nx Fy. destruct (is_finite x) eqn:Fx.
  - pose proof (Bminus_correct prec emax P0 P1 mode_NE x y Fx Fy) as H. destruct (Rlt_bool _ _).
    + destruct H as (_ & F & S). destruct (Bminus mode_NE x y); try reflexivity; discriminate.
    + destruct H as [H _]. rewrite (overflow_inf _ _ H). reflexivity.
  - destruct x as [| s | |]; try discriminate. destruct y as [| | |t m e B]; try discriminate; reflexivity.
Qed.
Lemma norm_ok m e s : is_nan (binary_normalize prec emax P0 P1 mode_NE m e s) = false.
Proof.
  pose proof (binary_normalize_correct prec emax P0 P1 mode_NE m e s) as H. cbn zeta in H. destruct (Rlt_bool _ _).
  - destruct H as (_ & F & _). destruct (binary_normalize _ _ _ _ _ _ _ _); try reflexivity; discriminate.
  - rewrite (overflow_inf _ _ H). reflexivity.
Qed.
Lemma not_below (x c : fl) : is_nan x = false -> is_finite c = true -> 0 < B2R c -> Bltb x c = false -> Bsign x = false.
Proof.
  intros Nx Fc C L. destruct (is_finite x) eqn:Fx.
  - rewrite Bltb_correct in L by assumption. destruct (Rlt_bool_spec (B2R x) (B2R c)) as [K|K]; [discriminate|].
    destruct x as [| | |[] m e B]; try discriminate; try reflexivity; cbn in K; [lra|]. exfalso. assert (F2R (Float radix2 (Z.neg m) e) < 0) by (apply F2R_lt_0; reflexivity). lra.
  - destruct x as [|[]| |]; try discriminate; try reflexivity. destruct c as [| | |t m e B]; try discriminate; destruct t; discriminate.
Qed.
(** Results of size at most 3: no overflow, small absolute error *)
Hypothesis EM : (2 < emax)%Z.
Lemma round_err x : Rabs x <= 3 -> Rabs (ro x - x) <= bpow radix2 (Z.max (1 - prec) (2 - emax - prec)).
Proof.
  intros H. assert (V : Valid_exp fe) by (apply fexp_correct; exact P0). assert (M : Monotone_exp fe) by apply fexp_monotone.
  assert (U : ulp radix2 fe 3 = bpow radix2 (Z.max (2 - prec) (3 - emax - prec))).
  { rewrite ulp_neq_0 by lra. unfold cexp. rewrite (mag_unique radix2 3 2) by (rewrite Rabs_pos_eq by lra; change (bpow radix2 (2 - 1)) with 2; change (bpow radix2 2) with 4; lra). unfold SpecFloat.fexp, SpecFloat.emin. f_equal. }
  assert (U2 : ulp radix2 fe x <= ulp radix2 fe 3) by (apply ulp_le; [exact V|exact M|rewrite (Rabs_pos_eq 3) by lra; exact H]).
  pose proof (error_le_half_ulp radix2 fe (fun z => negb (Z.even z)) x) as Q. eapply Rle_trans; [exact Q|]. rewrite U in U2.
  replace (Z.max (2 - prec) (3 - emax - prec)) with (1 + Z.max (1 - prec) (2 - emax - prec))%Z in U2 by lia. rewrite bpow_plus in U2. change (bpow radix2 1) with 2 in U2. lra.
Qed.
Lemma round_lt x : Rabs x <= 3 -> Rabs (ro x) < bpow radix2 emax.
Proof.
  intros H. apply Rle_lt_trans with (bpow radix2 2); [|apply bpow_lt; lia]. apply abs_round_le_generic; [apply fexp_correct; exact P0|apply valid_rnd_N| |change (bpow radix2 2) with 4; lra].
  apply generic_format_bpow. unfold SpecFloat.fexp, SpecFloat.emin. unfold Prec_lt_emax, Prec_gt_0 in *. lia.
Qed.
Definition close (x : fl) (r : R) : Prop := is_finite x = true /\ Rabs (B2R x - r) <= bpow radix2 (Z.max (1 - prec) (2 - emax - prec)).
Lemma add_close (x y : fl) : is_finite x = true -> is_finite y = true -> Rabs (B2R x + B2R y) <= 3 -> close (Bplus mode_NE x y) (B2R x + B2R y).
Proof.
  intros Fx Fy H. pose proof (Bplus_correct prec emax P0 P1 mode_NE x y Fx Fy) as Q. rewrite Rlt_bool_true in Q by (apply round_lt; exact H). destruct Q as (Q & F & _). split; [exact F|]. rewrite Q. apply round_err, H.
Qed.
Lemma sub_close (x y : fl) : is_finite x = true -> is_finite y = true -> Rabs (B2R x - B2R y) <= 3 -> close (Bminus mode_NE x y) (B2R x - B2R y).
Proof.
  intros Fx Fy H. pose proof (Bminus_correct prec emax P0 P1 mode_NE x y Fx Fy) as Q. rewrite Rlt_bool_true in Q by (apply round_lt; exact H). destruct Q as (Q & F & _). split; [exact F|]. rewrite Q. apply round_err, H.
Qed.
Lemma mul_close (x y : fl) : is_finite x = true -> is_finite y = true -> Rabs (B2R x * B2R y) <= 3 -> close (Bmult mode_NE x y) (B2R x * B2R y).
Proof.
  intros Fx Fy H. pose proof (Bmult_correct prec emax P0 P1 mode_NE x y) as Q. rewrite Rlt_bool_true in Q by (apply round_lt; exact H). destruct Q as (Q & F & _). split; [rewrite F, Fx, Fy; reflexivity|]. rewrite Q. apply round_err, H.
Qed.
Lemma div_close (x y : fl) : is_finite x = true -> B2R y <> 0 -> Rabs (B2R x / B2R y) <= 3 -> close (Bdiv mode_NE x y) (B2R x / B2R y).
Proof.
  intros Fx Y H. pose proof (Bdiv_correct prec emax P0 P1 mode_NE x y Y) as Q. rewrite Rlt_bool_true in Q by (apply round_lt; exact H). destruct Q as (Q & F & _). split; [rewrite F; exact Fx|]. rewrite Q. apply round_err, H.
Qed.
Lemma norm_close m e s : Rabs (F2R (Float radix2 m e)) <= 3 -> close (binary_normalize prec emax P0 P1 mode_NE m e s) (F2R (Float radix2 m e)).
Proof.
  intros H. pose proof (binary_normalize_correct prec emax P0 P1 mode_NE m e s) as Q. cbn zeta in Q. rewrite Rlt_bool_true in Q by (apply round_lt; exact H). destruct Q as (Q & F & _). split; [exact F|]. rewrite Q. apply round_err, H.
Qed.
End Format.
Notation dR := (@B2R 53 1024).
Definition c32 (x : f32) (r : R) : Prop := is_finite x = true /\ Rabs (fR x - r) <= / 8388608. (* 2^-23 *)
Definition c64 (x : f64) (r : R) : Prop := is_finite x = true /\ Rabs (dR x - r) <= / 4503599627370496. (* 2^-52 *)
Lemma close32 (x : f32) r : close 24 128 x r -> c32 x r. Proof. intros [A B]. split; [exact A|]. exact B. Qed.
Lemma close64 (x : f64) r : close 53 1024 x r -> c64 x r. Proof. intros [A B]. split; [exact A|]. exact B. Qed.
Lemma of_f32_ok (x : f32) : is_nan (of_f32 x) = is_nan x.
Proof. destruct x; try reflexivity. cbn [of_f32]. rewrite norm_ok. reflexivity. Qed.
Lemma to_f32_ok (x : f64) : is_nan (to_f32 x) = is_nan x.
Proof. destruct x; try reflexivity. cbn [to_f32]. rewrite norm_ok. reflexivity. Qed.
Lemma to_f32_close (x : f64) : is_finite x = true -> Rabs (dR x) <= 3 -> c32 (to_f32 x) (dR x).
Proof.
  intros F H. apply close32. destruct x as [s|s| |s m e B]; try discriminate.
  - split; [reflexivity|]. cbn. replace (0 - 0) with 0 by ring. rewrite Rabs_R0. lra.
  - cbn [to_f32]. apply norm_close; [reflexivity|exact H].
Qed.
Lemma of_f32_R (x : f32) : dR (of_f32 x) = fR x /\ is_finite (of_f32 x) = is_finite x.
Proof.
  destruct x as [s|s| |s m e B]; try (split; reflexivity). cbn [of_f32 B2R is_finite]. pose proof (binary_normalize_correct 53 1024 _ _ mode_NE (cond_Zopp s (Zpos m)) e s) as Q. cbn zeta in Q.
  pose proof (generic_format_B2R 24 128 (B754_finite s m e B)) as G. cbn [B2R] in G.
  assert (G2 : generic_format radix2 (SpecFloat.fexp 53 1024) (F2R (Float radix2 (cond_Zopp s (Zpos m)) e))).
  { apply generic_inclusion_mag with (fexp1 := SpecFloat.fexp 24 128); [|exact G]. intros _. unfold SpecFloat.fexp, SpecFloat.emin. lia. }
  pose proof (fR_bound (B754_finite s m e B)) as BD. cbn [B2R] in BD.
  rewrite round_generic in Q; [|apply valid_rnd_N|exact G2]. rewrite Rlt_bool_true in Q by (eapply Rlt_trans; [exact BD|apply bpow_lt; reflexivity]). destruct Q as (Q & F & _). auto.
Qed.
