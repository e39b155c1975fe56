(** From the lemmas on tables, steps and point lists to statements about [eases]. *)
From Coq Require Import ZArith Bool Reals Lra Lia List.
From Flocq Require Import Core IEEE754.BinarySingleNaN Plus_error.
From Verif Require Import F32 F32Lemmas F32Round NumModel EasingModel EasingSteps EasingBezier EasingExact EasingLinear EasingSpec.
Import ListNotations.
Open Scope R_scope.

(** *** Fuel does not matter once it suffices *)
Section Fuel.
Variable N : num.
Lemma entry_fuel (x1 y1 x2 y2 : T N) m : forall fuel t vx vy g r t' vx' vy' y,
  table_entry x1 y1 x2 y2 fuel t vx vy g = Some (r, t', vx', vy', y) ->
  table_entry x1 y1 x2 y2 (fuel + m) t vx vy g = Some ((r + m)%nat, t', vx', vy', y).
Proof.
  induction fuel as [|fuel IH]; intros t vx vy g r t' vx' vy' y H; [discriminate H|].
  cbn [Nat.add]. rewrite table_entry_S in *. destruct (nlt N _ g); [apply IH, H|]. injection H as <- <- <- <- <-. reflexivity.
Qed.
Lemma from_fuel (x1 y1 x2 y2 : T N) m : forall n fuel i t vx vy l,
  table_from x1 y1 x2 y2 fuel i n t vx vy = Some l -> table_from x1 y1 x2 y2 (fuel + m) i n t vx vy = Some l.
Proof.
  induction n as [|n IH]; intros fuel i t vx vy l H; [exact H|].
  rewrite table_from_S in *. destruct (table_entry x1 y1 x2 y2 fuel t vx vy _) as [[[[[r t'] vx'] vy'] y]|] eqn:E; [|discriminate H].
  rewrite (entry_fuel _ _ _ _ m _ _ _ _ _ _ _ _ _ _ E).
  destruct (table_from x1 y1 x2 y2 r (S i) n t' vx' vy') as [l'|] eqn:E'; [|discriminate H]. rewrite (IH _ _ _ _ _ _ E'). exact H.
Qed.
Lemma make_fuel fuel m (e : easing N) i : make_impl fuel e = Some i -> make_impl (fuel + m) e = Some i.
Proof.
  assert (B : forall x1 y1 x2 y2, option_map (ITable (N := N)) (bezier_table x1 y1 x2 y2 fuel) = Some i ->
     option_map (ITable (N := N)) (bezier_table x1 y1 x2 y2 (fuel + m)) = Some i).
  { intros x1 y1 x2 y2 H. unfold bezier_table in *. destruct (table_from x1 y1 x2 y2 fuel 0 14 n0 n0 n0) as [l|] eqn:E; [|discriminate H].
    rewrite (from_fuel _ _ _ _ m _ _ _ _ _ _ _ E). exact H. }
  destruct e; cbn [make_impl]; auto.
  repeat match goal with |- (if ?b then _ else _) = _ -> _ => destruct b; [auto; fail|] end.
  destruct (predef_bezier p) as [[[[x1 y1] x2] y2]|]; auto.
Qed.
Lemma eases_fun (e : easing N) x y y' : eases e x y -> eases e x y' -> y = y'.
Proof.
  intros (f & i & A & B) (f' & i' & A' & B'). apply (make_fuel _ f') in A. apply (make_fuel _ f) in A'.
  rewrite Nat.add_comm in A'. rewrite A in A'. injection A' as <-. congruence.
Qed.

(** *** Order of the points *)
Variable O : ordered N.
Local Notation v := (val N O).
Lemma order_cons (p : T N * T N) l : Forall (good O) (p :: l) -> valid_order (p :: l) = true ->
  valid_order l = true /\ forall q, In q l -> v (fst p) <= v (fst q).
Proof.
  revert p. induction l as [|q l IH]; intros p G H; [split; [reflexivity|intros q []]|].
  inversion G as [|? ? Gp Gl]; subst. inversion Gl as [|? ? Gq Gl']; subst.
  change (valid_order (p :: q :: l)) with (if nlt N (fst q) (fst p) then false else valid_order (q :: l)) in H.
  destruct (nlt N (fst q) (fst p)) eqn:C; [discriminate H|].
  destruct (IH q Gl H) as [IH1 IH2]. split; [exact H|].
  assert (L : v (fst p) <= v (fst q)).
  { destruct (Rle_or_lt (v (fst p)) (v (fst q))) as [L|L]; [exact L|]. apply (lt_val N O) in L; [congruence|apply Gq|apply Gp]. }
  intros r [->|I]; [exact L|]. specialize (IH2 r I). lra.
Qed.
Lemma sorted_cons (p : T N * T N) l : sorted O l -> (forall q, In q l -> v (fst p) <= v (fst q)) -> sorted O (p :: l).
Proof.
  intros S. induction S as [|l q S IH B]; intros H.
  - apply (sorted_snoc N O [] p); [constructor|intros q []].
  - change (p :: l ++ [q]) with ((p :: l) ++ [q]). constructor.
    + apply IH. intros r I. apply H, in_or_app. auto.
    + intros r [<-|I]; [apply H, in_or_app; right; left; reflexivity|apply B, I].
Qed.
Lemma order_sorted (l : list (T N * T N)) : Forall (good O) l -> valid_order l = true -> sorted O l.
Proof.
  induction l as [|p l IH]; intros G H; [constructor|]. destruct (order_cons p l G H) as [H1 H2].
  apply sorted_cons; [apply IH; [inversion G; assumption|exact H1]|exact H2].
Qed.

(** *** Removing a point between two others at the same position *)
Lemma view_middle x (l1 : list (T N * T N)) a b c l2 : ok N O x -> Forall (good O) (l1 ++ a :: b :: c :: l2) ->
  v (fst a) = v (fst b) -> v (fst b) = v (fst c) ->
  Lx N x (l1 ++ a :: b :: c :: l2) = Lx N x (l1 ++ a :: c :: l2) /\ Fx N x (l1 ++ a :: b :: c :: l2) = Fx N x (l1 ++ a :: c :: l2).
Proof.
  intros Ox G E1 E2. apply Forall_app in G. destruct G as [_ G]. inversion G as [|? ? Ga G1]; subst. inversion G1 as [|? ? Gb G2]; subst. inversion G2 as [|? ? Gc _]; subst.
  assert (SameT : forall p q : T N * T N, ok N O (fst p) -> ok N O (fst q) -> v (fst p) = v (fst q) -> nlt N x (fst p) = nlt N x (fst q)).
  { intros p q Op Oq E. destruct (nlt N x (fst p)) eqn:A, (nlt N x (fst q)) eqn:B; try reflexivity.
    - apply (lt_val N O) in A; try assumption. rewrite E in A. apply (lt_val N O) in A; try assumption. congruence.
    - apply (lt_val N O) in B; try assumption. rewrite <- E in B. apply (lt_val N O) in B; try assumption. congruence. }
  assert (Cab : nlt N x (fst a) = nlt N x (fst b)) by (apply SameT; [apply Ga|apply Gb|exact E1]).
  assert (Cbc : nlt N x (fst b) = nlt N x (fst c)) by (apply SameT; [apply Gb|apply Gc|exact E2]).
  unfold Lx, Fx, before, after.
  assert (K : forall d, last (fst (upper_bound x (l1 ++ a :: b :: c :: l2))) d = last (fst (upper_bound x (l1 ++ a :: c :: l2))) d /\
     hd (n1, n1) (snd (upper_bound x (l1 ++ a :: b :: c :: l2))) = hd (n1, n1) (snd (upper_bound x (l1 ++ a :: c :: l2)))).
  { intros d. assert (K0 : last (fst (upper_bound x (a :: b :: c :: l2))) d = last (fst (upper_bound x (a :: c :: l2))) d /\
       hd (n1, n1) (snd (upper_bound x (a :: b :: c :: l2))) = hd (n1, n1) (snd (upper_bound x (a :: c :: l2))) /\
       (fst (upper_bound x (a :: b :: c :: l2)) = [] <-> fst (upper_bound x (a :: c :: l2)) = [])).
    { cbn [upper_bound]. rewrite Cab, Cbc. destruct (nlt N x (fst c)); [cbn; tauto|].
      destruct (upper_bound x l2) as [u w]. cbn [fst snd]. repeat split; try discriminate. }
    induction l1 as [|q l1 IH]; [cbn [app]; tauto|].
    cbn [app upper_bound]. destruct (nlt N x (fst q)); [split; reflexivity|].
    destruct (upper_bound x (l1 ++ a :: b :: c :: l2)) as [u w] eqn:U1, (upper_bound x (l1 ++ a :: c :: l2)) as [u' w'] eqn:U2. cbn [fst snd] in *.
    destruct IH as [IH1 IH2]. split; [|exact IH2].
    assert (NE : u = [] <-> u' = []).
    { destruct l1 as [|q' l1]; [cbn [app] in U1, U2; rewrite U1, U2 in K0; cbn [fst] in K0; tauto|].
      cbn [app upper_bound] in U1, U2. destruct (nlt N x (fst q')); [injection U1 as <- <-; injection U2 as <- <-; tauto|].
      destruct (upper_bound x (l1 ++ a :: b :: c :: l2)), (upper_bound x (l1 ++ a :: c :: l2)). injection U1 as <- <-. injection U2 as <- <-. split; discriminate. }
    destruct u as [|u0 u], u' as [|u0' u'].
    - reflexivity.
    - exfalso. destruct NE as [NE _]. specialize (NE eq_refl). discriminate NE.
    - exfalso. destruct NE as [_ NE]. specialize (NE eq_refl). discriminate NE.
    - exact IH1. }
  apply K.
Qed.
Lemma view_first x (a b : T N * T N) l : nlt N x (fst a) = false -> nlt N x (fst b) = false ->
  Lx N x (a :: b :: l) = Lx N x (b :: l) /\ Fx N x (a :: b :: l) = Fx N x (b :: l).
Proof.
  intros A B. unfold Lx, Fx, before, after. cbn [upper_bound]. rewrite A, B. destruct (upper_bound x l). split; reflexivity.
Qed.
Lemma view_head x (p : T N * T N) l : nlt N x (fst p) = true -> Fx N x (p :: l) = p.
Proof. intros A. unfold Fx, after. cbn [upper_bound]. rewrite A. reflexivity. Qed.
Lemma view_last x (l : list (T N * T N)) a b : ok N O x -> Forall (good O) (l ++ [a; b]) -> sorted O (l ++ [a; b]) -> v (fst a) = 1 -> v (fst b) = 1 ->
  segment_y (Lx N x (l ++ [a; b])) (Fx N x (l ++ [a; b])) x = segment_y (Lx N x (l ++ [a])) (Fx N x (l ++ [a])) x.
Proof.
  intros Ox GG S A B. replace (l ++ [a; b]) with ((l ++ [a]) ++ [b]) in * by (rewrite <- app_assoc; reflexivity).
  apply sorted_inv in S. destruct S as [S' Bl]. pose proof GG as GG'. apply Forall_app in GG'. destruct GG' as [GG' Gb]. inversion Gb as [|? ? Gb1 _]; subst.
  pose proof GG' as GG2. apply Forall_app in GG2. destruct GG2 as [Gl Ga]. inversion Ga as [|? ? Ga1 _]; subst.
  assert (Oa := proj1 Ga1). assert (Ob := proj1 Gb1).
  rewrite (Lx_snoc N O x (l ++ [a]) b Ox GG' Ob Bl).
  destruct (nlt N x (fst b)) eqn:Cb.
  - f_equal. rewrite (Fx_snoc N x (l ++ [a])). destruct (after N x (l ++ [a])) eqn:Af; [|reflexivity]. exfalso.
    pose proof (proj1 (after_nil N x (l ++ [a])) Af a ltac:(apply in_or_app; right; left; reflexivity)) as Ca.
    apply (lt_val N O) in Cb; try assumption. rewrite B, <- A in Cb. apply (lt_val N O) in Cb; try assumption. congruence.
  - assert (X : 1 <= v x).
    { destruct (Rle_or_lt 1 (v x)) as [X|X]; [exact X|]. rewrite <- B in X. apply (lt_val N O) in X; try assumption. congruence. }
    rewrite !(Fx_one N O) by assumption. rewrite (segment_one N O) by assumption.
    apply sorted_inv in S'. rewrite (Lx_snoc N O x l a Ox Gl Oa (proj2 S')).
    destruct (nlt N x (fst a)) eqn:Ca.
    + apply (lt_val N O) in Ca; try assumption. lra.
    + symmetry. apply (segment_one N O); assumption.
Qed.
End Fuel.

(** *** The two arithmetics as ordered ones *)
Definition ford (E : elem) : ordered (fnum E).
Proof.
  refine {| ok := fun x : T (fnum E) => is_nan (x : f32) = false; val := fun x : T (fnum E) => fX x |}.
  - intros a b A B. apply (flt_spec a b A B).
  - intros a b A B. apply (feq_spec a b A B).
  - reflexivity.
  - reflexivity.
  - apply (finite_not_nan f1), f1_finite.
  - change (fX f1 = 1). rewrite fX_finite by apply f1_finite. apply f1_R.
  - intros a A. exact A.
Defined.
Definition xord : ordered xnum.
Proof.
  refine {| ok := fun x : T xnum => exists r, (x : ereal) = Fin r; val := fun x : T xnum => match (x : ereal) with Fin r => r | _ => 0 end |}.
  - intros a b [r ->] [s ->]. cbn. destruct (Rlt_bool_spec r s); split; intros; try reflexivity; try assumption; try discriminate; lra.
  - intros a b [r ->] [s ->]. cbn. destruct (Req_bool_spec r s); split; intros; try reflexivity; try assumption; try discriminate; lra.
  - exists 0. apply x0.
  - rewrite x0. reflexivity.
  - exists 1. apply x1e.
  - rewrite x1e. reflexivity.
  - intros a [r ->]. reflexivity.
Defined.
Arguments Lx {N}. Arguments Fx {N}.

(** *** Linear easing in floats *)
Section FloatLinear.
Variable E : elem.
Local Notation N := (fnum E).
Local Notation G := (good (ford E)).
Lemma valid_good (p : f32 * f32) : valid_point (N := N) p = true -> G p /\ is_finite (fst p) = true /\ is_finite (snd p) = true.
Proof.
  intros H. change ((if negb (fisfinite (fst p)) || flt (fst p) f0 || flt f1 (fst p) then false else fisfinite (snd p)) = true) in H.
  destruct (negb (fisfinite (fst p)) || flt (fst p) f0 || flt f1 (fst p)) eqn:C; [discriminate H|].
  apply orb_false_elim in C. destruct C as [C C3]. apply orb_false_elim in C. destruct C as [C1 C2]. apply negb_false_iff in C1.
  assert (C1' : is_finite (fst p) = true) by exact C1. assert (H' : is_finite (snd p) = true) by exact H.
  pose proof (finite_not_nan _ C1') as Nx.
  apply flt_false in C2; [|exact Nx|reflexivity]. apply flt_false in C3; [|apply finite_not_nan, f1_finite|exact Nx].
  rewrite (fX_finite f1), f1_R in C3 by apply f1_finite. change (fX f0) with 0 in C2.
  split; [|auto]. split; [exact Nx|]. split; [apply finite_not_nan, H'|]. exact (conj C2 C3).
Qed.
Lemma good_f (p : f32 * f32) : G p -> is_nan (fst p) = false /\ 0 <= fX (fst p) <= 1.
Proof. intros (A & _ & B). exact (conj A B). Qed.
Lemma valid_linear (pts : list (f32 * f32)) : valid_easing (N := N) (ELinear (N := N) pts) = true -> Forall G pts /\ sorted (ford E) pts /\ Forall (fun p => is_finite (fst p) = true /\ is_finite (snd p) = true) pts.
Proof.
  cbn [valid_easing]. intros H. apply andb_prop in H. destruct H as [H1 H2].
  assert (GG : Forall G pts). { apply Forall_forall. intros p I. apply valid_good. rewrite forallb_forall in H1. apply H1, I. }
  split; [exact GG|]. split; [apply order_sorted; assumption|].
  apply Forall_forall. intros p I. rewrite forallb_forall in H1. exact (proj2 (valid_good p (H1 p I))).
Qed.
Lemma eases_linear (pts : list (f32 * f32)) (x : f32) : eases (N := N) (ELinear (N := N) pts) x (get_y_linear (N := N) (compact (N := N) pts) x).
Proof. exists 0%nat. eexists. split; reflexivity. Qed.

Lemma linear_view (pts : list (f32 * f32)) (x y : f32) : valid_easing (N := N) (ELinear (N := N) pts) = true -> is_nan x = false ->
  eases (N := N) (ELinear (N := N) pts) x y ->
  y = segment_y (N := N) (Lx (N := N) x pts) (Fx (N := N) x pts) x \/ (flt x f0 = true /\ feq y (segment_y (N := N) (Lx (N := N) x pts) (Fx (N := N) x pts) x) = true).
Proof.
  intros V Nx H. pose proof (eases_fun N _ _ _ _ H (eases_linear pts x)) as ->.
  destruct (valid_linear pts V) as (GG & S & _).
  rewrite <- (get_y_view N (ford E)) by exact Nx.
  destruct (compact_curve N (ford E) pts x GG S Nx) as [Q|[A B]]; [left; exact Q|]. right. split; [|exact B].
  apply flt_spec; [exact Nx|reflexivity|exact A].
Qed.

(** points *)
Lemma fsub_self (x : f32) : is_finite x = true -> exists s, fsub x x = B754_zero s.
Proof.
  intros F. assert (P := bpow_gt_0 radix2 120). destruct (fsub_small x x F F) as [A B]; [rewrite Rminus_diag_eq, Rabs_R0 by reflexivity; lra|].
  rewrite Rminus_diag_eq, rnd_0 in A by reflexivity.
  destruct (fsub x x) as [s| | |s m e Bd]; try discriminate B; [eauto|]. exfalso.
  destruct s; [pose proof (F2R_lt_0 radix2 (Float radix2 (Zneg m) e) eq_refl) as L|pose proof (F2R_gt_0 radix2 (Float radix2 (Zpos m) e) eq_refl) as L]; cbn in A; cbn in L; unfold F2R in A, L; cbn in A, L; lra.
Qed.
Lemma zero_div (s : bool) (d : f32) : is_finite d = true -> fR d <> 0 -> exists s', fdiv (B754_zero s) d = B754_zero s'.
Proof. destruct d; try discriminate; intros _ H; cbn; [cbn in H; lra|eauto]. Qed.
Lemma mul_zero (a : f32) s : is_finite a = true -> exists s', fmul a (B754_zero s) = B754_zero s'.
Proof. destruct a; try discriminate; intros _; cbn; eauto. Qed.
Lemma add_zero (a : f32) s : is_finite a = true -> is_finite (fadd a (B754_zero s)) = true /\ fR (fadd a (B754_zero s)) = fR a.
Proof.
  intros F. destruct (fadd_finite a (B754_zero s) F eq_refl) as [(H & A & B)|[(A & _)|(A & _)]].
  - split; [exact B|]. rewrite A. cbn. rewrite Rplus_0_r. apply rnd_fR.
  - exfalso. change (fR (B754_zero s)) with 0 in A. rewrite Rplus_0_r, rnd_fR in A. pose proof (fR_bounds a). lra.
  - exfalso. change (fR (B754_zero s)) with 0 in A. rewrite Rplus_0_r, rnd_fR in A. pose proof (fR_bounds a). lra.
Qed.

Lemma segment_start (p q : f32 * f32) : is_finite (fst p) = true -> is_finite (fst q) = true -> is_finite (snd p) = true -> is_finite (snd q) = true ->
  Rabs (fR (snd q) - fR (snd p)) <= bpow radix2 127 -> 0 <= fR (fst p) < fR (fst q) -> fR (fst q) <= 1 ->
  feq (segment_y (N := N) p q (fst p)) (snd p) = true.
Proof.
  destruct p as [px py], q as [qx qy]. cbn [fst snd]. intros F1 F2 F3 F4 B L L1.
  change (feq (if feq py qy then qy else if feq px qx then (if flt px qx then py else qy)
     else fadd py (fmul (fsub qy py) (fdiv (fsub px px) (fsub qx px)))) py = true).
  destruct (feq py qy) eqn:C1.
  { apply feq_spec; try apply finite_not_nan; try assumption. apply feq_spec in C1; try (apply finite_not_nan; assumption). congruence. }
  destruct (feq px qx) eqn:C2.
  { exfalso. apply feq_spec in C2; try (apply finite_not_nan; assumption). rewrite !fX_finite in C2 by assumption. lra. }
  destruct (fsub_self px F1) as [s Es]. rewrite Es.
  pose proof safe_large as SL.
  destruct (fsub_small qx px F2 F1) as [D1 D2]; [rewrite Rabs_pos_eq; lra|].
  assert (Dp : 0 < fR (fsub qx px)).
  { rewrite D1. assert (0 <= rnd (fR qx - fR px)) by (apply rnd_pos; lra).
    assert (rnd (fR qx - fR px) <> 0); [|lra].
    intros Z. apply (eq_0_round_0_FLT radix2 (-149) 24) in Z || idtac.
    pose proof (generic_format_B2R 24 128 qx) as GQ. pose proof (generic_format_B2R 24 128 px) as GP.
    assert (K : fR qx - fR px = 0); [|lra].
    destruct (Req_dec (fR qx - fR px) 0) as [|NZ]; [assumption|]. exfalso.
    revert Z. unfold Rminus. apply round_plus_neq_0; auto with typeclass_instances.
    - apply generic_format_opp, GP. }
  destruct (zero_div s (fsub qx px) D2) as [s1 E1]; [lra|]. rewrite E1.
  assert (DF : is_finite (fsub qy py) = true).
  { assert (RB : Rabs (rnd (fR qy - fR py)) < big).
    { apply Rle_lt_trans with (bpow radix2 127); [apply rnd_half_big; exact B|apply bpow_lt; lia]. }
    destruct (fsub_finite qy py F4 F3) as [(_ & _ & F)|[(A & _)|(A & _)]]; [exact F| |]; apply Rabs_lt_inv in RB; lra. }
  destruct (mul_zero _ s1 DF) as [s2 E2]. rewrite E2. destruct (add_zero py s2 F3) as [A1 A2].
  apply feq_spec; try (apply finite_not_nan; assumption). rewrite !fX_finite by assumption. exact A2.
Qed.

Lemma linear_point (l1 : list (f32 * f32)) p l2 y :
  valid_easing (N := N) (ELinear (N := N) (l1 ++ p :: l2)) = true ->
  Forall (fun q => flt (fst p) (fst q) = true) l2 ->
  (forall q, In q (p :: l2) -> Rabs (fR (snd q)) <= bpow radix2 126) ->
  eases (N := N) (ELinear (N := N) (l1 ++ p :: l2)) (fst p) y ->
  (flt (fst p) f1 = true -> feq y (snd p) = true) /\ (fle f1 (fst p) = true -> y = f1).
Proof.
  intros V Lt Sm H. destruct (valid_linear _ V) as (GG & S & FF).
  rewrite Forall_forall in GG, FF.
  assert (Ip : In p (l1 ++ p :: l2)) by (apply in_or_app; right; left; reflexivity).
  destruct (good_f p (GG p Ip)) as (Nx & R0). destruct (FF p Ip) as [Fx0 Fy0].
  rewrite (fX_finite (fst p)) in R0 by assumption.
  assert (P126 : bpow radix2 127 = bpow radix2 126 + bpow radix2 126) by (replace 127%Z with (126 + 1)%Z by lia; rewrite bpow_plus; change (bpow radix2 1) with 2; ring).
  assert (P1 : 1 <= bpow radix2 126) by (change 1 with (bpow radix2 0); apply bpow_le; lia).
  assert (NL1 : forall q, In q l1 -> nlt N (fst p) (fst q) = false).
  { intros q Iq. apply (flt_false (fst p) (fst q)); [exact Nx|apply (GG q); apply in_or_app; auto|].
    replace (l1 ++ p :: l2) with ((l1 ++ [p]) ++ l2) in S by (rewrite <- app_assoc; reflexivity).
    apply sorted_app_l in S. apply sorted_inv in S. apply S, Iq. }
  assert (NLp : nlt N (fst p) (fst p) = false) by (apply (flt_false (fst p) (fst p)); try exact Nx; lra).
  assert (U : upper_bound (N := N) (fst p) (l1 ++ p :: l2) = (l1 ++ [p], l2)).
  { apply upper_at; [exact NLp|exact NL1|]. intros q Iq. rewrite Forall_forall in Lt. apply Lt, Iq. }
  destruct (linear_view _ _ _ V Nx H) as [Ey|[A _]].
  2:{ exfalso. apply flt_spec in A; [|exact Nx|reflexivity]. rewrite fX_finite in A by assumption. change (fX f0) with 0 in A. lra. }
  unfold Lx, Fx, before, after in Ey. rewrite U in Ey. cbn [fst snd] in Ey. rewrite last_snoc in Ey.
  split.
  - intros L1. apply flt_spec in L1; [|exact Nx|apply finite_not_nan, f1_finite]. rewrite !fX_finite, f1_R in L1 by (try apply f1_finite; assumption).
    rewrite Ey. destruct l2 as [|q l2]; cbn [hd].
    + apply segment_start; cbn [fst snd]; try assumption; try apply f1_finite; change (@n1 N) with f1; try apply f1_finite; rewrite ?f1_R; try lra.
      pose proof (Sm p (or_introl eq_refl)) as Sp. apply Rabs_le_inv in Sp. apply Rabs_le. lra.
    + assert (Iq : In q (l1 ++ p :: q :: l2)) by (apply in_or_app; right; right; left; reflexivity).
      destruct (FF q Iq) as [F1 F2]. destruct (good_f q (GG q Iq)) as (Nq & Rq).
      rewrite (fX_finite (fst q)) in Rq by assumption.
      inversion Lt as [|? ? Lq _]; subst. apply flt_spec in Lq; [|exact Nx|exact Nq]. rewrite !fX_finite in Lq by assumption.
      apply segment_start; try assumption; try lra.
      pose proof (Sm p (or_introl eq_refl)) as Sp. pose proof (Sm q (or_intror (or_introl eq_refl))) as Sq.
      apply Rabs_le_inv in Sp. apply Rabs_le_inv in Sq. apply Rabs_le. lra.
  - intros L1. apply fle_spec in L1; [|apply finite_not_nan, f1_finite|exact Nx]. rewrite !fX_finite, f1_R in L1 by (try apply f1_finite; assumption).
    rewrite Ey. assert (l2 = []) as ->.
    { destruct l2 as [|q l2]; [reflexivity|]. exfalso.
      assert (Iq : In q (l1 ++ p :: q :: l2)) by (apply in_or_app; right; right; left; reflexivity).
      destruct (FF q Iq) as [F1 F2]. destruct (good_f q (GG q Iq)) as (Nq & Rq).
      inversion Lt as [|? ? Lq _]; subst. apply flt_spec in Lq; [|exact Nx|exact Nq]. rewrite (fX_finite (fst p)) in Lq by assumption. lra. }
    cbn [hd]. assert (X1 : fX (fst p) = 1) by (rewrite fX_finite by assumption; lra).
    apply (segment_one N (ford E)); [exact Nx|apply GG, Ip|exact (Req_le _ _ (eq_sym X1))|exact X1].
Qed.

(** redundant points *)
Lemma feq_sym_trans (a b c : f32) : feq a b = true -> feq c b = true -> feq a c = true.
Proof.
  intros A B. destruct (feq_not_nan _ _ A) as [N1 N2]. destruct (feq_not_nan _ _ B) as [N3 _].
  apply feq_spec in A; try assumption. apply feq_spec in B; try assumption. apply feq_spec; try assumption. congruence.
Qed.
Lemma same_view (pts pts' : list (f32 * f32)) x y y' : valid_easing (N := N) (ELinear (N := N) pts) = true -> valid_easing (N := N) (ELinear (N := N) pts') = true ->
  is_nan x = false -> eases (N := N) (ELinear (N := N) pts) x y -> eases (N := N) (ELinear (N := N) pts') x y' ->
  segment_y (N := N) (Lx (N := N) x pts) (Fx (N := N) x pts) x = segment_y (N := N) (Lx (N := N) x pts') (Fx (N := N) x pts') x -> same_float y y'.
Proof.
  intros V V' Nx H H' Q. destruct (linear_view _ _ _ V Nx H) as [A|[_ A]], (linear_view _ _ _ V' Nx H') as [B|[_ B]].
  - left. congruence.
  - right. rewrite A. rewrite <- Q in B. pose proof (feq_not_nan _ _ B) as [_ N2]. exact (feq_sym_trans _ _ _ (feq_refl _ N2) B).
  - right. rewrite B, <- Q. exact A.
  - right. apply (feq_sym_trans _ _ _ A). rewrite Q. exact B.
Qed.
Lemma feq_0 (a : f32) : is_finite a = true -> feq a f0 = true -> fX a = 0.
Proof. intros F H. apply feq_spec in H; [exact H|apply finite_not_nan, F|reflexivity]. Qed.
Lemma feq_1 (a : f32) : is_finite a = true -> feq a f1 = true -> fX a = 1.
Proof. intros F H. apply feq_spec in H; [|apply finite_not_nan, F|apply finite_not_nan, f1_finite]. rewrite H, fX_finite by apply f1_finite. apply f1_R. Qed.
Lemma redundant_same (pts pts' : list (f32 * f32)) (x y y' : f32) : redundant pts pts' ->
  valid_easing (N := N) (ELinear (N := N) pts) = true -> valid_easing (N := N) (ELinear (N := N) pts') = true ->
  is_nan x = false -> eases (N := N) (ELinear (N := N) pts) x y -> eases (N := N) (ELinear (N := N) pts') x y' -> same_float y y'.
Proof.
  intros Rd V V' Nx H H'.
  destruct (valid_linear _ V) as (GG & _ & FF). destruct (valid_linear _ V') as (GG' & S' & _).
  assert (Ox : ok N (ford E) x) by exact Nx.
  destruct Rd as [l1 a b c l2 A B|a b l A B|l a b A B].
  - apply (same_view _ _ _ _ _ V V' Nx H H').
    rewrite Forall_forall in FF.
    assert (Fa := FF a ltac:(apply in_or_app; right; left; reflexivity)). assert (Fb := FF b ltac:(apply in_or_app; right; right; left; reflexivity)).
    assert (Fc := FF c ltac:(apply in_or_app; right; right; right; left; reflexivity)).
    apply feq_spec in A; [|apply finite_not_nan, Fa|apply finite_not_nan, Fb]. apply feq_spec in B; [|apply finite_not_nan, Fb|apply finite_not_nan, Fc].
    destruct (view_middle N (ford E) x l1 a b c l2 Ox GG A B) as [VL VF]. f_equal; [exact VL|exact VF].
  - rewrite Forall_forall in FF.
    assert (Fa := FF a (or_introl eq_refl)). assert (Fb := FF b (or_intror (or_introl eq_refl))).
    apply feq_0 in A; [|apply Fa]. apply feq_0 in B; [|apply Fb].
    destruct (Rlt_or_le (fX x) 0) as [X|X].
    + right.
      assert (Za : forall (z : f32) p ps, G p -> fX (fst p) = 0 -> valid_easing (N := N) (ELinear (N := N) (p :: ps)) = true ->
                eases (N := N) (ELinear (N := N) (p :: ps)) x z -> feq z f0 = true).
      { intros z p ps Gp Z0 Vp Hp. destruct (valid_linear _ Vp) as (Gps & _ & _).
        assert (K : feq (segment_y (N := N) (Lx (N := N) x (p :: ps)) (Fx (N := N) x (p :: ps)) x) f0 = true).
        { rewrite (Lx_neg N (ford E)) by (try exact Ox; try exact Gps; exact X).
          assert (FxE : Fx (N := N) x (p :: ps) = p).
          { apply view_head. apply (flt_spec x (fst p)); [exact Nx|apply Gp|]. change (fX x < fX (fst p)). rewrite Z0. exact X. }
          rewrite FxE. destruct (segment_zero N (ford E) p x Ox Gp X Z0) as [->|[-> Z1]]; [reflexivity|].
          apply feq_spec; [apply Gp|reflexivity|exact Z1]. }
        destruct (linear_view _ _ _ Vp Nx Hp) as [->|[_ Q]]; [exact K|].
        destruct (feq_not_nan _ _ K) as [N1 N2]. destruct (feq_not_nan _ _ Q) as [N3 _].
        apply feq_spec in K; [|exact N1|exact N2]. apply feq_spec in Q; [|exact N3|exact N1]. apply feq_spec; [exact N3|exact N2|congruence]. }
      rewrite Forall_forall in GG.
      apply (feq_sym_trans _ f0); [apply (Za y a (b :: l))|apply (Za y' b l)]; try assumption; apply GG; [left|right; left]; reflexivity.
    + apply (same_view _ _ _ _ _ V V' Nx H H').
      assert (Ca : nlt N x (fst a) = false) by (apply (flt_false x (fst a)); [exact Nx|apply finite_not_nan, Fa|rewrite A; exact X]).
      assert (Cb : nlt N x (fst b) = false) by (apply (flt_false x (fst b)); [exact Nx|apply finite_not_nan, Fb|rewrite B; exact X]).
      destruct (view_first N x a b l Ca Cb) as [VL VF]. f_equal; [exact VL|exact VF].
  - rewrite Forall_forall in FF.
    assert (Ia : In a (l ++ [a; b])) by (apply in_or_app; right; left; reflexivity).
    assert (Ib : In b (l ++ [a; b])) by (apply in_or_app; right; right; left; reflexivity).
    assert (Fa := FF a Ia). assert (Fb := FF b Ib).
    apply feq_1 in A; [|apply Fa]. apply feq_1 in B; [|apply Fb].
    apply (same_view _ _ _ _ _ V V' Nx H H').
    destruct (valid_linear _ V) as (_ & S & _).
    exact (view_last N (ford E) x l a b Ox GG S A B).
Qed.
End FloatLinear.
