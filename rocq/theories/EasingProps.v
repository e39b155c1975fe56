(** Properties C21, C22, C23 and C52: easing functions. *)
From Coq Require Import ZArith Bool Reals Lra Lia List.
From Flocq Require Import Core IEEE754.BinarySingleNaN.
From Verif Require Import F32 F32Lemmas F32Round NumModel EasingModel EasingSpec EasingSteps EasingCurve EasingReal EasingTable EasingBezier.
Import ListNotations.
Open Scope R_scope.

Section Props.
Variable E : elem.
Local Notation N := (fnum E).
Local Notation easing32 := (easing N).
Local Notation eases32 := (eases (N := N)).
Local Notation ok32 e := (valid_easing (N := N) e = true).

(** *** C21 *)
(** Every given point that is the last one at its position lies on the curve; at position 1 the value is 1. *)
Theorem C21_points_on_curve (l1 : list (f32 * f32)) (p : f32 * f32) (l2 : list (f32 * f32)) (y : f32) :
  ok32 (ELinear (N := N) (l1 ++ p :: l2)) ->
  Forall (fun q => flt (fst p) (fst q) = true) l2 ->
  (forall q, In q (p :: l2) -> Rabs (fR (snd q)) <= bpow radix2 126) ->
  eases32 (ELinear (N := N) (l1 ++ p :: l2)) (fst p) y ->
  (flt (fst p) f1 = true -> feq y (snd p) = true) /\ (fle f1 (fst p) = true -> y = f1).
Proof. exact (linear_point E l1 p l2 y). Qed.

(** Points made redundant by their neighbours do not change the curve anywhere. *)
Theorem C21_redundant_points (pts pts' : list (f32 * f32)) (x y y' : f32) : redundant pts pts' ->
  ok32 (ELinear (N := N) pts) -> ok32 (ELinear (N := N) pts') -> is_nan x = false ->
  eases32 (ELinear (N := N) pts) x y -> eases32 (ELinear (N := N) pts') x y' -> same_float y y'.
Proof. exact (redundant_same E pts pts' x y y'). Qed.

(** Without a bound on the given y the value at a given point can be NaN. *)
Definition huge_points : list (f32 * f32) := [(fdy 1 (-2), fdy (-16000000) 104); (fdy 3 (-2), fdy 16000000 104)].
Theorem C21_huge_points_refuted : ok32 (ELinear (N := N) huge_points) /\
  exists y, eases32 (ELinear (N := N) huge_points) (fdy 1 (-2)) y /\ is_nan (y : f32) = true.
Proof.
  split; [vm_compute; reflexivity|]. eexists. split; [exists 0%nat; eexists; split; reflexivity|]. vm_compute. reflexivity.
Qed.

(** *** C22 *)
(** Values are numbers between 0 and 1; with the jump at the start they can exceed 1 by at most 2^-23. *)
Theorem C22_steps_range (n pos : Z) (x y : f32) : (1 <= n <= 2147483647)%Z -> ok32 (ESteps (N := N) n pos) -> is_nan x = false ->
  eases32 (ESteps (N := N) n pos) x y ->
  is_finite y = true /\ 0 <= fR y /\ (pos <> 1%Z -> fR y <= 1) /\ fR y <= 1 + bpow radix2 (-23).
Proof.
  intros Hn Hv Nx (fuel & i & A & B). cbn [make_impl] in A.
  destruct (steps_range E n pos x Hn Hv Nx) as [F R]. unfold steps_y in F, R.
  destruct (steps_is E n pos) as (c & h & s & SI). rewrite SI in A, F, R. injection A as <-. cbn [get_y] in B. injection B as <-.
  assert (U : bpow radix2 (-23) = 2 * u24) by (rewrite <- u24_bpow; change (-23)%Z with (1 + -24)%Z; rewrite bpow_plus; reflexivity).
  rewrite U. assert (0 < u24) by (unfold u24; lra).
  split; [exact F|]. split; [apply R|]. unfold kJumpStart in R. split.
  - intros Hp. destruct (Z.eqb_spec pos 1); [congruence|apply R].
  - destruct (Z.eqb pos 1); [apply R|]. lra.
Qed.

(** Larger x, larger or equal value (for a jump at the start, on each side of x = 1 separately). *)
Theorem C22_steps_monotone (n pos : Z) (x x' y y' : f32) : (1 <= n <= 2147483647)%Z -> ok32 (ESteps (N := N) n pos) -> fle x x' = true ->
  (pos <> 1%Z \/ flt x' f1 = true \/ fle f1 x = true) ->
  eases32 (ESteps (N := N) n pos) x y -> eases32 (ESteps (N := N) n pos) x' y' -> fle y y' = true.
Proof.
  intros Hn Hv L D H H'. destruct (fle_not_nan _ _ L) as [Nx Nx'].
  destruct (C22_steps_range n pos x y Hn Hv Nx H) as [Fy _]. destruct (C22_steps_range n pos x' y' Hn Hv Nx' H') as [Fy' _].
  apply fle_spec; try (apply finite_not_nan; assumption). rewrite !fX_finite by assumption.
  pose proof (steps_mono E n pos x x' Hn Hv L D) as M. unfold steps_y in M.
  destruct (steps_is E n pos) as (c & h & s & SI). rewrite SI in M.
  destruct H as (fuel & i & A & B). destruct H' as (fuel' & i' & A' & B'). cbn [make_impl] in A, A'. rewrite SI in A, A'.
  injection A as <-. injection A' as <-. cbn [get_y] in B, B'. injection B as <-. injection B' as <-. exact M.
Qed.

(** Below 0 the value is 0 and from 1 on it is 1, whatever the number of steps. *)
Theorem C22_steps_ends (n pos : Z) (x y : f32) : eases32 (ESteps (N := N) n pos) x y ->
  (flt x f0 = true -> y = f0) /\ (fle f1 x = true -> y = f1).
Proof.
  intros (fuel & i & A & B). cbn [make_impl] in A.
  pose proof (steps_below E n pos x) as L. pose proof (steps_above E n pos x) as R. unfold steps_y in L, R.
  destruct (steps_is E n pos) as (c & h & s & SI). rewrite SI in A, L, R. injection A as <-. cbn [get_y] in B. injection B as <-. split; assumption.
Qed.

(** Seven steps with the jump at the start: just below x = 1 the value is above 1, and then falls back to 1. *)
Definition almost1 : f32 := fdy 16777215 (-24).
Theorem C22_jump_start_refuted : ok32 (ESteps (N := N) 7 1) /\ flt almost1 f1 = true /\
  exists y, eases32 (ESteps (N := N) 7 1) almost1 y /\ flt f1 (y : f32) = true.
Proof.
  split; [reflexivity|]. split; [vm_compute; reflexivity|]. eexists. split; [exists 0%nat; eexists; split; reflexivity|]. vm_compute. reflexivity.
Qed.

(** *** C23 *)
(** Every valid easing function can be built and evaluated everywhere. *)
Theorem C23_easing_total (e : easing32) (x : f32) : ok32 e -> exists y, eases32 e x y.
Proof.
  intros H. assert (TB : forall l (e' : easing32), make_impl 78 e' = Some (ITable (N := N) l) -> length l = 14%nat -> exists y, eases32 e' x y).
  { intros l e' A L. destruct (table_read E l x L) as [y B]. exists y, 78%nat, (ITable (N := N) l). split; [exact A|exact B]. }
  destruct e as [p|x1 y1 x2 y2|ps|n pos].
  - cbn [valid_easing] in H. unfold valid_predef in H. cbn [existsb] in H.
    assert (PB : forall q, In q [kEase; kEaseIn; kEaseOut; kEaseInOut] -> exists y, eases32 (EPredef (N := N) q) x y).
    { intros q Iq. pose proof (predef_checked E) as C. rewrite forallb_forall in C. specialize (C q Iq). unfold check_predef, predef_table in C.
      destruct (predef_bezier (N := N) q) as [[[[x1 y1] x2] y2]|] eqn:P; [|discriminate C].
      destruct (bezier_table (N := N) x1 y1 x2 y2 78) as [l|] eqn:Tb; [|discriminate C].
      apply (TB l).
      - cbn [make_impl]. rewrite P, Tb. cbn in Iq. destruct Iq as [<-|[<-|[<-|[<-|[]]]]]; reflexivity.
      - repeat (apply andb_prop in C; destruct C as [C _]). apply Nat.eqb_eq, C. }
    destruct (Z.eqb_spec p kLinear) as [->|]; [exists x, 0%nat, (IIdentity (N := N)); split; reflexivity|].
    destruct (Z.eqb_spec p kEase) as [->|]; [apply PB; cbn; auto|]. destruct (Z.eqb_spec p kEaseIn) as [->|]; [apply PB; cbn; auto|].
    destruct (Z.eqb_spec p kEaseOut) as [->|]; [apply PB; cbn; auto|]. destruct (Z.eqb_spec p kEaseInOut) as [->|]; [apply PB; cbn; auto|].
    destruct (Z.eqb_spec p kStepStart) as [->|]; [eexists; exists 0%nat; eexists; split; reflexivity|].
    destruct (Z.eqb_spec p kStepEnd) as [->|]; [eexists; exists 0%nat; eexists; split; reflexivity|]. discriminate H.
  - destruct (bezier_built E x1 y1 x2 y2 H) as (l & A & L). apply (TB _ _ A). cbn. rewrite L. reflexivity.
  - eexists. exists 0%nat. eexists. split; reflexivity.
  - destruct (steps_is E n pos) as (c & h & s & SI). eexists. exists 0%nat. eexists. split; [cbn [make_impl]; rewrite SI; reflexivity|reflexivity].
Qed.

(** The set-up of a Bezier curve takes at most 78 evaluations of the curve. *)
Theorem C23_bezier_setup_bounded (x1 y1 x2 y2 : f32) : ok32 (EBezier (N := N) x1 y1 x2 y2) ->
  exists i, make_impl 78 (EBezier (N := N) x1 y1 x2 y2) = Some i.
Proof. intros H. destruct (bezier_built E x1 y1 x2 y2 H) as (l & A & _). eauto. Qed.

(** It starts at 0. *)
Theorem C23_bezier_starts_at_0 (x1 y1 x2 y2 x y : f32) : ok32 (EBezier (N := N) x1 y1 x2 y2) -> fle x f0 = true ->
  eases32 (EBezier (N := N) x1 y1 x2 y2) x y -> y = f0.
Proof.
  intros H L (fuel & i & A & B). destruct (bezier_built E x1 y1 x2 y2 H) as (l & A' & _).
  apply (eases_fun N (EBezier (N := N) x1 y1 x2 y2) x); [exists fuel, i; auto|]. exists 78%nat, (ITable (N := N) (f0 :: l)). split; [exact A'|]. apply table_start, L.
Qed.

(** *** C52 *)
Definition named (p : Z) : Prop := (1 <= p <= 4)%Z. (* kEase, kEaseIn, kEaseOut, kEaseInOut *)
Lemma named_table p : named p -> exists l : list f32, make_impl 78 (EPredef (N := N) p) = Some (ITable (N := N) l) /\ length l = 14%nat /\ rising l = true /\
  (exists a, nth_error l 0 = Some a /\ feq a f0 = true) /\ (exists a, nth_error l 13 = Some a /\ fle almost1 a = true).
Proof.
  intros Hp. pose proof (predef_checked E) as C. rewrite forallb_forall in C.
  assert (Iq : In p [kEase; kEaseIn; kEaseOut; kEaseInOut]) by (unfold named in Hp; assert (p = 1 \/ p = 2 \/ p = 3 \/ p = 4)%Z as [->|[->|[->| ->]]] by lia; cbn; auto).
  specialize (C p Iq). unfold check_predef, predef_table in C.
  destruct (predef_bezier (N := N) p) as [[[[x1 y1] x2] y2]|] eqn:P; [|discriminate C].
  destruct (bezier_table (N := N) x1 y1 x2 y2 78) as [l|] eqn:Tb; [|discriminate C].
  apply andb_prop in C. destruct C as [C C4]. apply andb_prop in C. destruct C as [C C3]. apply andb_prop in C. destruct C as [C1 C2].
  exists l. split; [|split; [apply Nat.eqb_eq, C1|split; [exact C2|split]]].
  - cbn [make_impl]. rewrite P, Tb. cbn in Iq. destruct Iq as [<-|[<-|[<-|[<-|[]]]]]; reflexivity.
  - destruct (nth_error (A := f32) l 0) as [a|]; [|discriminate C3]. eauto.
  - destruct (nth_error (A := f32) l 13) as [a|]; [|discriminate C4]. eauto.
Qed.
Lemma named_value p x y l : make_impl 78 (EPredef (N := N) p) = Some (ITable (N := N) l) -> eases32 (EPredef (N := N) p) x y -> get_y_table (N := N) l x = Some y.
Proof.
  intros A (fuel & i & B & C). apply (make_fuel N _ 78) in B. apply (make_fuel N _ fuel) in A. rewrite Nat.add_comm in A. rewrite A in B. injection B as <-. exact C.
Qed.
Theorem C52_named_curves_monotone (p : Z) (x x' y y' : f32) : named p -> fle x x' = true ->
  eases32 (EPredef (N := N) p) x y -> eases32 (EPredef (N := N) p) x' y' -> fle y y' = true.
Proof.
  intros Hp L H H'. destruct (named_table p Hp) as (l & A & L1 & R & _). destruct (fle_not_nan _ _ L) as [Nx Nx'].
  pose proof (named_value p x y l A H) as G. pose proof (named_value p x' y' l A H') as G'.
  destruct (table_value E l x y L1 R Nx G) as (F & _). destruct (table_value E l x' y' L1 R Nx' G') as (F' & _).
  apply fle_spec; try (apply finite_not_nan; assumption). rewrite !fX_finite by assumption. exact (table_mono E l x x' y y' L1 R L G G').
Qed.
Theorem C52_named_curves_in_unit (p : Z) (x y : f32) : named p -> is_nan x = false -> eases32 (EPredef (N := N) p) x y ->
  fle f0 y = true /\ fle y f1 = true /\ (fle x f0 = true -> feq y f0 = true) /\ (fle f1 x = true -> fle almost1 y = true).
Proof.
  intros Hp Nx H. destruct (named_table p Hp) as (l & A & L1 & R & (a & A0 & A1) & (b & B0 & B1)).
  pose proof (named_value p x y l A H) as G. destruct (table_value E l x y L1 R Nx G) as (F & V & C).
  pose proof (finite_not_nan _ F) as Ny. pose proof (finite_not_nan _ f1_finite) as N1.
  split; [apply fle_spec; [reflexivity|exact Ny|]; rewrite (fX_finite y) by exact F; change (fX f0) with 0; apply V|].
  split; [apply fle_spec; [exact Ny|exact N1|]; rewrite (fX_finite y) by exact F; rewrite (fX_finite f1), f1_R by apply f1_finite; apply V|].
  split; intros Q.
  - destruct C as [(_ & C)|[(C & _)|(C & _)]]; congruence.
  - destruct C as [(C & _)|[(_ & _ & C)|(_ & C)]]; try congruence.
    exfalso. apply fle_spec in Q; [|exact N1|exact Nx]. apply fle_spec in C; [|exact Nx|reflexivity]. rewrite (fX_finite f1), f1_R in Q by apply f1_finite. change (fX f0) with 0 in C. lra.
Qed.
(** kEase does not reach 1 at x = 1 (nor do kEaseOut and kEaseInOut). *)
Definition ends_short (p : Z) : bool :=
  match predef_table E p with Some l => match nth_error l 13 with Some a => flt a f1 | None => false end | None => false end.
Lemma short_checked : forallb ends_short [1; 3; 4]%Z = true.
Proof. vm_compute. reflexivity. Qed.
Lemma impl_table p l : make_impl 78 (EPredef (N := N) p) = Some (ITable (N := N) l) -> predef_table E p = Some l.
Proof.
  cbn [make_impl]. unfold predef_table. intros A. destruct (Z.eqb p kLinear); [discriminate A|].
  destruct (Z.eqb p kStepEnd); [destruct (steps_is E 1 kJumpEnd) as (c & h & s & SI); rewrite SI in A; discriminate A|].
  destruct (Z.eqb p kStepStart); [destruct (steps_is E 1 kJumpStart) as (c & h & s & SI); rewrite SI in A; discriminate A|].
  destruct (predef_bezier (N := N) p) as [[[[x1 y1] x2] y2]|]; [|discriminate A].
  destruct (bezier_table (N := N) x1 y1 x2 y2 78) as [l'|]; [|discriminate A]. injection A as ->. reflexivity.
Qed.
Lemma f1_f0 : fle f1 f0 = false /\ fle f1 f1 = true. Proof. split; vm_compute; reflexivity. Qed.
Theorem C52_named_curve_end_refuted (p : Z) : p = 1%Z \/ p = 3%Z \/ p = 4%Z ->
  exists y, eases32 (EPredef (N := N) p) f1 y /\ flt (y : f32) f1 = true.
Proof.
  intros Hp. assert (Np : named p) by (unfold named; lia). destruct (named_table p Np) as (l & A & L1 & R & _).
  pose proof short_checked as C. rewrite forallb_forall in C. specialize (C p ltac:(cbn; lia)). unfold ends_short in C.
  pose proof (impl_table p l A) as PT.
  rewrite PT in C. destruct (table_read E l f1 L1) as [y G]. destruct f1_f0 as [Q0 Q1].
  exists y. split; [exists 78%nat, (ITable (N := N) l); split; [exact A|exact G]|].
  destruct (table_value E l f1 y L1 R (finite_not_nan _ f1_finite) G) as (_ & _ & [(K & _)|[(_ & _ & K)|(_ & K)]]); try congruence.
  rewrite K in C. exact C.
Qed.
End Props.

(** *** Exact arithmetic *)
(** The curve is the piecewise linear one through (0,0), the given points and (1,1), extended beyond. *)
Theorem C21_exact_curve (pts : list (R * R)) (x : R) : Forall (fun p => 0 <= fst p <= 1) pts -> ordered_points pts ->
  exists y, eases (N := xnum) (ELinear (N := xnum) (fin_points pts)) (Fin x) (Fin y) /\ curve pts x y.
Proof. exact (linear_exact pts x). Qed.

Theorem C22_steps_exact (n pos : Z) (x : R) : (1 <= n)%Z -> valid_easing (N := xnum) (ESteps (N := xnum) n pos) = true ->
  (x < 0 -> eases (N := xnum) (ESteps (N := xnum) n pos) (Fin x) (Fin 0)) /\
  (1 <= x -> eases (N := xnum) (ESteps (N := xnum) n pos) (Fin x) (Fin 1)) /\
  (forall k, (0 <= k < n)%Z -> IZR k / IZR n <= x < IZR (k + 1) / IZR n ->
     eases (N := xnum) (ESteps (N := xnum) n pos) (Fin x) (Fin (stair pos (IZR n) (IZR k)))).
Proof. exact (steps_exact n pos x). Qed.

(** Grid values on chords of the true curve, joined by straight lines; ends at (0,0) and (1,1). *)
Theorem C23_bezier_exact (x1 y1 x2 y2 : R) : 0 <= x1 <= 1 -> 0 <= x2 <= 1 ->
  exists g : nat -> R, g 0%nat = 0 /\ g 13%nat = 1 /\
    (forall j, (j <= 13)%nat -> near_bezier x1 y1 x2 y2 (INR j / 13) (g j)) /\
    forall x, let e := EBezier (N := xnum) (Fin x1) (Fin y1) (Fin x2) (Fin y2) in
      (x <= 0 -> eases (N := xnum) e (Fin x) (Fin 0)) /\
      (1 <= x -> eases (N := xnum) e (Fin x) (Fin 1)) /\
      (forall j, (j < 13)%nat -> INR j / 13 <= x < INR (S j) / 13 ->
         eases (N := xnum) e (Fin x) (Fin (g j + (g (S j) - g j) * (13 * x - INR j)))).
Proof. exact (bezier_exact x1 y1 x2 y2). Qed.

Print Assumptions C21_points_on_curve.
Print Assumptions C21_redundant_points.
Print Assumptions C21_huge_points_refuted.
Print Assumptions C21_exact_curve.
Print Assumptions C22_steps_range.
Print Assumptions C22_steps_monotone.
Print Assumptions C22_steps_ends.
Print Assumptions C22_jump_start_refuted.
Print Assumptions C22_steps_exact.
Print Assumptions C23_easing_total.
Print Assumptions C23_bezier_setup_bounded.
Print Assumptions C23_bezier_starts_at_0.
Print Assumptions C23_bezier_exact.
Print Assumptions C52_named_curves_monotone.
Print Assumptions C52_named_curves_in_unit.
Print Assumptions C52_named_curve_end_refuted.

(** *** Concrete cases meeting the hypotheses *)
Definition E0 : elem := Build_elem (fun x => x) (fun x => x) (fun x => x) (fun x => x) (fun x => x) (fun x _ => x) (fun x _ => x) (fun x _ => x).
Local Notation N0 := (fnum E0).
Definition q14 : f32 := fdy 1 (-2). Definition q34 : f32 := fdy 3 (-2). Definition half32 : f32 := fdy 1 (-1).
(** a vertical jump at 1/4 with a middle point, given twice *)
Example ex_points : valid_easing (N := N0) (ELinear (N := N0) ([(q14, q34); (q14, half32)] ++ (q14, q14) :: [(q34, f1)])) = true
  /\ Forall (fun q : f32 * f32 => flt q14 (fst q) = true) [(q34, f1)].
Proof. split; [vm_compute; reflexivity|]. repeat constructor. Qed.
Example ex_redundant : redundant ([] ++ (q14, q34) :: (q14, half32) :: (q14, q14) :: [(q34, f1)]) ([] ++ (q14, q34) :: (q14, q14) :: [(q34, f1)]).
Proof. apply red_middle; vm_compute; reflexivity. Qed.
(** the middle value read back between two steps *)
Example ex_points_value : match make_impl (N := N0) 0 (ELinear (N := N0) [(q14, q34); (q14, half32); (q14, q14); (q34, q34)]) with
  | Some i => match get_y (N := N0) i half32 with Some y => feq y half32 | None => false end | None => false end = true.
Proof. vm_compute. reflexivity. Qed.
Example ex_steps : valid_easing (N := N0) (ESteps (N := N0) 4 2) = true /\ fle q14 half32 = true.
Proof. split; vm_compute; reflexivity. Qed.
Example ex_steps_value : match make_impl (N := N0) 0 (ESteps (N := N0) 4 3) with
  | Some i => match get_y (N := N0) i half32 with Some y => flt half32 y && flt y q34 | None => false end | None => false end = true.
Proof. vm_compute. reflexivity. Qed.
Example ex_bezier : valid_easing (N := N0) (EBezier (N := N0) f1 (fZ (-3)) f0 (fZ 5)) = true.
Proof. vm_compute. reflexivity. Qed.
Example ex_named : named kEaseInOut /\ fle q14 half32 = true.
Proof. split; [unfold named, kEaseInOut; lia|vm_compute; reflexivity]. Qed.
Example ex_exact : Forall (fun p : R * R => 0 <= fst p <= 1) [(1/4, 3); (1/4, -2); (1/2, 0)] /\ ordered_points [(1/4, 3); (1/4, -2); (1/2, 0)].
Proof. split; [repeat constructor; cbn; lra|cbn; lra]. Qed.
