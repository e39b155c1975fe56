(** Emission of particles in exact arithmetic. *)
From Coq Require Import ZArith Reals Bool Lia Lra List.
From Flocq Require Import Core.
From Verif Require Import NumModel NumLaws EasingModel EasingExact BehaviorModel BehaviorSpec BehaviorTree BehaviorRun BehaviorExact BehaviorOrder TipModel TipSpec TipRun TipOrder TipFinal TipSettled TipStable TipAhead TipIdle TipParticleSpec.
Import ListNotations.
Local Open Scope R_scope.
Local Notation N := xnum.
Local Notation F := (T xnum).
Local Notation input := (modeled_input xnum).

Lemma nmin_fin t y : nmin (N := N) (Fin t) (Fin y) = Fin (if Rlt_bool y t then y else t).
Proof. unfold nmin. cbn. destruct (Rlt_bool y t); reflexivity. Qed.
(** the largest ratio not exceeding [t] with ratio * b <= d *)
Lemma ratio_d t b d : 0 <= t <= 1 -> 0 <= b -> 0 <= d -> exists r, nmin (N := N) (Fin t) (xdiv (Fin d) (Fin b)) = Fin r /\ 0 <= r <= t /\ r * b <= d /\ (r = t \/ r * b = d).
Proof.
  intros T1 B D. cbn [xdiv]. destruct (Req_bool_spec b 0) as [->|Hb].
  - exists t. split; [destruct (Req_bool_spec d 0); [reflexivity|]; rewrite Rlt_bool_false by lra; reflexivity|]. rewrite Rmult_0_r. lra.
  - rewrite nmin_fin. assert (Q : d / b * b = d) by (field; exact Hb). assert (0 <= d / b) by (apply Rmult_le_pos; [lra|apply Rlt_le, Rinv_0_lt_compat; lra]).
    destruct (Rlt_bool_spec (d / b) t); eexists; (split; [reflexivity|]); [lra|]. split; [lra|]. split; [|left; reflexivity]. rewrite <- Q. apply Rmult_le_compat_r; lra.
Qed.
Lemma ratio_t t b d : 0 <= t <= 1 -> 0 <= b -> 0 <= d -> exists r, nmin (N := N) (Fin t) (dur_ratio (N := N) (Fin d) (Fin b)) = Fin r /\ 0 <= r <= t /\ r * b <= d /\ (r = t \/ r * b = d).
Proof.
  intros T1 B D. unfold dur_ratio. rewrite x0. cbn [neqb nle nfin N xnum negb xeq]. destruct (Req_bool_spec b 0) as [->|Hb].
  - rewrite (proj2 (xle_fin 0 d)) by lra. exists t. split; [reflexivity|]. rewrite Rmult_0_r. lra.
  - destruct (ratio_d t b d T1 B D) as (r & E & Q). exists r. split; [exact E|exact Q].
Qed.

Lemma last_cons {A} (l : list A) : forall x a, last (x :: l) a = last l x.
Proof. induction l as [|y l IH]; intros x a; [reflexivity|]. change (last (x :: y :: l) a) with (last (y :: l) a). rewrite (IH y a), (IH y x). reflexivity. Qed.
Section Particles.
Variables (fuel0 : nat) (t : brush_tip N) (sz g h : R) (m0 : tip_modeler N).
Hypothesis Hs : start_stroke (N := N) fuel0 t (Fin sz) = Some m0.
Hypothesis Vt : valid_tip t = true.
Hypothesis Hg : m_traveled (gap m0) = Fin g.
Hypothesis Hh : m_elapsed (gap m0) = Fin h.
Hypothesis Hg0 : 0 <= g.
Hypothesis Hh0 : 0 <= h.
Hypothesis Hp : 0 < g \/ 0 < h.
Lemma not_continuous : continuous m0 = false.
Proof. unfold continuous. rewrite Hg, Hh, x0. cbn. destruct (Req_bool_spec g 0), (Req_bool_spec h 0); try reflexivity. lra. Qed.

Definition due (a i : input) : bool := particle_due m0 i (metrics_of a).
Lemma due_iff a i da ea di ei : measured a da ea -> measured i di ei -> due a i = true <-> da + g <= di /\ ea + h <= ei.
Proof.
  intros [A1 A2] [I1 I2]. unfold due, particle_due, metrics_of. cbn [m_traveled m_elapsed]. rewrite A1, A2, I1, I2, Hg, Hh. unfold dur_sub. cbn [nfin N xnum negb nle nsub]. unfold xsub. cbn [xopp xadd].
  rewrite andb_true_iff, !xle_fin. split; intros [? ?]; split; lra.
Qed.
Lemma point a p i : (exists da ea, measured a da ea) -> advances p i -> due a i = true ->
  let x := lerp_input (N := N) i p (particle_ratio m0 i p (metrics_of a)) in
  gap_after g h a x /\ on_the_way g h p i a x /\ exists dx ex, measured x dx ex.
Proof.
  intros (da & ea & Ma) (dp & ep & di & ei & Mp & Mi & Ad & Ae) Du x. pose proof Du as Du'. apply (due_iff a i da ea di ei Ma Mi) in Du. destruct Du as [Du1 Du2].
  assert (R : exists r, particle_ratio m0 i p (metrics_of a) = Fin r /\ 0 <= r <= 1 /\ (g = 0 \/ r * (di - dp) <= di - da - g) /\ (h = 0 \/ r * (ei - ep) <= ei - ea - h) /\
     (r = 1 \/ (g <> 0 /\ r * (di - dp) = di - da - g) \/ (h <> 0 /\ r * (ei - ep) = ei - ea - h))).
  { destruct Ma as [A1 A2], Mp as [P1 P2], Mi as [I1 I2]. unfold particle_ratio, metrics_of. cbn [m_traveled m_elapsed]. rewrite A1, A2, P1, P2, I1, I2, Hg, Hh, x0, x1e.
    unfold dur_sub. cbn [nfin N xnum negb neqb xeq nsub ndiv]. unfold xsub. cbn [xopp xadd nfin N xnum negb].
    assert (T1 : exists r, (if negb (Req_bool g 0) then nmin (N := N) (Fin 1) (xdiv (Fin (di + - da + - g)) (Fin (di + - dp))) else Fin 1) = Fin r /\ 0 <= r <= 1 /\ (g = 0 \/ r * (di - dp) <= di - da - g) /\ (r = 1 \/ (g <> 0 /\ r * (di - dp) = di - da - g))).
    { destruct (Req_bool_spec g 0) as [G|G]; cbn [negb]; [exists 1; split; [reflexivity|]; split; [lra|auto]|].
      destruct (ratio_d 1 (di + - dp) (di + - da + - g)) as (r & E & R1 & R2 & R3); try lra. exists r. split; [exact E|]. split; [lra|].
      replace (di + - dp) with (di - dp) in * by ring. replace (di + - da + - g) with (di - da - g) in * by ring. split; [right; lra|]. destruct R3; [left; assumption|right; auto]. }
    destruct T1 as (r1 & -> & R1 & R2 & R3).
    destruct (Req_bool_spec h 0) as [H|H]; cbn [negb]; [exists r1; split; [reflexivity|]; split; [exact R1|]; split; [exact R2|]; split; [left; exact H|]; destruct R3 as [R3|R3]; auto|].
    destruct (ratio_t r1 (ei + - ep) (ei + - ea + - h)) as (r & E & Q1 & Q2 & Q3); try lra. exists r. split; [exact E|]. split; [lra|].
    replace (ei + - ep) with (ei - ep) in * by ring. replace (ei + - ea + - h) with (ei - ea - h) in * by ring.
    split; [destruct R2 as [R2|R2]; [left; exact R2|right]; apply Rle_trans with (r1 * (di - dp)); [apply Rmult_le_compat_r; lra|exact R2]|].
    split; [right; exact Q2|]. destruct Q3 as [->|Q3]; [|right; right; auto]. destruct R3 as [R3|R3]; auto. }
  destruct R as (r & Er & R1 & R2 & R3 & R4).
  assert (Mx : exists ex, measured x (di + (dp - di) * r) ex /\ ei + (ep - ei) * r <= ex).
  { unfold x. rewrite Er. destruct Mp as [P1 P2], Mi as [I1 I2]. unfold measured. cbn [lerp_input traveled elapsed]. rewrite P1, P2, I1, I2. unfold to_millis. rewrite xZ. unfold lerp.
    cbn [nmul nadd nsub N xnum]. unfold xsub. cbn [xmul xopp xadd]. rewrite millis_x. eexists. split; [split; reflexivity|].
    assert (0 <= ei + (ep - ei) * r) by nra. lra. }
  destruct Mx as (ex & Mx & Lx). split; [|split; [|eauto]].
  - exists da, ea, (di + (dp - di) * r), ex. split; [exact Ma|]. split; [exact Mx|]. split; [destruct R2 as [R2|R2]; [left; exact R2|right; lra]|destruct R3 as [R3|R3]; [left; exact R3|right; lra]].
  - exists r, da, ea, di, ei, dp, ep. split; [exact R1|]. split; [exact Ma|]. split; [exact Mi|]. split; [exact Mp|]. split; [unfold x; rewrite Er; reflexivity|].
    destruct R4 as [R4|[[R4 R5]|[R4 R5]]]; [left; exact R4|right; left; split; [exact R4|lra]|right; right; split; [exact R4|lra]].
Qed.
Lemma state_here x dir st prev w w' : add_new_tip_state m0 st x dir prev w = Some w' ->
  exists s, state_at t sz x s /\ w_saved w' = w_saved w ++ [s] /\ w_last w' = Some (metrics_of x).
Proof.
  unfold add_new_tip_state. destruct (process_nodes _ _ _) as [k|]; [|discriminate]. intros [= <-]. eexists. split; [|split; reflexivity].
  destruct (behaviors_documented xlaws _ (Vb t Vt)) as (D & rs & Ls & Fr).
  destruct (started fuel0 t (Fin sz) m0 rs Hs D Ls Fr) as (n & _ & _ & _ & E1 & E2 & _). rewrite E1, E2.
  eexists _, _. split; [reflexivity|]. apply Forall_forall. intros [a v] Ha. apply in_combine_l in Ha. destruct (start_facts _ _ _ _ Hs) as (_ & FT & _). destruct (FT a Ha) as (lo & hi & HI). exists a, lo, hi. auto.
Qed.
Lemma emit_segment st p i dir : advances p i -> forall fuel a w w', (exists da ea, measured a da ea) -> w_last w = Some (metrics_of a) ->
  emit_particles fuel m0 st i p dir w = Some w' ->
  exists pts ss, segment g h p i a pts /\ Forall2 (state_at t sz) pts ss /\ w_saved w' = w_saved w ++ with_gaps ss /\ w_last w' = Some (metrics_of (last pts a)) /\
    exists d e, measured (last pts a) d e.
Proof.
  intros Adv. induction fuel as [|fuel IH]; intros a w w' Ma Lw H; cbn [emit_particles] in H; rewrite Lw in H; fold (due a i) in H.
  all: destruct (due a i) eqn:Du; [try discriminate|].
  1, 3: injection H as <-; exists [], []; split; [|split; [constructor|split; [cbn; rewrite app_nil_r; reflexivity|split; [exact Lw|exact Ma]]]]; cbn [segment];
    destruct Ma as (da & ea & Ma); destruct Adv as (dp & ep & di & ei & _ & Mi & _); exists da, ea, di, ei; split; [exact Ma|]; split; [exact Mi|];
    (destruct (Rlt_le_dec di (da + g)); [left; assumption|]); (destruct (Rlt_le_dec ei (ea + h)); [right; assumption|]);
    exfalso; rewrite (proj2 (due_iff a i da ea di ei Ma Mi)) in Du by (split; assumption); discriminate Du.
  destruct (point a p i Ma Adv Du) as (G & O & Mx). set (x := lerp_input (N := N) i p (particle_ratio m0 i p (metrics_of a))) in *.
  destruct (add_new_tip_state m0 st x dir (Some (metrics_of a)) w) as [w1|] eqn:E; [|discriminate].
  destruct (state_here _ _ _ _ _ _ E) as (s & S1 & S2 & S3).
  destruct (IH x (append_gap w1) w' Mx S3 H) as (pts & ss & I1 & I2 & I3 & I4 & I5).
  exists (x :: pts), (s :: ss). split; [cbn [segment]; auto|]. split; [constructor; assumption|]. split.
  - rewrite I3. unfold append_gap. cbn [w_saved]. rewrite S2. unfold with_gaps. cbn [flat_map app]. rewrite <- !app_assoc. reflexivity.
  - rewrite last_cons. auto.
Qed.
Lemma nth_app_mid {A} (l r : list A) x : nth_error (l ++ x :: r) (length l) = Some x.
Proof. induction l; auto. Qed.
(** the loop over the inputs after [pre ++ [p]] *)
Lemma progress_cons p i r : progressing (p :: i :: r) -> advances p i /\ progressing (i :: r). Proof. cbn. auto. Qed.
Lemma loop_strewn fuel st all : forall rest pr p a w w', all = pr ++ p :: rest -> progressing (p :: rest) -> (exists da ea, measured a da ea) -> w_last w = Some (metrics_of a) ->
  volatile_loop fuel m0 st all (length rest) (S (length pr)) (Some p) w = Some w' ->
  exists pts ss, strewn g h p a rest pts /\ Forall2 (state_at t sz) pts ss /\ w_saved w' = w_saved w ++ with_gaps ss.
Proof.
  induction rest as [|i rest IH]; intros pr p a w w' EA Pr Ma Lw H; cbn [length volatile_loop] in H.
  { injection H as <-. exists [], []. split; [reflexivity|]. split; [constructor|]. cbn. rewrite app_nil_r. reflexivity. }
  assert (EA2 : all = (pr ++ [p]) ++ i :: rest) by (rewrite <- app_assoc; exact EA).
  assert (En : nth_error all (S (length pr)) = Some i) by (rewrite EA2; replace (S (length pr)) with (length (pr ++ [p])) by (rewrite app_length; cbn; lia); apply nth_app_mid).
  rewrite En in H. destruct (travel_direction all (S (length pr))) as [dir|]; [|discriminate].
  destruct (process_single_input fuel m0 st i dir (Some p) w) as [w1|] eqn:E; [|discriminate].
  unfold process_single_input in E. rewrite not_continuous, Lw in E. cbn [orb] in E.
  destruct (progress_cons _ _ _ Pr) as [Adv Pr'].
  destruct (emit_segment st p i dir Adv fuel a w w1 Ma Lw E) as (q & ss & Q1 & Q2 & Q3 & Q4 & Q5).
  replace (S (S (length pr))) with (S (length (pr ++ [p]))) in H by (rewrite app_length; cbn; lia).
  destruct (IH (pr ++ [p]) i (last q a) w1 w' EA2 Pr' Q5 Q4 H) as (pts & s2 & P1 & P2 & P3).
  exists (q ++ pts), (ss ++ s2). split; [cbn [strewn]; exists q, pts; auto|]. split; [apply Forall2_app; assumption|].
  rewrite P3, Q3. unfold with_gaps. rewrite flat_map_app, <- app_assoc. reflexivity.
Qed.
Lemma bare0 : next_fixed m0 = 0%nat /\ last_fixed m0 = None /\ bstack m0 = [].
Proof. exact (start_bare xlaws fuel0 t (Fin sz) m0 Hs (Vb t Vt)). Qed.
Lemma scratch_run fuel st inputs f v : (st_stable st <= length inputs)%nat -> outputs fuel m0 [(st, inputs)] = Some [(f, v)] ->
  exists w, run m0 fuel st inputs (length inputs) = Some w /\ w_saved w = f ++ v.
Proof.
  intros OS H. cbn [outputs] in H. destruct (update_stroke fuel m0 st inputs) as [m'|] eqn:U; [|discriminate]. injection H as <- <-. destruct bare0 as (B1 & B2 & B3).
  destruct (update_run m0 B1 (keeps_stack xlaws fuel0 t (Fin sz) m0 Hs (Vb t Vt)) fuel (fun st inputs => (st_stable st <= length inputs)%nat) (fun _ _ _ => True)
    (fun _ _ H => H) (fun _ _ _ _ _ _ _ => Logic.I) m0 st inputs [] m' OS (inv0 m0 B1 B2 B3 fuel (fun _ _ _ => True) st inputs) U) as (_ & w & R & Sv).
  exists w. auto.
Qed.
Theorem particles fuel st i0 inputs f v : progressing (i0 :: inputs) -> (st_stable st <= length (i0 :: inputs))%nat ->
  outputs fuel m0 [(st, i0 :: inputs)] = Some [(f, v)] ->
  exists pts ss, f ++ v = with_gaps ss /\ Forall2 (state_at t sz) (i0 :: pts) ss /\ strewn g h i0 i0 inputs pts.
Proof.
  intros Pr OS H. destruct (scratch_run fuel st _ f v OS H) as (w & R & Sv). rewrite <- Sv. unfold run in R. cbn [length volatile_loop nth_error] in R.
  destruct (travel_direction (i0 :: inputs) 0) as [dir|]; [|discriminate]. unfold process_single_input in R. rewrite not_continuous in R. cbn [orb fresh w_last negb prev_at option_map] in R.
  destruct (add_new_tip_state m0 st i0 dir None (fresh m0)) as [w1|] eqn:E; [|discriminate].
  destruct (state_here _ _ _ _ _ _ E) as (s & S1 & S2 & S3).
  assert (M0 : exists d e, measured i0 d e) by (destruct inputs; [destruct Pr as (d & e & M & _); eauto|destruct Pr as [(dp & ep & _ & _ & M & _) _]; eauto]).
  destruct (loop_strewn fuel st (i0 :: inputs) inputs [] i0 i0 (append_gap w1) w eq_refl Pr M0 S3 R) as (pts & ss & P1 & P2 & P3).
  exists pts, (s :: ss). split; [|split; [constructor; assumption|exact P1]]. rewrite P3. unfold append_gap. cbn [w_saved]. rewrite S2. reflexivity.
Qed.

(** *** the number of particles is bounded, and the loop ends *)
Definition good (k : machine N) : Prop := exists rs dm, represents (nodes m0) k rs dm.
Lemma add_total st x dir prev w : good (w_machine w) -> exists w', add_new_tip_state m0 st x dir (Some prev) w = Some w' /\ good (w_machine w') /\ w_last w' = Some (metrics_of x).
Proof.
  intros (rs & dm & Rp). unfold add_new_tip_state.
  match goal with |- context [process_nodes ?c _ _] => destruct (rep_step xlaws xreads c _ _ _ _ Rp) as (k' & rs' & dm' & PN & _ & Rp') end; [intros Q; discriminate Q|].
  rewrite PN. eexists. split; [reflexivity|]. split; [exists rs', dm'; exact Rp'|reflexivity].
Qed.
Section Mode.
Variables (md : bool) (d0 e0 dmax emax : R).
Definition passed (da ea : R) : Prop := if md then 0 < g /\ d0 <= da else 0 < h /\ e0 <= ea.
Definition enough (k : nat) (d e da ea : R) : Prop := if md then d - da < INR k * g else e - ea < INR k * h.
Lemma measured_fun (a : input) d e d' e' : measured a d e -> measured a d' e' -> d' = d /\ e' = e.
Proof. intros [X1 X2] [Y1 Y2]. rewrite X1 in Y1. rewrite X2 in Y2. injection Y1 as <-. injection Y2 as <-. auto. Qed.
Lemma emit_total st p i dir : advances p i -> forall di ei, measured i di ei -> forall fuel a w da ea, measured a da ea -> w_last w = Some (metrics_of a) -> good (w_machine w) ->
  passed da ea -> enough fuel di ei da ea ->
  exists w' a', emit_particles fuel m0 st i p dir w = Some w' /\ good (w_machine w') /\ w_last w' = Some (metrics_of a') /\ exists da' ea', measured a' da' ea' /\ passed da' ea'.
Proof.
  intros Adv di ei Mi. induction fuel as [|fuel IH]; intros a w da ea Ma Lw Gd Ps En; cbn [emit_particles]; rewrite Lw; fold (due a i).
  all: destruct (due a i) eqn:Du; [|exists w, a; split; [reflexivity|]; split; [exact Gd|]; split; [exact Lw|]; exists da, ea; auto].
  - exfalso. apply (due_iff a i da ea di ei Ma Mi) in Du. unfold enough in En. cbn [INR] in En. unfold passed in Ps. destruct md; lra.
  - destruct (point a p i ltac:(eauto) Adv Du) as ((da1 & ea1 & dx & ex & Ma1 & Mx & G1 & G2) & O & _). set (x := lerp_input (N := N) i p (particle_ratio m0 i p (metrics_of a))) in *.
    destruct (measured_fun _ _ _ _ _ Ma Ma1) as [-> ->].
    destruct (add_total st x dir (metrics_of a) w Gd) as (w1 & -> & Gd1 & L1).
    apply (IH x (append_gap w1) dx ex Mx L1 Gd1); unfold passed, enough in *; rewrite S_INR in En; destruct md; lra.
Qed.
Lemma progress_le p rest di ei : progressing (p :: rest) -> measured (last rest p) di ei -> forall i d e, In i (p :: rest) -> measured i d e -> d <= di /\ e <= ei.
Proof.
  revert p. induction rest as [|q rest IH]; intros p Pr Ml i d e Hi Mi.
  - destruct Hi as [<-|[]]. cbn in Ml. destruct (measured_fun _ _ _ _ _ Ml Mi) as [-> ->]. lra.
  - destruct (progress_cons _ _ _ Pr) as [(dp & ep & dq & eq & Mp & Mq & L1 & L2) Pr'].
    rewrite last_cons in Ml. destruct Hi as [<-|Hi]; [|exact (IH q Pr' Ml i d e Hi Mi)].
    destruct (measured_fun _ _ _ _ _ Mp Mi) as [-> ->]. destruct (IH q Pr' Ml q dq eq (or_introl eq_refl) Mq). lra.
Qed.
Lemma loop_total fuel st all di ei : enough fuel di ei d0 e0 -> forall rest pr p a w da ea, all = pr ++ p :: rest -> progressing (p :: rest) -> measured (last rest p) di ei ->
  measured a da ea -> passed da ea -> w_last w = Some (metrics_of a) -> good (w_machine w) ->
  volatile_loop fuel m0 st all (length rest) (S (length pr)) (Some p) w <> None.
Proof.
  intros En. induction rest as [|i rest IH]; intros pr p a w da ea EA Pr Ml Ma Ps Lw Gd; cbn [length volatile_loop]; [discriminate|].
  assert (EA2 : all = (pr ++ [p]) ++ i :: rest) by (rewrite <- app_assoc; exact EA).
  assert (En1 : nth_error all (S (length pr)) = Some i) by (rewrite EA2; replace (S (length pr)) with (length (pr ++ [p])) by (rewrite app_length; cbn; lia); apply nth_app_mid).
  rewrite En1. destruct (direction_some all (S (length pr))) as [dir ->]; [apply nth_error_Some; congruence|].
  unfold process_single_input. rewrite not_continuous, Lw. cbn [orb]. destruct (progress_cons _ _ _ Pr) as [Adv Pr'].
  assert (Mi : exists d e, measured i d e) by (destruct Adv as (? & ? & d & e & _ & M & _); eauto). destruct Mi as (d & e & Mi).
  destruct (progress_le p (i :: rest) di ei Pr Ml i d e (or_intror (or_introl eq_refl)) Mi) as [L1 L2].
  destruct (emit_total st p i dir Adv d e Mi fuel a w da ea Ma Lw Gd Ps) as (w1 & a1 & -> & G1 & W1 & da1 & ea1 & M1 & P1).
  { unfold enough, passed in *. destruct md; lra. }
  replace (S (S (length pr))) with (S (length (pr ++ [p]))) by (rewrite app_length; cbn; lia).
  rewrite last_cons in Ml. exact (IH (pr ++ [p]) i a1 w1 da1 ea1 EA2 Pr' Ml M1 P1 W1 G1).
Qed.
End Mode.
Theorem particles_end fuel st i0 inputs d0 e0 d e : progressing (i0 :: inputs) -> (st_stable st <= length (i0 :: inputs))%nat ->
  measured i0 d0 e0 -> measured (last inputs i0) d e -> (d - d0 < INR fuel * g \/ e - e0 < INR fuel * h) ->
  exists f v, outputs fuel m0 [(st, i0 :: inputs)] = Some [(f, v)].
Proof.
  intros Pr OS M0 Ml En. destruct bare0 as (B1 & B2 & B3).
  assert (ND : 0 <= d - d0 /\ 0 <= e - e0) by (destruct (progress_le i0 inputs d e Pr Ml i0 d0 e0 (or_introl eq_refl) M0); lra).
  assert (RN : run m0 fuel st (i0 :: inputs) (length (i0 :: inputs)) <> None).
  { unfold run. cbn [length volatile_loop nth_error]. destruct (direction_some (i0 :: inputs) 0) as [dir ->]; [cbn; lia|].
    unfold process_single_input. rewrite not_continuous. cbn [orb fresh w_last negb prev_at option_map].
    destruct (behaviors_documented xlaws _ (Vb t Vt)) as (D & rs & Ls & Fr).
    destruct (started fuel0 t (Fin sz) m0 rs Hs D Ls Fr) as (n & C & _ & SM & _). unfold start_machine in SM. injection SM as S1 S2 S3.
    assert (Rp : represents (nodes m0) {| stack := []; damped := fixed_damped m0; modifiers := fixed_mods m0 |} rs (repeat None n)).
    { split; [exact C|]. cbn [damped modifiers stack]. rewrite S2, S3. split; [exact (map_NaN (N := N) xlaws n)|auto]. }
    unfold add_new_tip_state. cbn [fresh w_machine w_saved].
    match goal with |- context [process_nodes ?c _ _] => destruct (rep_step xlaws xreads c _ _ _ _ Rp (bare_fresh c n)) as (k' & rs' & dm' & PN & _ & Rp') end. rewrite PN.
    match goal with |- volatile_loop _ _ _ _ _ _ _ ?w <> None => set (w1 := w) end.
    destruct En as [En|En].
    - assert (0 < g) by (pose proof (pos_INR fuel); nra).
      refine (loop_total true d0 e0 fuel st (i0 :: inputs) d e En inputs [] i0 i0 w1 d0 e0 eq_refl Pr Ml M0 _ eq_refl _); [split; lra|exists rs', dm'; exact Rp'].
    - assert (0 < h) by (pose proof (pos_INR fuel); nra).
      refine (loop_total false d0 e0 fuel st (i0 :: inputs) d e En inputs [] i0 i0 w1 d0 e0 eq_refl Pr Ml M0 _ eq_refl _); [split; lra|exists rs', dm'; exact Rp']. }
  destruct (update_some m0 B1 fuel (fun st inputs => (st_stable st <= length inputs)%nat) (fun _ _ _ => True) (fun _ _ H => H) m0 st (i0 :: inputs) [] OS (inv0 m0 B1 B2 B3 fuel (fun _ _ _ => True) st (i0 :: inputs)) RN) as [m' U].
  cbn [outputs]. rewrite U. cbn [option_map]. eauto.
Qed.
End Particles.

(** *** the number of points *)
Definition ms : R := 8589935 / 8589934592 * 1000.
Lemma lerp_upper (p i : input) r dp ep di ei : measured p dp ep -> measured i di ei -> 0 <= r <= 1 -> dp <= di -> 0 <= ep <= ei ->
  forall dx ex, measured (lerp_input (N := N) i p (Fin r)) dx ex -> dx <= di /\ ex <= ms * ei.
Proof.
  intros [P1 P2] [I1 I2] Hr L Le dx ex [M1 M2]. cbn [lerp_input traveled elapsed] in M1, M2. unfold to_millis in M2. rewrite xZ in M2. unfold lerp in M1, M2. rewrite P1, I1 in M1. rewrite P2, I2 in M2.
  cbn [nmul nadd nsub N xnum] in M1, M2. unfold xsub in M1, M2. cbn [xmul xopp xadd] in M1, M2. injection M1 as <-. rewrite millis_x in M2. injection M2 as <-. unfold ms. split; [nra|].
  assert (ei + (ep - ei) * r <= ei) by nra. assert (0 <= ei + (ep - ei) * r) by nra. nra.
Qed.
Lemma segment_count g h p i : advances p i -> 0 <= g -> 0 <= h -> forall pts a da ea di ei, measured a da ea -> measured i di ei -> da <= di -> ea <= ms * ei -> segment g h p i a pts ->
  exists db eb, measured (last pts a) db eb /\ db <= di /\ eb <= ms * ei /\ (0 < g -> INR (length pts) * g <= db - da) /\ (0 < h -> INR (length pts) * h <= eb - ea).
Proof.
  intros Adv G0 H0. induction pts as [|x pts IH]; intros a da ea di ei Ma Mi Ld Le Sg.
  - exists da, ea. cbn [last length INR]. split; [exact Ma|]. split; [exact Ld|]. split; [exact Le|]. split; intros; lra.
  - cbn [segment] in Sg. destruct Sg as ((da1 & ea1 & dx & ex & Ma1 & Mx & G1 & G2) & (r & da2 & ea2 & di2 & ei2 & dp & ep & Hr & _ & Mi2 & Mp & Ex & _) & Sg).
    destruct (measured_fun _ _ _ _ _ Ma Ma1) as [-> ->]. destruct (measured_fun _ _ _ _ _ Mi Mi2) as [-> ->].
    destruct Adv as (dp' & ep' & di' & ei' & Mp' & Mi' & A1 & A2). destruct (measured_fun _ _ _ _ _ Mp Mp') as [-> ->]. destruct (measured_fun _ _ _ _ _ Mi Mi') as [-> ->].
    rewrite Ex in Mx. destruct (lerp_upper p i r dp ep di ei Mp Mi Hr A1 A2 dx ex Mx) as [U1 U2]. rewrite <- Ex in Mx.
    destruct (IH x dx ex di ei Mx Mi U1 U2 Sg) as (db & eb & Mb & V1 & V2 & V3 & V4). exists db, eb. rewrite last_cons. cbn [length]. rewrite S_INR.
    split; [exact Mb|]. split; [exact V1|]. split; [exact V2|]. split; intros Q; [specialize (V3 Q)|specialize (V4 Q)]; lra.
Qed.
Lemma strewn_count g h : 0 <= g -> 0 <= h -> forall inputs p a pts da ea dp ep d e, progressing (p :: inputs) -> measured a da ea -> measured p dp ep -> da <= dp -> ea <= ms * ep ->
  measured (last inputs p) d e -> strewn g h p a inputs pts -> (0 < g -> INR (length pts) * g <= d - da) /\ (0 < h -> INR (length pts) * h <= ms * e - ea).
Proof.
  intros G0 H0. induction inputs as [|i inputs IH]; intros p a pts da ea dp ep d e Pr Ma Mp Ld Le Ml St; cbn [strewn] in St.
  - subst pts. cbn [last] in Ml. destruct (measured_fun _ _ _ _ _ Mp Ml) as [-> ->]. cbn [length INR]. split; intros; lra.
  - destruct St as (q & s & -> & Sg & St). destruct (progress_cons _ _ _ Pr) as [Adv Pr']. pose proof Adv as (dp' & ep' & di & ei & Mp' & Mi & A1 & A2).
    destruct (measured_fun _ _ _ _ _ Mp Mp') as [-> ->]. rewrite last_cons in Ml.
    assert (0 < ms) by (unfold ms; lra).
    destruct (segment_count g h p i Adv G0 H0 q a da ea di ei Ma Mi) as (db & eb & Mb & V1 & V2 & V3 & V4); [lra|nra|exact Sg|].
    destruct (IH i (last q a) s db eb di ei d e Pr' Mb Mi V1 V2 Ml St) as [W1 W2]. rewrite app_length, plus_INR.
    split; intros Q; [specialize (V3 Q); specialize (W1 Q)|specialize (V4 Q); specialize (W2 Q)]; lra.
Qed.
(** the gaps of a stroke *)
Lemma tip_gaps fuel0 (t : brush_tip N) sz (m0 : tip_modeler N) : start_stroke (N := N) fuel0 t (Fin sz) = Some m0 -> valid_tip t = true ->
  exists s h, particle_gap_distance_scale t = Fin s /\ particle_gap_duration t = Fin h /\ 0 <= s /\ 0 <= h /\ 0 < sz /\ m_traveled (gap m0) = Fin (s * sz) /\ m_elapsed (gap m0) = Fin h.
Proof.
  intros Hs Vt. destruct (start_facts _ _ _ _ Hs) as (_ & _ & _ & _ & _ & Ps).
  assert (Eg : gap m0 = {| m_traveled := nmul N (particle_gap_distance_scale t) (Fin sz); m_elapsed := particle_gap_duration t |}).
  { exact (proj1 (continuous_iff xlaws xorder _ _ _ _ Hs (Vb t Vt))). }
  unfold valid_tip in Vt. repeat match type of Vt with (if ?b then false else _) = true => destruct b eqn:?; [discriminate Vt|] end.
  rewrite x0 in *. repeat match goal with H : (_ || _) = false |- _ => apply orb_false_elim in H; destruct H end.
  destruct (particle_gap_distance_scale t) as [s| |] eqn:E1; try discriminate. destruct (particle_gap_duration t) as [h| |] eqn:E2; try discriminate.
  exists s, h. rewrite Eg. cbn [m_traveled m_elapsed nmul N xnum xmul nlt xlt] in *. 
  split; [reflexivity|]. split; [reflexivity|].
  repeat match goal with H : Rlt_bool ?a ?b = _ |- _ => revert H; destruct (Rlt_bool_spec a b); intros; try discriminate end.
  repeat (split; [first [assumption|reflexivity]|]). reflexivity.
Qed.
