(** Fixed tip states are final in exact arithmetic, with sources that look ahead. *)
From Coq Require Import ZArith Reals Bool Lia Lra List.
From Flocq Require Import Core.
From Verif Require Import NumModel NumLaws EasingModel EasingExact BehaviorModel BehaviorSpec BehaviorTree BehaviorRun BehaviorExact BehaviorOrder TipModel TipSpec TipRun TipOrder TipFinal TipSettled TipStable.
Import ListNotations.
Local Open Scope R_scope.
Local Notation N := xnum.
Local Notation F := (T xnum).
Local Notation input := (modeled_input xnum).

(** *** the bounds *)
Lemma xle_fin a b : xle (Fin a) (Fin b) = true <-> a <= b.
Proof. unfold xle, xlt, xeq. destruct (Rlt_bool_spec a b), (Req_bool_spec a b); cbn; split; intros; try lra; try discriminate; reflexivity. Qed.
Lemma xlt_fin_false a b : xlt (Fin a) (Fin b) = false <-> b <= a.
Proof. cbn. destruct (Rlt_bool_spec a b); split; intros; try lra; try discriminate; reflexivity. Qed.
Definition above (d b : ereal) : Prop := match d, b with Fin x, Fin y => x <= y | Fin _, Inf false => True | Inf false, Inf false => True | Inf true, Inf false => True | Inf true, Fin _ => True | _, _ => False end.
Lemma above_trans a b c : above a b -> above b c -> above a c.
Proof. destruct a as [x|[]|], b as [y|[]|], c as [z|[]|]; cbn; auto; try contradiction. lra. Qed.
Lemma above_max a b : num_ok a -> num_ok b -> a <> Inf true -> above a (nmax (N := N) a b) /\ above b (nmax (N := N) a b) /\ nmax (N := N) a b <> Inf true.
Proof.
  intros A B H. unfold nmax. cbn [nlt xnum N]. destruct a as [x|[]|], b as [y|[]|]; cbn; try contradiction; try congruence; auto; try (split; [|split]; auto; try discriminate; lra).
  destruct (Rlt_bool_spec x y); cbn; (split; [lra|split; [lra|discriminate]]).
Qed.
Lemma fold_above {A} (f : A -> option ereal) (step : ereal -> A -> ereal) :
  (forall d n, step d n = match f n with Some u => nmax (N := N) d u | None => d end) ->
  forall l d, (forall n u, In n l -> f n = Some u -> num_ok u) -> num_ok d -> d <> Inf true ->
  above d (fold_left step l d) /\ (forall n u, In n l -> f n = Some u -> above u (fold_left step l d)) /\ num_ok (fold_left step l d) /\ fold_left step l d <> Inf true.
Proof.
  intros St. induction l as [|n l IH]; intros d Hl Hd Hi; cbn [fold_left].
  - split; [destruct d as [x|[]|]; cbn; auto; try lra; try contradiction; congruence|]. split; [intros ? ? []|auto].
  - assert (D : above d (step d n) /\ (forall u, f n = Some u -> above u (step d n)) /\ num_ok (step d n) /\ step d n <> Inf true).
    { rewrite St. destruct (f n) as [u|] eqn:E.
      - pose proof (Hl n u (or_introl eq_refl) E) as Hu. destruct (above_max d u Hd Hu Hi) as (A1 & A2 & A3). split; [exact A1|]. split; [intros ? [= <-]; exact A2|]. split; [apply xmax_ok; assumption|exact A3].
      - split; [destruct d as [x|[]|]; cbn; auto; try lra; try contradiction; congruence|]. split; [discriminate|auto]. }
    destruct D as (D1 & D2 & D3 & D4). destruct (IH (step d n)) as (I1 & I2 & I3 & I4); [intros k u Hk; apply Hl; right; exact Hk|exact D3|exact D4|].
    split; [exact (above_trans _ _ _ D1 I1)|]. split; [|auto]. intros k u [<-|Hk] E; [exact (above_trans _ _ _ (D2 u E) I1)|exact (I2 k u Hk E)].
Qed.
Lemma start_bounds fuel0 (t : brush_tip N) sz (m0 : tip_modeler N) : start_stroke (N := N) fuel0 t (Fin sz) = Some m0 -> forallb (valid_behavior (N := N)) (behaviors t) = true ->
  0 < sz /\ (above (Fin 0) (distance_bound m0) /\ num_ok (distance_bound m0)) /\ (above (Fin 0) (time_bound m0) /\ num_ok (time_bound m0)) /\
  forall s o lo hi, In (SourceNode s o lo hi) (concat (behaviors t)) ->
    above (distance_upper_bound (N := N) s o lo hi (Fin sz)) (distance_bound m0) /\ above (time_upper_bound (N := N) s o lo hi) (time_bound m0).
Proof.
  intros H V. destruct (behaviors_documented xlaws _ V) as (D & _).
  assert (P : 0 < sz). { destruct (start_facts _ _ _ _ H) as (_ & _ & _ & _ & _ & Q). rewrite x0 in Q. cbn in Q. destruct (Rlt_bool_spec 0 sz); [assumption|discriminate]. }
  split; [exact P|]. unfold start_stroke in H. destruct (_ || _); [discriminate|]. rewrite append_concat in H. apply bounds_nodes in H.
  cbn [size distance_bound time_bound] in H. rewrite x0 in H. destruct H as (_ & -> & -> & _).
  assert (OKn : forall s o lo hi, In (SourceNode s o lo hi) (concat (behaviors t)) -> nfin N lo = true /\ nfin N hi = true).
  { intros s o lo hi HI. pose proof (proj1 (Forall_forall _ _) D _ HI) as X. cbn in X. destruct X as (_ & _ & _ & X1 & X2 & _). auto. }
  destruct (fold_above (fun n : node N => match n with SourceNode s o lo hi => Some (distance_upper_bound (N := N) s o lo hi (Fin sz)) | _ => None end) (dist_step (Fin sz)) ltac:(intros d []; reflexivity)
    (concat (behaviors t)) (Fin 0)) as (A1 & A2 & A3 & _); [|exact I|discriminate|].
  { intros n u HI E. destruct n; try discriminate. injection E as <-. destruct (OKn _ _ _ _ HI). apply dist_ok; eauto. }
  destruct (fold_above (fun n : node N => match n with SourceNode s o lo hi => Some (time_upper_bound (N := N) s o lo hi) | _ => None end) time_step ltac:(intros d []; reflexivity)
    (concat (behaviors t)) (Fin 0)) as (B1 & B2 & B3 & _); [|exact I|discriminate|].
  { intros n u HI E. destruct n; try discriminate. injection E as <-. destruct (OKn _ _ _ _ HI). apply time_ok; assumption. }
  split; [auto|]. split; [auto|]. intros s o lo hi HI. split; [exact (A2 _ _ HI eq_refl)|exact (B2 _ _ HI eq_refl)].
Qed.

(** *** beyond both bounds of its range, a clamped source is constant *)
Lemma saturates lo hi v : lo <> hi -> lo <= v -> hi <= v -> apply_out_of_range (N := N) kClamp (inverse_lerp (N := N) (Fin lo) (Fin hi) (Fin v)) = Fin (if Rlt_bool lo hi then 1 else 0).
Proof.
  intros D A B. unfold inverse_lerp. rewrite x0. cbn [nsub N xnum xsub xadd xopp neqb ndiv xdiv xeq T].
  rewrite Req_bool_false by lra. cbn [apply_out_of_range]. unfold nclamp. rewrite x0, x1e. cbn [nlt N xnum xlt].
  set (q := (v + - lo) / (hi + - lo)). assert (E : q * (hi - lo) = v - lo) by (unfold q; field; lra).
  destruct (Rlt_bool_spec lo hi).
  - assert (1 <= q) by nra. rewrite Rlt_bool_false by lra. destruct (Rlt_bool_spec 1 q); [reflexivity|]. f_equal. lra.
  - assert (q <= 0) by nra. destruct (Rlt_bool_spec q 0); [reflexivity|]. rewrite Rlt_bool_false by lra. f_equal. lra.
Qed.
Lemma millis_x v : dur_millis (N := N) (Fin v) = Fin (8589935 / 8589934592 * v).
Proof. unfold dur_millis. cbn [nnan N xnum nmul]. rewrite xdy. cbn [xmul]. f_equal. Qed.
Lemma millis_inf : dur_millis (N := N) (Inf false) = Inf false.
Proof. unfold dur_millis. cbn [nnan N xnum nmul]. rewrite xdy. cbn [xmul]. rewrite Req_bool_false, Rlt_bool_false by (cbn; lra). reflexivity. Qed.
Lemma upper_fin o lo hi b : above (value_upper_bound (N := N) o (Fin lo) (Fin hi)) (Fin b) -> o = kClamp /\ value_upper_bound (N := N) o (Fin lo) (Fin hi) = Fin (Rmax lo hi).
Proof.
  unfold value_upper_bound. destruct o; cbn [has_upper_bound negb]; try (cbn; contradiction). intros _. split; [reflexivity|].
  unfold nmax. cbn [nlt N xnum xlt]. destruct (Rlt_bool_spec lo hi); [rewrite Rmax_right by lra|rewrite Rmax_left by lra]; reflexivity.
Qed.
(** *** the point of a particle *)
Lemma nmin_unit t q : 0 <= t <= 1 -> match q with Fin y => 0 <= y | Inf s => s = false | Nan => True end -> exists r, nmin (N := N) (Fin t) q = Fin r /\ 0 <= r <= 1.
Proof.
  intros T1 Q. unfold nmin. cbn [nlt N xnum]. destruct q as [y|[]|]; cbn; try discriminate; try (exists t; split; [reflexivity|lra]).
  destruct (Rlt_bool_spec y t); [exists y|exists t]; (split; [reflexivity|lra]).
Qed.
Lemma ratio_unit (m : tip_modeler N) (i p : input) last ti tp ei ep g :
  traveled i = Fin ti -> traveled p = Fin tp -> elapsed i = Fin ei -> elapsed p = Fin ep -> tp <= ti -> ep <= ei -> m_elapsed (gap m) = Fin g ->
  particle_due m i last = true -> exists r, particle_ratio m i p last = Fin r /\ 0 <= r <= 1.
Proof.
  intros E1 E2 E3 E4 Lt Le Eg Du. unfold particle_due in Du. apply andb_prop in Du. destruct Du as [D1 D2]. unfold particle_ratio. rewrite E1, E2, E3, E4, Eg in *. rewrite x0, x1e.
  assert (Q1 : exists t, (if negb (neqb N (m_traveled (gap m)) (Fin 0)) then nmin (N := N) (Fin 1)
       (ndiv N (nsub N (nsub N (Fin ti) (m_traveled last)) (m_traveled (gap m))) (nsub N (Fin ti) (Fin tp))) else Fin 1) = Fin t /\ 0 <= t <= 1).
  { destruct (negb _); [|exists 1; split; [reflexivity|lra]]. apply nmin_unit; [lra|].
    cbn [nle nsub ndiv N xnum] in *. unfold xsub in *. destruct (m_traveled last) as [l|[]|], (m_traveled (gap m)) as [h|[]|]; cbn [xopp xadd negb] in *; try discriminate D1; cbn [xadd xopp negb Bool.eqb xdiv xorb]; try exact I;
      try (rewrite Rlt_bool_false by lra; reflexivity).
    apply xle_fin in D1. destruct (Req_bool_spec (ti + - tp) 0); [|apply Rmult_le_pos; [lra|]; apply Rlt_le, Rinv_0_lt_compat; lra].
    destruct (Req_bool_spec (ti + - l + - h) 0); [exact I|]. apply Rlt_bool_false. lra. }
  destruct Q1 as (t & -> & T1). destruct (negb _); [|exists t; auto]. apply nmin_unit; [exact T1|].
  unfold dur_ratio. rewrite x0. unfold dur_sub in *. cbn [nfin N xnum negb nsub] in *. unfold xsub in *.
  cbn [neqb nle N xnum] in *. destruct (m_elapsed last) as [l|[]|]; cbn [xopp xadd negb] in *; try discriminate D2.
  - apply xle_fin in D2. cbn [xeq]. destruct (Req_bool_spec (ei + - ep) 0).
    + rewrite (proj2 (xle_fin 0 _)) by lra. reflexivity.
    + cbn [ndiv N xnum xdiv]. rewrite Req_bool_false by assumption. apply Rmult_le_pos; [lra|]. apply Rlt_le, Rinv_0_lt_compat; lra.
  - cbn [xeq]. destruct (Req_bool_spec (ei + - ep) 0); [reflexivity|]. rewrite (proj2 (xle_fin 0 _)) by lra. reflexivity.
Qed.

(** *** what is fixed is far enough from the last stable input *)
Definition far (m0 : tip_modeler N) (st : input_state N) (inputs : list input) (k : nat) : Prop :=
  exists cur j last, nth_error inputs k = Some cur /\ S j = st_stable st /\ nth_error inputs j = Some last /\
    in_bounds {| m_traveled := nsub N (traveled last) (distance_bound m0); m_elapsed := dur_sub (N := N) (elapsed last) (time_bound m0) |} cur.
Lemma far_fin (m0 : tip_modeler N) (cur last : input) tc ec tl el : traveled cur = Fin tc -> elapsed cur = Fin ec -> traveled last = Fin tl -> elapsed last = Fin el ->
  num_ok (distance_bound m0) -> above (Fin 0) (distance_bound m0) -> num_ok (time_bound m0) -> above (Fin 0) (time_bound m0) ->
  in_bounds {| m_traveled := nsub N (traveled last) (distance_bound m0); m_elapsed := dur_sub (N := N) (elapsed last) (time_bound m0) |} cur <->
  exists bd bt, distance_bound m0 = Fin bd /\ time_bound m0 = Fin bt /\ 0 <= bd /\ 0 <= bt /\ tc <= tl - bd /\ ec <= el - bt.
Proof.
  intros E1 E2 E3 E4 N1 A1 N2 A2. unfold in_bounds. cbn [m_traveled m_elapsed]. rewrite E1, E2, E3, E4. unfold dur_sub. cbn [nfin N xnum negb].
  destruct (distance_bound m0) as [bd|[]|], (time_bound m0) as [bt|[]|]; try contradiction; cbn [above] in *.
  - change (nlt N (nsub N (Fin tl) (Fin bd)) (Fin tc)) with (xlt (Fin (tl + - bd)) (Fin tc)). change (nlt N (nsub N (Fin el) (Fin bt)) (Fin ec)) with (xlt (Fin (el + - bt)) (Fin ec)).
    rewrite !xlt_fin_false. split; [intros [B1 B2]; exists bd, bt; repeat split; lra|]. intros (b1 & b2 & [= <-] & [= <-] & Q). lra.
  - split; [intros [_ Q]; discriminate Q|intros (b1 & b2 & _ & Q & _); discriminate Q].
  - split; [intros [Q _]; discriminate Q|intros (b1 & b2 & Q & _); discriminate Q].
  - split; [intros [Q _]; discriminate Q|intros (b1 & b2 & Q & _); discriminate Q].
Qed.
Lemma fin_of (a : ereal) : nfin N a = true -> exists x, a = Fin x.
Proof. destruct a; try discriminate. eauto. Qed.
Lemma past_zero a b : a <= b -> nmax (N := N) n0 (nsub N (Fin a) (Fin b)) = n0 /\ nmax (N := N) n0 (dur_sub (N := N) (Fin a) (Fin b)) = n0.
Proof. intros H. apply (predicted_zero xorder); [reflexivity|reflexivity|]. apply xle_fin, H. Qed.

Section Ahead.
Variables (fuel0 : nat) (t : brush_tip N) (sz : R) (m0 : tip_modeler N).
Hypothesis Hs : start_stroke (N := N) fuel0 t (Fin sz) = Some m0.
Hypothesis Vt : valid_tip t = true.
Lemma Vb : forallb (valid_behavior (N := N)) (behaviors t) = true.
Proof. unfold valid_tip in Vt. repeat match type of Vt with (if ?c then false else _) = true => destruct c; [discriminate|] end. exact Vt. Qed.
Lemma gap_fin : exists g, m_elapsed (gap m0) = Fin g.
Proof.
  destruct (continuous_iff xlaws xorder _ _ _ _ Hs Vb) as [G _]. rewrite G. cbn [m_elapsed]. apply fin_of.
  unfold valid_tip in Vt. repeat match type of Vt with (if ?c then false else _) = true => destruct c eqn:?; [discriminate|] end.
  match goal with H : negb (nfin N (particle_gap_duration t)) || _ = false |- _ => apply orb_false_elim in H; destruct H as [H _]; apply negb_false_iff in H; exact H end.
Qed.
(** [i] is not after [cur], which is far enough from the end *)
Lemma source_ahead (st st' : input_state N) (i : input) (dir dir' : option F) s o lo hi bd bt ti ei c c' rd rd' re re' ce ce' :
  st_unit st' = st_unit st -> (dir' = dir \/ ~ of_direction s) -> documented_node (SourceNode (N := N) s o lo hi) -> In (SourceNode s o lo hi) (concat (behaviors t)) ->
  distance_bound m0 = Fin bd -> time_bound m0 = Fin bt -> 0 <= bd -> 0 <= bt ->
  traveled i = Fin ti -> elapsed i = Fin ei ->
  st_complete_traveled st = Fin c -> st_complete_traveled st' = Fin c' -> ti <= c - bd -> ti <= c' - bd ->
  st_real_distance st = Fin rd -> st_real_distance st' = Fin rd' -> ti <= rd -> ti <= rd' ->
  (~ of_state_time s \/ (st_real_elapsed st = Fin re /\ st_real_elapsed st' = Fin re' /\ ei <= re /\ ei <= re' /\
     st_complete_elapsed st = Fin ce /\ st_complete_elapsed st' = Fin ce' /\ ei <= ce - bt /\ ei <= ce' - bt)) ->
  pushed (N := N) st' i dir' (Fin sz) s o lo hi = pushed (N := N) st i dir (Fin sz) s o lo hi.
Proof.
  intros U Dir Dn Is Bd Bt B0 T0 Ei Ee C1 C2 K1 K2 R1 R2 K3 K4 Tm.
  destruct (start_bounds _ _ _ _ Hs Vb) as (P & _ & _ & Up). destruct (Up s o lo hi Is) as [Ud Ut]. rewrite Bd in Ud. rewrite Bt in Ut.
  assert (FD : finite_distinct lo hi) by (cbn in Dn; tauto). destruct FD as (Fl & Fh & Ne). apply fin_of in Fl, Fh. destruct Fl as [l ->], Fh as [h ->].
  assert (NE : l <> h) by (cbn in Ne; intros ->; rewrite Req_bool_true in Ne by reflexivity; discriminate).
  assert (Cases : ~ of_rest s \/ s = kDistanceRemainingInMultiplesOfBrushSize \/ s = kTimeSinceInputInSeconds \/ s = kTimeSinceInputInMillis) by (destruct s; cbn; auto).
  destruct Cases as [NR|[E|[E|E]]].
  - unfold pushed. assert (PD : predicted_distance st i = n0 /\ predicted_distance st' i = n0).
    { unfold predicted_distance. rewrite Ei, R1, R2. split; apply past_zero; assumption. }
    destruct Tm as [NT|(Q1 & Q2 & Q3 & Q4 & _)].
    + assert (GS : get_source_value i dir' (Fin sz) st' s = get_source_value i dir (Fin sz) st s).
      { destruct PD as [P1 P2]. clear - U Dir NR NT P1 P2. destruct s; cbn [of_rest of_state_time of_direction get_source_value] in *; try (contradiction NR; exact I); try (contradiction NT; exact I); rewrite ?U, ?P1, ?P2; try reflexivity;
        (destruct Dir as [->|Dir]; [reflexivity|contradiction Dir; exact I]). }
      rewrite GS. reflexivity.
    + rewrite (source_past st st' i dir dir'); [reflexivity|exact U|exact NR|exact Dir|exact (proj1 PD)|exact (proj2 PD)| |]; unfold predicted_time; rewrite Ee, ?Q1, ?Q2; apply past_zero; assumption.
  - subst s. unfold distance_upper_bound in Ud. unfold pushed. cbn [get_source_value]. rewrite C1, C2, Ei.
    assert (Uo : o = kClamp /\ value_upper_bound (N := N) o (Fin l) (Fin h) = Fin (Rmax l h)).
    { apply (upper_fin o l h (bd / sz)). destruct (value_upper_bound (N := N) o (Fin l) (Fin h)) as [v|[]|] eqn:Ev; cbn in Ud |- *; try exact I; try contradiction.
      - apply (Rmult_le_reg_l sz); [exact P|]. replace (sz * (bd / sz)) with bd by (field; lra). exact Ud.
      - rewrite Req_bool_false in Ud by lra. rewrite Rlt_bool_false in Ud by lra. exact Ud. }
    destruct Uo as [-> Ev]. rewrite Ev in Ud. cbn [nmul N xnum xmul above] in Ud.
    assert (X : forall z, ti <= z - bd -> apply_out_of_range (N := N) kClamp (inverse_lerp (N := N) (Fin l) (Fin h) (ndiv N (nsub N (Fin z) (Fin ti)) (Fin sz))) = Fin (if Rlt_bool l h then 1 else 0)).
    { intros z Hz. cbn [nsub N xnum xsub xadd xopp ndiv xdiv]. rewrite Req_bool_false by lra.
      assert (M : Rmax l h <= (z + - ti) / sz). { apply (Rmult_le_reg_l sz); [exact P|]. replace (sz * ((z + - ti) / sz)) with (z - ti) by (field; lra). lra. }
      pose proof (Rmax_l l h). pose proof (Rmax_r l h). apply saturates; lra. }
    rewrite (X c K1), (X c' K2). reflexivity.
  - subst s. destruct Tm as [NT|(_ & _ & _ & _ & Q1 & Q2 & Q3 & Q4)]; [contradiction NT; exact I|]. unfold time_upper_bound, dur_seconds in Ut. unfold pushed. cbn [get_source_value]. unfold time_since_input, dur_sub. rewrite Ee, Q1, Q2.
    cbn [nfin N xnum negb nsub xsub xadd xopp].
    assert (Uo : o = kClamp /\ value_upper_bound (N := N) o (Fin l) (Fin h) = Fin (Rmax l h)).
    { apply (upper_fin o l h bt). destruct (value_upper_bound (N := N) o (Fin l) (Fin h)) as [v|[]|] eqn:Ev; cbn in Ut |- *; try exact I; try contradiction. exact Ut. }
    destruct Uo as [-> Ev]. rewrite Ev in Ut. cbn [nnan N xnum above] in Ut. pose proof (Rmax_l l h). pose proof (Rmax_r l h).
    rewrite !saturates by lra. reflexivity.
  - subst s. destruct Tm as [NT|(_ & _ & _ & _ & Q1 & Q2 & Q3 & Q4)]; [contradiction NT; exact I|]. unfold time_upper_bound in Ut. unfold pushed. cbn [get_source_value]. unfold time_since_input, dur_sub, to_millis. rewrite Ee, Q1, Q2, xZ.
    cbn [nfin N xnum negb nsub xsub xadd xopp nmul xmul].
    assert (Uo : o = kClamp /\ value_upper_bound (N := N) o (Fin l) (Fin h) = Fin (Rmax l h)).
    { apply (upper_fin o l h (bt * 1000)). destruct (value_upper_bound (N := N) o (Fin l) (Fin h)) as [v|[]|] eqn:Ev; try exact I.
      - rewrite millis_x in Ut. cbn [above] in *. destruct (Rle_or_lt v 0); lra.
      - rewrite millis_inf in Ut. exact Ut.
      - exact Ut. }
    destruct Uo as [-> Ev]. rewrite Ev, millis_x in Ut. cbn [above] in Ut.
    pose proof (Rmax_l l h). pose proof (Rmax_r l h).
    assert (M : Rmax l h <= 1000 * bt) by (destruct (Rle_or_lt (Rmax l h) 0); lra).
    rewrite !saturates by lra. reflexivity.
Qed.
Theorem ahead_replay fuel us os : direction_safe t -> (no_particles t \/ ~ uses_source t of_state_time) ->
  stroke_updates us -> outputs fuel m0 us = Some os -> replays fuel m0 [] us os.
Proof.
  intros Ds P. destruct (continuous_iff xlaws xorder _ _ _ _ Hs Vb) as [_ Cn].
  destruct (start_bounds _ _ _ _ Hs Vb) as (Psz & [A1 N1] & [A2 N2] & _).
  refine (settled_replay xlaws fuel0 t (Fin sz) m0 Hs Vb Ds (far m0) _ _ _ fuel us os).
  - intros st inputs mx k O EM [Lt (cur & En & B)]. unfold max_fixed_metrics in EM. destruct (st_stable st) as [|j] eqn:Est; [lia|].
    destruct (nth_error inputs j) as [last|] eqn:El; [|discriminate]. injection EM as <-. exists cur, j, last. rewrite Est. auto.
  - intros st inputs st' inputs' k O O' X Hk (cur & j & last & En & Ej & El & B).
    pose proof (x_stable _ _ _ _ X) as XS. pose proof (u_stable _ _ O') as US'.
    assert (El' : nth_error inputs' j = Some last) by (rewrite (x_inputs _ _ _ _ X) by lia; exact El).
    assert (En' : nth_error inputs' k = Some cur) by (rewrite (x_inputs _ _ _ _ X) by lia; exact En).
    destruct (st_stable st') as [|j'] eqn:Est'; [lia|].
    destruct (nth_error inputs' j') as [last'|] eqn:El2; [|apply nth_error_None in El2; lia].
    exists cur, j', last'. rewrite Est'. split; [exact En'|]. split; [reflexivity|]. split; [exact El2|].
    destruct (u_finite _ _ O k cur Hk En) as [F1 F2]. destruct (u_finite _ _ O j last ltac:(lia) El) as [F3 F4]. destruct (u_finite _ _ O' j' last' ltac:(lia) El2) as [F5 F6].
    apply fin_of in F1, F2, F3, F4, F5, F6. destruct F1 as [a1 F1], F2 as [a2 F2], F3 as [a3 F3], F4 as [a4 F4], F5 as [a5 F5], F6 as [a6 F6].
    destruct (u_progress _ _ O' j j' last last' ltac:(lia) ltac:(lia) El' El2) as [G1 G2]. rewrite F3, F5 in G1. rewrite F4, F6 in G2. apply xle_fin in G1, G2.
    rewrite (far_fin m0 cur last' a1 a2 a5 a6) by assumption. rewrite (far_fin m0 cur last a1 a2 a3 a4) in B by assumption.
    destruct B as (bd & bt & B1 & B2 & B3 & B4 & B5 & B6). exists bd, bt. repeat (split; [assumption || lra|]). lra.
  - intros st inputs st' inputs' k cur s o lo hi dir dir' O O' X Hk (cur0 & j & last & En0 & Ej & El & B) En Is Dn Dir.
    rewrite En in En0. injection En0 as <-.
    pose proof (x_stable _ _ _ _ X) as XS. pose proof (x_unit _ _ _ _ X) as U.
    assert (El' : nth_error inputs' j = Some last) by (rewrite (x_inputs _ _ _ _ X) by lia; exact El).
    destruct (u_finite _ _ O k cur Hk En) as [F1 F2]. destruct (u_finite _ _ O j last ltac:(lia) El) as [F3 F4].
    apply fin_of in F1, F2, F3, F4. destruct F1 as [a1 F1], F2 as [a2 F2], F3 as [a3 F3], F4 as [a4 F4].
    rewrite (far_fin m0 cur last a1 a2 a3 a4) in B by assumption. destruct B as (bd & bt & B1 & B2 & B3 & B4 & B5 & B6).
    destruct (u_state _ _ O) as (S1 & S2 & S3 & S4). destruct (u_state _ _ O') as (S1' & S2' & S3' & S4'). apply fin_of in S1, S2, S3, S4, S1', S2', S3', S4'.
    destruct S1 as [d1 S1], S2 as [d2 S2], S3 as [d3 S3], S4 as [d4 S4], S1' as [d1' S1'], S2' as [d2' S2'], S3' as [d3' S3'], S4' as [d4' S4'].
    destruct (u_real _ _ O j last ltac:(lia) El) as (V1 & V2 & V3 & V4). destruct (u_real _ _ O' j last ltac:(lia) El') as (W1 & W2 & W3 & W4).
    rewrite F3, F4, ?S1, ?S2, ?S3, ?S4, ?S1', ?S2', ?S3', ?S4' in *. apply xle_fin in V1, V2, V3, V4, W1, W2, W3, W4.
    split.
    + eapply (source_ahead st st' cur dir dir' s o lo hi bd bt a1 a2); try eassumption; try lra. right. repeat (split; [first [eassumption|lra]|]). lra.
    + intros C p Ep lastm Du. destruct P as [P|P]; [rewrite (Cn P) in C; discriminate|].
      assert (NT : ~ of_state_time s) by (intros Y; apply P; exists s, o, lo, hi; auto).
      destruct k as [|k]; [discriminate|]. cbn [prev_at] in Ep.
      destruct (u_finite _ _ O k p ltac:(lia) Ep) as [F5 F6]. apply fin_of in F5, F6. destruct F5 as [a5 F5], F6 as [a6 F6].
      destruct (u_progress _ _ O k (S k) p cur ltac:(lia) Hk Ep En) as [G1 G2]. rewrite F1, F5 in G1. rewrite F2, F6 in G2. apply xle_fin in G1, G2.
      destruct gap_fin as [g Eg].
      destruct (ratio_unit m0 cur p lastm a1 a5 a2 a6 g F1 F5 F2 F6 G1 G2 Eg Du) as (r & Er & Rr). rewrite Er.
      assert (T1 : traveled (lerp_input (N := N) cur p (Fin r)) = Fin (a1 + (a5 + - a1) * r)) by (cbn [lerp_input traveled]; rewrite F1, F5; reflexivity).
      assert (T2 : exists e, elapsed (lerp_input (N := N) cur p (Fin r)) = Fin e) by (cbn [lerp_input elapsed]; rewrite F2, F6; unfold to_millis; rewrite xZ; eexists; reflexivity).
      destruct T2 as [e T2].
      assert (a1 + (a5 + - a1) * r <= a1) by nra.
      eapply (source_ahead st st' _ dir dir' s o lo hi bd bt _ e) with (re := 0) (re' := 0) (ce := 0) (ce' := 0); try eassumption; try lra. left. exact NT.
Qed.
End Ahead.
