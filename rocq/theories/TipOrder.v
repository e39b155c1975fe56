(** In exact arithmetic a stroke does not depend on the order of the tip's behaviors. *)
From Coq Require Import ZArith List Bool Lia Permutation Reals Lra.
From Flocq Require Import Core.
From Verif Require Import NumModel NumLaws EasingModel EasingExact BehaviorModel BehaviorSpec BehaviorTree BehaviorRun TipModel TipSpec TipRun BehaviorOrder.
Import ListNotations.
Local Notation N := xnum.
Local Notation F := ereal.
Local Notation root := (root N (option F)).
Local Notation L := xlaws.
Local Notation RD := xreads.

(** *** What processing one input needs of two modelers *)
Record alike (m m' : tip_modeler N) : Prop := {
  k_shape : same_shape (tip m) (tip m'); k_size : size m' = size m; k_gap : gap m' = gap m;
  k_dist : distance_bound m' = distance_bound m; k_time : time_bound m' = time_bound m; k_next : depends_next m' = depends_next m }.
Definition ksim (m m' : tip_modeler N) (fresh : bool) (k k' : machine N) : Prop :=
  exists rs dm rs' dm', represents (nodes m) k rs dm /\ represents (nodes m') k' rs' dm' /\ Permutation rs rs' /\
    targets m = map (r_target _) rs /\ targets m' = map (r_target _) rs' /\
    (fresh = true -> Forall (fun x => x = None) dm /\ Forall (fun x => x = None) dm').
Definition wsim (m m' : tip_modeler N) (fresh : bool) (w w' : work N) : Prop :=
  w_saved w' = w_saved w /\ w_last w' = w_last w /\ ksim m m' fresh (w_machine w) (w_machine w').
Lemma wsim_weak m m' b w w' : wsim m m' b w w' -> wsim m m' false w w'.
Proof. intros (A & B & rs & dm & rs' & dm' & C1 & C2 & C3 & C4 & C5 & _). split; [exact A|]. split; [exact B|]. exists rs, dm, rs', dm'. repeat (split; [assumption|]). discriminate. Qed.
Definition both {A} (P : A -> A -> Prop) (x y : option A) : Prop :=
  match x, y with None, None => True | Some a, Some b => P a b | _, _ => False end.

Section Sim.
Variables m m' : tip_modeler N.
Hypothesis K : alike m m'.

Lemma add_sim st i dir prev fresh w w' : wsim m m' fresh w w' -> (prev = None -> fresh = true) ->
  both (wsim m m' false) (add_new_tip_state m st i dir prev w) (add_new_tip_state m' st i dir prev w').
Proof.
  intros (A & B & rs & dm & rs' & dm' & C1 & C2 & C3 & C4 & C5 & C6) Hp. unfold add_new_tip_state. rewrite (k_size _ _ K).
  set (c := {| cx_state := st; cx_input := i; cx_dir := dir; cx_size := size m; cx_prev := prev |}).
  assert (B1 : bare c dm /\ bare c dm').
  { destruct prev as [p|]; [split; eapply bare_prev; reflexivity|]. destruct (C6 (Hp eq_refl)). split; intros _; assumption. }
  destruct B1 as [B1 B2].
  destruct (rep_step L RD c _ _ _ _ C1 B1) as (k1 & rs1 & dm1 & P1 & S1 & R1).
  destruct (rep_step L RD c _ _ _ _ C2 B2) as (k2 & rs2 & dm2 & P2 & S2 & R2). rewrite P1, P2. cbn [both].
  pose proof (step_perm c _ _ _ _ S1 S2 C3) as PP. split; [|split; [reflexivity|]]; cbn [w_saved w_last w_machine].
  - rewrite A. f_equal. f_equal. apply create_perm; [exact (k_shape _ _ K)|].
    destruct R1 as (_ & _ & M1 & _). destruct R2 as (_ & _ & M2 & _).
    rewrite M1, M2, C4, C5, <- (step_targets _ _ _ S1), <- (step_targets _ _ _ S2), !combine_roots. apply Permutation_map, PP.
  - exists rs1, dm1, rs2, dm2. split; [exact R1|]. split; [exact R2|]. split; [exact PP|].
    rewrite (step_targets _ _ _ S1), (step_targets _ _ _ S2). split; [exact C4|]. split; [exact C5|discriminate].
Qed.
Lemma gap_sim b w w' : wsim m m' b w w' -> wsim m m' b (append_gap w) (append_gap w').
Proof. intros (A & B & C). unfold append_gap. split; cbn; [congruence|]. split; [exact B|exact C]. Qed.
Lemma emit_sim st i p dir : forall fuel w w', wsim m m' false w w' ->
  both (wsim m m' false) (emit_particles fuel m st i p dir w) (emit_particles fuel m' st i p dir w').
Proof.
  induction fuel as [|fuel IH]; intros w w' W; cbn [emit_particles]; destruct W as (A & B & C) eqn:EW; clear EW; rewrite B;
  (destruct (w_last w) as [last|]; [|exact I]); unfold particle_due; rewrite (k_gap _ _ K);
  (destruct (_ && _); [|cbn [both]; exact W]); [exact I|].
  unfold particle_ratio. rewrite (k_gap _ _ K). fold (particle_ratio m i p last).
  pose proof (add_sim st (lerp_input i p (particle_ratio m i p last)) dir (Some last) false w w' W ltac:(discriminate)) as H.
  destruct (add_new_tip_state m st _ dir (Some last) w), (add_new_tip_state m' st _ dir (Some last) w'); try contradiction H; [|exact I].
  apply IH, gap_sim, H.
Qed.
Lemma single_sim fuel st i dir prev fresh w w' : wsim m m' fresh w w' -> (prev = None -> fresh = true) ->
  both (wsim m m' false) (process_single_input fuel m st i dir prev w) (process_single_input fuel m' st i dir prev w').
Proof.
  intros W Hp. unfold process_single_input, continuous. rewrite (k_gap _ _ K). rewrite (proj1 (proj2 W)).
  destruct (_ || _).
  - pose proof (add_sim st i dir (option_map metrics_of prev) fresh w w' W) as H.
    destruct (add_new_tip_state m st _ dir _ w), (add_new_tip_state m' st _ dir _ w');
      (specialize (H ltac:(destruct prev; [discriminate|auto]))); try contradiction H; [|exact I]. cbn [both].
    destruct (negb _); [apply gap_sim|]; exact H.
  - destruct prev as [p|]; [|exact I]. apply emit_sim, (wsim_weak _ _ fresh), W.
Qed.
Lemma volatile_sim fuel st inputs : forall n i prev fresh w w', wsim m m' fresh w w' -> (prev = None -> fresh = true) ->
  both (wsim m m' false) (volatile_loop fuel m st inputs n i prev w) (volatile_loop fuel m' st inputs n i prev w').
Proof.
  induction n as [|n IH]; intros i prev fresh w w' W Hp; cbn [volatile_loop]; [exact (wsim_weak _ _ _ _ _ W)|].
  destruct (nth_error inputs i) as [cur|]; [|exact I]. destruct (travel_direction inputs i) as [dir|]; [|exact I].
  pose proof (single_sim fuel st cur dir prev fresh w w' W Hp) as H.
  destruct (process_single_input fuel m st cur dir prev w), (process_single_input fuel m' st cur dir prev w'); try contradiction H; [|exact I].
  apply (IH _ _ false); [exact H|discriminate].
Qed.
Lemma fixed_sim fuel st inputs mx : forall n i prev w w', wsim m m' (Nat.eqb i 0) w w' -> (prev = None -> i = 0%nat) ->
  both (fun a b => fst a = fst b /\ (snd (fst a) = None -> fst (fst a) = 0%nat) /\ wsim m m' (Nat.eqb (fst (fst a)) 0) (snd a) (snd b))
    (fixed_loop fuel m st inputs mx n i prev w) (fixed_loop fuel m' st inputs mx n i prev w').
Proof.
  induction n as [|n IH]; intros i prev w w' W Hp; cbn [fixed_loop]; [cbn; auto|]. rewrite (k_next _ _ K).
  destruct (Nat.ltb _ _); [|cbn; auto]. destruct (nth_error inputs i) as [cur|]; [|exact I].
  destruct (_ || _); [cbn; auto|]. destruct (travel_direction inputs i) as [dir|]; [|exact I].
  pose proof (single_sim fuel st cur dir prev (Nat.eqb i 0) w w' W) as H.
  destruct (process_single_input fuel m st cur dir prev w), (process_single_input fuel m' st cur dir prev w');
    (specialize (H ltac:(intros E; rewrite (Hp E); reflexivity))); try contradiction H; [|exact I].
  apply IH; [exact H|discriminate].
Qed.
End Sim.

(** *** Whole updates *)
Record msim (m m' : tip_modeler N) : Prop := {
  s_alike : alike m m'; s_saved : saved m' = saved m; s_new : new_fixed m' = new_fixed m;
  s_next : next_fixed m' = next_fixed m; s_last : last_fixed m' = last_fixed m;
  s_stack : bstack m = [] /\ bstack m' = [];
  s_mach : ksim m m' (Nat.eqb (next_fixed m) 0) {| stack := []; damped := fixed_damped m; modifiers := fixed_mods m |}
             {| stack := []; damped := fixed_damped m'; modifiers := fixed_mods m' |} }.
Lemma ksim_eta m m' b k k' : ksim m m' b k k' -> ksim m m' b {| stack := []; damped := damped k; modifiers := modifiers k |} {| stack := []; damped := damped k'; modifiers := modifiers k' |} /\ stack k = [] /\ stack k' = [].
Proof.
  intros (rs & dm & rs' & dm' & (A1 & A2 & A3 & A4) & (B1 & B2 & B3 & B4) & C). split; [|auto]. exists rs, dm, rs', dm'.
  split; [unfold represents; auto|]. split; [unfold represents; auto|]. exact C.
Qed.
Lemma update_sim fuel m m' st inputs : msim m m' -> both msim (update_stroke fuel m st inputs) (update_stroke fuel m' st inputs).
Proof.
  intros [K Sv Sn Sx Sl [St St'] Sm]. unfold update_stroke. destruct inputs as [|i0 inputs].
  { cbn [both]. destruct K. split; [split; assumption|reflexivity|exact Sn|exact Sx|exact Sl|split; assumption|exact Sm]. }
  unfold max_fixed_metrics. rewrite (k_dist _ _ K), (k_time _ _ K), Sx, Sl, St, St'.
  match goal with |- context [match ?e with Some _ => _ | None => None end] => destruct e as [mx|]; [|exact I] end.
  assert (PR : forall p, match next_fixed m with 0%nat => Some None | S k => option_map Some (nth_error (i0 :: inputs) k) end = Some p -> p = None -> next_fixed m = 0%nat).
  { intros p. destruct (next_fixed m); [reflexivity|]. destruct (nth_error (i0 :: inputs) n); intros [= <-]; discriminate. }
  destruct (match next_fixed m with 0%nat => Some None | S k => option_map Some (nth_error (i0 :: inputs) k) end) as [prev|]; [|exact I].
  specialize (PR prev eq_refl).
  set (w0 := {| w_saved := []; w_machine := {| stack := []; damped := fixed_damped m; modifiers := fixed_mods m |}; w_last := last_fixed m |}).
  set (w0' := {| w_saved := []; w_machine := {| stack := []; damped := fixed_damped m'; modifiers := fixed_mods m' |}; w_last := last_fixed m |}).
  assert (W0 : wsim m m' (Nat.eqb (next_fixed m) 0) w0 w0') by (split; [reflexivity|]; split; [reflexivity|exact Sm]).
  pose proof (fixed_sim m m' K fuel st (i0 :: inputs) mx (st_stable st - next_fixed m) (next_fixed m) prev w0 w0' W0 PR) as H.
  destruct (fixed_loop fuel m st (i0 :: inputs) mx _ _ prev w0) as [[[i p] w1]|], (fixed_loop fuel m' st (i0 :: inputs) mx _ _ prev w0') as [[[i' p'] w1']|]; try contradiction H; [|exact I].
  cbn [both fst snd] in H. destruct H as ([= <- <-] & Hp & W1).
  pose proof (volatile_sim m m' K fuel st (i0 :: inputs) (length (i0 :: inputs) - i) i p (Nat.eqb i 0) w1 w1' W1) as H.
  destruct (volatile_loop fuel m st (i0 :: inputs) _ i p w1) as [w2|], (volatile_loop fuel m' st (i0 :: inputs) _ i p w1') as [w2'|];
    (specialize (H ltac:(intros E; rewrite (Hp E); reflexivity))); try contradiction H; [|exact I].
  cbn [both] in *. destruct W1 as (A1 & A2 & A3). destruct H as (B1 & B2 & B3).
  destruct (ksim_eta _ _ _ _ _ A3) as (A4 & _). destruct (ksim_eta _ _ _ _ _ B3) as (_ & B4 & B5). destruct K.
  split; cbn [tip size gap distance_bound time_bound depends_next saved new_fixed next_fixed last_fixed bstack fixed_damped fixed_mods];
    [split; assumption || reflexivity|exact B1|rewrite A1; reflexivity|reflexivity|exact A2|auto|exact A4].
Qed.
Lemma outputs_sim fuel : forall us m m', msim m m' -> outputs fuel m us = outputs fuel m' us.
Proof.
  induction us as [|[st inputs] us IH]; intros m m' M; cbn [outputs]; [reflexivity|].
  pose proof (update_sim fuel m m' st inputs M) as H.
  destruct (update_stroke fuel m st inputs) as [m1|], (update_stroke fuel m' st inputs) as [m1'|]; try contradiction H; [|reflexivity].
  cbn [both] in H. rewrite (IH _ _ H). unfold new_fixed_states, volatile_states. rewrite (s_saved _ _ H), (s_new _ _ H). reflexivity.
Qed.

(** *** Starting *)
Definition dist_step (sz : F) (d : F) (n : node N) : F :=
  match n with SourceNode s o lo hi => nmax (N := N) d (distance_upper_bound (N := N) s o lo hi sz) | _ => d end.
Definition time_step (d : F) (n : node N) : F :=
  match n with SourceNode s o lo hi => nmax (N := N) d (time_upper_bound (N := N) s o lo hi) | _ => d end.
Definition next_step (d : bool) (n : node N) : bool :=
  match n with SourceNode s o lo hi => if depends_on_next s then true else d | _ => d end.
Lemma bounds_nodes fuel : forall l (m m' : tip_modeler N), append_nodes fuel m l = Some m' ->
  size m' = size m /\ distance_bound m' = fold_left (dist_step (size m)) l (distance_bound m) /\
  time_bound m' = fold_left time_step l (time_bound m) /\ depends_next m' = fold_left next_step l (depends_next m).
Proof.
  induction l as [|n l IH]; intros m m' H; cbn [append_nodes fold_left] in *; [injection H as <-; auto|].
  destruct (append_node fuel m n) as [m1|] eqn:E; [|discriminate]. destruct (IH _ _ H) as (A1 & A2 & A3 & A4).
  destruct n; cbn [append_node] in E; try (injection E as <-; cbn in *; auto).
  destruct (make_impl fuel e); [|discriminate]. injection E as <-. cbn in *. auto.
Qed.
Lemma fold_swap {A B} (P : B -> Prop) (Q : A -> Prop) (f : A -> B -> A) : (forall a x y, Q a -> P x -> P y -> f (f a x) y = f (f a y) x) ->
  (forall a x, Q a -> P x -> Q (f a x)) -> forall l l', Permutation l l' -> Forall P l -> forall a, Q a -> fold_left f l a = fold_left f l' a.
Proof.
  intros Sw Pr. induction 1 as [|x l l' _ IH|x y l|l l1 l2 P1 IH1 P2 IH2]; intros HP a HQ; cbn [fold_left]; auto.
  - inversion HP; subst. auto.
  - inversion HP; subst. inversion H2; subst. rewrite Sw; auto.
  - rewrite IH1 by assumption. apply IH2; [|assumption]. eapply Permutation_Forall; eauto.
Qed.
Lemma bound_ok o lo hi : nfin N lo = true -> nfin N hi = true -> num_ok (value_upper_bound (N := N) o lo hi) /\ value_upper_bound (N := N) o lo hi <> Inf true.
Proof.
  intros A B. unfold value_upper_bound. destruct (negb _); [split; [exact I|discriminate]|].
  unfold nmax. destruct lo, hi; try discriminate. destruct (nlt N _ _); split; try exact I; discriminate.
Qed.
Lemma dist_ok sz s o lo hi : (exists r, sz = Fin r /\ (0 < r)%R) -> nfin N lo = true -> nfin N hi = true -> num_ok (distance_upper_bound (N := N) s o lo hi sz).
Proof.
  intros (r & -> & Hr) A B. destruct (bound_ok o lo hi A B) as [H1 H2].
  destruct s; unfold distance_upper_bound; try exact I. destruct (value_upper_bound (N := N) o lo hi) as [v|[]|]; try contradiction; [exact I|].
  cbn. rewrite Req_bool_false by lra. exact I.
Qed.
Lemma time_ok s o lo hi : nfin N lo = true -> nfin N hi = true -> num_ok (time_upper_bound (N := N) s o lo hi).
Proof.
  intros A B. destruct (bound_ok o lo hi A B) as [H1 H2].
  destruct s; unfold time_upper_bound; try exact I; destruct (value_upper_bound (N := N) o lo hi) as [v|[]|]; try contradiction; try exact I.
  unfold dur_millis. cbn [nnan N xnum nmul ndy xmul]. cbn. rewrite Req_bool_false; [exact I|].
  unfold Defs.F2R; cbn [Defs.Fnum Defs.Fexp]. apply Rmult_integral_contrapositive. split; [apply not_0_IZR; lia|]. apply Rgt_not_eq, bpow_gt_0.
Qed.
Lemma bounds_perm sz l l' : (exists r, sz = Fin r /\ (0 < r)%R) -> Permutation l l' -> Forall (documented_node (N := N)) l ->
  fold_left (dist_step sz) l (Fin 0) = fold_left (dist_step sz) l' (Fin 0) /\ fold_left time_step l (Fin 0) = fold_left time_step l' (Fin 0) /\
  fold_left next_step l false = fold_left next_step l' false.
Proof.
  intros Hs P D. split; [|split].
  - apply (fold_swap (documented_node (N := N)) num_ok); auto; [| |exact I].
    + intros a x y Ha Hx Hy. destruct x, y; cbn [dist_step]; try reflexivity. cbn [documented_node] in *.
      destruct Hx as (_ & _ & _ & X1 & X2 & _), Hy as (_ & _ & _ & Y1 & Y2 & _). apply xmax_swap; [exact Ha|apply dist_ok; assumption|apply dist_ok; assumption].
    + intros a x Ha Hx. destruct x; cbn [dist_step]; try exact Ha. destruct Hx as (_ & _ & _ & X1 & X2 & _). apply xmax_ok; [exact Ha|apply dist_ok; assumption].
  - apply (fold_swap (documented_node (N := N)) num_ok); auto; [| |exact I].
    + intros a x y Ha Hx Hy. destruct x, y; cbn [time_step]; try reflexivity. cbn [documented_node] in *.
      destruct Hx as (_ & _ & _ & X1 & X2 & _), Hy as (_ & _ & _ & Y1 & Y2 & _). apply xmax_swap; [exact Ha|apply time_ok; assumption|apply time_ok; assumption].
    + intros a x Ha Hx. destruct x; cbn [time_step]; try exact Ha. destruct Hx as (_ & _ & _ & X1 & X2 & _). apply xmax_ok; [exact Ha|apply time_ok; assumption].
  - apply (fold_swap (fun _ : node N => True) (fun _ => True)); auto.
    + intros a x y _ _ _. destruct x, y; cbn [next_step]; try reflexivity. destruct (depends_on_next src), (depends_on_next src0); reflexivity.
    + apply Forall_forall. auto.
Qed.

Lemma concat_perm {A} (l l' : list (list A)) : Permutation l l' -> Permutation (concat l) (concat l').
Proof.
  induction 1 as [|x l l' _ IH|x y l|]; cbn; auto.
  - apply Permutation_app_head, IH.
  - rewrite !app_assoc. apply Permutation_app_tail, Permutation_app_comm.
  - etransitivity; eassumption.
Qed.
Lemma lists_concat (bs : list (list (node N))) (rss : list (list root)) : Forall2 lists bs rss -> lists (concat bs) (concat rss).
Proof. induction 1; cbn; [constructor|]. apply lists_app; assumption. Qed.
Lemma each_listed bs : forallb (valid_behavior (N := N)) bs = true ->
  exists rss : list (list root), Forall2 lists bs rss /\ Forall fresh_root (concat rss).
Proof.
  induction bs as [|b bs IH]; intros H; cbn [forallb] in *; [exists []; split; constructor|].
  apply andb_prop in H. destruct H as [H1 H2]. destruct (IH H2) as (rss & A & B).
  destruct (behaviors_documented L [b]) as (_ & rs & C1 & C2); [cbn; rewrite H1; reflexivity|]. cbn [concat] in C1. rewrite app_nil_r in C1.
  exists (rs :: rss). split; [constructor; assumption|]. cbn [concat]. apply Forall_app. auto.
Qed.
Lemma perm_started fuel fuel' t t' sz m m' : same_shape t t' -> Permutation (behaviors t) (behaviors t') -> forallb (valid_behavior (N := N)) (behaviors t) = true ->
  start_stroke fuel t sz = Some m -> start_stroke fuel' t' sz = Some m' -> msim m m'.
Proof.
  intros Sh P V H H'.
  destruct (each_listed _ V) as (rss & A & Fr). destruct (Permutation_Forall2 P A) as (rss' & P' & A').
  pose proof (concat_perm _ _ P') as PR. pose proof (concat_perm _ _ P) as PN.
  destruct (behaviors_documented L _ V) as (D & _). pose proof (Permutation_Forall PN D) as D'. pose proof (Permutation_Forall PR Fr) as Fr'.
  destruct (started fuel t sz m _ H D (lists_concat _ _ A) Fr) as (k & C1 & C2 & C3 & C4 & C5 & C6 & C7 & C8 & C9 & C10 & _).
  destruct (started fuel' t' sz m' _ H' D' (lists_concat _ _ A') Fr') as (k' & E1 & E2 & E3 & E4 & E5 & E6 & E7 & E8 & E9 & E10 & _).
  assert (Hs : exists r, sz = Fin r /\ (0 < r)%R).
  { unfold start_stroke in H. rewrite x0 in H. destruct sz as [r|s|]; cbn in H; try discriminate. exists r. split; [reflexivity|].
    destruct (Rlt_bool_spec 0 r); [assumption|discriminate]. }
  assert (BB : distance_bound m' = distance_bound m /\ time_bound m' = time_bound m /\ depends_next m' = depends_next m).
  { unfold start_stroke in H, H'. destruct (negb (nfin N sz) || negb (nlt N n0 sz)); [discriminate|]. rewrite append_concat in H, H'.
    apply bounds_nodes in H. apply bounds_nodes in H'. cbn [size distance_bound time_bound depends_next] in *. rewrite x0 in *.
    destruct H as (_ & Q1 & Q2 & Q3), H' as (_ & Q1' & Q2' & Q3'). destruct (bounds_perm sz _ _ Hs PN D) as (W1 & W2 & W3).
    rewrite Q1, Q2, Q3, Q1', Q2', Q3', W1, W2, W3. auto. }
  destruct BB as (BB1 & BB2 & BB3). unfold start_machine in C3, E3. injection C3 as C31 C32 C33. injection E3 as E31 E32 E33.
  assert (GG : gap m' = gap m) by (rewrite C10, E10; destruct Sh as (_ & _ & _ & _ & _ & _ & _ & -> & ->); reflexivity).
  split; try congruence.
  - split; try congruence. 
  - auto.
  - rewrite C6. exists (concat rss), (repeat None k), (concat rss'), (repeat None k').
    split; [|split]; [| |split; [exact PR|split; [exact C2|split; [exact E2|]]]].
    + unfold represents. cbn [damped modifiers stack]. rewrite C32, C33. split; [exact C1|]. split; [apply (map_NaN L)|auto].
    + unfold represents. cbn [damped modifiers stack]. rewrite E32, E33. split; [exact E1|]. split; [apply (map_NaN L)|auto].
    + intros _. split; apply Forall_forall; intros x Hx; apply repeat_spec in Hx; exact Hx.
Qed.
