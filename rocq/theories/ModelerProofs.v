(** Proofs about the input modeler. *)
From Coq Require Import ZArith Reals List Bool Arith Lia Lra.
From Flocq Require Import Core IEEE754.BinarySingleNaN.
From Verif Require Import F32 F32Lemmas BatchModel DurationModel ModelerModel ModelerSpec.
Import ListNotations.
Local Open Scope nat_scope.

Section P.
Variables M Pay : Type.
Variable reset : option f32 -> M.
Variable bupdate : M -> event -> stroke_input -> option (M * list (result Pay)).
Variable hyp : f32 -> f32 -> f32.
Variable eps : f32.
Notation modeler := (modeler M Pay).
Notation modeled := (modeled Pay).
Notation accept := (accept Pay hyp eps).
Notation push := (push_results Pay hyp eps).
Notation extend := (m_extend M Pay reset bupdate hyp eps).
Notation model_input := (model_input M Pay bupdate hyp eps).
Notation model_stable := (model_stable M Pay bupdate hyp eps).
Notation model_predicted := (model_predicted M Pay bupdate hyp eps).
Notation utd := (update_time_and_distance M Pay).

(** *** The part of the state that modeling reads and writes *)
Definition core : Type := M * bool * list modeled.
Definition core_of (s : modeler) : core := (backend s, has_input s, inputs s).
Definition feed1 (c : core) (x : stroke_input) (up : bool) : option core :=
  let '(b, h, l) := c in
  match bupdate b (if negb h then EDown else if up then EUp else EMove) x with
  | None => None
  | Some (b', rs) => Some (b', true, push l rs)
  end.
Fixpoint feed (c : core) (l : list (stroke_input * bool)) : option core :=
  match l with
  | [] => Some c
  | (x, u) :: l' => match feed1 c x u with Some c' => feed c' l' | None => None end
  end.

Lemma feed_app a : forall c b, feed c (a ++ b) = match feed c a with Some c' => feed c' b | None => None end.
Proof.
  induction a as [|[x u] a IH]; intros c b; cbn; [reflexivity|].
  destruct (feed1 c x u); [apply IH|reflexivity].
Qed.

Definition with_core (s : modeler) (c : core) : modeler :=
  let '(b, h, l) := c in with_model M Pay s b h l.

Lemma with_core_of s : with_core s (core_of s) = s.
Proof. destruct s; reflexivity. Qed.
Lemma core_with s c : core_of (with_core s c) = c.
Proof. destruct c as [[b h] l]. reflexivity. Qed.
Lemma with_core_twice s c c' : with_core (with_core s c) c' = with_core s c'.
Proof. destruct c as [[b h] l], c' as [[b' h'] l']. reflexivity. Qed.

Lemma model_input_core s x u : model_input s x u =
  match feed1 (core_of s) x u with Some c => Some (with_core s c) | None => None end.
Proof.
  unfold ModelerModel.model_input, feed1, core_of.
  destruct (bupdate (backend s) _ x) as [[b rs]|]; reflexivity.
Qed.

Definition quiet (l : list stroke_input) : list (stroke_input * bool) := map (fun x => (x, false)) l.
Fixpoint ending (l : list stroke_input) : list (stroke_input * bool) :=
  match l with [] => [] | x :: l' => (x, length l' =? 0) :: ending l' end.

Local Arguments with_core : simpl never.
Local Arguments core_of : simpl never.
Lemma model_stable_core l : forall s, model_stable s l =
  match feed (core_of s) (quiet (removelast l)) with Some c => Some (with_core s c) | None => None end.
Proof.
  induction l as [|x l IH]; intros s; [cbn; rewrite with_core_of; reflexivity|].
  destruct l as [|y l]; [cbn; rewrite with_core_of; reflexivity|].
  change (model_stable s (x :: y :: l)) with
    (match model_input s x false with Some s' => model_stable s' (y :: l) | None => None end).
  change (removelast (x :: y :: l)) with (x :: removelast (y :: l)).
  rewrite model_input_core. cbn [quiet map feed]. destruct (feed1 (core_of s) x false) as [c|]; [|reflexivity].
  rewrite IH, core_with. fold (quiet (removelast (y :: l))).
  destruct (feed c (quiet (removelast (y :: l)))); [|reflexivity]. rewrite with_core_twice. reflexivity.
Qed.

Lemma model_predicted_core l : forall s, model_predicted s l =
  match feed (core_of s) (ending l) with Some c => Some (with_core s c) | None => None end.
Proof.
  induction l as [|x l IH]; intros s; [cbn; rewrite with_core_of; reflexivity|].
  cbn [ModelerModel.model_predicted ending feed]. rewrite model_input_core.
  destruct (feed1 (core_of s) x (length l =? 0)) as [c|]; [|reflexivity].
  rewrite IH, core_with. destruct (feed c (ending l)); [|reflexivity]. rewrite with_core_twice. reflexivity.
Qed.

(** *** Pushing only extends *)
Lemma push_extends l rs : exists r, push l rs = l ++ r.
Proof. unfold push_results. destruct (nth_error l (length l - 1)); eexists; reflexivity. Qed.
Lemma feed_extends l : forall c c', feed c l = Some c' -> exists r, snd c' = snd c ++ r.
Proof.
  induction l as [|[x u] l IH]; intros c c' H; cbn in H.
  - injection H as <-. exists []. rewrite app_nil_r. reflexivity.
  - destruct (feed1 c x u) as [c1|] eqn:E; [|discriminate]. destruct (IH c1 c' H) as [r Hr].
    destruct c as [[b h] li]. cbn in E. destruct (bupdate b _ x) as [[b1 rs]|]; [|discriminate].
    injection E as <-. cbn in *. destruct (push_extends li rs) as [r0 E0]. exists (r0 ++ r).
    rewrite Hr, E0, app_assoc. reflexivity.
Qed.

(** *** Modeling in one go *)
Definition last_opt (l : list stroke_input) : option stroke_input := nth_error l (length l - 1).
Definition lone (P : list stroke_input) : bool := length P =? 0.

(** core after all real inputs but the last, after the last real input, after predictions *)
Definition scratch (R P : list stroke_input) : option (core * core * core) :=
  match feed (reset (batch_unit_length R), false, []) (quiet (removelast R)) with
  | None => None
  | Some c0 =>
      match (match last_opt R with Some x => feed1 c0 x (lone P) | None => Some c0 end) with
      | None => None
      | Some c1 => match feed c1 (ending P) with None => None | Some c2 => Some (c0, c1, c2) end
      end
  end.

Lemma last_opt_snoc l x : last_opt (l ++ [x]) = Some x.
Proof. unfold last_opt. rewrite app_length, nth_error_app2; cbn; [|lia].
  replace (length l + 1 - 1 - length l) with 0 by lia. reflexivity. Qed.
Lemma last_opt_app l r : r <> [] -> last_opt (l ++ r) = last_opt r.
Proof.
  intros N. destruct (exists_last N) as (r' & x & ->). rewrite app_assoc, !last_opt_snoc. reflexivity.
Qed.
Lemma last_opt_none l : last_opt l = None <-> l = [].
Proof.
  split; [|intros ->; reflexivity]. destruct l as [|x l]; [reflexivity|]. unfold last_opt. intros H.
  apply nth_error_None in H. cbn in H. lia.
Qed.
Lemma removelast_last l x : last_opt l = Some x -> l = removelast l ++ [x].
Proof.
  intros H. assert (N : l <> []) by (intros ->; discriminate).
  destruct (exists_last N) as (l' & y & ->). rewrite last_opt_snoc in H. injection H as ->.
  rewrite removelast_last. reflexivity.
Qed.

(** [s] shows the strokes inputs [R] and prediction [P] *)
Record Shows (s : modeler) (R P : list stroke_input) : Prop := {
  Sh_last : last_real s = last_opt R;
  Sh_tool : s_tool s = batch_tool (R ++ P);
  Sh_unit : s_unit s = batch_unit_length (R ++ P);
  Sh_core : exists c0 c1 c2, scratch R P = Some (c0, c1, c2) /\
     s_stable s = length (snd c0) /\ s_real s = length (snd c1) /\ inputs s = snd c2 /\
     (R <> [] -> backend s = fst (fst c0) /\ has_input s = snd (fst c0));
  Sh_dist : forall z, nth_error (inputs s) (length (inputs s) - 1) = Some z -> s_complete_distance s = mtraveled z;
  Sh_real : forall z, s_real s <> 0 -> nth_error (inputs s) (s_real s - 1) = Some z ->
     s_real_time s = mtime z /\ s_real_distance s = mtraveled z;
}.

Lemma scratch_extends R P c0 c1 c2 : scratch R P = Some (c0, c1, c2) ->
  exists r1 r2, snd c1 = snd c0 ++ r1 /\ snd c2 = snd c1 ++ r2.
Proof.
  unfold scratch. destruct (feed _ (quiet (removelast R))) as [d0|]; [|discriminate].
  destruct (match last_opt R with Some x => feed1 d0 x (lone P) | None => Some d0 end) as [d1|] eqn:E1; [|discriminate].
  destruct (feed d1 (ending P)) as [d2|] eqn:E2; [|discriminate]. intros [= <- <- <-].
  destruct (feed_extends _ _ _ E2) as [r2 H2].
  destruct (last_opt R) as [x|].
  - assert (E1' : feed d0 [(x, lone P)] = Some d1) by (cbn; rewrite E1; reflexivity).
    destruct (feed_extends _ _ _ E1') as [r1 H1]. exists r1, r2. auto.
  - injection E1 as <-. exists [], r2. rewrite app_nil_r. auto.
Qed.

(** *** Time and distance *)
Lemma utd_shows s R P t s' : utd s t = Some s' ->
  last_real s = last_opt R -> s_tool s = batch_tool (R ++ P) -> s_unit s = batch_unit_length (R ++ P) ->
  (exists c0 c1 c2, scratch R P = Some (c0, c1, c2) /\
     s_stable s = length (snd c0) /\ s_real s = length (snd c1) /\ inputs s = snd c2 /\
     (R <> [] -> backend s = fst (fst c0) /\ has_input s = snd (fst c0))) ->
  Shows s' R P.
Proof.
  intros H A B C D. unfold update_time_and_distance in H.
  destruct (nth_error (inputs s) (length (inputs s) - 1)) as [z|] eqn:E.
  - destruct (s_real s =? 0) eqn:E0.
    + injection H as <-. constructor; cbn; auto; [congruence|].
      intros z' N. apply Nat.eqb_eq in E0. contradiction.
    + destruct (nth_error (inputs s) (s_real s - 1)) as [r|] eqn:Er; [|discriminate].
      injection H as <-. constructor; cbn; auto; [congruence|]. intros z' _ Hz. rewrite Er in Hz. injection Hz as <-. auto.
  - injection H as <-. constructor; cbn; auto.
    + intros z Hz. congruence.
    + assert (inputs s = []) as ->.
      { destruct (inputs s) as [|y l]; [reflexivity|]. apply nth_error_None in E. cbn in E. lia. }
      intros z _ Hz. destruct (s_real s - 1); discriminate.
Qed.

Lemma utd_total s t : s_real s <= length (inputs s) -> exists s', utd s t = Some s'.
Proof.
  intros L. unfold update_time_and_distance.
  destruct (nth_error (inputs s) (length (inputs s) - 1)) as [z|] eqn:E; [|eauto].
  destruct (s_real s =? 0) eqn:E0; [eauto|]. apply Nat.eqb_neq in E0.
  destruct (nth_error (inputs s) (s_real s - 1)) eqn:Er; [eauto|]. apply nth_error_None in Er. lia.
Qed.

(** the state is fresh, or shows something *)
Definition Fresh (s : modeler) : Prop := exists b h, s = m_start M Pay b h.
Definition State (s : modeler) (R P : list stroke_input) : Prop :=
  (Fresh s /\ R = [] /\ P = []) \/ Shows s R P.

Lemma fresh_shows b h : Shows (m_start M Pay b h) [] [].
Proof.
  constructor; try reflexivity.
  - do 3 eexists. split; [reflexivity|]. cbn. repeat split; contradiction.
  - discriminate.
  - contradiction.
Qed.

Definition early (s : modeler) (re pr : list stroke_input) : bool :=
  (length re =? 0) && (length pr =? 0) && (s_real s =? length (inputs s)).

Lemma extend_early s re pr t R P : Shows s R P -> early s re pr = true ->
  exists s', extend s re pr t = Some s' /\ Shows s' R P /\ inputs s' = inputs s.
Proof.
  intros S E. unfold m_extend. fold (early s re pr). rewrite E.
  destruct S as [A B C D _ _].
  destruct (utd_total s t) as [s' H].
  { destruct D as (c0 & c1 & c2 & Hs & _ & -> & -> & _).
    destruct (scratch_extends _ _ _ _ _ Hs) as (r1 & r2 & _ & ->). rewrite app_length. lia. }
  exists s'. split; [exact H|]. split; [apply (utd_shows _ _ _ _ _ H); auto|].
  unfold update_time_and_distance in H.
  destruct (nth_error (inputs s) (length (inputs s) - 1)); [destruct (s_real s =? 0); [|destruct (nth_error (inputs s) (s_real s - 1)); [|discriminate]]|]; injection H as <-; reflexivity.
Qed.

(** Every other call models the whole stroke as if in one go. *)
Lemma extend_full s re pr t R P : Shows s R P -> early s re pr = false ->
  match scratch (R ++ re) pr with
  | None => extend s re pr t = None
  | Some _ => exists s', extend s re pr t = Some s' /\ Shows s' (R ++ re) pr
  end.
Proof.
  intros S E. unfold m_extend. fold (early s re pr). rewrite E.
  destruct S as [A B C D _ _]. destruct D as (c0 & c1 & c2 & Hs & Est & Ere & Ein & Ebh).
  set (s0 := match last_real s with Some _ => s | None => _ end).
  set (s1 := with_model M Pay s0 (backend s0) (has_input s0) (firstn (s_stable s0) (inputs s0))).
  (* the core right after discarding unstable inputs *)
  assert (K0 : core_of s1 = match R with [] => (reset (batch_unit_length re), false, []) | _ => c0 end).
  { unfold s1, s0. rewrite A. destruct R as [|r R].
    - cbn [last_opt nth_error length]. unfold core_of; cbn. rewrite Est.
      unfold scratch in Hs. cbn in Hs. destruct (feed _ (ending P)) in Hs; [|discriminate].
      injection Hs as <- <- <-. cbn. reflexivity.
    - destruct (last_opt (r :: R)) eqn:EL; [|apply last_opt_none in EL; discriminate].
      destruct (scratch_extends _ _ _ _ _ Hs) as (r1 & r2 & H1 & H2).
      destruct Ebh as [E1 E2]; [discriminate|].
      unfold core_of; cbn. rewrite E1, E2, Est, Ein, H2, H1, <- app_assoc, firstn_app, Nat.sub_diag, firstn_all.
      cbn. rewrite app_nil_r. destruct c0 as [[? ?] ?]; reflexivity. }
  assert (L1 : last_real s1 = last_opt R).
  { unfold s1, s0. rewrite A. destruct (last_opt R) eqn:EL; cbn; [exact A|reflexivity]. }
  (* stable part *)
  assert (K3 : (match (match last_real s1, re with Some x, _ :: _ => model_input s1 x false | _, _ => Some s1 end) with
                | None => None | Some s2 => model_stable s2 re end) =
               match feed (reset (batch_unit_length (R ++ re)), false, []) (quiet (removelast (R ++ re))) with
               | Some c => Some (with_core s1 c) | None => None end).
  { rewrite L1. destruct R as [|r R].
    - change (last_opt []) with (@None stroke_input). cbn [app]. rewrite model_stable_core, K0. reflexivity.
    - destruct (last_opt (r :: R)) as [x|] eqn:EL; [|apply last_opt_none in EL; discriminate].
      assert (F0 : feed (reset (batch_unit_length (r :: R)), false, []) (quiet (removelast (r :: R))) = Some c0).
      { unfold scratch in Hs. destruct (feed _ _) as [d0|] in Hs |- *; [|discriminate].
        destruct (match last_opt (r :: R) with Some x => _ | None => _ end) in Hs; [|discriminate].
        destruct (feed _ (ending P)) in Hs; [|discriminate]. injection Hs as <- _ _. reflexivity. }
      assert (EU : batch_unit_length ((r :: R) ++ re) = batch_unit_length (r :: R)) by reflexivity.
      rewrite EU. destruct re as [|y re].
      + rewrite app_nil_r, F0. cbn [ModelerModel.model_stable]. rewrite <- K0, with_core_of. reflexivity.
      + rewrite model_input_core, K0.
        assert (ER : removelast ((r :: R) ++ y :: re) = removelast (r :: R) ++ x :: removelast (y :: re)).
        { rewrite removelast_app by discriminate. rewrite (removelast_last _ _ EL) at 1.
          rewrite <- app_assoc. reflexivity. }
        rewrite ER. unfold quiet at 1. rewrite map_app. cbn [map]. rewrite feed_app.
        fold (quiet (removelast (r :: R))). rewrite F0. cbn [feed].
        destruct (feed1 c0 x false) as [c|]; [|reflexivity].
        rewrite model_stable_core, core_with. fold (quiet (removelast (y :: re))).
        destruct (feed c (quiet (removelast (y :: re)))); [|reflexivity]. rewrite with_core_twice. reflexivity. }
  assert (TU : s_tool s1 = batch_tool ((R ++ re) ++ pr) /\ s_unit s1 = batch_unit_length ((R ++ re) ++ pr)).
  { unfold s1, s0. rewrite A. destruct R as [|r R].
    - change (last_opt []) with (@None stroke_input). cbn [app with_model s_tool s_unit]. destruct re; cbn; auto.
    - destruct (last_opt (r :: R)) eqn:EL; [|apply last_opt_none in EL; discriminate].
      cbn [with_model s_tool s_unit]. rewrite B, C. auto. }
  clearbody s1. clear s0.
  destruct (match last_real s1, re with Some x, _ :: _ => model_input s1 x false | _, _ => Some s1 end) as [s2|].
  2: { unfold scratch. destruct (feed _ (quiet (removelast (R ++ re)))); [discriminate|reflexivity]. }
  rewrite K3. unfold scratch. destruct (feed _ (quiet (removelast (R ++ re)))) as [d0|] eqn:F0; [|reflexivity].
  set (s3 := with_core s1 d0).
  assert (C3 : core_of s3 = d0) by apply core_with.
  assert (L3 : match nth_error re (length re - 1) with Some x => Some x | None => last_real s3 end = last_opt (R ++ re)).
  { fold (last_opt re). destruct (last_opt re) as [x|] eqn:EL.
    - rewrite last_opt_app; [congruence|]. intros ->. discriminate.
    - apply last_opt_none in EL. subst re. rewrite app_nil_r. unfold s3. destruct d0 as [[? ?] ?]. cbn. exact L1. }
  rewrite L3. set (lr := last_opt (R ++ re)).
  set (s4 := with_counts M Pay s3 (length (inputs s3)) (s_real s3) lr).
  assert (C4 : core_of s4 = d0) by exact C3.
  fold (lone pr).
  assert (K5 : (match lr with Some x => model_input s4 x (lone pr) | None => Some s4 end) =
               match (match lr with Some x => feed1 d0 x (lone pr) | None => Some d0 end) with
               | Some c => Some (with_core s4 c) | None => None end).
  { destruct lr; [rewrite model_input_core, C4; reflexivity|]. rewrite <- C4, with_core_of. reflexivity. }
  rewrite K5. destruct (match lr with Some x => feed1 d0 x (lone pr) | None => Some d0 end) as [d1|] eqn:F1; [|reflexivity].
  set (s5 := with_core s4 d1). set (s6 := with_counts M Pay s5 (s_stable s5) (length (inputs s5)) (last_real s5)).
  assert (C6 : core_of s6 = d1) by (unfold s6, s5; destruct d1 as [[? ?] ?]; reflexivity).
  rewrite model_predicted_core, C6. destruct (feed d1 (ending pr)) as [d2|] eqn:F2; [|reflexivity].
  assert (SS : scratch (R ++ re) pr = Some (d0, d1, d2)).
  { unfold scratch. rewrite F0. fold lr. rewrite F1, F2. reflexivity. }
  set (s7 := with_model M Pay (with_core s6 d2) (backend s3) (has_input s3) (inputs (with_core s6 d2))).
  assert (I7 : inputs s7 = snd d2) by (unfold s7; destruct d2 as [[? ?] ?]; reflexivity).
  assert (R7 : s_real s7 = length (snd d1)).
  { unfold s7, s6, s5. destruct d2 as [[? ?] ?], d1 as [[? ?] ?]. reflexivity. }
  destruct (utd_total s7 t) as [s' Hs'].
  { rewrite I7, R7. destruct (scratch_extends _ _ _ _ _ SS) as (? & ? & _ & ->). rewrite app_length. lia. }
  exists s'. split; [exact Hs'|]. apply (utd_shows _ _ _ _ _ Hs').
  - unfold s7, s6, s5, s4. destruct d2 as [[? ?] ?], d1 as [[? ?] ?]. reflexivity.
  - destruct TU as [<- _]. unfold s7, s6, s5, s4, s3. destruct d2 as [[? ?] ?], d1 as [[? ?] ?], d0 as [[? ?] ?]. reflexivity.
  - destruct TU as [_ <-]. unfold s7, s6, s5, s4, s3. destruct d2 as [[? ?] ?], d1 as [[? ?] ?], d0 as [[? ?] ?]. reflexivity.
  - exists d0, d1, d2. split; [exact SS|]. split.
    + unfold s7, s6, s5, s4, s3. destruct d2 as [[? ?] ?], d1 as [[? ?] ?], d0 as [[? ?] ?]. reflexivity.
    + split; [exact R7|]. split; [exact I7|]. intros _. unfold s7, s3. destruct d2 as [[? ?] ?], d0 as [[? ?] ?]. auto.
Qed.

(** *** Histories *)
Notation run := (m_run M Pay reset bupdate hyp eps).

Lemma step_shows s re pr t s' R P : Shows s R P -> extend s re pr t = Some s' ->
  (early s re pr = true /\ Shows s' R P /\ inputs s' = inputs s) \/
  (early s re pr = false /\ Shows s' (R ++ re) pr).
Proof.
  intros S H. destruct (early s re pr) eqn:E.
  - destruct (extend_early s re pr t R P S E) as (s2 & H2 & H3 & H4). left. split; [reflexivity|].
    assert (s2 = s') as -> by congruence. auto.
  - pose proof (extend_full s re pr t R P S E) as K. right. split; [reflexivity|].
    destruct (scratch (R ++ re) pr); [|congruence]. destruct K as (s2 & H2 & H3). congruence.
Qed.

Lemma early_nil s re pr : early s re pr = true -> re = [] /\ pr = [].
Proof. unfold early. destruct re, pr; cbn; try discriminate; auto. Qed.

Lemma run_shows cs : forall s R P s', Shows s R P -> run s cs = Some s' ->
  exists P', Shows s' (R ++ all_real cs) P'.
Proof.
  induction cs as [|[[re pr] t] cs IH]; intros s R P s' S H; cbn [m_run] in H.
  - injection H as <-. exists P. unfold all_real; cbn. rewrite app_nil_r. exact S.
  - destruct (extend s re pr t) as [s1|] eqn:E; [|discriminate].
    destruct (step_shows _ _ _ _ _ _ _ S E) as [(Ee & S1 & _)|(Ee & S1)].
    + destruct (early_nil _ _ _ Ee) as [-> ->]. destruct (IH s1 R P s' S1 H) as [P' K]. exists P'. exact K.
    + destruct (IH s1 _ _ s' S1 H) as [P' K]. exists P'. unfold all_real; cbn. rewrite app_assoc. exact K.
Qed.

Lemma run_app a : forall s b, run s (a ++ b) = match run s a with Some s' => run s' b | None => None end.
Proof.
  induction a as [|[[re pr] t] a IH]; intros s b; cbn; [reflexivity|].
  destruct (extend s re pr t); [apply IH|reflexivity].
Qed.

Lemma shows_same s s' R P : Shows s R P -> Shows s' R P -> same_modeled s s'.
Proof.
  intros [A B C (c0 & c1 & c2 & D & E1 & E2 & E3 & _) F G] [A' B' C' (c0' & c1' & c2' & D' & E1' & E2' & E3' & _) F' G'].
  assert (c0' = c0 /\ c1' = c1 /\ c2' = c2) as (-> & -> & ->) by (rewrite D in D'; injection D'; auto).
  assert (EI : inputs s = inputs s') by congruence. assert (ER : s_real s = s_real s') by congruence.
  unfold same_modeled. split; [exact EI|]. split; [congruence|]. split; [exact ER|].
  split; [congruence|]. split; [congruence|]. split; [congruence|]. split.
  - intros N. destruct (nth_error (inputs s) (length (inputs s) - 1)) as [z|] eqn:Ez.
    + rewrite (F z eq_refl). rewrite EI in Ez. symmetry. apply F', Ez.
    + exfalso. apply nth_error_None in Ez. destruct (inputs s); [congruence|cbn in Ez; lia].
  - intros N. destruct (nth_error (inputs s) (s_real s - 1)) as [z|] eqn:Ez.
    + destruct (G z N eq_refl) as [-> ->]. rewrite EI, ER in Ez.
      destruct (G' z) as [-> ->]; [congruence|exact Ez|auto].
    + exfalso. apply nth_error_None in Ez. destruct (scratch_extends _ _ _ _ _ D) as (? & r2 & _ & X).
      rewrite E3, E2, X, app_length in Ez. rewrite E2 in N. lia.
Qed.

(** Modeling the same inputs in a single call *)
Lemma single_call b h s R P t : Shows s R P -> exists s', extend (m_start M Pay b h) R P t = Some s' /\ same_modeled s s'.
Proof.
  intros S. pose proof (fresh_shows b h) as S0. destruct (early (m_start M Pay b h) R P) eqn:E.
  - destruct (early_nil _ _ _ E) as [-> ->].
    destruct (extend_early _ _ _ t _ _ S0 E) as (s' & H & K & _). exists s'. split; [exact H|]. apply (shows_same _ _ [] []); assumption.
  - pose proof (extend_full _ R P t _ _ S0 E) as K. cbn [app] in K.
    destruct S as [A B C (c0 & c1 & c2 & D & X) F G]. rewrite D in K. destruct K as (s' & H & K).
    exists s'. split; [exact H|]. apply (shows_same _ _ R P); [|exact K]. constructor; auto. exists c0, c1, c2. auto.
Qed.

Theorem chunking b h b' h' cs re pr t t' s :
  run (m_start M Pay b h) (cs ++ [(re, pr, t)]) = Some s -> re ++ pr <> [] ->
  exists s', extend (m_start M Pay b' h') (all_real cs ++ re) pr t' = Some s' /\ same_modeled s s'.
Proof.
  intros H N. rewrite run_app in H. destruct (run (m_start M Pay b h) cs) as [s1|] eqn:E1; [|discriminate].
  destruct (run_shows cs _ _ _ _ (fresh_shows b h) E1) as [P1 S1]. cbn [app] in S1.
  cbn in H. destruct (extend s1 re pr t) as [s2|] eqn:E2; [|discriminate]. injection H as <-.
  destruct (step_shows _ _ _ _ _ _ _ S1 E2) as [(Ee & _)|(_ & S2)].
  - destruct (early_nil _ _ _ Ee) as [-> ->]. contradiction.
  - apply single_call, S2.
Qed.

Theorem idle_call b h cs t s1 s :
  run (m_start M Pay b h) cs = Some s1 -> extend s1 [] [] t = Some s ->
  (s_real s1 = length (inputs s1) /\ same_modeled s1 s) \/
  (s_real s1 <> length (inputs s1) /\
   exists s', extend (m_start M Pay b h) (all_real cs) [] t = Some s' /\ same_modeled s s').
Proof.
  intros E1 E2. destruct (run_shows cs _ _ _ _ (fresh_shows b h) E1) as [P1 S1]. cbn [app] in S1.
  destruct (step_shows _ _ _ _ _ _ _ S1 E2) as [(Ee & S2 & _)|(Ee & S2)].
  - left. split; [apply Nat.eqb_eq, Ee|]. apply (shows_same _ _ _ _ S1 S2).
  - right. split; [apply Nat.eqb_neq, Ee|]. rewrite app_nil_r in S2. apply single_call, S2.
Qed.

(** *** Stability *)
Lemma stable_mono R P re pr c0 c1 c2 d0 d1 d2 :
  scratch R P = Some (c0, c1, c2) -> scratch (R ++ re) pr = Some (d0, d1, d2) ->
  exists r, snd d0 = snd c0 ++ r.
Proof.
  intros H K. unfold scratch in H, K.
  destruct (feed (reset (batch_unit_length R), false, []) (quiet (removelast R))) as [e0|] eqn:E; [|discriminate].
  destruct (feed (reset (batch_unit_length (R ++ re)), false, []) (quiet (removelast (R ++ re)))) as [f0'|] eqn:F; [|discriminate].
  assert (e0 = c0) as ->.
  { destruct (match last_opt R with Some _ => _ | None => _ end) in H; [|discriminate].
    destruct (feed _ (ending P)) in H; [|discriminate]. congruence. }
  assert (f0' = d0) as ->.
  { destruct (match last_opt (R ++ re) with Some _ => _ | None => _ end) in K; [|discriminate].
    destruct (feed _ (ending pr)) in K; [|discriminate]. congruence. }
  destruct R as [|r R].
  { cbn in E. injection E as <-. cbn. eexists; reflexivity. }
  destruct re as [|y re].
  { rewrite app_nil_r in F. rewrite E in F. injection F as <-. exists []. rewrite app_nil_r. reflexivity. }
  change (batch_unit_length ((r :: R) ++ y :: re)) with (batch_unit_length (r :: R)) in F.
  rewrite removelast_app in F by discriminate.
  destruct (last_opt (r :: R)) as [x|] eqn:EL; [|apply last_opt_none in EL; discriminate].
  rewrite (removelast_last _ _ EL), <- app_assoc in F. unfold quiet in F. rewrite map_app, feed_app in F.
  fold (quiet (removelast (r :: R))) in F. rewrite <- (removelast_last _ _ EL), E in F. apply (feed_extends _ _ _ F).
Qed.

Theorem stability b h cs1 cs2 s1 s2 :
  run (m_start M Pay b h) cs1 = Some s1 -> run s1 cs2 = Some s2 ->
  firstn (s_stable s1) (inputs s2) = firstn (s_stable s1) (inputs s1) /\
  s_stable s1 <= s_stable s2 /\ s_stable s2 <= s_real s2 /\ s_real s2 <= length (inputs s2).
Proof.
  intros H1 H2. destruct (run_shows cs1 _ _ _ _ (fresh_shows b h) H1) as [P1 S1]. cbn [app] in S1.
  destruct (run_shows cs2 _ _ _ _ S1 H2) as [P2 S2].
  destruct S1 as [_ _ _ (c0 & c1 & c2 & D & E1 & E2 & E3 & _) _ _].
  destruct S2 as [_ _ _ (d0 & d1 & d2 & D' & E1' & E2' & E3' & _) _ _].
  destruct (stable_mono _ _ _ _ _ _ _ _ _ _ D D') as [r Hr].
  destruct (scratch_extends _ _ _ _ _ D) as (r1 & r2 & X1 & X2).
  destruct (scratch_extends _ _ _ _ _ D') as (q1 & q2 & Y1 & Y2).
  rewrite E1, E1', E2', E3, E3', Y2, Y1, X2, X1, Hr.
  rewrite <- !app_assoc, !firstn_app, Nat.sub_diag, firstn_all, !app_length. cbn. repeat split; lia || reflexivity.
Qed.

(** *** Spacing *)
Notation apart := (@apart hyp Pay).
Notation well_spaced := (@well_spaced hyp Pay eps).
Lemma spaced_snoc l z a : well_spaced l -> nth_error l (length l - 1) = Some z ->
  flt (apart z a) eps = false -> mtraveled a = fadd (mtraveled z) (apart z a) -> well_spaced (l ++ [a]).
Proof.
  intros [H0 H] Hz Hd Ht. assert (N : l <> []) by (intros ->; discriminate).
  assert (0 < length l) by (destruct l; [congruence|cbn; lia]). split.
  - intros x Hx. rewrite nth_error_app1 in Hx by lia. apply H0, Hx.
  - intros k x y Hx Hy. destruct (Nat.lt_ge_cases (S k) (length l)) as [L|L].
    + rewrite nth_error_app1 in Hx, Hy by lia. apply (H k); assumption.
    + assert (S k < length (l ++ [a])) by (apply nth_error_Some; congruence). rewrite app_length in *. cbn [length] in *.
      assert (k = length l - 1) as -> by lia. rewrite nth_error_app1 in Hx by lia.
      rewrite nth_error_app2 in Hy by lia. replace (S (length l - 1) - length l) with 0 in Hy by lia.
      cbn in Hy. injection Hy as <-. assert (x = z) as -> by congruence. auto.
Qed.

Lemma last_snoc {A} (l : list A) a : nth_error (l ++ [a]) (length (l ++ [a]) - 1) = Some a.
Proof. rewrite app_length, nth_error_app2; cbn; [|lia]. replace (length l + 1 - 1 - length l) with 0 by lia. reflexivity. Qed.

Lemma accept_spaced rs : forall l z, well_spaced l -> nth_error l (length l - 1) = Some z ->
  well_spaced (l ++ accept (Some (mx z, my z)) (mtraveled z) rs).
Proof.
  induction rs as [|r rs IH]; intros l z W Hz; cbn [ModelerModel.accept].
  - rewrite app_nil_r. exact W.
  - destruct (flt (hyp (fsub (r_x r) (mx z)) (fsub (r_y r) (my z))) eps) eqn:E; [apply IH; assumption|].
    set (a := {| mx := r_x r |}).
    change (well_spaced (l ++ a :: accept (Some (mx a, my a)) (mtraveled a) rs)).
    replace (l ++ a :: accept (Some (mx a, my a)) (mtraveled a) rs)
      with ((l ++ [a]) ++ accept (Some (mx a, my a)) (mtraveled a) rs) by (rewrite <- app_assoc; reflexivity).
    apply IH; [|apply last_snoc]. apply (spaced_snoc l z a W Hz); [exact E|reflexivity].
Qed.

Lemma push_spaced l rs : well_spaced l -> well_spaced (push l rs).
Proof.
  intros W. unfold push_results. destruct (nth_error l (length l - 1)) as [z|] eqn:E; [apply accept_spaced; assumption|].
  assert (l = []) as ->.
  { destruct l as [|y l]; [reflexivity|]. apply nth_error_None in E. cbn in E. lia. }
  destruct rs as [|r rs]; [exact W|]. cbn [ModelerModel.accept app].
  set (a := {| mx := r_x r |}). change (well_spaced ([a] ++ accept (Some (mx a, my a)) (mtraveled a) rs)).
  apply accept_spaced; [|reflexivity]. split.
  - intros x [= <-]. reflexivity.
  - intros k x y _ Hy. destruct k; discriminate.
Qed.

Lemma feed_spaced l : forall c c', feed c l = Some c' -> well_spaced (snd c) -> well_spaced (snd c').
Proof.
  induction l as [|[x u] l IH]; intros c c' H W; cbn in H; [congruence|].
  destruct (feed1 c x u) as [c1|] eqn:E; [|discriminate]. apply (IH _ _ H).
  destruct c as [[b h] li]. cbn in E. destruct (bupdate b _ x) as [[b1 rs]|]; [|discriminate].
  injection E as <-. apply push_spaced, W.
Qed.

Lemma nil_spaced : well_spaced [].
Proof. split; [discriminate|]. intros k x y H. destruct k; discriminate. Qed.

Lemma scratch_spaced R P c0 c1 c2 : scratch R P = Some (c0, c1, c2) -> well_spaced (snd c2).
Proof.
  unfold scratch. destruct (feed _ (quiet (removelast R))) as [d0|] eqn:E0; [|discriminate].
  destruct (match last_opt R with Some x => feed1 d0 x (lone P) | None => Some d0 end) as [d1|] eqn:E1; [|discriminate].
  destruct (feed d1 (ending P)) as [d2|] eqn:E2; [|discriminate]. intros [= <- <- <-].
  apply (feed_spaced _ _ _ E2).
  assert (W0 : well_spaced (snd d0)) by (apply (feed_spaced _ _ _ E0), nil_spaced).
  destruct (last_opt R) as [x|]; [|injection E1 as <-; exact W0].
  apply (feed_spaced [(x, lone P)] d0 d1); [cbn; rewrite E1; reflexivity|exact W0].
Qed.

Theorem spacing b h cs s : run (m_start M Pay b h) cs = Some s -> well_spaced (inputs s).
Proof.
  intros H. destruct (run_shows cs _ _ _ _ (fresh_shows b h) H) as [P S].
  destruct S as [_ _ _ (c0 & c1 & c2 & D & _ & _ & -> & _) _ _]. apply (scratch_spaced _ _ _ _ _ D).
Qed.

Lemma add_grows (a d : f32) : flt f0 eps = true -> flt d eps = false -> is_nan (fadd a d) = false ->
  fle a (fadd a d) = true.
Proof.
  intros He Hd Hn.
  destruct (flt_not_nan _ _ He) as [_ Ne].
  assert (Na : is_nan a = false) by (destruct a; try reflexivity; destruct d; discriminate Hn).
  assert (Nd : is_nan d = false) by (destruct d; try reflexivity; destruct a; discriminate Hn).
  apply flt_spec in He; auto. apply flt_false in Hd; auto.
  assert (Z0 : fX f0 = 0%R) by reflexivity. rewrite Z0 in He.
  apply fle_spec; auto.
  destruct (is_finite a) eqn:Fa.
  2: { destruct a as [|[|]| |]; try discriminate; destruct d as [|[|]| |[|]]; try discriminate; cbn; lra. }
  destruct (is_finite d) eqn:Fd.
  2: { pose proof big_pos. destruct d as [|[|]| |]; try discriminate; destruct a as [| | |]; try discriminate; cbn [fX] in *; try lra.
       - cbn. lra.
       - change (fX (fadd (B754_finite s m e e0) (B754_infinity false))) with big. apply Rlt_le.
         pose proof (abs_B2R_lt_emax 24 128 (B754_finite s m e e0)) as K. apply Rabs_lt_inv in K. apply K. }
  destruct (fadd_X a d Fa Fd) as [-> _]. rewrite (fX_finite a Fa), (fX_finite d Fd) in *.
  apply Rle_trans with (clampX (fR a)).
  2: { apply clampX_mono. rewrite <- (rnd_fR a) at 1. apply rnd_mono. lra. }
  rewrite clampX_id; [lra|].
  pose proof (abs_B2R_lt_emax 24 128 a) as K. apply Rabs_lt_inv in K. fold big in K. lra.
Qed.

Theorem traveled_grows b h cs s k x y : flt f0 eps = true ->
  run (m_start M Pay b h) cs = Some s ->
  nth_error (inputs s) k = Some x -> nth_error (inputs s) (S k) = Some y ->
  is_nan (mtraveled y) = false -> fle (mtraveled x) (mtraveled y) = true.
Proof.
  intros He H Hx Hy N. destruct (spacing b h cs s H) as [_ W]. destruct (W k x y Hx Hy) as [D T].
  rewrite T in *. apply add_grows; assumption.
Qed.

Theorem complete_time b h cs re pr t s : run (m_start M Pay b h) (cs ++ [(re, pr, t)]) = Some s ->
  match nth_error (inputs s) (length (inputs s) - 1) with
  | Some z => s_complete_time s = (if flt (mtime z) t then t else mtime z)
  | None => s_complete_time s = t
  end.
Proof.
  intros H. rewrite run_app in H. destruct (run (m_start M Pay b h) cs) as [s1|]; [|discriminate].
  cbn in H. destruct (extend s1 re pr t) as [s2|] eqn:E; [|discriminate]. injection H as <-.
  assert (U : exists s0, utd s0 t = Some s2).
  { unfold m_extend in E. repeat match type of E with
      | (if ?c then _ else _) = _ => destruct c
      | match ?x with _ => _ end = _ => destruct x; [|discriminate E]
      end; eauto. }
  destruct U as [s0 U]. unfold update_time_and_distance in U.
  destruct (nth_error (inputs s0) (length (inputs s0) - 1)) as [z|] eqn:Ez.
  - destruct (s_real s0 =? 0).
    + injection U as <-. cbn. rewrite Ez. reflexivity.
    + destruct (nth_error (inputs s0) (s_real s0 - 1)); [|discriminate]. injection U as <-. cbn. rewrite Ez. reflexivity.
  - injection U as <-. cbn. rewrite Ez. reflexivity.
Qed.

(** *** The event stream *)
Notation drive := (drive M Pay bupdate).
Notation thin := (thin Pay hyp eps).
Notation as_result := (as_result Pay).
Definition kept_last (l : list modeled) : option (result Pay) := option_map as_result (nth_error l (length l - 1)).

Lemma result_eta (r : result Pay) : Build_result (r_x r) (r_y r) (r_time r) (r_pay r) = r.
Proof. destruct r; reflexivity. Qed.

Lemma accept_thin rs : forall z t, map as_result (accept (Some (mx z, my z)) t rs) = thin (Some (as_result z)) rs.
Proof.
  induction rs as [|r rs IH]; intros z t; cbn [ModelerModel.accept ModelerSpec.thin]; [reflexivity|].
  cbn [as_result ModelerSpec.as_result r_x r_y]. destruct (flt _ eps); [apply IH|].
  cbn [map]. unfold ModelerSpec.as_result at 1. cbn. rewrite result_eta. f_equal.
  specialize (IH {| mx := r_x r; my := r_y r; mtraveled := t; mtime := r_time r; mpay := r_pay r |}). cbn in IH.
  rewrite IH. unfold ModelerSpec.as_result. cbn. rewrite result_eta. reflexivity.
Qed.

Lemma push_thin l rs : map as_result (push l rs) = map as_result l ++ thin (kept_last l) rs.
Proof.
  unfold push_results, kept_last. destruct (nth_error l (length l - 1)) as [z|]; rewrite map_app; f_equal.
  - apply accept_thin.
  - destruct rs as [|r rs]; cbn [ModelerModel.accept ModelerSpec.thin map option_map]; [reflexivity|].
    set (z := {| mx := r_x r |}). change (accept (Some (r_x r, r_y r)) f0 rs) with (accept (Some (mx z, my z)) f0 rs).
    rewrite accept_thin. assert (as_result z = r) as -> by apply result_eta. reflexivity.
Qed.

Definition last_kept (k : option (result Pay)) (l : list (result Pay)) : option (result Pay) :=
  match nth_error l (length l - 1) with Some r => Some r | None => k end.
Lemma last_kept_cons k r l : last_kept k (r :: l) = last_kept (Some r) l.
Proof.
  unfold last_kept. cbn. rewrite Nat.sub_0_r. destruct l as [|q l]; [reflexivity|].
  cbn. rewrite Nat.sub_0_r. destruct (nth_error (q :: l) (length l)) eqn:E; [reflexivity|].
  apply nth_error_None in E. cbn in E. lia.
Qed.
Lemma thin_app a : forall k b, thin k (a ++ b) = thin k a ++ thin (last_kept k (thin k a)) b.
Proof.
  induction a as [|r a IH]; intros k b; [cbn; unfold last_kept; cbn; destruct k; reflexivity|].
  cbn [ModelerSpec.thin app]. destruct k as [k|].
  - destruct (flt _ eps); [apply IH|]. rewrite IH, last_kept_cons. reflexivity.
  - rewrite IH, last_kept_cons. reflexivity.
Qed.
Lemma kept_last_app l x r : map as_result x = r -> kept_last (l ++ x) = last_kept (kept_last l) r.
Proof.
  intros <-. unfold kept_last, last_kept. rewrite app_length, map_length.
  destruct x as [|y x]; [cbn; rewrite app_nil_r, Nat.add_0_r; destruct (option_map _ _); reflexivity|].
  rewrite nth_error_app2 by (cbn; lia). replace (length l + length (y :: x) - 1 - length l) with (length (y :: x) - 1) by lia.
  rewrite nth_error_map. destruct (nth_error (y :: x) (length (y :: x) - 1)) eqn:E; [reflexivity|].
  apply nth_error_None in E. cbn in E. lia.
Qed.

Lemma feed_drive L : forall b h l c, feed (b, h, l) (ending L) = Some c ->
  exists rs, drive b (events (negb h) L) = Some rs /\ map as_result (snd c) = map as_result l ++ thin (kept_last l) rs.
Proof.
  induction L as [|x L IH]; intros b h l c H; cbn [ending feed] in H.
  - injection H as <-. exists []. cbn. rewrite app_nil_r. split; reflexivity.
  - cbn [feed1] in H. cbn [events ModelerSpec.drive].
    assert (EV : (if negb h then EDown else if length L =? 0 then EUp else EMove) =
                 (if negb h then EDown else match L with [] => EUp | _ => EMove end)) by (destruct L; reflexivity).
    rewrite EV in H. destruct (bupdate b _ x) as [[b1 rs]|]; [|discriminate].
    destruct (IH _ _ _ _ H) as (rs' & D & E). cbn [negb] in D. rewrite D. exists (rs ++ rs'). split; [reflexivity|].
    rewrite E, push_thin, <- app_assoc, thin_app. f_equal. f_equal.
    destruct (push_extends l rs) as [y Hy]. f_equal. rewrite Hy. apply kept_last_app.
    pose proof (push_thin l rs) as PT. rewrite Hy, map_app in PT. apply app_inv_head in PT. exact PT.
Qed.

Lemma ending_app a b : b <> [] -> ending (a ++ b) = quiet a ++ ending b.
Proof.
  intros N. induction a as [|x a IH]; cbn; [reflexivity|]. rewrite IH, app_length.
  destruct b; [contradiction|]. cbn [length]. rewrite Nat.add_succ_r. reflexivity.
Qed.
Lemma events_app a : forall f b, b <> [] -> exists es, length es = length a /\ events f (a ++ b) = es ++ events (f && (length a =? 0)) b /\
  (forall c, c <> [] -> exists e2, events f (a ++ c) = es ++ e2).
Proof.
  induction a as [|x a IH]; intros f b N; cbn [app].
  - exists []. cbn. rewrite andb_true_r. repeat split. intros c _. eexists; reflexivity.
  - destruct (IH false b N) as (es & L & E & X). cbn in E.
    exists ((if f then EDown else EMove, x) :: es). cbn [events length]. rewrite E, L. split; [reflexivity|]. split.
    + rewrite andb_false_r. cbn. destruct (a ++ b) eqn:Q; [destruct a; [contradiction|discriminate]|]. reflexivity.
    + intros c Nc. destruct (X c Nc) as [e2 E2]. exists e2. rewrite E2. destruct (a ++ c) eqn:Q; [destruct a; [contradiction|discriminate]|]. reflexivity.
Qed.

Definition told (R : list stroke_input) (es : list (event * stroke_input)) (l : list modeled) : Prop :=
  exists rs, drive (reset (batch_unit_length R)) es = Some rs /\ map as_result l = thin None rs.

Lemma quiet_drive L z : forall b h l c, feed (b, h, l) (quiet L) = Some c ->
  exists rs, drive b (firstn (length L) (events (negb h) (L ++ [z]))) = Some rs /\
    map as_result (snd c) = map as_result l ++ thin (kept_last l) rs.
Proof.
  induction L as [|x L IH]; intros b h l c H; cbn [quiet map feed] in H.
  - injection H as <-. exists []. cbn. rewrite app_nil_r. split; reflexivity.
  - cbn [feed1] in H. cbn [events ModelerSpec.drive length firstn app].
    assert (EV : (if negb h then EDown else EMove) =
                 (if negb h then EDown else match L ++ [z] with [] => EUp | _ => EMove end)) by (destruct L; reflexivity).
    rewrite EV in H. destruct (bupdate b _ x) as [[b1 rs]|]; [|discriminate].
    destruct (IH _ _ _ _ H) as (rs' & D & E). cbn [negb] in D. rewrite D. exists (rs ++ rs'). split; [reflexivity|].
    rewrite E, push_thin, <- app_assoc, thin_app. f_equal. f_equal.
    destruct (push_extends l rs) as [y Hy]. f_equal. rewrite Hy. apply kept_last_app.
    pose proof (push_thin l rs) as PT. rewrite Hy, map_app in PT. apply app_inv_head in PT. exact PT.
Qed.

Lemma firstn_events_same a b c f : b <> [] -> c <> [] ->
  firstn (length a) (events f (a ++ b)) = firstn (length a) (events f (a ++ c)).
Proof.
  intros B C. destruct (events_app a f b B) as (es & L & E & X). destruct (X c C) as [e2 E2].
  rewrite E, E2, <- L, !firstn_app, Nat.sub_diag, firstn_all. reflexivity.
Qed.

Lemma events_length f l : length (events f l) = length l.
Proof. revert f. induction l; intros f; cbn; [reflexivity|]. rewrite IHl. reflexivity. Qed.

Theorem event_stream b h cs re pr t s :
  run (m_start M Pay b h) (cs ++ [(re, pr, t)]) = Some s -> re ++ pr <> [] ->
  let R := all_real cs ++ re in let es := events true (R ++ pr) in
  told R (firstn (length R - 1) es) (firstn (s_stable s) (inputs s)) /\
  told R (firstn (length R) es) (firstn (s_real s) (inputs s)) /\
  told R es (inputs s).
Proof.
  intros H N R es. rewrite run_app in H. destruct (run (m_start M Pay b h) cs) as [s1|] eqn:E1; [|discriminate].
  destruct (run_shows cs _ _ _ _ (fresh_shows b h) E1) as [P1 S1]. cbn [app] in S1.
  cbn in H. destruct (extend s1 re pr t) as [s2|] eqn:E2; [|discriminate]. injection H as <-.
  destruct (step_shows _ _ _ _ _ _ _ S1 E2) as [(Ee & _)|(_ & S2)].
  { destruct (early_nil _ _ _ Ee) as [-> ->]. contradiction. }
  fold R in S2. destruct S2 as [_ _ _ (c0 & c1 & c2 & D & X1 & X2 & X3 & _) _ _].
  destruct (scratch_extends _ _ _ _ _ D) as (r1 & r2 & Y1 & Y2).
  rewrite X1, X2, X3.
  assert (F0 : firstn (length (snd c0)) (snd c2) = snd c0).
  { rewrite Y2, Y1, <- app_assoc, firstn_app, Nat.sub_diag, firstn_all. cbn. apply app_nil_r. }
  assert (F1 : firstn (length (snd c1)) (snd c2) = snd c1).
  { rewrite Y2, firstn_app, Nat.sub_diag, firstn_all. cbn. apply app_nil_r. }
  rewrite F0, F1. clear F0 F1 X1 X2 X3. unfold scratch in D.
  destruct (feed _ (quiet (removelast R))) as [d0|] eqn:Q0; [|discriminate].
  destruct (match last_opt R with Some x => feed1 d0 x (lone pr) | None => Some d0 end) as [d1|] eqn:Q1; [|discriminate].
  destruct (feed d1 (ending pr)) as [d2|] eqn:Q2; [|discriminate]. injection D as -> -> ->.
  destruct (last_opt R) as [z|] eqn:EL.
  - pose proof (removelast_last _ _ EL) as RL. set (R0 := removelast R) in *.
    assert (LR : length R - 1 = length R0) by (rewrite RL, app_length; cbn; lia).
    assert (Full : feed (reset (batch_unit_length R), false, []) (ending (R ++ pr)) = Some c2).
    { rewrite RL, <- app_assoc, ending_app by discriminate. rewrite <- RL, feed_app, Q0. cbn [app ending feed].
      fold (lone pr). rewrite Q1. exact Q2. }
    assert (Mid : told R (firstn (length R) es) (snd c1)).
    { destruct pr as [|p pr].
      - cbn in Q2. injection Q2 as <-. destruct (feed_drive _ _ _ _ _ Full) as (rs & DR & ER). exists rs.
        cbn in ER, DR. split; [|exact ER]. unfold es. rewrite app_nil_r in *. rewrite firstn_all2; [exact DR|].
        rewrite events_length. lia.
      - assert (QQ : feed (reset (batch_unit_length R), false, []) (quiet R) = Some c1).
        { rewrite RL at 2. unfold quiet. rewrite map_app. fold (quiet R0). rewrite feed_app, Q0. cbn. cbn in Q1. rewrite Q1. reflexivity. }
        destruct (quiet_drive R z _ _ _ _ QQ) as (rs & DR & ER). exists rs. cbn in DR, ER. split; [|exact ER].
        unfold es. rewrite (firstn_events_same R (p :: pr) [z]) by discriminate. exact DR. }
    split; [|split; [exact Mid|]].
    + rewrite LR. destruct (quiet_drive R0 z _ _ _ _ Q0) as (rs & DR & ER). exists rs. cbn in DR, ER. split; [|exact ER].
      unfold es. rewrite RL, <- app_assoc, (firstn_events_same R0 ([z] ++ pr) [z]) by discriminate.
      rewrite <- RL. rewrite <- RL in DR. exact DR.
    + destruct (feed_drive _ _ _ _ _ Full) as (rs & DR & ER). exists rs. split; [exact DR|exact ER].
  - apply last_opt_none in EL. assert (R = []) as RN by exact EL. cbn in Q1. injection Q1 as <-.
    unfold es. rewrite RN in *. cbn in Q0. injection Q0 as <-. cbn [app length firstn].
    assert (T0 : told [] [] (snd (reset (batch_unit_length []), false, @nil modeled))).
    { exists []. split; reflexivity. }
    split; [exact T0|]. split; [exact T0|].
    destruct (feed_drive _ _ _ _ _ Q2) as (rs & DR & ER). exists rs. split; [exact DR|exact ER].
Qed.
End P.
