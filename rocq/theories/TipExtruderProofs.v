(** Saving and restoring a stroke, and its outlines *)
From Coq Require Import Arith Bool Lia Permutation List.
From Verif Require Import ExtruderGeometryModel ExtruderGeometrySpec ExtruderGeometryLists ExtruderGeometryProofs TipExtruderModel TipExtruderSpec TipExtruderGeometry.
From Verif Require StrokeOutlineModel StrokeOutlineSpec StrokeOutlineProps.
Import ListNotations.

Definition outcome {A} (r : result A) (Q : A -> Prop) : Prop := match r with Done a => Q a | Stuck => True | Broken => False end.
Lemma outcome_bind {A B} (r : result A) (f : A -> result B) Q Q' : outcome r Q -> (forall a, Q a -> outcome (f a) Q') -> outcome (bind r f) Q'.
Proof. destruct r; cbn; auto. Qed.
Lemma outcome_imp {A} (r : result A) (Q Q' : A -> Prop) : outcome r Q -> (forall a, Q a -> Q' a) -> outcome r Q'.
Proof. destruct r; cbn; auto. Qed.

(** ** Extrusions *)
Section Extrusions.
Variable X : Type.
Implicit Types xs ys : list (option X).
Lemma ends_snoc xs x : ends_in_break (xs ++ [x]) = match x with None => true | _ => false end.
Proof. unfold ends_in_break. rewrite rev_app_distr. destruct x; reflexivity. Qed.
Lemma after_break_le xs : after_break xs <= length xs.
Proof. induction xs as [|x xs IH]; cbn; [lia|]. destruct (_ || _); lia. Qed.
Lemma ends_cons x xs : xs <> [] -> ends_in_break (x :: xs) = ends_in_break xs.
Proof. intros H. destruct xs as [|y xs] using rev_ind; [congruence|]. rewrite app_comm_cons, !ends_snoc. reflexivity. Qed.
Lemma after_break_none xs : existsb (fun x => match x with None => true | _ => false end) xs = false -> after_break xs = 0.
Proof. destruct xs as [|x xs]; [reflexivity|]. intros E. cbn [after_break]. rewrite E. reflexivity. Qed.
Lemma after_break_ends xs : ends_in_break (firstn (after_break xs) xs) = true.
Proof.
  induction xs as [|x xs IH]; [reflexivity|]. cbn [after_break]. destruct (existsb _ (x :: xs)) eqn:E; [|reflexivity]. cbn [firstn].
  destruct (existsb (fun x => match x with None => true | _ => false end) xs) eqn:E1.
  - destruct xs as [|y ys]; [discriminate|]. rewrite ends_cons; [exact IH|]. cbn [after_break]. rewrite E1. discriminate.
  - rewrite (after_break_none _ E1). cbn in E. rewrite E1 in E. destruct x; [discriminate|reflexivity].
Qed.
Lemma after_break_max xs : forall i, i <= length xs -> ends_in_break (firstn i xs) = true -> i <= after_break xs.
Proof.
  induction xs as [|x xs IH]; intros i L E; cbn in L; [lia|]. destruct i as [|i]; [lia|]. cbn [firstn] in E. cbn [after_break].
  destruct (Nat.eq_dec i 0) as [->|I].
  - cbn in E. destruct x; [discriminate|]. cbn. lia.
  - rewrite ends_cons in E; [|destruct xs; cbn in *; [lia|destruct i; [lia|discriminate]]]. assert (K : i <= after_break xs) by (apply IH; [lia|exact E]). destruct (existsb _ (x :: xs)) eqn:B; [lia|]. cbn in B. apply orb_false_iff in B. rewrite (after_break_none _ (proj2 B)) in K. lia.
Qed.
Lemma after_break_lt xs : ends_in_break xs = false -> after_break xs < length xs.
Proof.
  intros H. pose proof (after_break_le xs) as L. destruct (Nat.eq_dec (after_break xs) (length xs)) as [E|E]; [|lia]. pose proof (after_break_ends xs) as K. rewrite E, firstn_all in K. congruence.
Qed.
(** what is there, what was deleted and what was saved *)
Definition recalls (xs : list (option X)) (n : nat) (d ys : list (option X)) : Prop :=
  n = length ys /\ exists i, i <= length ys /\ i <= length xs /\ d = skipn i ys /\ firstn i xs = firstn i ys /\ (i = length ys \/ ends_in_break (firstn i ys) = true).
Lemma recalls_start xs : recalls xs (length xs) [] xs.
Proof. split; [reflexivity|]. exists (length xs). rewrite skipn_all. repeat split; auto. Qed.
Lemma recalls_push xs n d ys x : recalls xs n d ys -> recalls (xs ++ [x]) n d ys.
Proof. intros (E & i & I1 & I2 & D & F & B). split; [exact E|]. exists i. rewrite app_length, firstn_more by lia. repeat split; try assumption. lia. Qed.
Lemma recalls_clear xs n d ys : recalls xs n d ys ->
  exists d', (if (length d =? 0) && (after_break xs <? n) then need (slice (after_break xs) n xs) else Done d) = Done d' /\ recalls (firstn (after_break xs) xs) n d' ys.
Proof.
  intros (-> & i & I1 & I2 & -> & F & B). rewrite skipn_length. pose proof (after_break_le xs) as LE. destruct (Nat.eqb_spec (length ys - i) 0) as [Z|Z]; cbn [andb].
  - assert (i = length ys) by lia. subst i. rewrite firstn_all in F. destruct (Nat.ltb_spec (after_break xs) (length ys)) as [L|L].
    + unfold slice. destruct (Nat.leb_spec (after_break xs) (length ys)); [|lia]. destruct (Nat.leb_spec (length ys) (length xs)); [|lia]. cbn [andb need]. eexists. split; [reflexivity|]. split; [reflexivity|]. exists (after_break xs).
      assert (FY : firstn (after_break xs) xs = firstn (after_break xs) ys) by (rewrite <- F, firstn_firstn; f_equal; lia).
      rewrite firstn_length. repeat split; try lia.
      * rewrite <- F. rewrite firstn_length. replace (Nat.min (length ys) (length xs)) with (length ys) by lia. symmetry. apply skipn_firstn_comm.
      * rewrite firstn_firstn, Nat.min_id. exact FY.
      * right. rewrite <- FY. apply after_break_ends.
    + exists (skipn (length ys) ys). split; [reflexivity|]. split; [reflexivity|]. exists (length ys). rewrite firstn_length, firstn_firstn. repeat split; try lia. replace (Nat.min (length ys) (after_break xs)) with (length ys) by lia. rewrite F, firstn_all. reflexivity.
  - exists (skipn i ys). split; [reflexivity|]. assert (EB : ends_in_break (firstn i ys) = true) by (destruct B as [B|B]; [lia|exact B]). rewrite <- F in EB. pose proof (after_break_max xs i I2 EB) as M.
    split; [reflexivity|]. exists i. rewrite firstn_length, firstn_firstn. replace (Nat.min i (after_break xs)) with i by lia. repeat split; try lia; try assumption.
Qed.
Lemma recalls_restore xs n d ys z : recalls xs n d ys -> copy_to_end d (resize z n xs) = Some ys.
Proof.
  intros (-> & i & I1 & I2 & -> & F & _). apply (kept_back (skipn i ys) i xs ys z). repeat split; assumption.
Qed.
End Extrusions.

Section Proofs.
Variables (core shade T J R P X : Type) (zero_vertex : core * shade) (zero_triangle : T) (fresh : nat -> nat -> R) (empty_disc : J) (position : core -> P) (default : option X).
Notation geometry := (geometry core shade T J R).
Notation extruder := (extruder core shade T J R P X).
Notation li g := (indices (left g)).
Notation ri g := (indices (right g)).
Notation lc g := (index_count (left_info (last_break g))).
Notation rc g := (index_count (right_info (last_break g))).
Notation wf := (wf core shade T J R).
Notation inv := (inv core shade T J R).
Notation numbered := (numbered core shade T J R).
Notation holds := (StrokeOutlineProps.holds nat).
Notation lefts ps := (concat (map fst ps)).
Notation rights ps := (concat (map snd ps)).

Record good (e : extruder) (ps : list (list nat * list nat)) (tl tr : list nat) : Prop := {
  gd_wf : wf (geo e);
  gd_numbered : numbered (geo e);
  gd_left : li (geo e) = lefts ps ++ tl;
  gd_right : ri (geo e) = rights ps ++ tr;
  gd_lc : lc (geo e) = length (lefts ps);
  gd_rc : rc (geo e) = length (rights ps);
  gd_count : break_count (last_break (geo e)) = length ps;
  gd_some : Forall (fun p => around p <> []) ps;
  gd_outlines : exists os1 os2, outlines e = os1 ++ os2 /\ Forall2 (fun o p => holds o (fst p) (snd p)) os1 ps /\ (os2 = [] \/ exists o a b, os2 = [o] /\ holds o (firstn a tl) (firstn b tr));
  gd_mutated : lc (geo e) <= mutated_left (geo e) /\ rc (geo e) <= mutated_right (geo e);
  gd_cached : cached_left e <= length (li (geo e)) /\ cached_right e <= length (ri (geo e));
  gd_end : ends_in_break (extrusions e) = true -> tl = [] /\ tr = [] }.

Lemma truncate_ok (e : extruder) os1 os2 n : outlines e = os1 ++ os2 -> length os1 = n -> break_count (last_break (geo e)) = n -> lc (geo e) <= mutated_left (geo e) -> rc (geo e) <= mutated_right (geo e) ->
  truncate_outlines e = Done (with_outlines e (os1 ++ match os2 with [] => [] | o :: _ => [StrokeOutlineModel.truncate o (mutated_left (geo e) - lc (geo e)) (mutated_right (geo e) - rc (geo e))] end)).
Proof.
  intros E L1 L2 M1 M2. unfold truncate_outlines. rewrite L2, E, app_length, L1. unfold check. destruct (Nat.leb_spec n (n + length os2)); [|lia]. destruct os2 as [|o os2].
  - cbn [length]. destruct (Nat.leb_spec (S n) (n + 0)); [lia|]. f_equal. destruct e. cbn in *. rewrite E. reflexivity.
  - cbn [length]. destruct (Nat.leb_spec (S n) (n + S (length os2))); [|lia]. destruct (Nat.leb_spec (lc (geo e)) (mutated_left (geo e))); [|lia]. destruct (Nat.leb_spec (rc (geo e)) (mutated_right (geo e))); [|lia]. cbn [andb].
    rewrite nth_error_app2 by lia. rewrite L1, Nat.sub_diag. cbn [nth_error]. rewrite firstn_app, L1, Nat.sub_diag. cbn [firstn]. rewrite app_nil_r. rewrite <- L1, firstn_all. reflexivity.
Qed.
Lemma Forall2_len {A B} (Q : A -> B -> Prop) l l' : Forall2 Q l l' -> length l = length l'. Proof. induction 1; cbn; congruence. Qed.

Lemma draw_not_broken allowed (g : geometry) os : draw zero_vertex zero_triangle fresh empty_disc allowed g os <> Broken.
Proof. unfold draw. destruct (forallb allowed os); [|discriminate]. unfold ask. destruct (run _ _ _ _ _ _); discriminate. Qed.
Lemma draw_good (e : extruder) ps tl tr os : good e ps tl tr -> outcome (draw zero_vertex zero_triangle fresh empty_disc drawing (geo e) os) (fun g => drawn core shade T J R (geo e) g /\ exists tl' tr', (exists x, tl' = tl ++ x) /\ (exists x, tr' = tr ++ x) /\ li g = lefts ps ++ tl' /\ ri g = rights ps ++ tr').
Proof.
  intros G. destruct (draw _ _ _ _ drawing (geo e) os) as [g| |] eqn:E; cbn; [|exact I|].
  - pose proof (drawn_draw _ _ _ _ _ _ _ _ _ drawing _ _ _ (fun _ H => H) (gd_wf _ _ _ _ G) (gd_numbered _ _ _ _ G) E) as D. split; [exact D|]. destruct (dr_left _ _ _ _ _ _ _ D) as (x & X1). destruct (dr_right _ _ _ _ _ _ _ D) as (y & Y1).
    exists (tl ++ x), (tr ++ y). rewrite X1, Y1, (gd_left _ _ _ _ G), (gd_right _ _ _ _ G), !app_assoc. repeat split; eauto.
  - apply (draw_not_broken _ _ _ E).
Qed.
Lemma drawn_good (e : extruder) ps tl tr g tl' tr' xs : good e ps tl tr -> drawn core shade T J R (geo e) g -> (exists x, tl' = tl ++ x) -> (exists x, tr' = tr ++ x) -> li g = lefts ps ++ tl' -> ri g = rights ps ++ tr' -> ends_in_break xs = false ->
  good (with_geometry (with_extrusions e xs) g) ps tl' tr'.
Proof.
  intros G D (x & ->) (y & ->) E1 E2 EB. destruct G as [G1 G2 G3 G4 G5 G6 G7 G8 G9 G10 G11 G12]. destruct D as [(x' & D1) (y' & D2) D3 (D4 & D5) D6 D7 _]. split; cbn; rewrite ?D3, ?D4, ?D5; try assumption.
  - destruct G9 as (os1 & os2 & O1 & O2 & O3). exists os1, os2. split; [exact O1|]. split; [exact O2|]. destruct O3 as [O3|(o & a & b & O3 & O4)]; [auto|]. right. exists o, (Nat.min a (length tl)), (Nat.min b (length tr)). split; [exact O3|].
    assert (F : forall (l z : list nat) k, firstn (Nat.min k (length l)) (l ++ z) = firstn k l) by (intros l z k; rewrite firstn_app; replace (Nat.min k (length l) - length l) with 0 by lia; cbn; rewrite app_nil_r, <- firstn_firstn, firstn_all; reflexivity).
    rewrite !F. exact O4.
  - rewrite D1, D2, !app_length. lia.
  - congruence.
Qed.
Definition saved_as (g0 : geometry) (g g' : geometry) : Prop := forall b, wf g0 -> inv g0 g b -> exists b', inv g0 g' b'.

Lemma break_good (e : extruder) ps tl tr caps closing derivatives : good e ps tl tr ->
  outcome (extrude_break zero_vertex zero_triangle fresh empty_disc e caps closing derivatives) (fun e' => exists more tl' tr', good e' (ps ++ more) tl' tr' /\ (forall g0, saved_as g0 (geo e) (geo e')) /\
    saved_count e' = saved_count e /\ deleted e' = deleted e /\ (extrusions e' = extrusions e \/ extrusions e' = extrusions e ++ [None]) /\ cached_left e' = cached_left e /\ cached_right e' = cached_right e /\ tl' = [] /\ tr' = [] /\ length more <= 1).
Proof.
  intros G. unfold extrude_break. destruct (ends_in_break (extrusions e)) eqn:EB.
  - cbn. exists [], tl, tr. rewrite app_nil_r. destruct (gd_end _ _ _ _ G EB) as (-> & ->). repeat split; try assumption; try apply G; auto. intros g0 b W0 H. eauto.
  - eapply outcome_bind; [apply (draw_good e ps tl tr caps G)|]. intros g (D & tl' & tr' & PL & PR & E1 & E2). cbv zeta.
    assert (WE : with_extrusions e (extrusions e) = e) by (destruct e; reflexivity).
    pose proof (drawn_good e ps tl tr g tl' tr' (extrusions e) G D PL PR E1 E2 EB) as G'. rewrite WE in G'. clear WE PL PR.
    assert (SA : forall g0, saved_as g0 (geo e) g) by (intros g0 b W0 H; apply (dr_inv _ _ _ _ _ _ _ D g0 b W0 H)).
    pose proof (gd_lc _ _ _ _ G') as GL. pose proof (gd_rc _ _ _ _ G') as GR. cbn [geo with_geometry] in GL, GR. rewrite GL, GR, E1, E2, !app_length.
    destruct ((length (lefts ps) + length tl' <=? length (lefts ps)) && (length (rights ps) + length tr' <=? length (rights ps))) eqn:EM.
    + apply andb_true_iff in EM. rewrite !Nat.leb_le in EM. assert (tl' = []) by (destruct tl'; [reflexivity|cbn in EM; lia]). assert (tr' = []) by (destruct tr'; [reflexivity|cbn in EM; lia]). subst.
      cbn. exists [], [], []. rewrite app_nil_r. repeat split; try apply G'; auto.
    + pose proof (gd_count _ _ _ _ G') as GC. cbn [geo with_geometry] in GC. rewrite GC.
      assert (NE : around (tl', tr') <> []).
      { unfold around. cbn. intros Z. apply app_eq_nil in Z. destruct Z as (Z1 & Z2). rewrite Z2 in EM. assert (tr' = []) by (rewrite <- (rev_involutive tr'), Z1; reflexivity). subst tr'. cbn in EM. rewrite !Nat.add_0_r, !Nat.leb_refl in EM. discriminate. }
      assert (OB : exists os1 o a b, (if length (outlines e) =? length ps then outlines e ++ [StrokeOutlineModel.fresh] else outlines e) = os1 ++ [o] /\ Forall2 (fun o p => holds o (fst p) (snd p)) os1 ps /\ holds o (firstn a tl') (firstn b tr')).
      { destruct (gd_outlines _ _ _ _ G') as (os1 & os2 & O1 & O2 & O3). cbn [outlines with_geometry] in O1. pose proof (Forall2_len _ _ _ O2) as LO. destruct O3 as [->|(o & a & b & -> & O4)].
        - rewrite app_nil_r in O1. rewrite O1, LO, Nat.eqb_refl. exists os1, StrokeOutlineModel.fresh, 0, 0. repeat split; try assumption. apply StrokeOutlineProps.holds_fresh.
        - rewrite O1, app_length, LO. cbn [length]. destruct (Nat.eqb_spec (length ps + 1) (length ps)); [lia|]. exists os1, o, a, b. auto. }
      destruct OB as (os1 & o & a & b & EO & O2 & O4). rewrite EO. pose proof (Forall2_len _ _ _ O2) as LO.
      destruct (draw _ _ _ _ moving g closing) as [g1| |] eqn:Q1; cbn [bind]; [|exact I|exact (draw_not_broken _ _ _ Q1)].
      pose proof (drawn_draw _ _ _ _ _ _ _ _ _ moving _ _ _ (moving_drawing _ _ _ _ _) (gd_wf _ _ _ _ G') (gd_numbered _ _ _ _ G') Q1) as D1. destruct (move_sides _ _ _ _ _ _ _ _ _ _ _ _ Q1) as (S1 & S1').
      assert (W2 : wf (add_break fresh g1)) by (apply (wf_step _ _ _ _ _ zero_vertex zero_triangle fresh empty_disc g1 AddBreak _ (dr_wf _ _ _ _ _ _ _ D1)); reflexivity).
      assert (N2 : numbered (add_break fresh g1)) by (apply break_numbered, D1).
      destruct (draw _ _ _ _ shading (add_break fresh g1) derivatives) as [g3| |] eqn:Q3; cbn [bind]; [|exact I|exact (draw_not_broken _ _ _ Q3)].
      pose proof (drawn_draw _ _ _ _ _ _ _ _ _ shading _ _ _ (shading_drawing _ _ _ _ _) W2 N2 Q3) as D3. destruct (shade_sides _ _ _ _ _ _ _ _ _ _ _ _ Q3) as (S3 & S3'). change (li (add_break fresh g1)) with (li g1) in S3. change (ri (add_break fresh g1)) with (ri g1) in S3'.
      pose proof (dr_break _ _ _ _ _ _ _ D3) as B3. rewrite B3. cbn [add_break last_break break_count]. rewrite (dr_break _ _ _ _ _ _ _ D1). cbn [geo with_geometry]. rewrite GC, app_length, LO. cbn [length]. rewrite Nat.eqb_refl. cbn [check]. rewrite rev_unit.
      destruct (StrokeOutlineModel.get_counts o) as (ol, or) eqn:EC. assert (OL : ol = length (firstn a tl') /\ or = length (firstn b tr')).
      { destruct O4 as (h & pre & post & _ & _ & EL & ER & _). unfold StrokeOutlineModel.get_counts in EC. injection EC as <- <-. split; [exact EL|exact ER]. }
      destruct OL as (-> & ->). rewrite S3, S3', S1, S1', E1, E2, !app_length, !firstn_length.
      destruct (Nat.leb_spec (length (lefts ps) + Nat.min a (length tl')) (length (lefts ps) + length tl')); [|lia]. destruct (Nat.leb_spec (length (rights ps) + Nat.min b (length tr')) (length (rights ps) + length tr')); [|lia]. cbn [andb check].
      assert (SK : forall (l z : list nat) k, skipn (length l + Nat.min k (length z)) (l ++ z) = skipn k z).
      { intros l z k. rewrite skipn_app. rewrite skipn_all2 by lia. cbn [app]. replace (length l + Nat.min k (length z) - length l) with (Nat.min k (length z)) by lia. destruct (le_lt_dec k (length z)); [f_equal; lia|]. rewrite !skipn_all2 by lia. reflexivity. }
      rewrite !SK. destruct (StrokeOutlineProps.holds_append nat o _ _ (skipn a tl') (skipn b tr') O4) as (o' & O5 & O6). rewrite !firstn_skipn in O6. rewrite O5. cbn [need bind].
      exists [(tl', tr')], [], []. assert (CF : lefts (ps ++ [(tl', tr')]) = lefts ps ++ tl') by (rewrite map_app, concat_app; cbn; rewrite app_nil_r; reflexivity). assert (CS : rights (ps ++ [(tl', tr')]) = rights ps ++ tr') by (rewrite map_app, concat_app; cbn; rewrite app_nil_r; reflexivity).
      split.
      * split; cbn [geo outlines extrusions cached_left cached_right]; rewrite ?CF, ?CS, ?app_nil_r, ?B3; cbn [add_break last_break left_info right_info info_of index_count break_count].
        -- apply D3.
        -- apply D3.
        -- congruence.
        -- congruence.
        -- cbn. rewrite S1, E1. reflexivity.
        -- cbn. rewrite S1', E2. reflexivity.
        -- rewrite (dr_break _ _ _ _ _ _ _ D1). cbn [geo with_geometry]. rewrite app_length, GC. reflexivity.
        -- apply Forall_app. split; [apply G'|]. constructor; [exact NE|constructor].
        -- exists (rev (rev os1) ++ [o']), []. rewrite rev_involutive, app_nil_r. split; [reflexivity|]. split; [|auto]. apply Forall2_app; [exact O2|]. constructor; [exact O6|constructor].
        -- destruct (dr_mutated _ _ _ _ _ _ _ D3) as (M1 & M2). rewrite M1, M2. cbn. lia.
        -- destruct (gd_cached _ _ _ _ G') as (C1 & C2). cbn in C1, C2. rewrite S3, S3', S1, S1'. split; assumption.
        -- auto.
      * cbn. repeat split; auto. intros g0 b0 W0 HI. destruct (SA g0 b0 W0 HI) as (b1 & H1). destruct (dr_inv _ _ _ _ _ _ _ D1 g0 b1 W0 H1) as (b2 & H2).
        destruct (inv_step _ _ _ _ _ zero_vertex zero_triangle fresh empty_disc g0 g1 b2 AddBreak (add_break fresh g1) W0 (dr_wf _ _ _ _ _ _ _ D1) H2 eq_refl) as (b3 & H3). apply (dr_inv _ _ _ _ _ _ _ D3 g0 b3 W0 H3).
Qed.

(** clearing; [v]: is there a save point to look after *)
Lemma clear_good (e : extruder) ps tl tr (v : bool) ys : good e ps tl tr -> ends_in_break (extrusions e) = false -> (v = true -> recalls _ (extrusions e) (saved_count e) (deleted e) ys) ->
  outcome (clear_extruder zero_vertex zero_triangle fresh empty_disc e v) (fun e' => good e' ps [] [] /\ (forall g0, saved_as g0 (geo e) (geo e')) /\ (v = true -> recalls _ (extrusions e') (saved_count e') (deleted e') ys) /\ cached_left e' = 0 /\ cached_right e' = 0).
Proof.
  intros G EB V. unfold clear_extruder. cbv zeta. pose proof (after_break_lt _ _ EB) as LT. unfold check at 1. destruct (Nat.ltb_spec (after_break (extrusions e)) (length (extrusions e))); [|lia].
  assert (DD : exists d, (if v && (length (deleted e) =? 0) && (after_break (extrusions e) <? saved_count e) then need (slice (after_break (extrusions e)) (saved_count e) (extrusions e)) else Done (deleted e)) = Done d /\ (v = true -> recalls _ (firstn (after_break (extrusions e)) (extrusions e)) (saved_count e) d ys)).
  { destruct v; cbn [andb]; [|exists (deleted e); split; [reflexivity|discriminate]]. destruct (recalls_clear _ _ _ _ _ (V eq_refl)) as (d & D1 & D2). exists d. auto. }
  destruct DD as (d & -> & RD). cbn [bind]. destruct (clear zero_vertex zero_triangle fresh empty_disc (geo e)) as [g|] eqn:EC; cbn [ask bind]; [|exact I].
  destruct (clear_sides _ _ _ _ _ _ _ _ _ _ _ (gd_wf _ _ _ _ G) (gd_numbered _ _ _ _ G) EC) as (L1 & L2 & L3 & L4 & L5 & L6). destruct (gd_mutated _ _ _ _ G) as (M1 & M2). destruct (L5 M1 M2) as (M3 & M4). clear L5.
  destruct (gd_outlines _ _ _ _ G) as (os1 & os2 & O1 & O2 & O3). pose proof (Forall2_len _ _ _ O2) as LO.
  set (e1 := Extruder _ _ d g _ _ _ _ _). assert (TE : truncate_outlines e1 = Done (with_outlines e1 (os1 ++ match os2 with [] => [] | o :: _ => [StrokeOutlineModel.truncate o (mutated_left (geo e1) - lc (geo e1)) (mutated_right (geo e1) - rc (geo e1))] end))).
  { apply (truncate_ok e1 os1 os2 (length ps)); cbn; rewrite ?L3; try assumption. apply G. }
  rewrite TE. cbn [bind].
  assert (W : wf g) by (apply (wf_step _ _ _ _ _ zero_vertex zero_triangle fresh empty_disc (geo e) Clear g (gd_wf _ _ _ _ G) EC)).
  assert (F1 : li g = lefts ps) by (rewrite L1, (gd_left _ _ _ _ G), (gd_lc _ _ _ _ G), firstn_more, firstn_all by lia; reflexivity).
  assert (F2 : ri g = rights ps) by (rewrite L2, (gd_right _ _ _ _ G), (gd_rc _ _ _ _ G), firstn_more, firstn_all by lia; reflexivity).
  split; [|split; [|split; [exact RD|split; reflexivity]]].
  - split; cbn; rewrite ?L3, ?app_nil_r; try assumption; try apply G; try (split; lia); [|auto].
    exists os1. destruct os2 as [|o os2]; [exists []; auto|]. eexists. split; [reflexivity|]. split; [exact O2|]. right. destruct O3 as [O3|(o' & a & b & O3 & O4)]; [discriminate|]. injection O3 as <- ->.
    eexists _, 0, 0. split; [reflexivity|]. cbn [firstn].
    pose proof (StrokeOutlineProps.holds_truncate nat o _ _ (mutated_left (geo e1) - lc (geo e1)) (mutated_right (geo e1) - rc (geo e1)) O4) as O5. cbn [geo e1] in O5. rewrite L3 in O5. destruct L6 as [(L6 & L7)|(L6 & L7)].
    + assert (Z1 : mutated_left g - lc (geo e) = 0) by lia. assert (Z2 : mutated_right g - rc (geo e) = 0) by lia. rewrite Z1, Z2 in *. exact O5.
    + assert (tl = []) by (rewrite F1, (gd_left _ _ _ _ G) in L6; apply (app_inv_head (lefts ps)); rewrite app_nil_r; auto). assert (tr = []) by (rewrite F2, (gd_right _ _ _ _ G) in L7; apply (app_inv_head (rights ps)); rewrite app_nil_r; auto). subst tl tr. rewrite !firstn_nil in O5. exact O5.
  - intros g0 b W0 HI. apply (inv_step _ _ _ _ _ zero_vertex zero_triangle fresh empty_disc g0 (geo e) b Clear g W0 (gd_wf _ _ _ _ G) HI EC).
Qed.

(** one event; [v]: after the save point *)
Lemma handle_good (e : extruder) ps tl tr (v : bool) ys ev : good e ps tl tr -> (v = true -> recalls _ (extrusions e) (saved_count e) (deleted e) ys) ->
  outcome (handle zero_vertex zero_triangle fresh empty_disc v e ev) (fun e' => (exists more tl' tr', good e' (ps ++ more) tl' tr' /\ length more <= 1) /\ (forall g0, saved_as g0 (geo e) (geo e')) /\ (v = true -> recalls _ (extrusions e') (saved_count e') (deleted e') ys) /\
    cached_left e' <= cached_left e /\ cached_right e' <= cached_right e).
Proof.
  intros G V. destruct ev as [caps closing derivatives| |x work]; cbn [handle].
  - eapply outcome_imp; [apply (break_good e ps tl tr caps closing derivatives G)|]. intros e' (more & tl' & tr' & G' & SA & C1 & C2 & C3 & C4 & C5 & _ & _ & LM). rewrite C1, C2, C4, C5. split; [eauto|]. split; [exact SA|]. split; [|lia]. intros Z. specialize (V Z). destruct C3 as [->| ->]; [exact V|apply recalls_push, V].
  - destruct (ends_in_break (extrusions e)) eqn:EB.
    + cbn. split; [exists [], tl, tr; rewrite app_nil_r; split; [exact G|cbn; lia]|]. split; [intros g0 b W0 H; eauto|]. split; [exact V|lia].
    + eapply outcome_imp; [apply (clear_good e ps tl tr v ys G EB V)|]. intros e' (G' & SA & RE & C1 & C2). split; [exists [], [], []; rewrite app_nil_r; split; [exact G'|cbn; lia]|]. split; [exact SA|]. split; [exact RE|lia].
  - eapply outcome_bind; [apply (draw_good e ps tl tr work G)|]. intros g (D & tl' & tr' & PL & PR & E1 & E2). cbn.
    split; [exists [], tl', tr'; rewrite app_nil_r; split; [|cbn; lia]; apply (drawn_good e ps tl tr g tl' tr' (extrusions e ++ [Some x]) G D PL PR E1 E2); rewrite ends_snoc; reflexivity|].
    split; [intros g0 b W0 H; apply (dr_inv _ _ _ _ _ _ _ D g0 b W0 H)|]. split; [|lia]. intros Z. apply recalls_push, V, Z.
Qed.
Lemma handle_all_good v ys evs : forall (e : extruder) ps tl tr, good e ps tl tr -> (v = true -> recalls _ (extrusions e) (saved_count e) (deleted e) ys) ->
  outcome (handle_all zero_vertex zero_triangle fresh empty_disc v e evs) (fun e' => (exists more tl' tr', good e' (ps ++ more) tl' tr') /\ (forall g0, saved_as g0 (geo e) (geo e')) /\ (v = true -> recalls _ (extrusions e') (saved_count e') (deleted e') ys) /\
    cached_left e' <= cached_left e /\ cached_right e' <= cached_right e).
Proof.
  induction evs as [|ev evs IH]; intros e ps tl tr G V; cbn [handle_all].
  - cbn. split; [exists [], tl, tr; rewrite app_nil_r; exact G|]. split; [intros g0 b W0 H; eauto|]. split; [exact V|lia].
  - eapply outcome_bind; [apply (handle_good e ps tl tr v ys ev G V)|]. intros e1 ((more & tl1 & tr1 & G1 & _) & SA & V1 & C1 & C2). eapply outcome_imp; [apply (IH e1 _ _ _ G1 V1)|]. intros e2 ((more' & tl2 & tr2 & G2) & SA2 & V2 & C3 & C4).
    split; [rewrite <- app_assoc in G2; eauto|]. split; [|split; [exact V2|lia]]. intros g0 b W0 H. destruct (SA g0 b W0 H) as (b' & H'). apply (SA2 g0 b' W0 H').
Qed.

(** the state after the save point: [e0] is what was saved *)
Record since (e0 : extruder) ps0 tl0 tr0 (e : extruder) ps tl tr : Prop := {
  si_before : good e0 ps0 tl0 tr0;
  si_now : good e ps tl tr;
  si_pieces : exists more, ps = ps0 ++ more;
  si_geometry : exists b, inv (geo e0) (geo e) b;
  si_extrusions : recalls _ (extrusions e) (saved_count e) (deleted e) (extrusions e0);
  si_cached : cached_left e <= length (li (geo e0)) /\ cached_right e <= length (ri (geo e0)) }.

Lemma prefix_back (c m b : nat) (now before tl0 L x l0 : list nat) : now = l0 ++ L ++ x -> before = l0 ++ tl0 -> length l0 = c -> firstn b now = firstn b before -> b <= length now -> b <= length before -> m <= b -> exists a, firstn (m - c) L = firstn a tl0.
Proof.
  intros E1 E2 E3 F B1 B2 M. exists (Nat.min (m - c) (length L)). assert (F' : firstn m now = firstn m before).
  { replace m with (Nat.min m b) by lia. rewrite <- !firstn_firstn, F. reflexivity. }
  destruct (le_lt_dec m c) as [Q|Q]; [replace (m - c) with 0 by lia; reflexivity|]. rewrite E1, E2, !firstn_app, E3 in F'. rewrite !(firstn_all2 l0) in F' by lia. apply app_inv_head in F'.
  assert (F2 : firstn (Nat.min (m - c) (length L)) (L ++ x) = firstn (Nat.min (m - c) (length L)) tl0).
  { rewrite <- firstn_app in F'. apply (f_equal (firstn (Nat.min (m - c) (length L)))) in F'. rewrite !firstn_firstn in F'. replace (Nat.min (Nat.min (m - c) (length L)) (m - c)) with (Nat.min (m - c) (length L)) in F' by lia. exact F'. }
  rewrite <- F2, firstn_more by lia. destruct (le_lt_dec (m - c) (length L)); [f_equal; lia|]. rewrite !firstn_all2 by lia. reflexivity.
Qed.
Lemma restore_good (e0 : extruder) ps0 tl0 tr0 e ps tl tr sv st so : since e0 ps0 tl0 tr0 e ps tl tr -> walks e sv st so ->
  exists e', restore zero_vertex zero_triangle empty_disc default (with_geometry e (reset_tracking (geo e))) sv st so = Done e' /\ good e' ps0 tl0 tr0 /\ extrusions e' = extrusions e0 /\ same_stroke (geo e') (geo e0) /\ is_active (save (geo e')) = false.
Proof.
  intros [G0 G (more & ->) (b & HI) RE CA] (P1 & P2 & P3). unfold restore. cbn [extrusions deleted saved_count with_geometry geo]. rewrite (recalls_restore _ _ _ _ _ default RE). cbn [need bind].
  pose proof (gd_wf _ _ _ _ G0) as W0. pose proof (gd_wf _ _ _ _ G) as W.
  assert (HT : exists b', inv (geo e0) (reset_tracking (geo e)) b' /\ b' = b) by (exists b; split; [destruct HI as [A NV NT K1 K2 CV CT CO SL SR BR N0 N1 AL LO]; split; assumption|reflexivity]). destruct HT as (b' & HT & ->).
  assert (WT : wf (reset_tracking (geo e))) by (destruct W as [W1 W2 W3 W4]; split; assumption).
  destruct (revert_ok _ _ _ _ _ zero_vertex zero_triangle empty_disc _ _ _ sv st so W0 WT HT P1 P2 P3) as (g' & R1 & R2 & R3 & R4 & R5). rewrite R1. cbn [ask bind]. cbn [mutated_left mutated_right reset_tracking] in R4, R5.
  set (e1 := with_geometry _ g'). destruct (gd_outlines _ _ _ _ G) as (os1 & os2 & O1 & O2 & O3).
  apply Forall2_app_inv_r in O2. destruct O2 as (osA & osB & OA & OB & ->). pose proof (Forall2_len _ _ _ OA) as LO.
  assert (LB : last_break g' = last_break (geo e0)) by apply R2. assert (SL : left g' = left (geo e0)) by apply R2. assert (SR : right g' = right (geo e0)) by apply R2.
  destruct (i_low _ _ _ _ _ _ _ _ HI) as (_ & _ & (LL & _) & (LR & _)). destruct (i_l _ _ _ _ _ _ _ _ HI) as [_ _ (_ & FL & BL & BL0) _ _]. destruct (i_r _ _ _ _ _ _ _ _ HI) as [_ _ (_ & FR & BR & BR0) _ _].
  assert (TE : truncate_outlines e1 = Done (with_outlines e1 (osA ++ match osB ++ os2 with [] => [] | o :: _ => [StrokeOutlineModel.truncate o (mutated_left (geo e1) - lc (geo e1)) (mutated_right (geo e1) - rc (geo e1))] end))).
  { apply (truncate_ok e1 osA (osB ++ os2) (length ps0)); cbn; rewrite ?LB, ?R4, ?R5; try lia; [rewrite app_assoc; exact O1|apply G0]. }
  rewrite TE. eexists. split; [reflexivity|]. split; [|split; [reflexivity|split; [exact R2|exact R3]]].
  split; cbn [geo outlines extrusions cached_left cached_right with_outlines e1 with_geometry with_extrusions]; rewrite ?SL, ?SR, ?LB, ?R4, ?R5; try apply G0.
  - apply (same_wf _ _ _ _ _ _ _ R2 W0).
  - apply (same_numbered _ _ _ _ _ _ _ R2), G0.
  - exists osA. rewrite <- app_assoc in O1. destruct (osB ++ os2) as [|o rest] eqn:EO; [exists []; auto|]. eexists. split; [reflexivity|]. split; [exact OA|]. right.
    assert (HO : exists L R x y, holds o L R /\ li (geo e) = lefts ps0 ++ L ++ x /\ ri (geo e) = rights ps0 ++ R ++ y).
    { pose proof (gd_left _ _ _ _ G) as GL. pose proof (gd_right _ _ _ _ G) as GR. rewrite map_app, concat_app, <- app_assoc in GL. rewrite map_app, concat_app, <- app_assoc in GR. destruct OB as [|o' p osB more OP OB].
      - cbn [app] in EO. subst os2. destruct O3 as [O3|(o' & a & c & O3 & O4)]; [discriminate|]. injection O3 as -> ->. exists (firstn a tl), (firstn c tr), (skipn a tl), (skipn c tr). rewrite !firstn_skipn. auto.
      - cbn [app] in EO. injection EO as -> _. cbn [map concat] in GL, GR. rewrite <- app_assoc in GL, GR. eauto 10. }
    destruct HO as (L & R' & x & y & HO & GL & GR).
    destruct (prefix_back (lc (geo e0)) (Nat.min (length (li (geo e))) (index_count (left_info b))) (index_count (left_info b)) _ _ tl0 L x (lefts ps0) GL (gd_left _ _ _ _ G0) (eq_sym (gd_lc _ _ _ _ G0)) FL BL BL0 ltac:(lia)) as (a & A1).
    destruct (prefix_back (rc (geo e0)) (Nat.min (length (ri (geo e))) (index_count (right_info b))) (index_count (right_info b)) _ _ tr0 R' y (rights ps0) GR (gd_right _ _ _ _ G0) (eq_sym (gd_rc _ _ _ _ G0)) FR BR BR0 ltac:(lia)) as (c & A2).
    eexists _, a, c. split; [reflexivity|]. rewrite <- A1, <- A2. apply StrokeOutlineProps.holds_truncate, HO.
  - lia.
  - exact CA.
Qed.

(** restoring right after the stroke was started *)
Lemma start_good (r : R) (o : storage) L R' : holds o L R' -> good (start_stroke r o) [] [] [].
Proof.
  intros O. split; cbn; try reflexivity; try lia; auto.
  - split; cbn; try reflexivity; unfold below, below_info; cbn; lia.
  - split; cbn; apply perm_nil.
  - exists [], [StrokeOutlineModel.truncate o 0 0]. split; [reflexivity|]. split; [constructor|]. right. exists (StrokeOutlineModel.truncate o 0 0), 0, 0. split; [reflexivity|]. apply (StrokeOutlineProps.holds_truncate nat o L R' 0 0 O).
Qed.
Lemma restore_start (r : R) (o : storage) sv st so : exists o', restore zero_vertex zero_triangle empty_disc default (with_geometry (start_stroke (P := P) (X := X) r o) (reset_tracking (geo (start_stroke (P := P) (X := X) r o)))) sv st so = Done (start_stroke r o') /\ o' = StrokeOutlineModel.truncate o 0 0.
Proof. eexists. split; [|reflexivity]. cbn. reflexivity. Qed.

(** bounds *)
Lemma positions_some (g : geometry) is : (forall i, In i is -> i < length (vertices g)) -> exists l, positions position g is = Some l.
Proof.
  induction is as [|i is IH]; intros H; cbn; [eauto|]. destruct IH as (l & E); [intros; apply H; right; assumption|]. unfold positions in E. rewrite E.
  destruct (nth_error (vertices g) i) as [[c d]|] eqn:V; [eauto|]. apply nth_error_None in V. specialize (H i (or_introl eq_refl)). lia.
Qed.
Lemma in_skipn {A} n (l : list A) x : In x (skipn n l) -> In x l.
Proof. intros H. rewrite <- (firstn_skipn n l). apply in_or_app. right. exact H. Qed.
Lemma in_removelast {A} (l : list A) x : In x (removelast l) -> In x l.
Proof. induction l as [|a [|b l] IH]; cbn; [tauto|tauto|]. intros [H|H]; [auto|right; apply IH, H]. Qed.
Lemma removelast_le {A} (l : list A) : length (removelast l) <= length l.
Proof. induction l as [|a [|b l] IH]; cbn in *; lia. Qed.
Lemma cached_side_ok (g : geometry) is b n : (forall i, In i is -> i < length (vertices g)) -> n <= length is -> exists b' n', update_cached_side position g is b n = Done (b', n') /\ n' <= length is.
Proof.
  intros H L. unfold update_cached_side, check. destruct (Nat.leb_spec n (length is)); [|lia]. cbv zeta. destruct (positions_some g (removelast (skipn n is))) as (ps & E); [intros i I; apply H, (in_skipn n), in_removelast, I|]. rewrite E. cbn. eexists _, _. split; [reflexivity|].
  pose proof (removelast_le (skipn n is)) as Q. rewrite skipn_length in Q. lia.
Qed.
Definition same_but_bounds (e e' : extruder) : Prop := extrusions e' = extrusions e /\ saved_count e' = saved_count e /\ deleted e' = deleted e /\ geo e' = geo e /\ outlines e' = outlines e.
Lemma update_cached_ok (e : extruder) ps tl tr : good e ps tl tr -> exists e', update_cached position e = Done e' /\ good e' ps tl tr /\ same_but_bounds e e'.
Proof.
  intros G. destruct (gd_cached _ _ _ _ G) as (C1 & C2). unfold update_cached.
  destruct (cached_side_ok (geo e) (li (geo e)) (cached e) (cached_left e)) as (b1 & n1 & E1 & L1); [intros i I; apply (number_in _ _ _ _ _ (geo e) i); [apply G|auto]|exact C1|].
  destruct (cached_side_ok (geo e) (ri (geo e)) b1 (cached_right e)) as (b2 & n2 & E2 & L2); [intros i I; apply (number_in _ _ _ _ _ (geo e) i); [apply G|auto]|exact C2|].
  rewrite E1. cbn [bind]. rewrite E2. cbn [bind]. eexists. split; [reflexivity|]. split; [|repeat split]. split; cbn; try apply G. auto.
Qed.
Lemma update_current_ok (e : extruder) ps tl tr : good e ps tl tr -> exists e', update_current position e = Done e' /\ good e' ps tl tr /\ same_but_bounds e e' /\ cached_left e' = cached_left e /\ cached_right e' = cached_right e.
Proof.
  intros G. destruct (gd_cached _ _ _ _ G) as (C1 & C2). unfold update_current, check. destruct (Nat.leb_spec (cached_left e) (length (li (geo e)))); [|lia]. destruct (Nat.leb_spec (cached_right e) (length (ri (geo e)))); [|lia]. cbn [andb].
  destruct (positions_some (geo e) (skipn (cached_left e) (li (geo e)))) as (p1 & E1); [intros i I; apply (number_in _ _ _ _ _ (geo e) i); [apply G|left; apply in_skipn in I; exact I]|].
  destruct (positions_some (geo e) (skipn (cached_right e) (ri (geo e)))) as (p2 & E2); [intros i I; apply (number_in _ _ _ _ _ (geo e) i); [apply G|right; apply in_skipn in I; exact I]|].
  rewrite E1, E2. cbn. eexists. split; [reflexivity|]. split; [|repeat split]. split; cbn; apply G.
Qed.
Lemma save_good (e : extruder) ps tl tr : good e ps tl tr -> since e ps tl tr (save_extruder zero_vertex e) ps tl tr.
Proof.
  intros G. destruct (save_sides _ _ _ _ _ zero_vertex (geo e)) as (SL & SR). split.
  - exact G.
  - split; cbn [save_extruder geo extrusions outlines cached_left cached_right]; rewrite ?SL, ?SR; try apply G; [apply wf_save, G|apply save_numbered, G].
  - exists []. rewrite app_nil_r. reflexivity.
  - exists (counts_of _ _ _ _ _ (geo e)). cbn. apply inv_start, G.
  - cbn. apply recalls_start.
  - cbn. apply G.
Qed.
(** the extruder before Restore *)
Inductive ready : extruder -> Prop :=
  | ready_new r o L R' : holds o L R' -> ready (start_stroke r o)
  | ready_since e0 ps0 tl0 tr0 e ps tl tr : since e0 ps0 tl0 tr0 e ps tl tr -> ready e.
Lemma ready_restore (e : extruder) sv st so : ready e -> walks e sv st so -> exists e' ps tl tr, restore zero_vertex zero_triangle empty_disc default (with_geometry e (reset_tracking (geo e))) sv st so = Done e' /\ good e' ps tl tr.
Proof.
  intros [r o L R' O|e0 ps0 tl0 tr0 e1 ps tl tr SI] PW.
  - destruct (restore_start r o sv st so) as (o' & E & ->). eexists _, [], [], []. split; [exact E|]. apply (start_good _ _ _ _ (StrokeOutlineProps.holds_truncate nat o L R' 0 0 O)).
  - destruct (restore_good _ _ _ _ _ _ _ _ sv st so SI PW) as (e' & E & G & _). eauto 6.
Qed.
Lemma before_volatile_good (e : extruder) sv st so fixed : ready e -> walks e sv st so ->
  outcome (before_volatile zero_vertex zero_triangle fresh empty_disc position default e sv st so fixed) (fun e' => exists e0 ps tl tr, good e0 ps tl tr /\ e' = save_extruder zero_vertex e0).
Proof.
  intros RD PW. unfold before_volatile. destruct (ready_restore e sv st so RD PW) as (e1 & ps & tl & tr & E & G). rewrite E. cbn [bind].
  eapply outcome_bind; [apply (handle_all_good false [] fixed e1 ps tl tr G); discriminate|]. intros e2 ((more & tl2 & tr2 & G2) & _). destruct (update_cached_ok e2 _ _ _ G2) as (e3 & E3 & G3 & _). rewrite E3. cbn. eauto 10.
Qed.
Lemma volatile_good (e0 : extruder) ps0 tl0 tr0 volatile caps closing derivatives : good e0 ps0 tl0 tr0 ->
  outcome (let! e := handle_all zero_vertex zero_triangle fresh empty_disc true (save_extruder zero_vertex e0) volatile in
           let! e := extrude_break zero_vertex zero_triangle fresh empty_disc e caps closing derivatives in update_current position e)
    (fun e' => exists ps, since e0 ps0 tl0 tr0 e' ps [] []).
Proof.
  intros G0. destruct (save_good e0 ps0 tl0 tr0 G0) as [_ G1 _ (b & HI) RE CA].
  eapply outcome_bind; [apply (handle_all_good true (extrusions e0) volatile _ ps0 tl0 tr0 G1); intros _; exact RE|]. intros e2 ((more & tl2 & tr2 & G2) & SA & RE2 & C1 & C2).
  eapply outcome_bind; [apply (break_good e2 _ _ _ caps closing derivatives G2)|]. intros e3 (more3 & tl3 & tr3 & G3 & SA3 & D1 & D2 & D3 & D4 & D5 & -> & -> & _).
  destruct (update_current_ok e3 _ _ _ G3) as (e4 & E4 & G4 & (B1 & B2 & B3 & B4 & B5) & B6 & B7). rewrite E4. cbn. rewrite <- app_assoc in G4. exists (ps0 ++ more ++ more3).
  destruct (SA (geo e0) b (gd_wf _ _ _ _ G0) HI) as (b2 & HI2). destruct (SA3 (geo e0) b2 (gd_wf _ _ _ _ G0) HI2) as (b3 & HI3).
  split; try assumption; [eauto|rewrite B4; eauto| |lia]. rewrite B1, B2, B3, D1, D2. specialize (RE2 eq_refl). destruct D3 as [-> | ->]; [exact RE2|apply recalls_push, RE2].
Qed.
Lemma extend_good (e : extruder) sv st so fixed volatile caps closing derivatives : ready e -> walks e sv st so ->
  outcome (extend zero_vertex zero_triangle fresh empty_disc position default e sv st so fixed volatile caps closing derivatives) (fun e' => exists e0 ps0 tl0 tr0 ps, since e0 ps0 tl0 tr0 e' ps [] []).
Proof.
  intros RD PW. unfold extend. eapply outcome_bind; [apply (before_volatile_good e sv st so fixed RD PW)|]. intros e1 (e0 & ps & tl & tr & G & ->).
  eapply outcome_imp; [apply (volatile_good e0 ps tl tr volatile caps closing derivatives G)|]. intros e' (ps' & H). eauto 8.
Qed.
Lemma stroke_ready (e : extruder) : stroke zero_vertex zero_triangle fresh empty_disc position default e -> ready e.
Proof.
  induction 1 as [r qs o E|e sv st so fixed volatile caps closing derivatives e' H IH PW E].
  - destruct (StrokeOutlineProps.holds_run nat StrokeOutlineModel.fresh (@StrokeOutlineSpec.none nat) qs (StrokeOutlineProps.holds_fresh nat)) as (o' & E' & HO). rewrite E in E'. injection E' as <-. apply (ready_new r o _ _ HO).
  - pose proof (extend_good e sv st so fixed volatile caps closing derivatives IH PW) as G. rewrite E in G. destruct G as (e0 & ps0 & tl0 & tr0 & ps & G). eapply ready_since, G.
Qed.

(** what is handed out *)
Lemma no_indices : map (@Some nat) (rev (@nil nat) ++ []) = []. Proof. reflexivity. Qed.
Lemma shown_outlines os1 ps : Forall2 (fun o p => holds o (fst p) (snd p)) os1 ps -> Forall (fun p => around p <> []) ps -> forall os2, fold_right (fun o acc => match StrokeOutlineModel.get_indices o, acc with
    | Some is, Some l => Some (match is with [] => l | _ => is :: l end) | _, _ => None end) (Some []) os2 = Some [] ->
  fold_right (fun o acc => match StrokeOutlineModel.get_indices o, acc with
    | Some is, Some l => Some (match is with [] => l | _ => is :: l end) | _, _ => None end) (Some []) (os1 ++ os2) = Some (map (map Some) (map around ps)).
Proof.
  induction 1 as [|o p os1 ps OP F IH]; intros NE os2 E; cbn [app fold_right map]; [exact E|]. inversion NE as [|q qs N1 N2]; subst. rewrite (IH N2 os2 E). unfold StrokeOutlineModel.get_indices. rewrite (StrokeOutlineProps.holds_span nat o _ _ OP). change (rev (snd p) ++ fst p) with (around p). destruct (around p) as [|x l]; [congruence|]. reflexivity.
Qed.
Lemma good_outlines (e : extruder) ps : good e ps [] [] -> non_empty_outlines e = Some (map (map Some) (map around ps)) /\ cuts ps (li (geo e)) (ri (geo e)) /\ length ps = break_count (last_break (geo e)).
Proof.
  intros G. destruct (gd_outlines _ _ _ _ G) as (os1 & os2 & O1 & O2 & O3). split; [|split].
  - unfold non_empty_outlines. rewrite O1. apply shown_outlines; [exact O2|apply G|]. destruct O3 as [->|(o & a & b & -> & O4)]; [reflexivity|]. rewrite !firstn_nil in O4. cbn. unfold StrokeOutlineModel.get_indices. rewrite (StrokeOutlineProps.holds_span nat o _ _ O4). reflexivity.
  - split; [|split; [|apply G]]; [rewrite (gd_left _ _ _ _ G)|rewrite (gd_right _ _ _ _ G)]; rewrite app_nil_r; reflexivity.
  - symmetry. apply G.
Qed.
End Proofs.
