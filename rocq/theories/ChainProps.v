(** C75: the tips a stroke is extruded from. *)
From Coq Require Import ZArith Reals Lra Lia Bool List.
From Flocq Require Import Core IEEE754.BinarySingleNaN.
From Verif Require Import F32 F32Lemmas F32Round F64 NumModel AngleModel AngleProps BehaviorModel GeomModel DistanceModel ConstrainModel ConstrainProofs ConstrainProps ChainModel ChainSpec.
Import ListNotations.

Section Props.
Variable E : elem.
Notation N := (fnum E).
Notation X := (extrusion E).
Notation state := (@tip_state N).
Variables (internal : X -> X -> quality) (contains : X -> X -> bool) (eps : f32).
Notation Step := (Step E internal contains eps).
Notation Steps := (Steps E internal contains eps).
Notation Fixed := (Fixed E internal contains eps).
Notation extrude := (extrude E internal contains eps).
Notation extrude_all := (extrude_all E internal contains eps).
Notation extend := (extend E internal contains eps).
Notation stroke := (stroke E internal contains eps).
Notation join := (join E internal eps).
Notation whole := (whole E eps).
Notation part := (part E eps).

Lemma back_some xs a : back E xs = Some a <-> exists p, xs = p ++ [Some a].
Proof.
  unfold back. split.
  - destruct (rev xs) as [|[x|] r] eqn:R; try discriminate. intros H. injection H as ->. exists (rev r). rewrite <- (rev_involutive xs), R. reflexivity.
  - intros [p ->]. rewrite rev_app_distr. reflexivity.
Qed.
Lemma back_none xs : back E xs = None <-> ended E xs.
Proof.
  unfold back, ended. split.
  - destruct (rev xs) as [|[x|] r] eqn:R; try discriminate; intros _; rewrite <- (rev_involutive xs), R; [left; reflexivity|right; exists (rev r); reflexivity].
  - intros [-> |[p ->]]; [reflexivity|]. rewrite rev_app_distr. reflexivity.
Qed.
(** the backwards loop stops at the last break *)
Lemma scan_some new r k : scan E contains new r = Some k -> exists ys, ended E (firstn k (rev r)) /\ rev r = firstn k (rev r) ++ map Some ys /\ (k + length ys = length r)%nat /\ forall y, In y ys -> contains new y = true.
Proof.
  induction r as [|[x|] r IH]; cbn [scan]; intros H.
  - injection H as <-. exists []. repeat split; [left; reflexivity|contradiction].
  - destruct (contains new x) eqn:C; [|discriminate]. destruct (IH H) as (ys & A & B & L & D). exists (ys ++ [x]). cbn [rev]. assert (K : (k <= length (rev r))%nat) by (rewrite rev_length; lia).
    rewrite firstn_app, (proj2 (Nat.sub_0_le _ _) K), firstn_O, app_nil_r. split; [exact A|]. split; [rewrite B at 1; rewrite map_app, app_assoc; reflexivity|]. split; [rewrite app_length; cbn; lia|].
    intros y Hy. apply in_app_iff in Hy. destruct Hy as [Hy|[<-|[]]]; auto.
  - injection H as <-. exists []. rewrite firstn_all2 by (rewrite rev_length; cbn; lia). split; [right; exists (rev r); reflexivity|]. split; [rewrite app_nil_r; reflexivity|]. split; [cbn; lia|contradiction].
Qed.
Lemma scan_none new r : scan E contains new r = None -> exists p ys, rev r = p ++ map Some ys /\ exists y, In y ys /\ contains new y = false.
Proof.
  induction r as [|[x|] r IH]; cbn [scan]; intros H; try discriminate. destruct (contains new x) eqn:C.
  - destruct (IH H) as (p & ys & A & y & B & D). exists p, (ys ++ [x]). cbn [rev]. rewrite A, map_app, app_assoc. split; [reflexivity|]. exists y. split; [apply in_app_iff; auto|exact D].
  - exists (rev r), [x]. split; [reflexivity|]. exists x. split; [left; reflexivity|exact C].
Qed.
Lemma tenth_spec (t : f32) : is_finite t = true -> (flt t minimum_amount = true <-> (fR t < tenth)%R).
Proof.
  intros F. destruct (fR_const minimum_amount false 13421773 (-27)) as [RM FM]; [vm_compute; reflexivity|]. rewrite flt_spec by (apply finite_not_nan; assumption). rewrite !fX_finite by assumption. rewrite RM. unfold tenth, F2R. cbn [Fnum Fexp cond_Zopp]. change (bpow radix2 (-27)) with (/ IZR 134217728)%R. tauto.
Qed.

(** ** The saved tips come back *)
(** [base] is what was saved *)
Definition keeps (e : extruder E) (base : list (option X)) : Prop :=
  saved_count E e = length base /\
  ((deleted E e = [] /\ exists q, extrusions E e = base ++ q) \/
   (exists p q, base = p ++ deleted E e /\ extrusions E e = p ++ q /\ ended E p /\ deleted E e <> [])).
Lemma restore_keeps e base : keeps e base -> extrusions E (restore E e) = base.
Proof.
  intros [S [(D & q & Q)|(p & q & B & Q & _ & _)]]; unfold restore; cbn [extrusions]; rewrite S, Q.
  - rewrite D. rewrite <- app_assoc, firstn_app, Nat.sub_diag, firstn_O, app_nil_r, firstn_all. cbn [length]. rewrite Nat.sub_0_r, firstn_all, app_nil_r. reflexivity.
  - rewrite B. f_equal. set (l := (p ++ q) ++ _). assert (L : (length (p ++ deleted E e) <= length l)%nat). { unfold l. rewrite (app_length (p ++ q)), repeat_length. lia. }
    rewrite firstn_length, (Nat.min_l _ _ L), firstn_firstn. replace (Nat.min _ _) with (length p) by (rewrite (app_length p (deleted E e)); lia). unfold l. rewrite <- app_assoc, firstn_app, Nat.sub_diag, firstn_O, app_nil_r, firstn_all. reflexivity.
Qed.
Lemma save_keeps e : keeps (save E e) (extrusions E e).
Proof. split; [reflexivity|]. left. split; [reflexivity|]. exists []. rewrite app_nil_r. reflexivity. Qed.
Lemma push_keeps e base x : keeps e base -> keeps (push E e x) base.
Proof.
  intros [S [(D & q & Q)|(p & q & B & Q & R)]]; (split; [exact S|]); [left|right]; cbn [push deleted extrusions].
  - split; [exact D|]. exists (q ++ [x]). rewrite Q, app_assoc. reflexivity.
  - exists p, (q ++ [x]). rewrite Q, app_assoc. auto.
Qed.
Lemma break_keeps e base : keeps e base -> keeps (extrude_break E e) base.
Proof. intros H. unfold extrude_break. destruct (back _ _); [apply push_keeps|]; exact H. Qed.
(** [p] ends at a break, all tips after it are erased *)
Lemma ended_prefix (p p' : list (option X)) q ys : ended E p -> ended E p' -> p ++ q = p' ++ map Some ys -> exists m, p' = p ++ m.
Proof.
  intros Hp Hp' H. destruct (Nat.le_gt_cases (length p) (length p')) as [L|L].
  - exists (skipn (length p) p'). assert (F : firstn (length p) (p ++ q) = firstn (length p) (p' ++ map Some ys)) by (rewrite H; reflexivity).
    rewrite !firstn_app, Nat.sub_diag, firstn_O, firstn_all, app_nil_r in F. rewrite (proj2 (Nat.sub_0_le _ _) L), firstn_O, app_nil_r in F. rewrite F at 1. symmetry. apply firstn_skipn.
  - exfalso. destruct Hp as [-> |[p0 ->]]; [cbn in L; lia|]. assert (I : In None (map (@Some X) ys)).
    { rewrite <- app_assoc in H. cbn [app] in H. rewrite app_length in L. cbn in L. assert (G : skipn (length p') (p0 ++ None :: q) = map Some ys). { rewrite H, skipn_app, skipn_all, Nat.sub_diag. reflexivity. }
      rewrite skipn_app in G. replace (length p' - length p0)%nat with 0%nat in G by lia. cbn [skipn] in G. rewrite <- G. apply in_app_iff. right. left. reflexivity. }
    apply in_map_iff in I. destruct I as (y & Hy & _). discriminate.
Qed.
Lemma clear_keeps e base p ys : keeps e base -> extrusions E e = p ++ map Some ys -> ended E p -> keeps (clear_from E e (length p) true) base.
Proof.
  intros [S K] Q Hp. split; [exact S|]. unfold clear_from. cbn [saved_count deleted extrusions]. rewrite Q, firstn_app, Nat.sub_diag, firstn_O, app_nil_r, firstn_all.
  destruct K as [(D & q & B)|(p0 & q & B & B2 & Hp0 & ND)].
  - rewrite D. cbn [andb]. destruct (Nat.ltb_spec (length p) (saved_count E e)) as [L|L].
    + right. rewrite S in *. rewrite Q in B. assert (P : base = p ++ firstn (length base - length p) (map Some ys)).
      { assert (F : firstn (length base) (p ++ map Some ys) = base) by (rewrite B, firstn_app, Nat.sub_diag, firstn_O, app_nil_r, firstn_all; reflexivity). rewrite <- F at 1. rewrite firstn_app. f_equal. apply firstn_all2. lia. }
      exists p, []. rewrite skipn_app, Nat.sub_diag, skipn_all. cbn [skipn app]. rewrite app_nil_r. split; [exact P|]. split; [reflexivity|]. split; [exact Hp|].
      intros Z. rewrite Z, app_nil_r in P. rewrite P in L. lia.
    + left. split; [reflexivity|]. rewrite Q in B. exists (skipn (length base) p). assert (F : firstn (length base) (p ++ map Some ys) = firstn (length base) p) by (rewrite firstn_app; replace (length base - length p)%nat with 0%nat by lia; rewrite firstn_O, app_nil_r; reflexivity).
      rewrite B, firstn_app, Nat.sub_diag, firstn_O, app_nil_r, firstn_all in F. rewrite F at 1. symmetry. apply firstn_skipn.
  - right. destruct (deleted E e) as [|d ds] eqn:D; [contradiction|]. cbn [andb]. rewrite Q in B2. destruct (ended_prefix p0 p q ys Hp0 Hp (eq_sym B2)) as [m M]. exists p0, m. auto.
Qed.

(** ** One state *)
Lemma swallow_shape (xs p' : list (option X)) (a : X) (ys : list X) k : xs = p' ++ [Some a] -> rev (tl (rev xs)) = firstn k (rev (tl (rev xs))) ++ map Some ys -> (k + length ys = length (tl (rev xs)))%nat ->
  firstn k xs = firstn k p' /\ length (firstn k p') = k /\ xs = firstn k p' ++ map Some ys ++ [Some a].
Proof.
  intros -> H L. rewrite rev_app_distr in *. cbn [rev app tl] in *. rewrite rev_involutive in H. rewrite rev_length in L. assert (K : (k <= length p')%nat) by lia.
  split; [rewrite firstn_app, (proj2 (Nat.sub_0_le _ _) K), firstn_O, app_nil_r; reflexivity|]. split; [apply firstn_length_le; exact K|]. rewrite app_assoc, <- H. reflexivity.
Qed.
Theorem C75_step e s is_volatile is_last : Step (extrusions E e) s is_last (extrusions E (extrude e s is_volatile is_last)).
Proof.
  unfold ChainModel.extrude. destruct (flt (ts_width s) eps && flt (ts_height s) eps) eqn:Sm.
  - apply andb_true_iff in Sm. unfold extrude_break. destruct (back E (extrusions E e)) as [a|] eqn:B.
    + apply back_some in B. destruct B as [p P]. cbn [push extrusions]. eapply gap; [exact Sm|exact P].
    + apply back_none in B. apply gap_again; assumption.
  - assert (NS : ~ small E eps s) by (intros [A B]; rewrite A, B in Sm; discriminate). clear Sm. unfold try_append. destruct (back E (extrusions E e)) as [a|] eqn:B.
    2: { apply back_none in B. cbn [push extrusions]. apply first; assumption. }
    apply back_some in B. destruct B as [p P]. fold (whole s).
    destruct (C74_answers E internal a (whole s) eps 7) as (A1 & A2 & A3 & A4). cbv zeta in *. destruct (constrain E internal a (whole s) eps 7) as [|t x| | |] eqn:C.
    + cbn [push extrusions]. eapply joined; [exact NS|exact P|]. apply A1. reflexivity.
    + destruct (C74_found E internal a (whole s) eps 7 t x ltac:(lia) C) as (Q & Xe & G & j & Hj & Ft & Rt & _).
      assert (T : (0 <= fR t < 1)%R). { rewrite Rt. assert (0 <= IZR j)%R by (apply IZR_le; lia). assert (IZR j < 128)%R by (apply IZR_lt; change (2 ^ Z.of_nat 7)%Z with 128%Z in Hj; lia). cbn [pow]. lra. }
      destruct (negb is_last && flt t minimum_amount) eqn:M.
      * apply andb_true_iff in M. destruct M as [M1 M2]. apply negb_true_iff in M1. apply (tenth_spec t Ft) in M2. eapply late; eauto.
      * cbn [push extrusions]. subst x. eapply between; [exact NS|exact P|exact Q|exact G|exact Ft|exact T|]. destruct is_last; [left; reflexivity|right]. cbn [negb andb] in M. apply Rnot_lt_le. intros H. apply (tenth_spec t Ft) in H. congruence.
    + destruct (scan E contains (whole s) (tl (rev (extrusions E e)))) as [k|] eqn:Sc.
      * destruct (scan_some _ _ _ Sc) as (ys & H1 & H2 & H3 & H4). destruct (swallow_shape _ p a ys k P H2 H3) as (F1 & F2 & F3). cbn [clear_from push extrusions]. rewrite F1.
        eapply swallow with (p := firstn k p); [exact NS|exact F3| |apply A2; reflexivity|exact H4]. rewrite P, rev_app_distr in H1. cbn [rev app tl] in H1. rewrite rev_involutive in H1. exact H1.
      * destruct (scan_none _ _ Sc) as (q & ys & H1 & H2). unfold extrude_break. rewrite (proj2 (back_some _ a) (ex_intro _ p P)). cbn [push extrusions]. rewrite <- app_assoc. cbn [app].
        eapply disconnect with (p := q) (ys := ys) (a := a); [exact NS| |apply A2; reflexivity|exact H2]. rewrite P. rewrite P, rev_app_distr in H1. cbn [rev app tl] in H1. rewrite rev_involutive in H1. rewrite H1, <- app_assoc. reflexivity.
    + eapply inside; [exact NS|exact P|]. apply A3. reflexivity.
    + eapply nowhere; [exact NS|exact P|apply A4; reflexivity|exact C].
Qed.
Lemma extrude_keeps e s is_last base : keeps e base -> keeps (extrude e s true is_last) base.
Proof.
  intros H. unfold ChainModel.extrude. destruct (flt _ _ && flt _ _); [apply break_keeps; exact H|]. unfold try_append. destruct (back E (extrusions E e)) as [a|] eqn:B; [|apply push_keeps; exact H].
  destruct (constrain E internal a (Extrusion E s eps) eps 7); try (apply push_keeps; exact H); try exact H.
  - destruct (negb is_last && flt amount minimum_amount); [exact H|apply push_keeps; exact H].
  - destruct (scan E contains (Extrusion E s eps) (tl (rev (extrusions E e)))) as [k|] eqn:Sc; apply push_keeps; [|apply break_keeps; exact H].
    apply back_some in B. destruct B as [p P]. destruct (scan_some _ _ _ Sc) as (ys & H1 & H2 & H3 & H4). destruct (swallow_shape _ p a ys k P H2 H3) as (F1 & F2 & F3).
    rewrite <- F2. apply (clear_keeps e base (firstn k p) (ys ++ [a]) H); [rewrite map_app; exact F3|]. rewrite P, rev_app_distr in H1. cbn [rev app tl] in H1. rewrite rev_involutive in H1. exact H1.
Qed.
Lemma extrude_all_steps ss closing is_volatile : forall e, Steps closing (extrusions E e) ss (extrusions E (extrude_all e ss is_volatile closing)).
Proof. induction ss as [|s ss IH]; intros e; cbn [ChainModel.extrude_all]; [constructor|]. eapply more_steps; [apply (C75_step e s is_volatile)|apply IH]. Qed.
Lemma extrude_all_keeps ss closing base : forall e, keeps e base -> keeps (extrude_all e ss true closing) base.
Proof. induction ss as [|s ss IH]; intros e H; cbn [ChainModel.extrude_all]; [exact H|]. apply IH, extrude_keeps, H. Qed.

(** ** Whole strokes *)
Definition closed_off (ys : list (option X)) : list (option X) := match back E ys with None => ys | Some _ => ys ++ [None] end.
(** the permanent tips are those of the fixed states alone, whatever volatile states came between; the tips are those followed
    by what the volatile states of the last batch add, and a break-point *)
Theorem C75_stroke bs fixed volatile : exists xs ys, Fixed (bs ++ [(fixed, volatile)]) xs /\ Steps true xs volatile ys /\ extrusions E (stroke (bs ++ [(fixed, volatile)])) = closed_off ys.
Proof.
  assert (G : forall bs, exists xs, Fixed bs xs /\ keeps (stroke bs) xs).
  { intros l. induction l as [|[f v] l (xs & F & K)] using rev_ind.
    - exists []. split; [constructor|]. split; [reflexivity|]. left. split; [reflexivity|]. exists []. reflexivity.
    - unfold ChainModel.stroke in *. rewrite fold_left_app. cbn [fold_left]. set (e := fold_left extend l (start_stroke E)) in *. cbn [ChainModel.extend].
      set (e1 := extrude_all (restore E e) f false _). exists (extrusions E e1). split; [|apply break_keeps, extrude_all_keeps, save_keeps].
      eapply one_more; [exact F|]. rewrite <- (restore_keeps e xs K). apply extrude_all_steps. }
  destruct (G bs) as (xs & F & K). unfold ChainModel.stroke in *. rewrite fold_left_app. cbn [fold_left]. set (e := fold_left extend bs (start_stroke E)) in *. cbn [ChainModel.extend].
  set (e1 := extrude_all (restore E e) fixed false _). set (e2 := extrude_all (save E e1) volatile true true). exists (extrusions E e1), (extrusions E e2). split; [|split].
  - eapply one_more; [exact F|]. rewrite <- (restore_keeps e xs K). apply extrude_all_steps.
  - apply (extrude_all_steps volatile true true (save E e1)).
  - unfold extrude_break, closed_off. destruct (back E (extrusions E e2)); reflexivity.
Qed.

(** ** What holds of all lists of tips *)
Definition sound (xs : list (option X)) : Prop := linked E internal eps xs /\ no_idle_breaks E xs.
Lemma app_last2 {A} (xs : list A) o p a b q : xs ++ [o] = p ++ a :: b :: q -> (exists q', xs = p ++ a :: b :: q' /\ q = q' ++ [o]) \/ (xs = p ++ [a] /\ b = o).
Proof.
  intros H. destruct (rev q) as [|z r] eqn:R.
  - apply (f_equal (@rev A)) in R. rewrite rev_involutive in R. cbn in R. subst q. change (p ++ [a; b]) with (p ++ [a] ++ [b]) in H. rewrite app_assoc in H. apply app_inj_tail in H. right. destruct H; auto.
  - apply (f_equal (@rev A)) in R. rewrite rev_involutive in R. cbn [rev] in R. subst q. replace (p ++ a :: b :: rev r ++ [z]) with ((p ++ a :: b :: rev r) ++ [z]) in H by (rewrite <- app_assoc; reflexivity). apply app_inj_tail in H. destruct H as [-> ->]. left. exists (rev r). auto.
Qed.
Lemma sound_prefix xs ys : sound (xs ++ ys) -> sound xs.
Proof.
  intros [L [N1 N2]]. split; [|split].
  - intros p a b q H. apply (L p a b (q ++ ys)). rewrite H, <- app_assoc. reflexivity.
  - intros q H. apply (N1 (q ++ ys)). rewrite H. reflexivity.
  - intros p q H. apply (N2 p (q ++ ys)). rewrite H, <- app_assoc. reflexivity.
Qed.
Lemma sound_tip xs x : sound xs -> (ended E xs \/ exists p a, xs = p ++ [Some a] /\ join a x = GoodTangents) -> sound (xs ++ [Some x]).
Proof.
  intros [L [N1 N2]] H. split; [|split].
  - intros p a b q Q. apply app_last2 in Q. destruct Q as [(q' & Q & _)|[Q B]]; [exact (L p a b q' Q)|]. injection B as ->. destruct H as [[-> |[p' ->]]|(p' & a' & -> & J)].
    + destruct p; discriminate.
    + apply app_inj_tail in Q. destruct Q as [_ Q]. discriminate.
    + apply app_inj_tail in Q. destruct Q as [_ Q]. injection Q as ->. exact J.
  - intros q Q. destruct xs as [|o xs]; [discriminate|]. injection Q as -> _. exact (N1 xs eq_refl).
  - intros p q Q. apply app_last2 in Q. destruct Q as [(q' & Q & _)|[_ B]]; [exact (N2 p q' Q)|discriminate].
Qed.
Lemma sound_break p a : sound (p ++ [Some a]) -> sound ((p ++ [Some a]) ++ [None]).
Proof.
  intros [L [N1 N2]]. split; [|split].
  - intros p' a' b q Q. apply app_last2 in Q. destruct Q as [(q' & Q & _)|[_ B]]; [exact (L p' a' b q' Q)|discriminate].
  - intros q Q. destruct p as [|o p]; [discriminate|]. injection Q as -> _. exact (N1 _ eq_refl).
  - intros p' q Q. apply app_last2 in Q. destruct Q as [(q' & Q & _)|[Q _]]; [exact (N2 p' q' Q)|]. apply app_inj_tail in Q. destruct Q as [_ Q]. discriminate.
Qed.
Lemma step_sound xs s closing ys : Step xs s closing ys -> sound xs -> sound ys.
Proof.
  intros H K. destruct H as [| p a _ P|_ H|p a _ P H|p a t _ P _ H|p a t x|p a|p a|p ys a _ P H _ _|p ys a _ P _ _]; try exact K.
  - subst xs. apply sound_break, K.
  - apply sound_tip; [exact K|left; exact H].
  - apply sound_tip; [exact K|right]. eauto.
  - apply sound_tip; [exact K|right]. eauto.
  - apply sound_tip; [|left; exact H]. rewrite P in K. apply sound_prefix in K. exact K.
  - change [None; Some (whole s)] with ([None] ++ [Some (whole s)]). rewrite app_assoc. apply sound_tip; [|left; right; eauto]. rewrite P in *. rewrite app_assoc in *. apply sound_break, K.
Qed.
Lemma steps_sound closing xs ss ys : Steps closing xs ss ys -> sound xs -> sound ys.
Proof. induction 1 as [|xs s ss ys zs A B IH]; auto. intros K. apply IH. eapply step_sound; eauto. Qed.
Lemma fixed_sound bs xs : Fixed bs xs -> sound xs.
Proof. induction 1 as [|bs f v xs ys A IH B]; [|eapply steps_sound; eauto]. split; [intros p a b q H|split; [intros q H|intros p q H]]; try destruct p; discriminate H. Qed.
(** every two tips without a break-point between them are joined well, and no break-point is first or follows another *)
Theorem C75_linked bs : let xs := extrusions E (stroke bs) in linked E internal eps xs /\ no_idle_breaks E xs.
Proof.
  cbv zeta. change (sound (extrusions E (stroke bs))). destruct bs as [|b bs] using rev_ind; [apply (fixed_sound []); constructor|]. clear IHbs. destruct b as [f v].
  destruct (C75_stroke bs f v) as (xs & ys & F & S & ->). apply fixed_sound in F. pose proof (steps_sound _ _ _ _ S F) as K. unfold closed_off. destruct (back E ys) eqn:B; [|exact K]. apply back_some in B. destruct B as [p ->]. apply sound_break, K.
Qed.

(** ** Where the tips come from *)
Lemma tips_app xs ys : tips E (xs ++ ys) = tips E xs ++ tips E ys. Proof. apply flat_map_app. Qed.
Lemma selection_refl {A} (l : list A) : selection l l. Proof. induction l; constructor; assumption. Qed.
Lemma selection_app {A} (l m l' m' : list A) : selection l m -> selection l' m' -> selection (l ++ l') (m ++ m').
Proof. intros H H'. induction H; cbn [app]; [exact H'|constructor; assumption|constructor; assumption]. Qed.
Lemma selection_nil {A} (l : list A) : selection [] l. Proof. induction l; constructor; assumption. Qed.
Lemma selection_prefix {A} (l l' m : list A) : selection (l ++ l') m -> selection l m.
Proof. intros H. remember (l ++ l') as k eqn:K. revert l K. induction H as [|x k m H IH|x k m H IH]; intros l K; [destruct l; [constructor|discriminate]| |constructor; auto]. destruct l as [|y l]; [apply selection_nil|]. injection K as -> K. constructor. auto. Qed.
Definition from (xs : list (option X)) (given : list state) : Prop := exists used, selection used given /\ Forall2 (made_for E eps) (tips E xs) used.
Lemma from_more xs given s : from xs given -> from xs (given ++ [s]).
Proof. intros (u & A & B). exists u. split; [|exact B]. rewrite <- (app_nil_r u). apply selection_app; [exact A|apply selection_nil]. Qed.
Lemma from_tip xs given s x : from xs given -> made_for E eps x s -> from (xs ++ [Some x]) (given ++ [s]).
Proof. intros (u & A & B) M. exists (u ++ [s]). split; [apply selection_app; [exact A|apply selection_refl]|]. rewrite tips_app. apply Forall2_app; [exact B|]. constructor; [exact M|constructor]. Qed.
Lemma from_break xs given : from xs given -> from (xs ++ [None]) given.
Proof. intros (u & A & B). exists u. split; [exact A|]. rewrite tips_app. cbn. rewrite app_nil_r. exact B. Qed.
Lemma from_prefix xs ys given : from (xs ++ ys) given -> from xs given.
Proof. intros (u & A & B). rewrite tips_app in B. apply Forall2_app_inv_l in B. destruct B as (u1 & u2 & B1 & B2 & ->). exists u1. split; [eapply selection_prefix; exact A|exact B1]. Qed.
Lemma step_from xs s closing ys given : Step xs s closing ys -> from xs given -> from ys (given ++ [s]).
Proof.
  intros H K. destruct H as [| p a _ P|_ H|p a _ P H|p a t _ P _ H Ft Rt _|p a t x|p a|p a|p ys a _ P H _ _|p ys a _ P _ _]; try (apply from_more; exact K).
  - apply from_break, from_more, K.
  - apply from_tip; [exact K|left; reflexivity].
  - apply from_tip; [exact K|left; reflexivity].
  - apply from_tip; [exact K|right; exists a, t; auto].
  - apply from_tip; [|left; reflexivity]. rewrite P in K. eapply from_prefix. exact K.
  - change [None; Some (whole s)] with ([None] ++ [Some (whole s)]). rewrite app_assoc. apply from_tip; [apply from_break; exact K|left; reflexivity].
Qed.
Lemma steps_from closing xs ss ys : Steps closing xs ss ys -> forall given, from xs given -> from ys (given ++ ss).
Proof. induction 1 as [xs|xs s ss ys zs A B IH]; intros given K; [rewrite app_nil_r; exact K|]. replace (given ++ s :: ss) with ((given ++ [s]) ++ ss) by (rewrite <- app_assoc; reflexivity). apply IH. eapply step_from; eauto. Qed.
Lemma fixed_from bs xs : Fixed bs xs -> from xs (flat_map fst bs).
Proof. induction 1 as [|bs f v xs ys A IH B]; [exists []; split; constructor|]. rewrite flat_map_app. cbn [flat_map fst app]. rewrite app_nil_r. eapply steps_from; eauto. Qed.
(** each tip was made for a state that was given, at its place and with its colors; in the order in which the states were given *)
Theorem C75_order bs fixed volatile : exists used, selection used (flat_map fst bs ++ fixed ++ volatile) /\
  Forall2 (made_for E eps) (tips E (extrusions E (stroke (bs ++ [(fixed, volatile)])))) used.
Proof.
  change (from (extrusions E (stroke (bs ++ [(fixed, volatile)]))) (flat_map fst bs ++ fixed ++ volatile)). destruct (C75_stroke bs fixed volatile) as (xs & ys & F & S & ->).
  apply fixed_from in F. rewrite flat_map_app in F. cbn [flat_map fst app] in F. rewrite app_nil_r in F. pose proof (steps_from _ _ _ _ S _ F) as K. rewrite <- app_assoc in K. unfold closed_off. destruct (back E ys); [apply from_break|]; exact K.
Qed.
Theorem C75_place x s : made_for E eps x s -> let t := x_state E x in
  ts_x t = ts_x s /\ ts_y t = ts_y s /\ ts_hue t = ts_hue s /\ ts_saturation t = ts_saturation s /\ ts_luminosity t = ts_luminosity s /\ ts_opacity t = ts_opacity s /\ x_eps E x = eps.
Proof. intros [-> |(a & t & -> & _)]; repeat split. Qed.

(** ** What is settled *)
(** nothing up to the last break-point is ever removed *)
Theorem C75_settled xs s closing ys p : Step xs s closing ys -> ended E p -> (exists q, xs = p ++ q) -> exists q, ys = p ++ q.
Proof.
  intros H Hp [q Q]. destruct H as [| p0 a _ P|_ H|p0 a _ P H|p0 a t _ P _ H|p0 a t x|p0 a|p0 a|p0 ys a _ P H _ _|p0 ys a _ P _ _]; try (exists q; exact Q); try (rewrite Q; rewrite <- app_assoc; eauto; fail).
  rewrite Q in P. replace (map Some ys ++ [Some a]) with (map Some (ys ++ [a])) in P by apply map_app. destruct (ended_prefix p p0 q (ys ++ [a]) Hp H P) as [m ->]. rewrite <- app_assoc. eauto.
Qed.
(** the last state of a batch is only left out if its tip is inside the one before it or there is nothing to be found for it *)
Theorem C75_last xs s ys : Step xs s true ys -> ~ small E eps s ->
  (exists p x, ys = p ++ [Some x] /\ made_for E eps x s) \/
  (ys = xs /\ exists p a, xs = p ++ [Some a] /\ (join a (whole s) = FirstContainsSecond \/ constrain E internal a (whole s) eps 7 = CannotFind E)).
Proof.
  intros H NS. destruct H as [Sm|p a Sm|_ H|p a _ P H|p a t _ P _ H Ft Rt _|p a t x _ _ _ _ _ C|p a _ P _ C|p a _ P C|p ys a _ P H _ _|p ys a _ P _ _]; try contradiction; try discriminate C.
  - left. exists xs, (whole s). split; [reflexivity|left; reflexivity].
  - left. exists xs, (whole s). split; [reflexivity|left; reflexivity].
  - left. exists xs, (part a s t). split; [reflexivity|right; exists a, t; auto].
  - right. split; [reflexivity|]. exists p, a. auto.
  - right. split; [reflexivity|]. exists p, a. auto.
  - left. exists p, (whole s). split; [reflexivity|left; reflexivity].
  - left. exists (xs ++ [None]), (whole s). split; [rewrite <- app_assoc; reflexivity|left; reflexivity].
Qed.
(** what a step removes is covered by the new tip *)
Theorem C75_covered xs s closing ys x : Step xs s closing ys -> In (Some x) xs -> ~ In (Some x) ys -> contains (whole s) x = true \/ join x (whole s) = SecondContainsFirst.
Proof.
  intros H I NI. destruct H as [| p a _ P|_ H|p a _ P H|p a t _ P _ H|p a t y|p a|p a|p ys a _ P H J C|p ys a _ P _ _]; try contradiction; try (exfalso; apply NI, in_app_iff; left; exact I).
  rewrite P in I. rewrite !in_app_iff in I. destruct I as [I|[I|[I|[]]]].
  - exfalso. apply NI, in_app_iff. left. exact I.
  - left. apply in_map_iff in I. destruct I as (y & Y & I). injection Y as ->. apply C, I.
  - injection I as ->. right. exact J.
Qed.
End Props.

(** ** Cases *)
Definition wide (a b : extrusion lib1) : quality := if flt (fZ 200) (ts_width (x_state lib1 b)) then SecondContainsFirst else upto9 a b.
Definition covers (a b : extrusion lib1) : bool := flt (ts_width (x_state lib1 b)) (ts_width (x_state lib1 a)).
Definition at_x (x w : Z) := tip (fZ x) (fZ w) f0 f0.
Definition run_widths bs : list (option bool) := map (option_map (fun x : extrusion lib1 => flt (fZ 5) (ts_width (x_state lib1 x)))) (extrusions lib1 (stroke lib1 wide covers eps1 bs)).
(** a wide volatile tip swallows the tips before it; with the next batch they come back *)
Example ex_swallow : run_widths [([at_x 0 4; at_x 10 5], [at_x 20 300])] = [Some true; None].
Proof. vm_compute. reflexivity. Qed.
Example ex_back : run_widths [([at_x 0 4; at_x 10 5], [at_x 20 300]); ([at_x 30 8], [])] = [Some false; Some false; Some true; None].
Proof. vm_compute. reflexivity. Qed.
(** the same states give different permanent tips when they come in other batches: the last of a batch is accepted at a ratio at which others are rejected *)
Theorem C75_batching_refuted : exists (internal : extrusion lib1 -> extrusion lib1 -> quality) contains eps bs bs',
  flat_map fst bs = flat_map fst bs' /\ flat_map snd bs = [] /\ flat_map snd bs' = [] /\
  length (tips lib1 (extrusions lib1 (stroke lib1 internal contains eps bs))) <> length (tips lib1 (extrusions lib1 (stroke lib1 internal contains eps bs'))).
Proof.
  exists wide, covers, eps1, [([at_x 0 4; at_x 10 100; at_x 20 4], [])], [([at_x 0 4; at_x 10 100], []); ([at_x 20 4], [])]. repeat split. set (a := length _). set (b := length _).
  assert (A : a = 2%nat) by (unfold a; vm_compute; reflexivity). assert (B : b = 3%nat) by (unfold b; vm_compute; reflexivity). rewrite A, B. discriminate.
Qed.

Print Assumptions C75_step.
Print Assumptions C75_stroke.
Print Assumptions C75_linked.
Print Assumptions C75_order.
Print Assumptions C75_place.
Print Assumptions C75_settled.
Print Assumptions C75_last.
Print Assumptions C75_covered.
Print Assumptions C75_batching_refuted.
