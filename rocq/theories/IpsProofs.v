(** The InProgressStroke model refines the account of its history. *)
From Coq Require Import ZArith Reals List Bool Arith Lia Lra.
From Flocq Require Import Core IEEE754.BinarySingleNaN.
From Verif Require Import F32 F32Lemmas BatchModel BatchSpec BatchValid BatchProofs BatchHistory
  DurationModel IpsModel IpsSpec.
Import ListNotations.
Local Open Scope nat_scope.

(** *** Unit lengths *)
Lemma batch_unit_conform l x : batch_unit l x = conform l x.
Proof. destruct l; [destruct x|]; reflexivity. Qed.
Lemma map_batch_unit l xs : map (batch_unit l) xs = map (conform l) xs.
Proof. apply map_ext, batch_unit_conform. Qed.

Lemma one_unit_length l : length (one_unit l) = length l.
Proof. apply map_length. Qed.
Lemma one_unit_nil l : one_unit l = [] <-> l = [].
Proof. destruct l; cbn; split; congruence. Qed.
Lemma conform_first y l x : conform (y :: l) x = with_unit (unit_len y) x.
Proof. reflexivity. Qed.
Lemma with_unit_twice u v x : with_unit u (with_unit v x) = with_unit u x.
Proof. reflexivity. Qed.
Lemma one_unit_cons y l : one_unit (y :: l) = y :: map (with_unit (unit_len y)) l.
Proof. unfold one_unit. cbn [map]. rewrite conform_first, with_unit_same. reflexivity. Qed.
Lemma one_unit_app_l l r : one_unit (one_unit l ++ r) = one_unit (l ++ r).
Proof.
  destruct l as [|y l]; [reflexivity|]. rewrite one_unit_cons. cbn [app]. rewrite !one_unit_cons.
  f_equal. rewrite !map_app, map_map. reflexivity.
Qed.
Lemma one_unit_idem l : one_unit (one_unit l) = one_unit l.
Proof. pose proof (one_unit_app_l l []) as H. rewrite !app_nil_r in H. exact H. Qed.
Lemma map_unit_one_unit u l : map (with_unit u) (one_unit l) = map (with_unit u) l.
Proof. unfold one_unit. rewrite map_map. reflexivity. Qed.
Lemma one_unit_app_r l r : one_unit (l ++ one_unit r) = one_unit (l ++ r).
Proof.
  destruct l as [|y l]; [apply one_unit_idem|]. cbn [app]. rewrite !one_unit_cons.
  f_equal. rewrite !map_app, map_unit_one_unit. reflexivity.
Qed.
Lemma one_unit_firstn k l r : k = length l -> firstn k (one_unit (l ++ r)) = one_unit l.
Proof.
  intros ->. destruct l as [|y l]; [reflexivity|]. cbn [app]. rewrite !one_unit_cons, map_app.
  cbn [length firstn]. f_equal. rewrite <- (map_length (with_unit (unit_len y)) l) at 1.
  rewrite firstn_app, Nat.sub_diag, firstn_all. apply app_nil_r.
Qed.

(** the same input up to the representation of its unit length *)
Definition like (x' x : stroke_input) : Prop :=
  exists u, x' = with_unit u x /\ fin u /\ val u = val (unit_len x).

Lemma like_refl x : valid_input x -> like x x.
Proof. intros V. exists (unit_len x). rewrite with_unit_same. repeat split. apply V. Qed.

Lemma consecutive_like x' y' x y : valid_input x -> valid_input y -> like x' x -> like y' y ->
  (validate_consecutive x' y' = true <-> may_follow x y).
Proof.
  intros Vx Vy (u & -> & Fu & Eu) (v & -> & Fv & Ev).
  rewrite validate_consecutive_spec by (split; cbn; [apply vi_time; assumption|assumption]).
  unfold may_follow, same_format, coincide, with_unit; cbn. rewrite Eu, Ev. reflexivity.
Qed.

Lemma like_one_unit l k x : valid_sequence l -> nth_error l k = Some x ->
  exists x', nth_error (one_unit l) k = Some x' /\ like x' x.
Proof.
  intros V H. exists (conform l x). unfold one_unit. rewrite nth_error_map, H. split; [reflexivity|].
  assert (N : l <> []) by (destruct l; [destruct k; discriminate|discriminate]).
  destruct (unit_of_first l x V N) as [F U].
  exists (unit_of l x). split; [reflexivity|]. split; [exact F|]. apply U. apply (nth_error_In _ _ H).
Qed.

Lemma valid_in l k x : valid_sequence l -> nth_error l k = Some x -> valid_input x.
Proof. intros (A & _) H. apply A. apply (nth_error_In _ _ H). Qed.

(** *** Append *)
Lemma l_append_spec l r r' : valid_sequence l -> valid_sequence r -> (r' = r \/ r' = one_unit r) ->
  (valid_sequence (l ++ r) -> l_append (one_unit l) r' = Some (one_unit (l ++ r))) /\
  (~ valid_sequence (l ++ r) -> l_append (one_unit l) r' = None).
Proof.
  intros Vl Vr Hr. destruct r as [|x r].
  { assert (r' = []) as -> by (destruct Hr as [->| ->]; reflexivity). rewrite app_nil_r. split; [reflexivity|contradiction]. }
  assert (exists q x', r' = x' :: q /\ like x' x) as (q & x' & Er & Lx).
  { destruct Hr as [->| ->].
    - exists r, x. split; [reflexivity|]. apply like_refl, Vr. left; reflexivity.
    - rewrite one_unit_cons. eexists; exists x. split; [reflexivity|]. apply like_refl, Vr. left; reflexivity. }
  destruct l as [|y l].
  - cbn [app]. split; [intros _|contradiction].
    assert (Ea : l_append (one_unit []) r' = Some (map (batch_unit r') r')) by (rewrite Er; reflexivity).
    rewrite Ea, map_batch_unit. fold (one_unit r'). f_equal.
    destruct Hr as [->| ->]; [reflexivity|apply one_unit_idem].
  - destruct (last_of_some (y :: l)) as (z & Hz); [discriminate|].
    destruct (like_one_unit _ _ _ Vl Hz) as (z' & Hz' & Lz). rewrite <- (one_unit_length (y :: l)) in Hz'.
    assert (Ec : validate_consecutive z' x' = true <-> valid_sequence ((y :: l) ++ x :: r)).
    { rewrite (consecutive_like z' x' z x); [|apply (valid_in _ _ _ Vl Hz)|apply Vr; left; reflexivity|exact Lz|exact Lx].
      rewrite valid_app_iff. split.
      - intros M. split; [exact Vl|]. split; [exact Vr|]. intros a b Ha [= <-]. congruence.
      - intros (_ & _ & M). apply M; [exact Hz|reflexivity]. }
    assert (Ea : l_append (one_unit (y :: l)) r' =
      if validate_consecutive z' x' then Some (one_unit (y :: l) ++ map (batch_unit (one_unit (y :: l))) r') else None).
    { rewrite Er. unfold l_append. rewrite Hz'. reflexivity. }
    rewrite Ea. split; intros H.
    + apply Ec in H. rewrite H. f_equal. rewrite map_batch_unit, !one_unit_cons. cbn [app].
      rewrite one_unit_cons, map_app. f_equal. f_equal.
      change (map (with_unit (unit_len y)) r' = map (with_unit (unit_len y)) (x :: r)).
      destruct Hr as [->| ->]; [reflexivity|]. apply map_unit_one_unit.
    + destruct (validate_consecutive z' x'); [exfalso; apply H, Ec; reflexivity|reflexivity].
Qed.

Lemma len0 {A} (l : list A) : (length l =? 0) = is_nil l.
Proof. destruct l; reflexivity. Qed.
Lemma nil_one_unit l : is_nil (one_unit l) = is_nil l.
Proof. destruct l; reflexivity. Qed.

Arguments one_unit : simpl never.

(** [l_append] and [l_erase] are Append and Erase of the batch specification. *)
Lemma l_append_is_batch_append n (st : lists) i j li lj : i < n -> j < n -> i <> j ->
  st i = Some li -> st j = Some lj -> valid_sequence li -> valid_sequence lj ->
  one_unit li = li -> one_unit lj = lj ->
  match l_append li lj with
  | Some l' => lstep n st (BAppendBatch i j) ROk (upd st i (Some l'))
  | None => lstep n st (BAppendBatch i j) RErr st
  end.
Proof.
  intros Hi Hj Nij Ei Ej Vi Vj Ui Uj. destruct (l_append_spec li lj lj Vi Vj (or_introl eq_refl)) as [HO HN].
  rewrite Ui in HO, HN.
  pose proof (may_append_span_iff li lj Vi) as HM.
  assert (D : valid_sequence (li ++ lj) \/ ~ valid_sequence (li ++ lj)).
  { rewrite <- validate_sequence_spec. destruct (validate_sequence (li ++ lj)); [left; reflexivity|right; discriminate]. }
  destruct D as [D|D].
  - rewrite (HO D).
    assert (E : one_unit (li ++ lj) = li ++ map (conform (li ++ lj)) lj).
    { unfold one_unit at 1. rewrite map_app. f_equal. rewrite <- Ui at 3. unfold one_unit. destruct li; reflexivity. }
    rewrite E. apply L_batch_ok; auto; [apply HM, D|contradiction].
  - rewrite (HN D). eapply L_batch_err; eauto. intros H. apply D, HM. auto.
Qed.
Lemma l_erase_is_batch_erase n (st : lists) i l a c : i < n -> st i = Some l -> length l <= a + c ->
  match l_erase l a with
  | Some l' => lstep n st (BErase i a c) ROk (upd st i (Some l'))
  | None => lstep n st (BErase i a c) RAbort st
  end.
Proof.
  intros Hi Ei Hc. unfold l_erase. destruct (Nat.leb_spec a (length l)).
  - replace (firstn a l) with (firstn a l ++ skipn c (skipn a l)).
    + apply L_erase; auto.
    + rewrite (skipn_all2 (skipn a l)), app_nil_r; [reflexivity|]. rewrite skipn_length. lia.
  - eapply L_erase_abort; eauto.
Qed.

Section P.
Variables Br B Reg : Type.
Variable coat_count : Br -> nat.
Variable start : Br -> nat -> B.
Variable extend : B -> list stroke_input -> list stroke_input -> f32 -> B * Reg.
Variable unfinished : B -> bool.
Variable reg_empty : Reg.
Variable reg_add : Reg -> Reg -> Reg.
Notation ips := (ips Br B Reg).
Notation step := (ips_step Br B Reg coat_count start extend reg_empty reg_add).
Notation run := (ips_run Br B Reg coat_count start extend reg_empty reg_add).

(** the builder of a coat after some calls *)
Definition built (b0 : B) (cs : list call) : B :=
  fold_left (fun b c => fst (extend b (c_real c) (c_pred c) (c_time c))) cs b0.
Definition built_all (b : Br) (cs : list call) : list B :=
  map (fun i => built (start b i) cs) (seq 0 (coat_count b)).

Record Inv (s : ips) (m : account Br) : Prop := {
  I_brush : i_brush s = brush_of m;
  I_fin : finished s = ended m;
  I_processed : processed s = one_unit (real_done m ++ shown m);
  I_count : real_count s = length (real_done m);
  I_qreal : queued_real s = one_unit (real_wait m);
  I_qpred : queued_pred s = pred_wait m;
  I_time : elapsed s = clock m;
  I_vshown : valid_sequence (real_done m ++ shown m);
  I_vwait : valid_sequence (real_done m ++ real_wait m ++ pred_wait m);
  I_builders : forall b, brush_of m = Some b -> builders s = built_all b (calls m);
  I_ended : brush_of m = None -> ended m = true;
  I_dropped : ended m = true -> pred_wait m = [];
}.

Lemma Inv_init : Inv (ips_init Br B Reg reg_empty) (blank None true).
Proof. constructor; try reflexivity; try apply valid_nil. discriminate. Qed.

Lemma valid_app_l l r : valid_sequence (l ++ r) -> valid_sequence l.
Proof. intros H. apply valid_app_iff in H. tauto. Qed.
Lemma valid_app_r l r : valid_sequence (l ++ r) -> valid_sequence r.
Proof. intros H. apply valid_app_iff in H. tauto. Qed.

Lemma last_app (l r : list stroke_input) : r <> [] -> last_of (l ++ r) = last_of r.
Proof.
  intros N. unfold last_of. rewrite app_length. assert (length r <> 0) by (destruct r; [congruence|discriminate]).
  rewrite nth_error_app2 by lia. f_equal. lia.
Qed.

(** the check made by EnqueueInputs *)
Lemma new_inputs_spec s m re pr : Inv s m -> valid_sequence re -> valid_sequence pr ->
  exists c, validate_new_inputs Br B Reg s re pr = Some c /\
    (c = true <-> valid_sequence (real_done m ++ real_wait m ++ re ++ pr)).
Proof.
  intros I Vr Vp. assert (Vo : valid_sequence (real_done m ++ real_wait m)).
  { pose proof (I_vwait _ _ I) as H. rewrite app_assoc in H. apply valid_app_l in H. exact H. }
  assert (Vn : valid_sequence (re ++ pr) <->
    match re, pr with
    | _ :: _, p :: _ => match nth_error re (length re - 1) with Some r => may_follow r p | None => False end
    | _, _ => True
    end).
  { rewrite valid_app_iff. destruct re as [|r re]; [split; [tauto|]; intros _; split; [exact Vr|]; split; [exact Vp|]; discriminate|].
    destruct pr as [|p pr].
    - split; [tauto|]. intros _. split; [exact Vr|]. split; [exact Vp|discriminate].
    - destruct (last_of_some (r :: re)) as (z & Hz); [discriminate|].
      pose proof Hz as Hz'. unfold last_of in Hz'. rewrite Hz'. split.
      + intros (_ & _ & H). apply H; [exact Hz|reflexivity].
      + intros H. split; [exact Vr|]. split; [exact Vp|]. intros a b Ha [= <-]. congruence. }
  unfold validate_new_inputs. destruct (re ++ pr) as [|f new] eqn:En.
  { exists true. split; [reflexivity|]. rewrite app_nil_r. tauto. }
  assert (Vf : valid_input f).
  { assert (In f (re ++ pr)) as Hf by (rewrite En; left; reflexivity).
    apply in_app_or in Hf as [Hf|Hf]; [apply Vr, Hf|apply Vp, Hf]. }
  assert (Hold : exists c0,
    (if negb (length (queued_real s) =? 0) || negb (real_count s =? 0) then
       match (if length (queued_real s) =? 0 then nth_error (processed s) (real_count s - 1)
              else nth_error (queued_real s) (length (queued_real s) - 1)) with
       | Some last_old => Some (validate_consecutive last_old f) | None => None end
     else Some true) = Some c0 /\
    (c0 = true <-> forall z, last_of (real_done m ++ real_wait m) = Some z -> may_follow z f)).
  { rewrite (I_qreal _ _ I), (I_count _ _ I), (I_processed _ _ I), !len0, nil_one_unit.
    destruct (real_wait m) as [|w ws] eqn:Ew; cbn [is_nil negb orb].
    - rewrite !app_nil_r in *. destruct (real_done m) as [|d ds] eqn:Ed; cbn [is_nil negb orb].
      + exists true. split; [reflexivity|]. cbn. split; [discriminate|reflexivity].
      + destruct (last_of_some (d :: ds)) as (z & Hz); [discriminate|]. pose proof Hz as Hz'. unfold last_of in Hz'.
        assert (Hn : nth_error ((d :: ds) ++ shown m) (length (d :: ds) - 1) = Some z).
        { rewrite nth_error_app1; [exact Hz'|cbn; lia]. }
        pose proof (I_vshown _ _ I) as Vs. rewrite Ed in Vs.
        destruct (like_one_unit _ _ _ Vs Hn) as (z' & -> & L).
        eexists. split; [reflexivity|]. rewrite (consecutive_like z' f z f); auto.
        2: apply (valid_in _ _ _ Vo Hz'). 2: apply like_refl, Vf.
        rewrite Hz. split; [intros H a [= <-]; exact H|intros H; apply H; reflexivity].
    - rewrite last_app by discriminate.
      destruct (last_of_some (w :: ws)) as (z & Hz); [discriminate|]. pose proof Hz as Hz'. unfold last_of in Hz'.
      pose proof (valid_app_r _ _ Vo) as Vw.
      destruct (like_one_unit _ _ _ Vw Hz') as (z' & Hl & L). rewrite one_unit_length, Hl.
      eexists. split; [reflexivity|]. rewrite (consecutive_like z' f z f); auto.
      2: apply (valid_in _ _ _ Vw Hz'). 2: apply like_refl, Vf.
      rewrite Hz. split; [intros H a [= <-]; exact H|intros H; apply H; reflexivity]. }
  destruct Hold as (c0 & -> & Hc0).
  assert (Vall : valid_sequence (real_done m ++ real_wait m ++ f :: new) <-> c0 = true /\ valid_sequence (f :: new)).
  { rewrite app_assoc, valid_app_iff, Hc0. split.
    - intros (_ & H1 & H2). split; [intros z Hz; apply (H2 z f Hz eq_refl)|exact H1].
    - intros (H1 & H2). split; [exact Vo|]. split; [exact H2|]. intros z x Hz [= <-]. apply H1, Hz. }
  destruct c0.
  2: { exists false. split; [reflexivity|]. rewrite Vall. split; [discriminate|intros [H _]; exact H]. }
  destruct re as [|r re].
  { exists true. split; [destruct pr; reflexivity|]. rewrite Vall. tauto. }
  destruct pr as [|p pr].
  { exists true. split; [reflexivity|]. rewrite Vall. tauto. }
  destruct (nth_error (r :: re) (length (r :: re) - 1)) as [z|] eqn:Hz.
  - eexists. split; [reflexivity|]. rewrite Vall, Vn.
    assert (Vz : valid_input z) by apply (valid_in _ _ _ Vr Hz).
    assert (Vp0 : valid_input p) by (apply Vp; left; reflexivity).
    rewrite (consecutive_like z p z p) by (auto; apply like_refl; auto). tauto.
  - apply nth_error_None in Hz. cbn in Hz. lia.
Qed.

Lemma map_built b cs c : map fst (map (fun bd => extend bd (c_real c) (c_pred c) (c_time c))
    (firstn (coat_count b) (built_all b cs))) = built_all b (cs ++ [c]).
Proof.
  unfold built_all. rewrite firstn_all2 by (rewrite map_length, seq_length; lia).
  rewrite !map_map. apply map_ext. intros i. unfold built. rewrite fold_left_app. reflexivity.
Qed.

Theorem step_spec s m o : Inv s m -> good_args o ->
  let (r, s') := step s o in
  (r = ROk /\ must_succeed m o \/ r = RErr /\ s' = s /\ ~ must_succeed m o) /\
  Inv s' (book m o r).
Proof.
  intros I G. destruct o as [|b|re pr|t| |]; cbn [ips_step].
  - split; [left; split; [reflexivity|exact Logic.I]|].
    constructor; try reflexivity; try apply valid_nil. discriminate.
  - split; [left; split; [reflexivity|exact Logic.I]|].
    constructor; try reflexivity; try apply valid_nil; [|discriminate]. intros b' [= <-]. reflexivity.
  - destruct G as [Vr Vp]. unfold ips_enqueue. rewrite (I_brush _ _ I), (I_fin _ _ I). cbn [must_succeed].
    destruct (brush_of m) as [b|] eqn:Eb.
    2: { split; [right; repeat split; intros (H & _); congruence|exact I]. }
    destruct (ended m) eqn:Ee.
    { split; [right; repeat split; intros (_ & H & _); congruence|exact I]. }
    destruct (new_inputs_spec s m re pr I Vr Vp) as (c & -> & Hc). destruct c.
    2: { split; [right; repeat split; intros (_ & _ & H); apply Hc in H; discriminate|exact I]. }
    assert (VA : valid_sequence (real_done m ++ real_wait m ++ re ++ pr)) by (apply Hc; reflexivity).
    assert (VW : valid_sequence (real_wait m ++ re)).
    { apply valid_app_r in VA. rewrite app_assoc in VA. apply valid_app_l in VA. exact VA. }
    destruct (l_append_spec (real_wait m) re re) as [HA _]; auto; [apply (valid_app_l _ _ VW)|].
    rewrite (I_qreal _ _ I), (HA VW). split; [left; split; [reflexivity|]; split; [discriminate|auto]|].
    destruct I. constructor; cbn [book brush_of ended real_done shown real_wait pred_wait clock calls
      i_brush finished processed real_count queued_real queued_pred elapsed builders]; auto; try congruence.
    rewrite <- app_assoc. exact VA.
  - unfold ips_update. rewrite (I_brush _ _ I). cbn [must_succeed].
    destruct (brush_of m) as [b|] eqn:Eb.
    2: { split; [right; repeat split; intros (H & _); congruence|exact I]. }
    unfold validate_new_elapsed_time, d_lt, d_zero. rewrite (I_time _ _ I).
    destruct (flt t f0) eqn:T0; cbn [negb].
    { split; [right; repeat split; intros (_ & H & _); congruence|exact I]. }
    destruct (flt t (clock m)) eqn:T1; cbn [negb].
    { split; [right; repeat split; intros (_ & _ & H); congruence|exact I]. }
    rewrite (I_fin _ _ I), (I_qreal _ _ I), (I_qpred _ _ I), !len0, nil_one_unit, one_unit_length.
    pose proof (I_vwait _ _ I) as VW. pose proof (I_vshown _ _ I) as VS.
    assert (VWr : valid_sequence (real_done m ++ real_wait m)).
    { rewrite app_assoc in VW. apply (valid_app_l _ _ VW). }
    assert (Es : exists kept,
      (if ended m || negb (is_nil (real_wait m)) || negb (is_nil (pred_wait m))
       then l_erase (processed s) (real_count s) else Some (processed s)) = Some (one_unit (real_done m ++ kept)) /\
      (kept = [] \/ real_wait m = [] /\ pred_wait m = []) /\
      kept ++ pred_wait m = (if negb (ended m) && is_nil (real_wait m) && is_nil (pred_wait m)
                  then shown m else pred_wait m) /\
      valid_sequence (real_done m ++ kept)).
    { rewrite (I_processed _ _ I), (I_count _ _ I).
      assert (El : l_erase (one_unit (real_done m ++ shown m)) (length (real_done m)) = Some (one_unit (real_done m ++ []))).
      { unfold l_erase. rewrite one_unit_length, app_length.
        destruct (Nat.leb_spec (length (real_done m)) (length (real_done m) + length (shown m))); [|lia].
        rewrite one_unit_firstn, app_nil_r by reflexivity. reflexivity. }
      destruct (ended m); cbn [orb negb andb].
      { exists []. split; [exact El|]. rewrite app_nil_r. split; [auto|]. split; [reflexivity|]. apply (valid_app_l _ _ VS). }
      destruct (real_wait m) as [|w ws]; cbn [is_nil orb negb andb].
      2: { exists []. split; [exact El|]. rewrite app_nil_r. split; [auto|]. split; [reflexivity|]. apply (valid_app_l _ _ VS). }
      destruct (pred_wait m) as [|p ps]; cbn [is_nil orb negb andb].
      2: { exists []. split; [exact El|]. rewrite app_nil_r. split; [auto|]. split; [reflexivity|]. apply (valid_app_l _ _ VS). }
      exists (shown m). split; [reflexivity|]. split; [auto|]. rewrite app_nil_r. split; [reflexivity|exact VS]. }
    destruct Es as (kept & -> & Hk & Esh & VK).
    assert (A1 : l_append (one_unit (real_done m ++ kept)) (one_unit (real_wait m)) =
                 Some (one_unit ((real_done m ++ real_wait m) ++ kept))).
    { destruct Hk as [->|[H1 H2]].
      - rewrite !app_nil_r in *. apply l_append_spec; auto. apply (valid_app_r _ _ VWr).
      - rewrite H1, app_nil_r. reflexivity. }
    rewrite A1.
    assert (A2 : l_append (one_unit ((real_done m ++ real_wait m) ++ kept)) (pred_wait m) =
                 Some (one_unit ((real_done m ++ real_wait m) ++ kept ++ pred_wait m))).
    { destruct Hk as [->|[H1 H2]].
      - rewrite app_nil_r. cbn [app]. rewrite app_assoc in VW. apply l_append_spec; auto. apply (valid_app_r _ _ VW).
      - rewrite H2, app_nil_r. reflexivity. }
    rewrite A2. split; [left; split; [reflexivity|]; split; [discriminate|auto]|].
    assert (VS' : valid_sequence ((real_done m ++ real_wait m) ++ kept ++ pred_wait m)).
    { destruct Hk as [->|[H1 H2]].
      - rewrite app_assoc in VW. exact VW.
      - rewrite H1, H2, !app_nil_r. exact VK. }
    destruct I. constructor; cbn [book brush_of ended real_done shown real_wait pred_wait clock calls
      i_brush finished processed real_count queued_real queued_pred elapsed builders]; auto; try congruence.
    + rewrite app_length. congruence.
    + rewrite !app_nil_r. exact VWr.
    + intros b' E. assert (b' = b) as -> by congruence. rewrite (I_builders0 b Eb).
      apply (map_built b (calls m) {| c_real := one_unit (real_wait m); c_pred := pred_wait m; c_time := t |}).
  - split; [left; split; [reflexivity|exact Logic.I]|]. destruct I. constructor; cbn; auto.
    rewrite app_nil_r. rewrite app_assoc in I_vwait0. apply (valid_app_l _ _ I_vwait0).
  - split; [left; split; [reflexivity|exact Logic.I]|]. destruct I. constructor; cbn; auto.
Qed.

Theorem run_spec os : forall s m, Inv s m -> Forall good_args os ->
  let (rs, s') := run s os in
  length rs = length os /\ Forall (fun r => r = ROk \/ r = RErr) rs /\ Inv s' (books m os rs).
Proof.
  induction os as [|o os IH]; intros s m I G; cbn [ips_run].
  - cbn. auto.
  - inversion G as [|? ? G1 G2]; subst. pose proof (step_spec s m o I G1) as HS.
    destruct (step s o) as [r s1]. destruct HS as [HR I1]. specialize (IH s1 _ I1 G2).
    destruct (run s1 os) as [rs s2]. destruct IH as (L & F & I2). cbn. split; [congruence|].
    split; [|exact I2]. constructor; [|exact F]. destruct HR as [[-> _]|[-> _]]; auto.
Qed.

Lemma books_app (os1 : list (ips_op Br)) : forall (m : account Br) rs1 os2 rs2, length rs1 = length os1 ->
  books m (os1 ++ os2) (rs1 ++ rs2) = books (books m os1 rs1) os2 rs2.
Proof.
  induction os1 as [|o os1 IH]; intros m [|r rs1] os2 rs2 L; try discriminate; [reflexivity|].
  cbn. apply IH. cbn in L. congruence.
Qed.

Lemma run_app os1 : forall s os2, run s (os1 ++ os2) =
  (fst (run s os1) ++ fst (run (snd (run s os1)) os2), snd (run (snd (run s os1)) os2)).
Proof.
  induction os1 as [|o os1 IH]; intros s os2; cbn [app ips_run].
  - cbn [fst snd app]. destruct (run s os2). reflexivity.
  - destruct (step s o) as [r s1]. rewrite IH. destruct (run s1 os1) as [rs s2]. cbn.
    destruct (run s2 os2). reflexivity.
Qed.

(** *** Consequences *)
Lemma books_calls (os : list (ips_op Br)) : forall (m : account Br) rs,
  one_unit (concat (map c_real (calls m))) = one_unit (real_done m) ->
  one_unit (concat (map c_real (calls (books m os rs)))) = one_unit (real_done (books m os rs)).
Proof.
  induction os as [|o os IH]; intros m rs H; [exact H|]. destruct rs as [|r rs]; [exact H|].
  cbn [books]. apply IH. destruct o, r; cbn; auto.
  rewrite map_app, concat_app. cbn. rewrite app_nil_r, one_unit_app_r, <- one_unit_app_l, H, one_unit_app_l.
  reflexivity.
Qed.

Definition accounted (os : list (ips_op Br)) : account Br :=
  books (blank None true) os (fst (run (ips_init Br B Reg reg_empty) os)).
Definition reached (os : list (ips_op Br)) : ips := snd (run (ips_init Br B Reg reg_empty) os).

Lemma reached_inv os : Forall good_args os -> Inv (reached os) (accounted os).
Proof.
  intros G. pose proof (run_spec os _ _ Inv_init G) as H. unfold reached, accounted.
  destruct (run (ips_init Br B Reg reg_empty) os). apply H.
Qed.

Lemma reached_results os : Forall good_args os ->
  length (fst (run (ips_init Br B Reg reg_empty) os)) = length os /\
  Forall (fun r => r = ROk \/ r = RErr) (fst (run (ips_init Br B Reg reg_empty) os)).
Proof.
  intros G. pose proof (run_spec os _ _ Inv_init G) as H.
  destruct (run (ips_init Br B Reg reg_empty) os). cbn. tauto.
Qed.

Lemma reached_app os os2 : reached (os ++ os2) = snd (run (reached os) os2).
Proof. unfold reached. rewrite run_app. reflexivity. Qed.

Lemma accounted_app os os2 : Forall good_args os ->
  accounted (os ++ os2) = books (accounted os) os2 (fst (run (reached os) os2)).
Proof.
  intros G. unfold accounted, reached. rewrite run_app. cbn [fst]. apply books_app. apply reached_results, G.
Qed.

Theorem whole_report os : Forall good_args os ->
  let s := reached os in let m := accounted os in
  processed s = one_unit (real_done m ++ shown m) /\
  ips_input_count s = length (real_done m) + length (shown m) /\
  real_count s = length (real_done m) /\
  ((Z.of_nat (length (shown m)) < 2 ^ 64)%Z -> ips_predicted_count s = Z.of_nat (length (shown m))) /\
  i_brush s = brush_of m /\ finished s = ended m /\ elapsed s = clock m.
Proof.
  intros G s m. destruct (reached_inv os G) as [I1 I2 I3 I4 I5 I6 I7 I8 I9 I10 I11 I12].
  fold s m in I1, I2, I3, I4, I7. unfold ips_input_count, ips_predicted_count.
  rewrite I3, I4, one_unit_length, app_length. repeat (split; [auto; fail|]).
  split; [|auto].
  intros H. replace (Z.of_nat (length (real_done m) + length (shown m)) - Z.of_nat (length (real_done m)))%Z
    with (Z.of_nat (length (shown m))) by lia. apply Z.mod_small. lia.
Qed.

Theorem builders_report os b i : Forall good_args os -> brush_of (accounted os) = Some b -> i < coat_count b ->
  nth_error (builders (reached os)) i = Some (built (start b i) (calls (accounted os))).
Proof.
  intros G Hb Hi. rewrite (I_builders _ _ (reached_inv os G) b Hb). unfold built_all.
  rewrite nth_error_map, (nth_error_nth' _ 0) by (rewrite seq_length; exact Hi).
  rewrite seq_nth by exact Hi. reflexivity.
Qed.

Theorem dry_update os t s' : Forall good_args os ->
  finished (reached os) = true ->
  ips_needs_update Br B Reg coat_count unfinished (reached os) = false ->
  step (reached os) (IUpdate t) = (ROk, s') ->
  (processed s' = processed (reached os) <-> shown (accounted os) = []).
Proof.
  intros G F N E. pose proof (reached_inv os G) as I. set (m := accounted os) in *.
  pose proof (step_spec _ m (IUpdate t) I Logic.I) as H. rewrite E in H. destruct H as [_ I'].
  rewrite (I_processed _ _ I), (I_processed _ _ I'). cbn [book real_done shown].
  assert (Q : real_wait m = [] /\ pred_wait m = []).
  { unfold ips_needs_update in N. rewrite (I_qreal _ _ I), (I_qpred _ _ I), !len0, nil_one_unit in N.
    destruct (real_wait m), (pred_wait m); cbn in N; try discriminate. auto. }
  destruct Q as [-> ->]. rewrite <- (I_fin _ _ I), F. cbn [negb andb]. rewrite !app_nil_r. split.
  - intros H. apply (f_equal (@length _)) in H. rewrite !one_unit_length, app_length in H.
    destruct (shown m); [reflexivity|cbn in H; lia].
  - intros ->. rewrite app_nil_r. reflexivity.
Qed.

Definition settled (m : account Br) : Prop :=
  ended m = true /\ shown m = [] /\ pred_wait m = [] /\ real_wait m = [].

Lemma settled_run (os2 : list (ips_op Br)) : forall s m, Inv s m -> Forall good_args os2 ->
  forallb (fun o => negb (is_reset o)) os2 = true -> settled m ->
  let (rs, s') := run s os2 in settled (books m os2 rs) /\ real_done (books m os2 rs) = real_done m.
Proof.
  induction os2 as [|o os2 IH]; intros s m I G NR S; cbn [ips_run]; [auto|].
  inversion G as [|? ? G1 G2]; subst. cbn in NR. apply andb_prop in NR as [NR1 NR2].
  pose proof (step_spec s m o I G1) as H. destruct (step s o) as [r s1]. destruct H as [HR I1].
  destruct S as (S1 & S2 & S3 & S4).
  assert (S' : settled (book m o r) /\ real_done (book m o r) = real_done m).
  { destruct HR as [[-> M]|[-> [_ M]]]; destruct o; try discriminate; cbn in *.
    - destruct M as (_ & M & _). congruence.
    - unfold settled; cbn. rewrite S1, S3, S4, app_nil_r. auto.
    - unfold settled; cbn; auto.
    - unfold settled; auto.
    - unfold settled; auto.
    - unfold settled; auto.
    - unfold settled; cbn; auto.
    - unfold settled; auto. }
  destruct S' as [S' E]. specialize (IH s1 _ I1 G2 NR2 S'). destruct (run s1 os2) as [rs s2].
  cbn [books]. destruct IH as [IH1 IH2]. split; [exact IH1|congruence].
Qed.

Theorem dry_for_good os t os2 s1 : Forall good_args (os ++ IUpdate t :: os2) ->
  finished (reached os) = true -> step (reached os) (IUpdate t) = (ROk, s1) ->
  forallb (fun o => negb (is_reset o)) os2 = true ->
  shown (accounted (os ++ IUpdate t :: os2)) = [] /\
  processed (reached (os ++ IUpdate t :: os2)) = processed s1.
Proof.
  intros G F E NR. apply Forall_app in G as [G1 G2]. inversion G2 as [|? ? _ G3]; subst.
  pose proof (reached_inv os G1) as I.
  pose proof (step_spec _ _ (IUpdate t) I Logic.I) as H. rewrite E in H. destruct H as [_ I1].
  rewrite accounted_app, reached_app by exact G1. cbn [ips_run]. rewrite E.
  pose proof (run_spec os2 s1 _ I1 G3) as H2. set (m1 := book (accounted os) (IUpdate t) ROk) in *.
  assert (M1 : settled m1).
  { pose proof (I_fin _ _ I) as F'. rewrite F in F'. pose proof (I_dropped _ _ I (eq_sym F')) as P0.
    unfold settled, m1; cbn. rewrite <- F', P0. auto. }
  pose proof (settled_run os2 s1 m1 I1 G3 NR M1) as HS.
  destruct (run s1 os2) as [rs s2]. cbn [fst snd books] in *. fold m1.
  destruct H2 as (_ & _ & I2), HS as [HS1 HS2]. split; [apply HS1|].
  rewrite (I_processed _ _ I2), (I_processed _ _ I1), HS2. destruct HS1 as (_ & -> & _), M1 as (_ & -> & _). reflexivity.
Qed.

Theorem geometry_agrees os t s' : Forall good_args os -> step (reached os) (IUpdate t) = (ROk, s') ->
  let m := accounted os in
  let m' := accounted (os ++ [IUpdate t]) in
  (one_unit (reflected (calls m')) = processed s' <->
   ~ (ended m = false /\ real_wait m = [] /\ pred_wait m = [] /\ shown m <> [])).
Proof.
  intros G E m m'. pose proof (reached_inv os G) as I. fold m in I.
  pose proof (step_spec _ m (IUpdate t) I Logic.I) as H. rewrite E in H. destruct H as [_ I'].
  assert (Em : m' = book m (IUpdate t) ROk).
  { unfold m'. rewrite accounted_app by exact G. cbn [ips_run]. rewrite E. reflexivity. }
  rewrite (I_processed _ _ I'), Em. cbn [book calls real_done shown]. unfold reflected.
  rewrite map_app, concat_app, rev_app_distr. cbn. rewrite app_nil_r, <- !app_assoc.
  assert (C : one_unit (concat (map c_real (calls m))) = one_unit (real_done m)).
  { apply books_calls. reflexivity. }
  rewrite <- one_unit_app_l, C, one_unit_app_l.
  assert (EQ : one_unit (real_done m ++ one_unit (real_wait m) ++ pred_wait m) =
               one_unit (real_done m ++ real_wait m ++ pred_wait m)).
  { rewrite <- (one_unit_app_r (real_done m)), one_unit_app_l, one_unit_app_r. reflexivity. }
  rewrite EQ. destruct (ended m) eqn:Ee; cbn [negb andb]; [split; [intros _ (H & _); discriminate|reflexivity]|].
  destruct (real_wait m) as [|w ws]; cbn [is_nil andb]; [|split; [intros _ (_ & H & _); discriminate|reflexivity]].
  destruct (pred_wait m) as [|p ps]; cbn [is_nil andb]; [|split; [intros _ (_ & _ & H & _); discriminate|reflexivity]].
  rewrite !app_nil_r, ?app_nil_l. split.
  - intros H (_ & _ & _ & N). apply N. apply (f_equal (@length _)) in H.
    rewrite !one_unit_length, ?app_length in H. cbn in H. destruct (shown m); [reflexivity|cbn in H; lia].
  - intros H. destruct (shown m) as [|x xs]; [rewrite ?app_nil_r; reflexivity|]. exfalso; apply H. repeat split; auto; discriminate.
Qed.

(** times *)
Theorem time_advances os o s' : Forall good_args os -> good_args o -> is_reset o = false ->
  step (reached os) o = (ROk, s') ->
  is_nan (elapsed (reached os)) = false -> is_nan (elapsed s') = false ->
  fle (elapsed (reached os)) (elapsed s') = true.
Proof.
  intros G Go NR E N1 N2. pose proof (reached_inv os G) as I.
  pose proof (step_spec _ _ o I Go) as H. rewrite E in H. destruct H as [HR I'].
  rewrite (I_time _ _ I) in *. rewrite (I_time _ _ I') in *.
  assert (K : forall x y : f32, is_nan x = false -> is_nan y = false -> flt y x = false -> fle x y = true).
  { intros x y Hx Hy H. apply fle_spec; auto. apply flt_false in H; auto. }
  assert (R : forall x : f32, is_nan x = false -> fle x x = true).
  { intros x Hx. apply fle_spec; auto. lra. }
  destruct o; try discriminate; cbn [book clock] in *; try (apply R; assumption).
  destruct HR as [[_ (_ & _ & M)]|[H _]]; [|discriminate].
  apply K; assumption.
Qed.
End P.
