(** Refinement: the batch world implements the list semantics of BatchSpec.v. *)
From Coq Require Import ZArith Reals List Bool Arith Sorting.Sorted Lia.
From Flocq Require Import Core IEEE754.BinarySingleNaN.
From Verif Require Import F32 F32Lemmas CowModel CowProofs BatchModel BatchSpec BatchValid.
Import ListNotations.
Local Open Scope nat_scope.

Local Arguments Nat.ltb : simpl never.
Local Arguments Nat.leb : simpl never.
Local Arguments Nat.eqb : simpl never.

(** *** Encoding of one input *)
Definition fmt (m : meta) (x : stroke_input) : Prop :=
  tool x = m_tool m /\ unit_len x = m_unit m /\ has_pressure x = m_pressure m /\
  has_tilt x = m_tilt m /\ has_orientation x = m_orientation m /\ tame x.

Lemma enc_length m x : length (input_floats_as m x) = stride m.
Proof.
  unfold input_floats_as, stride. rewrite !app_length. unfold opt_list, b2n.
  destruct (m_pressure m), (m_tilt m), (m_orientation m); reflexivity.
Qed.

Lemma stride_pos m : 3 <= stride m.
Proof. unfold stride. lia. Qed.

Lemma read_enc m x rest : fmt m x -> read_input m (input_floats_as m x ++ rest) = Some x.
Proof.
  intros (H1 & H2 & H3 & H4 & H5 & H6 & H7).
  assert (Ht : seconds (etime x) = etime x).
  { unfold seconds, fisnan. rewrite (finite_not_nan _ H6). reflexivity. }
  assert (Hp : m_pressure m = false -> pressure x = kNo).
  { intros E. apply absent_eq, has_absent. rewrite E in H3. exact H3. }
  assert (Hi : m_tilt m = false -> tilt x = kNo).
  { intros E. apply absent_eq, has_absent. rewrite E in H4. exact H4. }
  assert (Ho : m_orientation m = false -> orientation x = kNo).
  { intros E. apply absent_eq, has_absent. rewrite E in H5. exact H5. }
  unfold input_floats_as. cbn [app]. unfold read_input.
  destruct x as [t x y e u p ti o]; cbn [tool px py etime unit_len pressure tilt orientation] in *.
  rewrite Ht. subst t u.
  destruct (m_pressure m); [|rewrite (Hp eq_refl)];
  (destruct (m_tilt m); [|rewrite (Hi eq_refl)]);
  (destruct (m_orientation m); [|rewrite (Ho eq_refl)]); cbn; reflexivity.
Qed.

Lemma enc_own m x : fmt m x -> input_floats x = input_floats_as m x.
Proof.
  intros (_ & _ & H3 & H4 & H5 & _). unfold input_floats, input_floats_as.
  rewrite H3, H4, H5. reflexivity.
Qed.

Notation enc m := (flat_map (input_floats_as m)).

Lemma enc_skip m l k : skipn (k * stride m) (enc m l) = enc m (skipn k l).
Proof.
  revert k; induction l as [|x l IH]; intros [|k]; cbn [flat_map skipn]; try reflexivity.
  - cbn [Nat.mul]. rewrite <- (enc_length m x) at 1. rewrite skipn_app.
    rewrite skipn_all2 by lia. cbn [app].
    replace (length (input_floats_as m x) + k * stride m - length (input_floats_as m x)) with (k * stride m) by lia.
    apply IH.
Qed.

Lemma enc_first m l k : firstn (k * stride m) (enc m l) = enc m (firstn k l).
Proof.
  revert k; induction l as [|x l IH]; intros [|k]; cbn [flat_map firstn]; try reflexivity.
  - cbn [Nat.mul]. rewrite <- (enc_length m x) at 1. rewrite firstn_app.
    rewrite firstn_all2 by lia.
    replace (length (input_floats_as m x) + k * stride m - length (input_floats_as m x)) with (k * stride m) by lia.
    rewrite IH. reflexivity.
Qed.

Lemma enc_len m l : length (enc m l) = length l * stride m.
Proof.
  induction l as [|x l IH]; [reflexivity|]. cbn [flat_map length Nat.mul].
  rewrite app_length, enc_length, IH. reflexivity.
Qed.

(** *** Representation of one batch *)
Definition dat (d : option (list f32)) : list f32 := match d with Some v => v | None => [] end.
Definition rep (m : meta) (d : option (list f32)) (l : list stroke_input) : Prop :=
  m_size m = length l /\ dat d = enc m l /\ Forall (fmt m) l /\ (l = [] -> m = meta0).

Lemma rep_some m d l : rep m d l -> l <> [] -> d = Some (enc m l).
Proof.
  intros (_ & H & _) Hl. destruct d as [v|]; cbn in H; [congruence|].
  destruct l as [|x l]; [congruence|]. cbn in H. discriminate.
Qed.

Lemma read_nth m l k : Forall (fmt m) l ->
  read_input m (skipn (k * stride m) (enc m l)) = nth_error l k.
Proof.
  intros F. rewrite enc_skip. revert k; induction l as [|x l IH]; intros [|k]; cbn [skipn nth_error].
  - reflexivity.
  - reflexivity.
  - inversion F; subst. cbn [flat_map]. apply read_enc; assumption.
  - inversion F; subst. apply IH; assumption.
Qed.

Definition bval (w : bworld) (i : nat) := cow_value (cow w) i.

Lemma get_nth w i l k : rep (bmeta w i) (bval w i) l -> b_get w i k = nth_error l k.
Proof.
  intros R. unfold b_get. fold (bval w i). destruct R as (A & B & C & D) eqn:E. rewrite A.
  destruct (k <? length l) eqn:Hk.
  - apply Nat.ltb_lt in Hk. assert (Hl : l <> []) by (intros ->; cbn in Hk; lia).
    rewrite (rep_some _ _ _ R Hl). apply read_nth, C.
  - apply Nat.ltb_ge in Hk. symmetry. apply nth_error_None. exact Hk.
Qed.

(** *** The whole world *)
Definition WF n (w : bworld) : Prop := wf (cow w) /\ nh (cow w) = n /\ length (metas w) = n.
Definition Rel n (w : bworld) (s : lists) : Prop :=
  WF n w /\ forall i l, i < n -> s i = Some l -> rep (bmeta w i) (bval w i) l.

Lemma bmeta_with_meta w i m k : i < length (metas w) ->
  bmeta (with_meta w i m) k = if k =? i then m else bmeta w k.
Proof.
  intros H. unfold bmeta, with_meta; cbn [metas]. rewrite nth_set_nth.
  apply Nat.ltb_lt in H. rewrite H, andb_true_r. reflexivity.
Qed.

Lemma bval_with_meta w i m k : bval (with_meta w i m) k = bval w k.
Proof. reflexivity. Qed.
Lemma bmeta_with_cow w c k : bmeta (with_cow w c) k = bmeta w k.
Proof. reflexivity. Qed.

Lemma WF_with_meta n w i m : WF n w -> WF n (with_meta w i m).
Proof. intros (A & B & C). repeat split; try apply A; auto. cbn. rewrite set_nth_length. exact C. Qed.

(** what a single-batch operation does: only batch [i] changes *)
Definition upto n (w w' : bworld) i (m : meta) (d : option (list f32)) : Prop :=
  WF n w' /\ bmeta w' i = m /\ bval w' i = d /\
  forall k, k <> i -> bmeta w' k = bmeta w k /\ bval w' k = bval w k.

Lemma upto_rel n w w' i m d s l : Rel n w s -> i < n -> upto n w w' i m d -> rep m d l ->
  Rel n w' (upd s i (Some l)).
Proof.
  intros [W R] Hi (W' & M & D & O) Hr. split; [exact W'|]. intros k lk Hk. unfold upd.
  destruct (Nat.eqb k i) eqn:E.
  - apply Nat.eqb_eq in E; subst k. intros [= <-]. rewrite M, D. exact Hr.
  - apply Nat.eqb_neq in E. intros Hs. destruct (O k E) as [-> ->]. apply R; assumption.
Qed.

Lemma upto_refl n w i : WF n w -> upto n w w i (bmeta w i) (bval w i).
Proof. intros W. split; [exact W|]. auto. Qed.

Lemma upto_trans n w w1 w2 i m1 d1 m2 d2 :
  upto n w w1 i m1 d1 -> upto n w1 w2 i m2 d2 -> upto n w w2 i m2 d2.
Proof.
  intros (_ & _ & _ & O1) (W & M & D & O2). split; [exact W|]. split; [exact M|]. split; [exact D|].
  intros k Hk. destruct (O1 k Hk), (O2 k Hk). split; congruence.
Qed.

Lemma upto_meta n w i m : WF n w -> i < n -> upto n w (with_meta w i m) i m (bval w i).
Proof.
  intros W Hi. assert (H : i < length (metas w)) by (destruct W as (_ & _ & ->); exact Hi).
  split; [apply WF_with_meta, W|]. split; [rewrite bmeta_with_meta, Nat.eqb_refl by exact H; reflexivity|].
  split; [reflexivity|]. intros k Hk. split; [|reflexivity].
  rewrite bmeta_with_meta by exact H. apply Nat.eqb_neq in Hk. rewrite Hk. reflexivity.
Qed.

Lemma upto_cow n w i c d : WF n w -> wf c -> nh c = nh (cow w) ->
  (forall k, cow_value c k = if k =? i then d else cow_value (cow w) k) ->
  upto n w (with_cow w c) i (bmeta w i) d.
Proof.
  intros (A & B & C) Wc Nc V. split; [repeat split; try apply Wc; cbn; auto; congruence|].
  split; [reflexivity|]. split.
  - unfold bval; cbn [cow with_cow]. rewrite V, Nat.eqb_refl. reflexivity.
  - intros k Hk. split; [reflexivity|]. unfold bval; cbn [cow with_cow]. rewrite V.
    apply Nat.eqb_neq in Hk. rewrite Hk. reflexivity.
Qed.

Lemma mutate_data_ok n w i f k d : WF n w -> i < n -> bval w i = Some d ->
  exists w1, mutate_data w i f k = (ROk, k w1) /\ upto n w w1 i (bmeta w i) (Some (f d)).
Proof.
  intros W Hi Hd. unfold mutate_data. assert (W' := W). destruct W' as (A & B & C).
  pose proof (mutate_ok (cow w) i f A ltac:(lia)) as M. unfold bval in Hd.
  destruct (cow_mutate (cow w) i f) as [c|]; [|congruence].
  destruct M as (v & Ev & Wc & Nc & V). rewrite Hd in Ev. injection Ev as <-.
  eexists. split; [reflexivity|]. apply upto_cow; assumption.
Qed.

Lemma clear_ok n w i : WF n w -> i < n -> exists d, dat d = [] /\ upto n w (b_clear w i) i meta0 d.
Proof.
  intros W Hi. assert (W' := W). destruct W' as (A & B & C). unfold b_clear.
  destruct (cow_is_shared (cow w) i) eqn:S.
  - destruct (reset_ok (cow w) i A ltac:(lia)) as (Wc & Nc & V).
    exists None. split; [reflexivity|].
    assert (U := upto_cow n w i _ None W Wc Nc V).
    eapply upto_trans; [exact U|].
    pose proof (upto_meta n (with_cow w (cow_reset (cow w) i)) i meta0 (proj1 U) Hi) as U2.
    destruct U as (_ & _ & Ud & _). rewrite Ud in U2. exact U2.
  - rewrite has_value_iff by exact A. destruct (cow_value (cow w) i) as [v|] eqn:Ev.
    + pose proof (mutate_ok (cow w) i (fun _ => []) A ltac:(lia)) as M.
      destruct (cow_mutate (cow w) i (fun _ => [])) as [c|]; [|congruence].
      destruct M as (v' & _ & Wc & Nc & V).
      exists (Some []). split; [reflexivity|].
      assert (U := upto_cow n w i _ (Some []) W Wc Nc V).
      eapply upto_trans; [exact U|].
      pose proof (upto_meta n (with_cow w c) i meta0 (proj1 U) Hi) as U2.
      destruct U as (_ & _ & Ud & _). rewrite Ud in U2. exact U2.
    + exists None. split; [reflexivity|].
      pose proof (upto_meta n w i meta0 W Hi) as U. unfold bval in U. rewrite Ev in U.
      destruct w as [c ms]. exact U.
Qed.

Lemma ensure_ok n w i : WF n w -> i < n ->
  exists d, bval (ensure_data w i) i = Some d /\ d = dat (bval w i) /\
    upto n w (ensure_data w i) i (bmeta w i) (Some d).
Proof.
  intros W Hi. assert (W' := W). destruct W' as (A & B & C). unfold ensure_data.
  rewrite has_value_iff by exact A. fold (bval w i).
  destruct (bval w i) as [d|] eqn:E.
  - exists d. rewrite E. split; [reflexivity|]. split; [reflexivity|].
    pose proof (upto_refl n w i W) as U. rewrite E in U. exact U.
  - exists []. destruct (emplace_ok (cow w) i [] A ltac:(lia)) as (Wc & Nc & V).
    assert (U := upto_cow n w i _ (Some []) W Wc Nc V).
    split; [apply U|]. split; [reflexivity|exact U].
Qed.

(** *** Formats *)
Lemma fmt_size m n x : fmt (with_size m n) x <-> fmt m x.
Proof. reflexivity. Qed.
Lemma enc_size m n l : enc (with_size m n) l = enc m l.
Proof. reflexivity. Qed.

Lemma fmt_inline m x : tame x -> fmt (set_inline m x) x.
Proof. intros T. unfold fmt, set_inline; cbn. auto 10. Qed.

Lemma eq_has a b : (absent a <-> absent b) -> fne a kNo = fne b kNo.
Proof. intros H. apply eqb_absent in H. apply eqb_prop, H. Qed.

Lemma fmt_follow m z x u : fmt m z -> same_format z x -> tame x -> u = m_unit m -> fmt m (with_unit u x).
Proof.
  intros (H1 & H2 & H3 & H4 & H5 & H6) (F1 & F2 & F3 & F4 & F5) [T1 T2] ->.
  unfold fmt, with_unit, has_pressure, has_tilt, has_orientation, tame in *.
  cbn [tool unit_len pressure tilt orientation etime].
  repeat split; try congruence.
  - rewrite <- H3. symmetry. apply eq_has. exact F3.
  - rewrite <- H4. symmetry. apply eq_has. exact F4.
  - rewrite <- H5. symmetry. apply eq_has. exact F5.
  - destruct H6 as [_ H6]. rewrite H2 in H6. exact H6.
Qed.

Lemma enc_with_unit m x u : input_floats_as m (with_unit u x) = input_floats_as m x.
Proof. reflexivity. Qed.
Lemma floats_with_unit x u : input_floats (with_unit u x) = input_floats x.
Proof. reflexivity. Qed.

Lemma with_unit_same x : with_unit (unit_len x) x = x.
Proof. destruct x; reflexivity. Qed.

Lemma conform_nil x : conform [] x = x.
Proof. apply with_unit_same. Qed.

Lemma unit_of_meta m l x : Forall (fmt m) l -> l <> [] -> unit_of l x = m_unit m.
Proof. intros F N. destruct l as [|y l]; [congruence|]. inversion F; subst. apply H1. Qed.

Lemma last_of_app l x : last_of (l ++ [x]) = Some x.
Proof.
  unfold last_of. rewrite app_length; cbn [length]. rewrite nth_error_app2 by lia.
  replace (length l + 1 - 1 - length l) with 0 by lia. reflexivity.
Qed.

Lemma last_of_in l z : last_of l = Some z -> In z l.
Proof. intros H. eapply nth_error_In. exact H. Qed.

Lemma last_of_some l : l <> [] -> exists z, last_of l = Some z.
Proof.
  intros H. unfold last_of. destruct (nth_error l (length l - 1)) eqn:E; [eauto|].
  apply nth_error_None in E. destruct l; [congruence|cbn in E; lia].
Qed.

Ltac unchanged HR := split; [|split; [reflexivity|split; [exact HR|reflexivity]]].

(** *** Append of one input *)
Lemma append1_sim n w s i x : Rel n w s -> usable n s i ->
  exists r s', lstep n s (BAppend i x) r s' /\ fst (b_append1 w i x) = r /\
    Rel n (snd (b_append1 w i x)) s' /\ (r <> ROk -> snd (b_append1 w i x) = w).
Proof.
  intros HR [Hi Hs]. destruct (s i) as [l|] eqn:El; [|congruence].
  assert (HR' := HR). destruct HR' as [W R]. specialize (R i l Hi El).
  assert (R' := R). destruct R' as (Rs & Rd & Rf & Rm).
  unfold b_append1. set (m := bmeta w i) in *.
  destruct (validate_single x) eqn:V.
  2: { exists RErr, s. cbn [negb]. unchanged HR.
       apply L_append_err with l; auto. rewrite <- validate_single_spec, V. intros [H _]; discriminate. }
  apply validate_single_spec in V. cbn [negb]. rewrite Rs.
  destruct (length l =? 0) eqn:E0; cbn [negb].
  - apply Nat.eqb_eq, length_zero_iff_nil in E0; subst l.
    destruct (ensure_ok n w i W Hi) as (d & Hd & Hdd & U1). rewrite Rd in Hdd. cbn in Hdd. subst d.
    set (w1 := ensure_data w i) in *.
    set (mx := set_inline (bmeta w1 i) x).
    pose proof (upto_meta n w1 i mx (proj1 U1) Hi) as U2. rewrite Hd in U2.
    destruct (mutate_data_ok n (with_meta w1 i mx) i (fun d => d ++ input_floats x)
      (fun w2 => with_meta w2 i (with_size (bmeta w2 i) (S (m_size (bmeta w2 i))))) []
      (proj1 U2) Hi) as (w3 & -> & U3); [apply U2|].
    pose proof (upto_meta n w3 i (with_size (bmeta w3 i) (S (m_size (bmeta w3 i)))) (proj1 U3) Hi) as U4.
    assert (M3 : bmeta w3 i = mx) by (destruct U3 as (_ & -> & _); apply U2).
    assert (D3 : bval w3 i = Some (input_floats x)) by (apply U3).
    rewrite M3, D3 in U4.
    assert (U := upto_trans _ _ _ _ _ _ _ _ _ (upto_trans _ _ _ _ _ _ _ _ _ (upto_trans _ _ _ _ _ _ _ _ _ U1 U2) U3) U4).
    exists ROk, (upd s i (Some ([] ++ [conform [] x]))).
    split. { apply L_append_ok; auto. intros z. cbn. discriminate. }
    split; [reflexivity|]. split; [|congruence]. cbn [snd].
    eapply upto_rel; [exact HR|exact Hi|rewrite M3; exact U|].
    rewrite conform_nil. cbn [app].
    assert (Fx : fmt mx x) by (apply fmt_inline, valid_tame, V).
    split. { cbn. unfold mx, set_inline; cbn. destruct U1 as (_ & -> & _). fold m. rewrite Rs. reflexivity. }
    split. { cbn [dat flat_map]. rewrite app_nil_r. apply (enc_own mx x Fx). }
    split; [constructor; [exact Fx|constructor]|discriminate].
  - apply Nat.eqb_neq in E0. assert (Hl : l <> []) by (intros ->; apply E0; reflexivity).
    rewrite (get_nth w i l _ R). destruct (last_of_some l Hl) as (z & Hz).
    assert (Hz' := Hz). unfold last_of in Hz'. rewrite Hz'.
    assert (Fz : fmt m z) by (rewrite Forall_forall in Rf; apply Rf, last_of_in, Hz).
    assert (Tz : tame z) by apply Fz.
    pose proof (validate_consecutive_spec z x Tz (valid_tame _ V)) as C.
    destruct (validate_consecutive z x).
    + assert (C' : may_follow z x) by (apply C; reflexivity).
      assert (Dd := rep_some _ _ _ R Hl).
      destruct (mutate_data_ok n w i (fun d => d ++ input_floats x)
        (fun w2 => with_meta w2 i (with_size (bmeta w2 i) (S (m_size (bmeta w2 i))))) (enc m l) W Hi Dd)
        as (w3 & -> & U3).
      pose proof (upto_meta n w3 i (with_size (bmeta w3 i) (S (m_size (bmeta w3 i)))) (proj1 U3) Hi) as U4.
      assert (M3 : bmeta w3 i = m) by exact (proj1 (proj2 U3)).
      assert (D3 : bval w3 i = Some (enc m l ++ input_floats x)) by exact (proj1 (proj2 (proj2 U3))).
      rewrite M3, D3 in U4. assert (U := upto_trans _ _ _ _ _ _ _ _ _ U3 U4).
      exists ROk, (upd s i (Some (l ++ [conform l x]))).
      split. { apply L_append_ok; auto. intros z' Hz2. congruence. }
      split; [reflexivity|]. split; [|congruence]. cbn [snd].
      eapply upto_rel; [exact HR|exact Hi|rewrite M3; exact U|].
      assert (Fx : fmt m (conform l x)).
      { eapply fmt_follow; [exact Fz|apply C'|apply valid_tame, V|apply unit_of_meta; assumption]. }
      split. { cbn. rewrite app_length, Rs. cbn. lia. }
      split. { cbn [dat]. rewrite enc_size, flat_map_app. cbn [flat_map]. rewrite app_nil_r. f_equal.
               rewrite <- (floats_with_unit x (unit_of l x)). apply (enc_own m _ Fx). }
      split. { apply Forall_app. split; [exact Rf|constructor; [exact Fx|constructor]]. }
      intros Hn. destruct l; discriminate.
    + exists RErr, s. unchanged HR.
      apply L_append_err with l; auto. intros [_ H]. specialize (H z Hz). apply C in H. discriminate.
Qed.

(** Mutating the vector and updating the size *)
Lemma push_ok n w w1 i m d f (g : bworld -> nat) : i < n -> upto n w w1 i m (Some d) ->
  exists w2 w', mutate_data w1 i f
      (fun w2 => with_meta w2 i (with_size (bmeta w2 i) (g w2))) = (ROk, w') /\
    upto n w w2 i m (Some (f d)) /\
    upto n w w' i (with_size m (g w2)) (Some (f d)).
Proof.
  intros Hi U. destruct U as (W & M & D & O) eqn:EU.
  destruct (mutate_data_ok n w1 i f (fun w2 => with_meta w2 i (with_size (bmeta w2 i) (g w2))) d W Hi D)
    as (w2 & -> & U2). exists w2. eexists. split; [reflexivity|].
  rewrite M in U2. assert (U3 := upto_trans _ _ _ _ _ _ _ _ _ U U2). split; [exact U3|].
  pose proof (upto_meta n w2 i (with_size (bmeta w2 i) (g w2)) (proj1 U2) Hi) as U4.
  assert (M2 : bmeta w2 i = m) by exact (proj1 (proj2 U2)).
  assert (D2 : bval w2 i = Some (f d)) by exact (proj1 (proj2 (proj2 U2))).
  rewrite D2, M2 in U4. rewrite M2. exact (upto_trans _ _ _ _ _ _ _ _ _ U2 U4) ||
  (assert (U5 := upto_trans _ _ _ _ _ _ _ _ _ U3 U4); exact U5).
Qed.

(** Every later element of a valid sequence has the format of the first *)
Lemma fold_floats m xs : forall d, Forall (fun x => input_floats x = input_floats_as m x) xs ->
  fold_left (fun d y => d ++ input_floats y) xs d = d ++ enc m xs.
Proof.
  induction xs as [|x xs IH]; intros d F; cbn [fold_left flat_map]; [rewrite app_nil_r; reflexivity|].
  inversion F; subst. rewrite IH by assumption. rewrite H1, app_assoc. reflexivity.
Qed.

Lemma enc_map_unit m u l : enc m (map (with_unit u) l) = enc m l.
Proof. induction l as [|x l IH]; [reflexivity|]. cbn [map flat_map]. rewrite IH. reflexivity. Qed.

Lemma map_conform_app l xs m : Forall (fmt m) l -> l <> [] ->
  map (conform (l ++ xs)) xs = map (with_unit (m_unit m)) xs.
Proof.
  intros F N. destruct l as [|y l]; [congruence|]. inversion F; subst. apply map_ext. intros x.
  unfold conform. cbn [app unit_of]. destruct H1 as (_ & -> & _). reflexivity.
Qed.

(** A sequence following [z] in format is formatted like [m], after unit adjustment *)
Lemma fmt_seq m z xs : fmt m z -> (forall x, In x xs -> same_format z x /\ tame x) ->
  Forall (fmt m) (map (with_unit (m_unit m)) xs).
Proof.
  intros Fz H. apply Forall_forall. intros y Hy. apply in_map_iff in Hy. destruct Hy as (x & <- & Hx).
  destruct (H x Hx) as [S T]. eapply fmt_follow; eauto.
Qed.

Lemma enc_own_seq m xs : Forall (fmt m) (map (with_unit (m_unit m)) xs) ->
  Forall (fun x => input_floats x = input_floats_as m x) xs.
Proof.
  intros F. apply Forall_forall. intros x Hx. rewrite Forall_forall in F.
  specialize (F (with_unit (m_unit m) x) (in_map _ _ _ Hx)).
  rewrite <- (floats_with_unit x (m_unit m)), <- (enc_with_unit m x (m_unit m)). apply enc_own, F.
Qed.

Lemma valid_seq_tame xs x : valid_sequence xs -> In x xs -> tame x.
Proof. intros (A & _) H. apply valid_tame, A, H. Qed.

(** Appending a validated span; the common part of Append(Span) and Create *)
Lemma span_core n w i l xs : WF n w -> i < n -> rep (bmeta w i) (bval w i) l ->
  (exists w' m d, b_append_span w i xs = (ROk, w') /\ upto n w w' i m d /\
     rep m d (l ++ map (conform (l ++ xs)) xs) /\
     valid_sequence xs /\ (forall x, hd_error xs = Some x -> may_append l x))
  \/ (b_append_span w i xs = (RErr, w) /\
      ~ (valid_sequence xs /\ forall x, hd_error xs = Some x -> may_append l x)).
Proof.
  intros W Hi R. assert (R' := R). destruct R' as (Rs & Rd & Rf & Rm).
  unfold b_append_span. set (m := bmeta w i) in *.
  destruct xs as [|x0 xs']; [left|].
  { exists w, m, (bval w i). split; [reflexivity|]. split; [apply upto_refl, W|].
    cbn [map]. rewrite app_nil_r. split; [exact R|]. split; [apply valid_nil|discriminate]. }
  set (xs := x0 :: xs') in *.
  destruct (validate_sequence xs) eqn:V.
  2: { right. split; [reflexivity|]. rewrite <- validate_sequence_spec, V. intros [H _]; discriminate. }
  apply validate_sequence_spec in V. cbn [negb]. rewrite Rs.
  destruct (length l =? 0) eqn:E0; cbn [negb].
  - left. apply Nat.eqb_eq, length_zero_iff_nil in E0; subst l.
    destruct (ensure_ok n w i W Hi) as (d & Hd & Hdd & U1). rewrite Rd in Hdd. cbn in Hdd. subst d.
    set (w1 := ensure_data w i) in *.
    assert (Mw1 : bmeta w1 i = m) by exact (proj1 (proj2 U1)).
    set (mx := set_inline (bmeta w1 i) x0).
    pose proof (upto_meta n w1 i mx (proj1 U1) Hi) as U2. rewrite Hd in U2.
    assert (U := upto_trans _ _ _ _ _ _ _ _ _ U1 U2).
    destruct (push_ok n w _ i mx [] (fun d => fold_left (fun d y => d ++ input_floats y) xs d)
       (fun w2 => m_size (bmeta w2 i) + length xs) Hi U) as (w2 & w' & -> & Uw2 & Uw').
    assert (Fx : Forall (fmt mx) (map (with_unit (m_unit mx)) xs)).
    { apply fmt_seq with x0.
      - apply fmt_inline. apply (valid_seq_tame xs); [exact V|left; reflexivity].
      - intros x Hx. split; [|apply (valid_seq_tame xs); assumption].
        destruct V as (_ & V & _). apply V; [left; reflexivity|exact Hx]. }
    exists w'. eexists. eexists. split; [reflexivity|]. split; [exact Uw'|].
    split; [|split; [exact V|intros x _ z; cbn; discriminate]].
    cbn [app]. assert (Ec : map (conform xs) xs = map (with_unit (m_unit mx)) xs) by reflexivity.
    rewrite Ec. split.
    { cbn [m_size with_size]. assert (M2 : bmeta w2 i = mx) by exact (proj1 (proj2 Uw2)).
      rewrite M2, map_length. cbn. rewrite Mw1, Rs. reflexivity. }
    split.
    { cbn [dat]. rewrite enc_size, enc_map_unit.
      rewrite (fold_floats mx) by (apply enc_own_seq, Fx). reflexivity. }
    split; [exact Fx|]. intros H. unfold xs in H. discriminate H.
  - apply Nat.eqb_neq in E0. assert (Hl : l <> []) by (intros ->; apply E0; reflexivity).
    rewrite (get_nth w i l _ R). destruct (last_of_some l Hl) as (z & Hz).
    assert (Hz' := Hz). unfold last_of in Hz'. rewrite Hz'.
    assert (Fz : fmt m z) by (rewrite Forall_forall in Rf; apply Rf, last_of_in, Hz).
    assert (Tz : tame z) by apply Fz.
    assert (Tx : tame x0) by (apply (valid_seq_tame xs); [exact V|left; reflexivity]).
    pose proof (validate_consecutive_spec z x0 Tz Tx) as C.
    destruct (validate_consecutive z x0).
    + left. assert (C' : may_follow z x0) by (apply C; reflexivity).
      assert (Dd := rep_some _ _ _ R Hl).
      pose proof (upto_refl n w i W) as U. rewrite Dd in U. fold m in U.
      destruct (push_ok n w _ i m (enc m l) (fun d => fold_left (fun d y => d ++ input_floats y) xs d)
         (fun w2 => m_size (bmeta w2 i) + length xs) Hi U) as (w2 & w' & -> & Uw2 & Uw').
      assert (Fx : Forall (fmt m) (map (with_unit (m_unit m)) xs)).
      { apply fmt_seq with z; [exact Fz|]. intros x Hx. split; [|apply (valid_seq_tame xs); assumption].
        apply same_format_trans with x0; [apply C'|]. destruct V as (_ & V & _). apply V; [left; reflexivity|exact Hx]. }
      exists w'. eexists. eexists. split; [reflexivity|]. split; [exact Uw'|].
      split; [|split; [exact V|intros x [= <-] z' Hz2; congruence]].
      rewrite (map_conform_app l xs m) by assumption. split.
      { cbn [m_size with_size]. assert (M2 : bmeta w2 i = m) by exact (proj1 (proj2 Uw2)).
        rewrite M2, app_length, map_length, Rs. reflexivity. }
      split.
      { cbn [dat]. rewrite enc_size, flat_map_app, enc_map_unit.
        rewrite (fold_floats m) by (apply enc_own_seq, Fx). reflexivity. }
      split; [apply Forall_app; split; assumption|]. intros H. destruct l; discriminate.
    + right. split; [reflexivity|]. intros [_ H]. specialize (H x0 eq_refl z Hz). apply C in H. discriminate.
Qed.

Lemma span_sim n w s i xs : Rel n w s -> usable n s i ->
  exists r s', lstep n s (BAppendSpan i xs) r s' /\ fst (b_append_span w i xs) = r /\
    Rel n (snd (b_append_span w i xs)) s' /\ (r <> ROk -> snd (b_append_span w i xs) = w).
Proof.
  intros HR [Hi Hs]. destruct (s i) as [l|] eqn:El; [|congruence].
  destruct (span_core n w i l xs (proj1 HR) Hi (proj2 HR i l Hi El))
    as [(w' & m & d & -> & U & Hr & V & A)|(-> & A)].
  - exists ROk. eexists. split; [apply L_span_ok with (l := l); assumption|].
    split; [reflexivity|]. split; [|congruence]. eapply upto_rel; eauto.
  - exists RErr, s. unchanged HR. apply L_span_err with l; assumption.
Qed.

(** *** Copies *)
Lemma copy_upto n w d a : WF n w -> d < n -> a < n -> upto n w (b_copy w d a) d (bmeta w a) (bval w a).
Proof.
  intros W Hd Ha. assert (W' := W). destruct W' as (A & B & C).
  destruct (copy_ok (cow w) d a A ltac:(lia) ltac:(lia)) as (Wc & Nc & V).
  assert (U := upto_cow n w d _ _ W Wc Nc V). unfold b_copy.
  pose proof (upto_meta n _ d (bmeta w a) (proj1 U) Hd) as U2.
  assert (D : bval (with_cow w (cow_copy (cow w) d a)) d = bval w a) by exact (proj1 (proj2 (proj2 U))).
  rewrite D in U2. exact (upto_trans _ _ _ _ _ _ _ _ _ U U2).
Qed.

Lemma deep_upto n w d a : WF n w -> d < n -> a < n ->
  upto n w (b_deep_copy w d a) d (bmeta w a) (bval w a).
Proof.
  intros W Hd Ha. pose proof (copy_upto n w d a W Hd Ha) as U. unfold b_deep_copy.
  set (w1 := b_copy w d a) in *. fold (bval w1 d).
  assert (D : bval w1 d = bval w a) by exact (proj1 (proj2 (proj2 U))). rewrite D.
  destruct (bval w a) as [v|] eqn:E; [|exact U].
  assert (W1 := proj1 U). assert (W1' := W1). destruct W1' as (A & B & C).
  destruct (emplace_ok (cow w1) d v A ltac:(lia)) as (Wc & Nc & V).
  assert (U2 := upto_cow n w1 d _ _ W1 Wc Nc V).
  assert (M : bmeta w1 d = bmeta w a) by exact (proj1 (proj2 U)). rewrite M in U2.
  exact (upto_trans _ _ _ _ _ _ _ _ _ U U2).
Qed.

Lemma move_rel n w s d a l : Rel n w s -> d < n -> a < n -> s a = Some l ->
  Rel n (b_move w d a) (if d =? a then s else upd (upd s d (Some l)) a None).
Proof.
  intros HR Hd Ha Hs. assert (HR' := HR). destruct HR' as [W R]. assert (W' := W). destruct W' as (A & B & C).
  destruct (move_ok (cow w) d a A ltac:(lia) ltac:(lia)) as (Wc & Nc & V).
  assert (WM : WF n (b_move w d a)).
  { apply WF_with_meta. repeat split; try apply Wc; cbn; auto; congruence. }
  split; [exact WM|]. intros k lk Hk Hsk.
  assert (Em : bmeta (b_move w d a) k = if k =? d then bmeta w a else bmeta w k).
  { unfold b_move. rewrite bmeta_with_meta by (cbn; lia). reflexivity. }
  assert (Ev : bval (b_move w d a) k = if k =? d then bval w a else if k =? a then None else bval w k).
  { unfold bval, b_move; cbn [cow with_meta with_cow]. apply V. }
  destruct (d =? a) eqn:Eda.
  - apply Nat.eqb_eq in Eda; subst d. rewrite Em, Ev. destruct (k =? a) eqn:Eka.
    + apply Nat.eqb_eq in Eka; subst k. apply R; assumption.
    + apply R; assumption.
  - unfold upd in Hsk. destruct (Nat.eqb k a) eqn:Eka; [discriminate|].
    destruct (Nat.eqb k d) eqn:Ekd.
    + injection Hsk as <-. rewrite Em, Ev. apply R; assumption.
    + rewrite Em, Ev. apply R; assumption.
Qed.

(** *** Append(batch) *)
Lemma app_batch_sim n w s i j : Rel n w s -> usable n s i -> usable n s j ->
  exists r s', lstep n s (BAppendBatch i j) r s' /\ fst (b_append_batch w i j) = r /\
    Rel n (snd (b_append_batch w i j)) s' /\ (r <> ROk -> snd (b_append_batch w i j) = w).
Proof.
  intros HR [Hi Hsi] [Hj Hsj].
  destruct (s i) as [li|] eqn:Ei; [|congruence]. destruct (s j) as [lj|] eqn:Ej; [|congruence].
  assert (W := proj1 HR).
  assert (Ri := proj2 HR i li Hi Ei). assert (Rj := proj2 HR j lj Hj Ej).
  assert (Ri' := Ri). destruct Ri' as (Si & Di & Fi & Mi).
  assert (Rj' := Rj). destruct Rj' as (Sj & Dj & Fj & Mj).
  unfold b_append_batch. rewrite Si, Sj.
  destruct (length lj =? 0) eqn:E0.
  { apply Nat.eqb_eq, length_zero_iff_nil in E0; subst lj.
    exists ROk. eexists. split.
    - apply (L_batch_ok n s i j li []); auto; try discriminate. intros ->. congruence.
    - split; [reflexivity|]. split; [|congruence]. cbn [map snd]. rewrite app_nil_r.
      split; [exact W|]. intros k l Hk. unfold upd. destruct (Nat.eqb k i) eqn:E.
      + apply Nat.eqb_eq in E; subst k. intros [= <-]. exact Ri.
      + apply (proj2 HR); assumption. }
  apply Nat.eqb_neq in E0. assert (Hlj : lj <> []) by (intros ->; apply E0; reflexivity).
  destruct (length li =? 0) eqn:E1.
  { apply Nat.eqb_eq, length_zero_iff_nil in E1; subst li.
    assert (Hij : i <> j) by (intros ->; congruence).
    exists ROk. eexists. split.
    - apply (L_batch_ok n s i j [] lj); auto. intros x _ z. cbn; discriminate.
    - split; [reflexivity|]. split; [|congruence]. cbn [snd app].
      eapply upto_rel; [exact HR|exact Hi|apply copy_upto; assumption|].
      replace (map (conform lj) lj) with lj; [exact Rj|].
      rewrite <- (map_id lj) at 1. apply map_ext_in. intros x Hx.
      rewrite Forall_forall in Fj. destruct (Fj x Hx) as (_ & Ux & _).
      unfold conform. rewrite (unit_of_meta (bmeta w j)); [|apply Forall_forall; exact Fj|exact Hlj].
      rewrite <- Ux. symmetry. apply with_unit_same. }
  apply Nat.eqb_neq in E1. assert (Hli : li <> []) by (intros ->; apply E1; reflexivity).
  rewrite (get_nth w i li _ Ri), (get_nth w j lj _ Rj).
  destruct (last_of_some li Hli) as (z & Hz). assert (Hz' := Hz). unfold last_of in Hz'. rewrite Hz'.
  destruct lj as [|x0 lj']; [congruence|]. set (lj := x0 :: lj') in *. cbn [nth_error lj].
  assert (Fz : fmt (bmeta w i) z) by (rewrite Forall_forall in Fi; apply Fi, last_of_in, Hz).
  assert (Fx0 : fmt (bmeta w j) x0) by (inversion Fj; assumption).
  assert (Tz : tame z) by apply Fz. assert (Tx : tame x0) by apply Fx0.
  pose proof (validate_consecutive_spec z x0 Tz Tx) as C.
  destruct (validate_consecutive z x0); cbn [negb].
  2: { exists RErr, s. unchanged HR. apply (L_batch_err n s i j li lj); auto.
       intros H. specialize (H x0 eq_refl z Hz). apply C in H. discriminate. }
  assert (C' : may_follow z x0) by (apply C; reflexivity).
  assert (MA : forall x, hd_error lj = Some x -> may_append li x).
  { intros x [= <-] z' Hz2. congruence. }
  destruct (i =? j) eqn:Eij.
  { apply Nat.eqb_eq in Eij; subst j. assert (lj = li) by congruence.
    exists RUB, s. unchanged HR. apply L_batch_self with li; auto. rewrite H in MA. exact MA. }
  apply Nat.eqb_neq in Eij.
  assert (Dj' := rep_some _ _ _ Rj Hlj). fold (bval w j). rewrite Dj'.
  assert (Di' := rep_some _ _ _ Ri Hli).
  pose proof (upto_refl n w i W) as U. rewrite Di' in U.
  set (m := bmeta w i) in *.
  destruct (push_ok n w _ i m (enc m li) (fun d => d ++ enc (bmeta w j) lj)
     (fun w2 => m_size (bmeta w2 i) + m_size (bmeta w2 j)) Hi U) as (w2 & w' & -> & Uw2 & Uw').
  assert (Sf : forall x, In x lj -> same_format z x /\ tame x).
  { intros x Hx. rewrite Forall_forall in Fj. assert (Fx := Fj x Hx). split; [|apply Fx].
    apply same_format_trans with x0; [apply C'|].
    destruct Fx0 as (A1 & A2 & A3 & A4 & A5 & _). destruct Fx as (B1 & B2 & B3 & B4 & B5 & _).
    unfold has_pressure, has_tilt, has_orientation in *.
    unfold same_format. rewrite <- !has_absent. rewrite A3, A4, A5, B3, B4, B5, A2, B2, A1, B1. tauto. }
  assert (Fx : Forall (fmt m) (map (with_unit (m_unit m)) lj)) by (apply fmt_seq with z; assumption).
  exists ROk. eexists. split; [apply (L_batch_ok n s i j li lj); auto; congruence|].
  split; [reflexivity|]. split; [|congruence]. cbn [snd].
  eapply upto_rel; [exact HR|exact Hi|exact Uw'|].
  rewrite (map_conform_app li lj m) by assumption.
  assert (Henc : enc (bmeta w j) lj = enc m lj).
  { transitivity (flat_map input_floats lj).
    - rewrite !flat_map_concat_map. f_equal. apply map_ext_in. intros x Hx. symmetry. apply enc_own.
      rewrite Forall_forall in Fj. apply Fj, Hx.
    - rewrite !flat_map_concat_map. f_equal. apply map_ext_in. intros x Hx.
      pose proof (enc_own_seq m lj Fx) as Q. rewrite Forall_forall in Q. apply Q, Hx. }
  split.
  { cbn [m_size with_size]. assert (M2 : bmeta w2 i = m) by exact (proj1 (proj2 Uw2)).
    destruct Uw2 as (_ & _ & _ & O2). destruct (O2 j) as [-> _]; [congruence|].
    rewrite M2, app_length, map_length, Si, Sj. reflexivity. }
  split.
  { cbn [dat]. rewrite enc_size, flat_map_app, enc_map_unit, Henc. reflexivity. }
  split; [apply Forall_app; split; assumption|]. intros H. destruct li; [congruence|discriminate].
Qed.

(** *** Set *)
Lemma replace_len k x l : k < length l -> length (replace k x l) = length l.
Proof.
  intros H. unfold replace. rewrite app_length, firstn_length. cbn [length]. rewrite skipn_length. lia.
Qed.

Lemma set_sim n w s i k x : Rel n w s -> usable n s i ->
  exists r s', lstep n s (BSet i k x) r s' /\ fst (b_set w i k x) = r /\
    Rel n (snd (b_set w i k x)) s' /\ (r <> ROk -> snd (b_set w i k x) = w).
Proof.
  intros HR [Hi Hs]. destruct (s i) as [l|] eqn:El; [|congruence].
  assert (W := proj1 HR). assert (R := proj2 HR i l Hi El).
  assert (R' := R). destruct R' as (Rs & Rd & Rf & Rm).
  unfold b_set. set (m := bmeta w i) in *. rewrite Rs.
  destruct (k <? length l) eqn:Ek; cbn [negb].
  2: { apply Nat.ltb_ge in Ek. exists RAbort, s. unchanged HR. apply L_set_abort with l; auto. }
  apply Nat.ltb_lt in Ek.
  destruct (validate_single x) eqn:V; cbn [negb].
  2: { exists RErr, s. unchanged HR. apply L_set_err with l; auto.
       rewrite <- validate_single_spec, V. intros [H _]; discriminate. }
  apply validate_single_spec in V.
  destruct (length l =? 1) eqn:E1.
  - apply Nat.eqb_eq in E1.
    destruct (clear_ok n w i W Hi) as (d & Hd & U1).
    set (w1 := b_clear w i) in *.
    destruct (ensure_ok n w1 i (proj1 U1) Hi) as (d2 & Hd2 & Hdd2 & U2).
    assert (Ed : bval w1 i = d) by exact (proj1 (proj2 (proj2 U1))).
    rewrite Ed, Hd in Hdd2. subst d2.
    set (w2 := ensure_data w1 i) in *.
    assert (M1 : bmeta w1 i = meta0) by exact (proj1 (proj2 U1)). rewrite M1 in U2.
    assert (M2 : bmeta w2 i = meta0) by exact (proj1 (proj2 U2)).
    set (mx := set_inline (bmeta w2 i) x).
    pose proof (upto_meta n w2 i mx (proj1 U2) Hi) as U3. rewrite Hd2 in U3.
    assert (U := upto_trans _ _ _ _ _ _ _ _ _ (upto_trans _ _ _ _ _ _ _ _ _ U1 U2) U3).
    destruct (push_ok n w _ i mx [] (fun d => d ++ input_floats x) (fun _ => 1) Hi U)
      as (w3 & w' & -> & _ & Uw').
    exists ROk. eexists. split; [apply L_set_ok with (l := l); auto; left; exact E1|].
    split; [reflexivity|]. split; [|congruence]. cbn [snd]. rewrite E1. cbn [Nat.eqb].
    change (1 =? 1) with true.
    eapply upto_rel; [exact HR|exact Hi|exact Uw'|].
    assert (Fx : fmt mx x) by (apply fmt_inline, valid_tame, V).
    split; [reflexivity|]. split.
    { cbn [dat flat_map]. rewrite app_nil_r. apply (enc_own mx x Fx). }
    split; [constructor; [exact Fx|constructor]|discriminate].
  - assert (E1' := E1). apply Nat.eqb_neq in E1.
    assert (Hl : l <> []) by (intros ->; cbn in Ek; lia).
    assert (Tx : tame x) by (apply valid_tame, V).
    rewrite Forall_forall in Rf.
    (* previous *)
    assert (Prev : exists b,
        (if 0 <? k then match b_get w i (k - 1) with None => None | Some p => Some (validate_consecutive p x) end
         else Some true) = Some b /\
        (b = true <-> (forall p, 0 < k -> nth_error l (k - 1) = Some p -> may_follow p x))).
    { destruct (0 <? k) eqn:E0.
      - apply Nat.ltb_lt in E0. rewrite (get_nth w i l _ R).
        destruct (nth_error l (k - 1)) as [p|] eqn:Ep; [|apply nth_error_None in Ep; lia].
        eexists; split; [reflexivity|].
        rewrite validate_consecutive_spec; [|apply (Rf p), (nth_error_In _ _ Ep)|exact Tx].
        split; [intros H p' _ [= <-]; exact H|intros H; apply H; [lia|reflexivity]].
      - apply Nat.ltb_ge in E0. exists true. split; [reflexivity|]. split; [intros _ p H; lia|reflexivity]. }
    destruct Prev as (b & -> & Hb).
    assert (Next : exists b,
        (if k + 1 <? length l then match b_get w i (k + 1) with None => None | Some n => Some (validate_consecutive x n) end
         else Some true) = Some b /\
        (b = true <-> (forall p, nth_error l (k + 1) = Some p -> may_follow x p))).
    { destruct (k + 1 <? length l) eqn:E0.
      - apply Nat.ltb_lt in E0. rewrite (get_nth w i l _ R).
        destruct (nth_error l (k + 1)) as [p|] eqn:Ep; [|apply nth_error_None in Ep; lia].
        eexists; split; [reflexivity|].
        rewrite validate_consecutive_spec; [|exact Tx|apply (Rf p), (nth_error_In _ _ Ep)].
        split; [intros H p' [= <-]; exact H|intros H; apply H; reflexivity].
      - apply Nat.ltb_ge in E0. exists true. split; [reflexivity|]. split; [|reflexivity].
        intros _ p H. assert (k + 1 < length l) by (apply nth_error_Some; congruence). lia. }
    destruct Next as (b' & -> & Hb').
    destruct b.
    2: { exists RErr, s. unchanged HR. apply L_set_err with l; auto. intros [_ [H|[H _]]]; [lia|].
         apply Hb in H. discriminate. }
    destruct b'.
    2: { exists RErr, s. unchanged HR. apply L_set_err with l; auto. intros [_ [H|[_ H]]]; [lia|].
         apply Hb' in H. discriminate. }
    assert (MR : may_replace l k x) by (right; split; [apply Hb|apply Hb']; reflexivity).
    assert (Dd := rep_some _ _ _ R Hl).
    destruct (mutate_data_ok n w i (overwrite (k * stride m) (input_floats_as m x)) (fun w' => w') (enc m l) W Hi Dd)
      as (w' & -> & U).
    exists ROk. eexists. split; [apply L_set_ok with (l := l); auto|].
    split; [reflexivity|]. split; [|congruence]. cbn [snd]. rewrite E1'.
    eapply upto_rel; [exact HR|exact Hi|exact U|]. fold m.
    (* format of the new input *)
    assert (Fx : fmt m (conform l x)).
    { destruct k as [|k].
      - destruct (nth_error l 1) as [p|] eqn:Ep.
        + assert (F := proj1 Hb' eq_refl p Ep).
          eapply fmt_follow; [apply (Rf p), (nth_error_In _ _ Ep)|apply same_format_sym, F|exact Tx|].
          apply unit_of_meta; [apply Forall_forall; exact Rf|exact Hl].
        + apply nth_error_None in Ep. lia.
      - destruct (nth_error l k) as [p|] eqn:Ep; [|apply nth_error_None in Ep; lia].
        assert (F := proj1 Hb eq_refl p ltac:(lia)). replace (S k - 1) with k in F by lia.
        eapply fmt_follow; [apply (Rf p), (nth_error_In _ _ Ep)|apply F, Ep|exact Tx|].
        apply unit_of_meta; [apply Forall_forall; exact Rf|exact Hl]. }
    split; [rewrite replace_len by exact Ek; exact Rs|]. split.
    { cbn [dat]. unfold overwrite, replace. rewrite enc_first, flat_map_app. f_equal.
      cbn [flat_map]. f_equal. rewrite enc_length.
      replace (k * stride m + stride m) with (S k * stride m) by (cbn; lia). apply enc_skip. }
    split.
    { unfold replace. apply Forall_app. split.
      - apply Forall_forall. intros y Hy. apply Rf. rewrite <- (firstn_skipn k l). apply in_or_app. left; exact Hy.
      - constructor; [exact Fx|]. apply Forall_forall. intros y Hy. apply Rf.
        rewrite <- (firstn_skipn (S k) l). apply in_or_app. right; exact Hy. }
    intros H. assert (L := replace_len k (conform l x) l Ek). rewrite H in L. cbn in L. lia.
Qed.

(** *** Erase, Clear, Transform, Create *)
Lemma clear_sim n w s i : Rel n w s -> i < n ->
  Rel n (b_clear w i) (upd s i (Some [])).
Proof.
  intros HR Hi. destruct (clear_ok n w i (proj1 HR) Hi) as (d & Hd & U).
  eapply upto_rel; [exact HR|exact Hi|exact U|].
  split; [reflexivity|]. split; [exact Hd|]. split; [constructor|reflexivity].
Qed.

Lemma skipn_skipn' {A} a b (l : list A) : skipn a (skipn b l) = skipn (b + a) l.
Proof. revert l; induction b as [|b IH]; intros l; [reflexivity|]. destruct l; [apply skipn_nil|]. cbn. apply IH. Qed.

Lemma erase_sim n w s i a c : Rel n w s -> usable n s i ->
  exists r s', lstep n s (BErase i a c) r s' /\ fst (b_erase w i a c) = r /\
    Rel n (snd (b_erase w i a c)) s' /\ (r <> ROk -> snd (b_erase w i a c) = w).
Proof.
  intros HR [Hi Hs]. destruct (s i) as [l|] eqn:El; [|congruence].
  assert (W := proj1 HR). assert (R := proj2 HR i l Hi El).
  assert (R' := R). destruct R' as (Rs & Rd & Rf & Rm).
  unfold b_erase. set (m := bmeta w i) in *. rewrite Rs.
  destruct (a <=? length l) eqn:Ea; cbn [negb].
  2: { apply Nat.leb_gt in Ea. exists RAbort, s. unchanged HR. apply L_erase_abort with l; auto. }
  apply Nat.leb_le in Ea.
  set (q := Nat.min c (length l - a)).
  assert (Hsk : skipn c (skipn a l) = skipn (a + q) l).
  { rewrite skipn_skipn'. unfold q. destruct (Nat.min_spec c (length l - a)) as [[H ->]|[H ->]]; [reflexivity|].
    rewrite !skipn_all2 by lia. reflexivity. }
  exists ROk, (upd s i (Some (firstn a l ++ skipn c (skipn a l)))).
  split; [apply L_erase; auto|].
  destruct (q =? 0) eqn:Eq.
  { apply Nat.eqb_eq in Eq. split; [reflexivity|]. split; [|congruence]. cbn [snd].
    rewrite Hsk, Eq, Nat.add_0_r, firstn_skipn.
    split; [exact W|]. intros k lk Hk. unfold upd. destruct (Nat.eqb k i) eqn:E.
    - apply Nat.eqb_eq in E; subst k. intros [= <-]. exact R.
    - apply (proj2 HR); assumption. }
  apply Nat.eqb_neq in Eq.
  destruct ((a =? 0) && (q =? length l)) eqn:Eall.
  { apply andb_true_iff in Eall. destruct Eall as [E1 E2]. apply Nat.eqb_eq in E1, E2. subst a.
    split; [reflexivity|]. split; [|congruence]. cbn [snd].
    rewrite Hsk, E2. cbn [firstn app]. rewrite skipn_all2 by (cbn; lia). apply clear_sim; assumption. }
  assert (Hl : l <> []) by (intros ->; cbn in *; unfold q in Eq; rewrite Nat.min_0_r in Eq; lia).
  assert (Dd := rep_some _ _ _ R Hl).
  pose proof (upto_refl n w i W) as U. rewrite Dd in U. fold m in U.
  destruct (push_ok n w _ i m (enc m l)
     (fun d => firstn (a * stride m) d ++ skipn ((a + q) * stride m) d)
     (fun w2 => m_size (bmeta w2 i) - q) Hi U) as (w2 & w' & -> & Uw2 & Uw').
  split; [reflexivity|]. split; [|congruence]. cbn [snd].
  eapply upto_rel; [exact HR|exact Hi|exact Uw'|]. rewrite Hsk.
  assert (Hlen : length (firstn a l ++ skipn (a + q) l) = length l - q).
  { rewrite app_length, firstn_length, skipn_length. unfold q in *. lia. }
  assert (Hq : q < length l).
  { apply andb_false_iff in Eall. rewrite !Nat.eqb_neq in Eall. unfold q in *. lia. }
  split.
  { cbn [m_size with_size]. assert (M2 : bmeta w2 i = m) by exact (proj1 (proj2 Uw2)).
    rewrite M2, Rs, Hlen. reflexivity. }
  split.
  { cbn [dat]. rewrite enc_size, flat_map_app, enc_first, enc_skip. reflexivity. }
  split.
  { rewrite Forall_forall in *. intros y Hy. apply Rf. apply in_app_or in Hy. destruct Hy as [Hy|Hy].
    - rewrite <- (firstn_skipn a l). apply in_or_app; left; exact Hy.
    - rewrite <- (firstn_skipn (a + q) l). apply in_or_app; right; exact Hy. }
  intros H. rewrite H in Hlen. cbn in Hlen. lia.
Qed.

Lemma transform_enc m f l : forall fuel, length l <= fuel ->
  transform_data fuel (stride m) f (enc m l) = enc m (map (move_position f) l).
Proof.
  induction l as [|x l IH]; intros fuel Hf.
  - destruct fuel; reflexivity.
  - destruct fuel as [|fuel]; [cbn in Hf; lia|]. cbn [flat_map map].
    set (e := input_floats_as m x ++ enc m l).
    assert (He : e = px x :: py x :: skipn 2 (input_floats_as m x) ++ enc m l) by reflexivity.
    rewrite He. cbn [transform_data].
    rewrite <- He. destruct (f (px x) (py x)) as [x' y'] eqn:Ef.
    assert (H1 : firstn (stride m) e = input_floats_as m x).
    { unfold e. rewrite <- (enc_length m x), firstn_app, Nat.sub_diag, firstn_all. cbn [firstn]. apply app_nil_r. }
    assert (H2 : skipn (stride m) e = enc m l).
    { unfold e. rewrite <- (enc_length m x), skipn_app, Nat.sub_diag, skipn_all. reflexivity. }
    rewrite H1, H2, IH by (cbn in Hf; lia).
    unfold move_position, input_floats_as. cbn [px py etime pressure tilt orientation].
    rewrite Ef. reflexivity.
Qed.

Lemma fmt_move m f x : fmt m (move_position f x) <-> fmt m x.
Proof. reflexivity. Qed.

Lemma transform_sim n w s i f : Rel n w s -> usable n s i ->
  exists r s', lstep n s (BTransform i f) r s' /\ fst (b_transform w i f) = r /\
    Rel n (snd (b_transform w i f)) s' /\ (r <> ROk -> snd (b_transform w i f) = w).
Proof.
  intros HR [Hi Hs]. destruct (s i) as [l|] eqn:El; [|congruence].
  assert (W := proj1 HR). assert (R := proj2 HR i l Hi El).
  assert (R' := R). destruct R' as (Rs & Rd & Rf & Rm).
  exists ROk. eexists. split; [apply L_transform; [exact Hi|exact El]|].
  unfold b_transform. set (m := bmeta w i) in *. rewrite Rs.
  destruct (length l =? 0) eqn:E0.
  - apply Nat.eqb_eq, length_zero_iff_nil in E0; subst l. split; [reflexivity|]. split; [|congruence].
    cbn [map snd]. split; [exact W|]. intros k lk Hk. unfold upd. destruct (Nat.eqb k i) eqn:E.
    + apply Nat.eqb_eq in E; subst k. intros [= <-]. exact R.
    + apply (proj2 HR); assumption.
  - apply Nat.eqb_neq in E0. assert (Hl : l <> []) by (intros ->; apply E0; reflexivity).
    assert (Dd := rep_some _ _ _ R Hl).
    destruct (mutate_data_ok n w i (fun d => transform_data (length d) (stride m) f d) (fun w' => w') (enc m l) W Hi Dd)
      as (w' & -> & U).
    split; [reflexivity|]. split; [|congruence]. cbn [snd].
    eapply upto_rel; [exact HR|exact Hi|exact U|]. fold m.
    split; [rewrite map_length; exact Rs|]. split.
    { cbn [dat]. apply transform_enc. rewrite enc_len. pose proof (stride_pos m). nia. }
    split; [|intros H; destruct l; [congruence|discriminate]].
    rewrite Forall_forall in *. intros y Hy. apply in_map_iff in Hy. destruct Hy as (x & <- & Hx).
    apply fmt_move, Rf, Hx.
Qed.

Lemma create_sim n w s d xs : Rel n w s -> d < n ->
  exists r s', lstep n s (BCreate d xs) r s' /\ fst (b_create w d xs) = r /\
    Rel n (snd (b_create w d xs)) s' /\ (r <> ROk -> snd (b_create w d xs) = w).
Proof.
  intros HR Hd. assert (W := proj1 HR). assert (W' := W). destruct W' as (A & B & C).
  unfold b_create.
  destruct (reset_ok (cow w) d A ltac:(lia)) as (Wc & Nc & V).
  assert (U1 := upto_cow n w d _ None W Wc Nc V).
  pose proof (upto_meta n _ d meta0 (proj1 U1) Hd) as U2.
  assert (D1 : bval (with_cow w (cow_reset (cow w) d)) d = None) by exact (proj1 (proj2 (proj2 U1))).
  rewrite D1 in U2.
  set (w0 := with_meta (with_cow w (cow_reset (cow w) d)) d meta0) in *.
  assert (U0 := upto_trans _ _ _ _ _ _ _ _ _ U1 U2).
  destruct xs as [|x0 xs'].
  - exists ROk. eexists. split; [apply L_create_ok; [exact Hd|apply valid_nil]|].
    split; [reflexivity|]. split; [|congruence]. cbn [snd map].
    eapply upto_rel; [exact HR|exact Hd|exact U0|].
    split; [reflexivity|]. split; [reflexivity|]. split; [constructor|reflexivity].
  - set (xs := x0 :: xs') in *.
    assert (W0 := proj1 U0). assert (W0' := W0). destruct W0' as (A0 & B0 & C0).
    destruct (emplace_ok (cow w0) d [] A0 ltac:(lia)) as (Wc' & Nc' & V').
    assert (U3 := upto_cow n w0 d _ (Some []) W0 Wc' Nc' V').
    assert (M0 : bmeta w0 d = meta0) by exact (proj1 (proj2 U0)). rewrite M0 in U3.
    set (w1 := with_cow w0 (cow_emplace (cow w0) d [])) in *.
    assert (R1 : rep (bmeta w1 d) (bval w1 d) []).
    { destruct U3 as (_ & -> & -> & _). split; [reflexivity|]. split; [reflexivity|]. split; [constructor|reflexivity]. }
    destruct (span_core n w1 d [] xs (proj1 U3) Hd R1)
      as [(w' & m & dd & E & U & Hr & Vs & _)|(E & Vs)].
    + rewrite E. exists ROk. eexists. split; [apply L_create_ok; [exact Hd|exact Vs]|].
      split; [reflexivity|]. split; [|congruence]. cbn [snd].
      eapply upto_rel; [exact HR|exact Hd|exact (upto_trans _ _ _ _ _ _ _ _ _ (upto_trans _ _ _ _ _ _ _ _ _ U0 U3) U)|].
      exact Hr.
    + rewrite E. exists RErr, s. unchanged HR. apply L_create_err; [exact Hd|].
      intros Hv. apply Vs. split; [exact Hv|]. intros x _ z. cbn. discriminate.
Qed.

(** *** One call, and histories *)
Lemma bstep_sim n w s o : Rel n w s -> call_ok n s o ->
  exists r s', lstep n s o r s' /\ fst (bstep w o) = r /\ Rel n (snd (bstep w o)) s' /\
    (r <> ROk -> snd (bstep w o) = w).
Proof.
  intros HR HC. destruct o as [i x|i xs|i j|i k x|i a c|i|i f|d xs|d a|d a|d a]; cbn [bstep call_ok] in *.
  - apply append1_sim; assumption.
  - apply span_sim; assumption.
  - apply app_batch_sim; tauto.
  - apply set_sim; assumption.
  - apply erase_sim; assumption.
  - exists ROk. eexists. split; [apply L_clear, HC|]. split; [reflexivity|]. split; [|congruence].
    apply clear_sim; assumption.
  - apply transform_sim; assumption.
  - apply create_sim; assumption.
  - destruct HC as [Hd [Ha Hs]]. destruct (s a) as [l|] eqn:E; [|congruence].
    exists ROk. eexists. split; [apply L_copy with (l := l); assumption|]. split; [reflexivity|]. split; [|congruence].
    eapply upto_rel; [exact HR|exact Hd|apply copy_upto; [apply HR|exact Hd|exact Ha]|]. apply (proj2 HR); assumption.
  - destruct HC as [Hd [Ha Hs]]. destruct (s a) as [l|] eqn:E; [|congruence].
    exists ROk. eexists. split; [apply L_deep with (l := l); assumption|]. split; [reflexivity|]. split; [|congruence].
    eapply upto_rel; [exact HR|exact Hd|apply deep_upto; [apply HR|exact Hd|exact Ha]|]. apply (proj2 HR); assumption.
  - destruct HC as [Hd [Ha Hs]]. destruct (s a) as [l|] eqn:E; [|congruence].
    pose proof (move_rel n w s d a l HR Hd Ha E) as M.
    destruct (d =? a) eqn:Eda.
    + apply Nat.eqb_eq in Eda; subst d. exists ROk, s.
      split; [apply L_move_self with l; assumption|]. split; [reflexivity|]. split; [exact M|congruence].
    + apply Nat.eqb_neq in Eda. exists ROk. eexists. split; [apply L_move with (l := l); assumption|].
      split; [reflexivity|]. split; [exact M|congruence].
Qed.

Lemma brun_sim n os : forall w s, Rel n w s -> within_contract n s os ->
  exists s', lrun n s os (fst (brun w os)) s' /\ Rel n (snd (brun w os)) s'.
Proof.
  induction os as [|o os IH]; intros w s HR HC.
  - exists s. split; [constructor|exact HR].
  - inversion HC as [|? ? ? C1 C2]; subst. destruct (bstep_sim n w s o HR C1) as (r & s' & L & Er & HR' & _).
    cbn [brun]. destruct (bstep w o) as [r' w']. cbn [fst snd] in *. subst r'.
    destruct r.
    + destruct (IH w' s' HR') as (s'' & L'' & R''); [eapply C2; [exact L|auto]|].
      destruct (brun w' os) as [rs w'']. cbn [fst snd] in *.
      exists s''. split; [eapply LR_go; eauto|exact R''].
    + destruct (IH w' s' HR') as (s'' & L'' & R''); [eapply C2; [exact L|auto]|].
      destruct (brun w' os) as [rs w'']. cbn [fst snd] in *.
      exists s''. split; [eapply LR_go; eauto|exact R''].
    + exists s'. split; [eapply LR_stop; eauto|exact HR'].
    + exists s'. split; [eapply LR_stop; eauto|exact HR'].
Qed.

Lemma init_rel n : Rel n (binit n) empty_lists.
Proof.
  split.
  - split; [apply init_wf|]. split; [unfold nh; cbn; apply repeat_length|cbn; apply repeat_length].
  - intros i l Hi [= <-]. unfold bval; cbn [cow binit]. rewrite init_value.
    assert (E : bmeta (binit n) i = meta0).
    { unfold bmeta; cbn [metas binit]. clear Hi. revert i; induction n; intros [|i]; cbn; auto. }
    rewrite E. split; [reflexivity|]. split; [reflexivity|]. split; [constructor|reflexivity].
Qed.

(** *** Observers *)
Lemma iter_ok m l : Forall (fmt m) l -> forall fuel x, fmt m x -> length l < fuel ->
  iter_values fuel x (enc m (x :: l)) = Some (x :: l).
Proof.
  induction l as [|y l IH]; intros F fuel x Fx Hf; (destruct fuel as [|fuel]; [lia|]).
  - assert (Sv : stride (value_meta x) = stride m).
    { destruct Fx as (_ & _ & H3 & H4 & H5 & _). unfold stride, value_meta; cbn. rewrite H3, H4, H5. reflexivity. }
    cbn [flat_map]. rewrite app_nil_r.
    assert (He : input_floats_as m x = px x :: tl (input_floats_as m x)) by reflexivity.
    rewrite He. cbn [iter_values]. rewrite <- He. rewrite Sv, <- (enc_length m x), skipn_all. reflexivity.
  - inversion F; subst.
    assert (Sv : stride (value_meta x) = stride m).
    { destruct Fx as (_ & _ & E3 & E4 & E5 & _). unfold stride, value_meta; cbn. rewrite E3, E4, E5. reflexivity. }
    assert (Fv : fmt (value_meta x) y).
    { destruct Fx as (E1 & E2 & E3 & E4 & E5 & _). destruct H1 as (D1 & D2 & D3 & D4 & D5 & D6).
      unfold fmt, value_meta; cbn. repeat split; try congruence; apply D6. }
    assert (Ev : enc (value_meta x) (y :: l) = enc m (y :: l)).
    { unfold input_floats_as. destruct Fx as (E1 & E2 & E3 & E4 & E5 & _).
      cbn [value_meta m_pressure m_tilt m_orientation]. rewrite E3, E4, E5. reflexivity. }
    set (tail := enc m (y :: l)) in *.
    change (enc m (x :: y :: l)) with (input_floats_as m x ++ tail).
    assert (He : input_floats_as m x ++ tail = px x :: tl (input_floats_as m x) ++ tail) by reflexivity.
    rewrite He. cbn [iter_values]. rewrite <- He.
    rewrite Sv, <- (enc_length m x), skipn_app, skipn_all, Nat.sub_diag. cbn [skipn app].
    assert (Ht : exists t0 t1, tail = t0 :: t1) by (unfold tail; cbn; eauto).
    destruct Ht as (t0 & t1 & Ht). rewrite Ht. rewrite <- Ht.
    rewrite <- Ev. cbn [flat_map]. rewrite read_enc by exact Fv.
    change (input_floats_as (value_meta x) y ++ enc (value_meta x) l) with (enc (value_meta x) (y :: l)).
    rewrite Ev. unfold tail. rewrite IH; [reflexivity|assumption|assumption|cbn in Hf; lia].
Qed.

(** All observers of a batch in terms of the represented list *)
Lemma observers w i l : rep (bmeta w i) (bval w i) l ->
  m_size (bmeta w i) = length l /\
  (forall k, b_get w i k = nth_error l k) /\
  b_iterate w i = Some l /\
  b_duration w i = match nth_error l 0, last_of l with
                   | Some f, Some z => Some (fsub (etime z) (etime f))
                   | _, _ => Some f0
                   end /\
  (match l with
   | [] => m_tool (bmeta w i) = 0%Z /\ m_unit (bmeta w i) = kNoUnit /\
           m_pressure (bmeta w i) = false /\ m_tilt (bmeta w i) = false /\
           m_orientation (bmeta w i) = false
   | x :: _ => m_tool (bmeta w i) = tool x /\ m_unit (bmeta w i) = unit_len x /\
           m_pressure (bmeta w i) = has_pressure x /\ m_tilt (bmeta w i) = has_tilt x /\
           m_orientation (bmeta w i) = has_orientation x
   end).
Proof.
  intros R. assert (R' := R). destruct R' as (Rs & Rd & Rf & Rm).
  split; [exact Rs|]. split; [intros k; apply get_nth, R|]. split; [|split].
  - unfold b_iterate. fold (bval w i). destruct l as [|x l].
    + cbn in Rd. destruct (bval w i) as [[|? ?]|]; cbn in *; try reflexivity. discriminate.
    + rewrite (rep_some _ _ _ R) by discriminate.
      rewrite (get_nth w i (x :: l) 0 R). cbn [nth_error].
      inversion Rf; subst.
      assert (He : enc (bmeta w i) (x :: l) = px x :: tl (enc (bmeta w i) (x :: l))) by reflexivity.
      rewrite He. rewrite <- He. apply iter_ok; try assumption.
      rewrite enc_len. cbn [length]. pose proof (stride_pos (bmeta w i)). nia.
  - unfold b_duration. rewrite Rs. destruct l as [|x l]; [reflexivity|].
    replace (length (x :: l) =? 0) with false by reflexivity.
    rewrite !(get_nth w i (x :: l) _ R). cbn [nth_error].
    unfold last_of. destruct (nth_error (x :: l) (length (x :: l) - 1)) eqn:E; [reflexivity|].
    apply nth_error_None in E. cbn in E. lia.
  - destruct l as [|x l].
    + rewrite (Rm eq_refl). cbn. auto 10.
    + inversion Rf; subst. destruct H1 as (E1 & E2 & E3 & E4 & E5 & _). auto 10.
Qed.
