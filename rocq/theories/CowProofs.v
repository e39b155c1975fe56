(** Lemmas about the copy-on-write heap. *)
From Coq Require Import List Arith Bool Lia.
From Verif Require Import CowModel CowSpec.
Import ListNotations.

Section P.
Context {T : Type}.
Implicit Types w : world T.

Lemma set_nth_length {A} n (x : A) l : length (set_nth n x l) = length l.
Proof. revert n; induction l as [|y l IH]; intros [|n]; cbn; auto. Qed.

Lemma nth_set_nth {A} n (x : A) l k d :
  nth k (set_nth n x l) d = if (k =? n) && (n <? length l) then x else nth k l d.
Proof.
  revert n k; induction l as [|y l IH]; intros [|n] [|k]; cbn [set_nth nth length]; auto;
    try (replace (_ <? 0) with false by reflexivity; rewrite andb_false_r; reflexivity).
  rewrite IH. reflexivity.
Qed.

Definition ind (p : option nat) (a : nat) : nat :=
  match p with Some b => if b =? a then 1 else 0 | None => 0 end.

Fixpoint cntl (l : list (option nat)) (a : nat) : nat :=
  match l with [] => 0 | p :: l' => ind p a + cntl l' a end.

Definition cnt w a := cntl (ptrs w) a.
Definition ref w a := match cell w a with Some (_, n) => n | None => 0 end.
Definition pos w := forall a v n, cell w a = Some (v, n) -> n > 0.
Definition wfx w (d : option nat) := (forall a, ref w a = cnt w a + ind d a) /\ pos w.
Definition wf w := wfx w None.

Lemma cntl_set_nth l h p a : h < length l ->
  cntl (set_nth h p l) a + ind (nth h l None) a = cntl l a + ind p a.
Proof.
  revert h; induction l as [|q l IH]; intros [|h] H; cbn [length set_nth nth cntl] in *; try lia.
  specialize (IH h ltac:(lia)). lia.
Qed.

Lemma cnt_ptr w h a : ptr w h = Some a -> cnt w a > 0.
Proof.
  unfold ptr, cnt. generalize (ptrs w) as l. intros l; revert h.
  induction l as [|q l IH]; intros [|h] H; cbn [nth cntl] in *; try discriminate.
  - subst q. cbn. rewrite Nat.eqb_refl. lia.
  - specialize (IH _ H). lia.
Qed.

Lemma ptr_set_ptr w h p k : h < length (ptrs w) ->
  ptr (set_ptr w h p) k = if k =? h then p else ptr w k.
Proof.
  intros H. unfold ptr, set_ptr; cbn [ptrs]. rewrite nth_set_nth.
  apply Nat.ltb_lt in H. rewrite H, andb_true_r. reflexivity.
Qed.

Lemma cell_set_cell w a c b : cell w a <> None ->
  cell (set_cell w a c) b = if b =? a then c else cell w b.
Proof.
  intros H. unfold cell, set_cell; cbn [cells]. rewrite nth_set_nth.
  destruct (a <? length (cells w)) eqn:E.
  - rewrite andb_true_r. reflexivity.
  - apply Nat.ltb_ge in E. unfold cell in H. rewrite nth_overflow in H by assumption. congruence.
Qed.

Lemma wf_ptr_cell w d h a : wfx w d -> ptr w h = Some a -> exists v n, cell w a = Some (v, n) /\ n > 0.
Proof.
  intros [H P] Hp. specialize (H a). apply cnt_ptr in Hp. unfold ref in H.
  destruct (cell w a) as [[v n]|] eqn:E; [|lia]. eauto.
Qed.

Definition val w a : option T := match cell w a with Some (v, _) => Some v | None => None end.

Lemma cow_value_val w h : cow_value w h = match ptr w h with Some a => val w a | None => None end.
Proof. reflexivity. Qed.

Lemma incref_ok w h : wf w ->
  wfx (incref w (ptr w h)) (ptr w h) /\ ptrs (incref w (ptr w h)) = ptrs w /\
  (forall a, val (incref w (ptr w h)) a = val w a).
Proof.
  intros W. destruct (ptr w h) as [a|] eqn:E; [|cbn; auto].
  destruct (wf_ptr_cell _ _ _ _ W E) as (v & n & Hc & Hn).
  cbn [incref]. rewrite Hc.
  assert (NN : cell w a <> None) by congruence.
  destruct W as [W P]. repeat split.
  - intros b. specialize (W b). unfold ref, cnt in *. rewrite cell_set_cell by assumption.
    cbn [set_cell ptrs ind] in *. destruct (b =? a) eqn:Eb.
    + apply Nat.eqb_eq in Eb; subst b. rewrite Nat.eqb_refl. rewrite Hc in W. lia.
    + rewrite Nat.eqb_sym in Eb. rewrite Eb. lia.
  - intros b v' n'. rewrite cell_set_cell by assumption. destruct (b =? a).
    + intros [= <- <-]. lia.
    + apply P.
  - intros b. unfold val. rewrite cell_set_cell by assumption. destruct (b =? a) eqn:Eb; [|reflexivity].
    apply Nat.eqb_eq in Eb; subst b. rewrite Hc. reflexivity.
Qed.

Lemma decref_ok w p : wfx w p ->
  wf (decref w p) /\ ptrs (decref w p) = ptrs w /\
  (forall h, cow_value (decref w p) h = cow_value w h).
Proof.
  intros W. destruct p as [a|]; [|cbn; auto].
  destruct W as [W P].
  assert (HC : exists v n, cell w a = Some (v, n) /\ n > 0).
  { specialize (W a). unfold ref in W. cbn [ind] in W. rewrite Nat.eqb_refl in W.
    destruct (cell w a) as [[v n]|] eqn:E; [|lia]. exists v, n. split; [reflexivity|lia]. }
  destruct HC as (v & n & Hc & Hn). cbn [decref]. rewrite Hc.
  assert (NN : cell w a <> None) by congruence.
  assert (Wa := W a). unfold ref in Wa. rewrite Hc in Wa. cbn [ind] in Wa. rewrite Nat.eqb_refl in Wa.
  split; [split|split].
  - intros b. specialize (W b). unfold ref, cnt in *. rewrite cell_set_cell by assumption.
    cbn [set_cell ptrs ind] in *. destruct (b =? a) eqn:Eb.
    + apply Nat.eqb_eq in Eb; subst b.
      destruct (n <=? 1) eqn:L; [apply Nat.leb_le in L|apply Nat.leb_gt in L]; lia.
    + rewrite Nat.eqb_sym in Eb. rewrite Eb in W. lia.
  - intros b v' n'. rewrite cell_set_cell by assumption. destruct (b =? a).
    + destruct (n <=? 1) eqn:L; [discriminate|]. apply Nat.leb_gt in L. intros [= <- <-]. lia.
    + apply P.
  - reflexivity.
  - intros h. unfold cow_value. change (ptr (set_cell w a _) h) with (ptr w h).
    destruct (ptr w h) as [b|] eqn:Eh; [|reflexivity].
    rewrite cell_set_cell by assumption. destruct (b =? a) eqn:Eb; [|reflexivity].
    apply Nat.eqb_eq in Eb; subst b. rewrite Hc.
    destruct (n <=? 1) eqn:L; [|reflexivity]. apply Nat.leb_le in L.
    apply cnt_ptr in Eh. lia.
Qed.

(** the common end of all operations: redirect a handle, drop the old reference *)
Lemma redirect_ok w h p : h < length (ptrs w) -> wfx w p ->
  wf (decref (set_ptr w h p) (ptr w h)) /\
  length (ptrs (decref (set_ptr w h p) (ptr w h))) = length (ptrs w) /\
  (forall k, cow_value (decref (set_ptr w h p) (ptr w h)) k =
     if k =? h then match p with Some a => val w a | None => None end else cow_value w k).
Proof.
  intros Hh W.
  assert (W' : wfx (set_ptr w h p) (ptr w h)).
  { destruct W as [W P]. split; [|exact P]. intros a. specialize (W a).
    unfold ref, cnt in *. change (cell (set_ptr w h p) a) with (cell w a). rewrite W.
    cbn [set_ptr ptrs]. pose proof (cntl_set_nth (ptrs w) h p a Hh). unfold ptr. lia. }
  destruct (decref_ok _ _ W') as (A & B & C). split; [exact A|]. split.
  - rewrite B. cbn [set_ptr ptrs]. apply set_nth_length.
  - intros k. rewrite C, !cow_value_val, ptr_set_ptr by assumption.
    destruct (k =? h); reflexivity.
Qed.

Definition nh w := length (ptrs w).

Lemma copy_ok w d s : wf w -> d < nh w -> s < nh w ->
  wf (cow_copy w d s) /\ nh (cow_copy w d s) = nh w /\
  (forall k, cow_value (cow_copy w d s) k = if k =? d then cow_value w s else cow_value w k).
Proof.
  intros W Hd Hs. destruct (incref_ok w s W) as (A & B & C).
  unfold cow_copy. set (w1 := incref w (ptr w s)) in *.
  assert (Hd1 : d < length (ptrs w1)) by (rewrite B; exact Hd).
  destruct (redirect_ok w1 d (ptr w s) Hd1 A) as (A' & B' & C').
  split; [exact A'|]. split; [unfold nh; rewrite B', B; reflexivity|].
  intros k. rewrite C'. rewrite !cow_value_val. unfold ptr. rewrite B. fold (ptr w k).
  fold (ptr w s). destruct (k =? d).
  - destruct (ptr w s); [apply C|reflexivity].
  - destruct (ptr w k); [apply C|reflexivity].
Qed.

Lemma move_ok w d s : wf w -> d < nh w -> s < nh w ->
  wf (cow_move w d s) /\ nh (cow_move w d s) = nh w /\
  (forall k, cow_value (cow_move w d s) k =
     if k =? d then cow_value w s else if k =? s then None else cow_value w k).
Proof.
  intros W Hd Hs. unfold cow_move. set (w1 := set_ptr w s None).
  assert (A : wfx w1 (ptr w s)).
  { destruct W as [W P]. split; [|exact P]. intros a. specialize (W a). unfold ref, cnt in *.
    change (cell w1 a) with (cell w a). rewrite W. cbn [w1 set_ptr ptrs ind].
    pose proof (cntl_set_nth (ptrs w) s None a Hs). cbn [ind] in *. unfold ptr. lia. }
  assert (Hd1 : d < length (ptrs w1)) by (cbn; rewrite set_nth_length; exact Hd).
  destruct (redirect_ok w1 d (ptr w s) Hd1 A) as (A' & B' & C').
  split; [exact A'|]. split; [unfold nh; rewrite B'; cbn; apply set_nth_length|].
  intros k. rewrite C'. rewrite !cow_value_val. unfold w1. rewrite ptr_set_ptr by assumption.
  destruct (k =? d); [reflexivity|]. destruct (k =? s); reflexivity.
Qed.

Lemma alloc_ok w v : wf w ->
  wfx (fst (alloc w v)) (Some (snd (alloc w v))) /\ ptrs (fst (alloc w v)) = ptrs w /\
  val (fst (alloc w v)) (snd (alloc w v)) = Some v /\
  (forall k, cow_value (fst (alloc w v)) k = cow_value w k).
Proof.
  intros W. cbn [alloc fst snd].
  assert (Hc : forall a, cell {| ptrs := ptrs w; cells := cells w ++ [Some (v, 1)] |} a =
                    if a =? length (cells w) then Some (v, 1) else cell w a).
  { intros a. unfold cell; cbn [cells]. destruct (a =? length (cells w)) eqn:E.
    - apply Nat.eqb_eq in E; subst a. rewrite app_nth2, Nat.sub_diag by lia. reflexivity.
    - apply Nat.eqb_neq in E. destruct (lt_dec a (length (cells w))).
      + rewrite app_nth1 by lia. reflexivity.
      + rewrite !nth_overflow; [reflexivity|lia|rewrite app_length; cbn; lia]. }
  assert (Hfresh : cell w (length (cells w)) = None) by (unfold cell; apply nth_overflow; lia).
  repeat split.
  - intros a. unfold ref, cnt. rewrite Hc. cbn [ptrs ind]. destruct W as [W P].
    specialize (W a). unfold ref, cnt in W. cbn [ind] in W. rewrite Nat.eqb_sym.
    destruct (length (cells w) =? a) eqn:E.
    + apply Nat.eqb_eq in E; subst a. rewrite Hfresh in W. lia.
    + lia.
  - intros a v' n'. rewrite Hc. destruct (a =? _).
    + intros [= <- <-]. lia.
    + apply W.
  - unfold val. rewrite Hc, Nat.eqb_refl. reflexivity.
  - intros k. unfold cow_value. change (ptr _ k) with (ptr w k).
    destruct (ptr w k) as [a|] eqn:E; [|reflexivity]. rewrite Hc.
    destruct (a =? length (cells w)) eqn:Ea; [|reflexivity]. apply Nat.eqb_eq in Ea; subst a.
    destruct (wf_ptr_cell _ _ _ _ W E) as (v' & n' & H & _). congruence.
Qed.

Lemma emplace_ok w h v : wf w -> h < nh w ->
  wf (cow_emplace w h v) /\ nh (cow_emplace w h v) = nh w /\
  (forall k, cow_value (cow_emplace w h v) k = if k =? h then Some v else cow_value w k).
Proof.
  intros W Hh. destruct (alloc_ok w v W) as (A & B & C & D). unfold cow_emplace.
  destruct (alloc w v) as [w1 a] eqn:E. cbn [fst snd] in *.
  assert (Hh1 : h < length (ptrs w1)) by (rewrite B; exact Hh).
  destruct (redirect_ok w1 h (Some a) Hh1 A) as (A' & B' & C').
  split; [exact A'|]. split; [unfold nh; rewrite B', B; reflexivity|].
  intros k. rewrite C', C, D. reflexivity.
Qed.

Lemma reset_ok w h : wf w -> h < nh w ->
  wf (cow_reset w h) /\ nh (cow_reset w h) = nh w /\
  (forall k, cow_value (cow_reset w h) k = if k =? h then None else cow_value w k).
Proof.
  intros W Hh. unfold cow_reset.
  exact (redirect_ok w h None Hh W).
Qed.

(** sharing *)
Lemma cntl_two l h k a : h <> k -> nth h l None = Some a -> nth k l None = Some a -> cntl l a >= 2.
Proof.
  revert h k. induction l as [|q l IH]; intros h k Hne; [destruct h; discriminate|].
  assert (L : forall k, nth k l None = Some a -> cntl l a >= 1).
  { clear. induction l as [|q l IH]; intros [|k] H; cbn in *; try discriminate.
    - subst; cbn; rewrite Nat.eqb_refl; lia.
    - specialize (IH _ H); lia. }
  destruct h as [|h], k as [|k]; cbn [nth cntl]; intros H1 H2; try lia.
  - subst q. cbn. rewrite Nat.eqb_refl. specialize (L _ H2). lia.
  - subst q. cbn. rewrite Nat.eqb_refl. specialize (L _ H1). lia.
  - specialize (IH h k ltac:(lia) H1 H2). lia.
Qed.

Lemma cntl_two_inv l a h : cntl l a >= 2 -> nth h l None = Some a ->
  exists k, k <> h /\ k < length l /\ nth k l None = Some a.
Proof.
  assert (L : cntl l a >= 1 -> exists k, k < length l /\ nth k l None = Some a).
  { clear. induction l as [|q l IH]; cbn [cntl length]; intros H; [lia|].
    destruct q as [b|]; cbn [ind] in H.
    - destruct (b =? a) eqn:E.
      + exists 0. apply Nat.eqb_eq in E; subst. cbn. split; [lia|reflexivity].
      + destruct (IH ltac:(lia)) as (k & Hk & E'). exists (S k). cbn. split; [lia|exact E'].
    - destruct (IH ltac:(lia)) as (k & Hk & E'). exists (S k). cbn. split; [lia|exact E']. }
  revert h L. induction l as [|q l IH]; intros h L H Hh; [destruct h; discriminate|].
  destruct h as [|h]; cbn [nth] in Hh.
  - subst q. cbn [cntl ind] in H. rewrite Nat.eqb_refl in H.
    assert (exists k, k < length l /\ nth k l None = Some a) as (k & Hk & E).
    { clear -H. assert (H' : cntl l a >= 1) by lia. clear H. revert H'.
      induction l as [|q l IH]; cbn [cntl length]; intros H; [lia|].
      destruct q as [b|]; cbn [ind] in H.
      - destruct (b =? a) eqn:E.
        + exists 0. apply Nat.eqb_eq in E; subst. cbn. split; [lia|reflexivity].
        + destruct (IH ltac:(lia)) as (k & Hk & E'). exists (S k). cbn. split; [lia|exact E'].
      - destruct (IH ltac:(lia)) as (k & Hk & E'). exists (S k). cbn. split; [lia|exact E']. }
    exists (S k). cbn. repeat split; [lia|lia|exact E].
  - destruct q as [b|]; cbn [cntl ind] in H.
    + destruct (b =? a) eqn:Eb.
      * exists 0. apply Nat.eqb_eq in Eb; subst b. cbn. repeat split; lia.
      * destruct (IH h) as (k & Hk & Hl & E); [|lia|exact Hh|].
        { intros H1. clear -H1. revert H1.
          induction l as [|q l IH]; cbn [cntl length]; intros H; [lia|].
          destruct q as [b|]; cbn [ind] in H.
          - destruct (b =? a) eqn:E.
            + exists 0. apply Nat.eqb_eq in E; subst. cbn. split; [lia|reflexivity].
            + destruct (IH ltac:(lia)) as (k & Hk & E'). exists (S k). cbn. split; [lia|exact E'].
          - destruct (IH ltac:(lia)) as (k & Hk & E'). exists (S k). cbn. split; [lia|exact E']. }
        exists (S k). cbn. repeat split; [lia|lia|exact E].
    + destruct (IH h) as (k & Hk & Hl & E); [|lia|exact Hh|].
      { intros H1. clear -H1. revert H1.
          induction l as [|q l IH]; cbn [cntl length]; intros H; [lia|].
          destruct q as [b|]; cbn [ind] in H.
          - destruct (b =? a) eqn:E.
            + exists 0. apply Nat.eqb_eq in E; subst. cbn. split; [lia|reflexivity].
            + destruct (IH ltac:(lia)) as (k & Hk & E'). exists (S k). cbn. split; [lia|exact E'].
          - destruct (IH ltac:(lia)) as (k & Hk & E'). exists (S k). cbn. split; [lia|exact E']. }
      exists (S k). cbn. repeat split; [lia|lia|exact E].
Qed.

Lemma shared_iff w h : wf w ->
  (cow_is_shared w h = true <->
   exists k, k <> h /\ ptr w k <> None /\ ptr w k = ptr w h).
Proof.
  intros [W P]. unfold cow_is_shared, use_count. rewrite Nat.ltb_lt.
  destruct (ptr w h) as [a|] eqn:E.
  - specialize (W a). unfold ref, cnt in W. cbn [ind] in W. fold (cell w a) in *.
    destruct (cell w a) as [[v n]|] eqn:C.
    + split.
      * intros Hn. destruct (cntl_two_inv (ptrs w) a h) as (k & Hk & _ & Ek); [lia|exact E|].
        exists k. unfold ptr in *. rewrite Ek. repeat split; congruence.
      * intros (k & Hk & _ & Ek). assert (cntl (ptrs w) a >= 2) by (eapply cntl_two; eauto). lia.
    + split; [lia|]. intros (k & Hk & _ & Ek).
      assert (cntl (ptrs w) a >= 2) by (eapply cntl_two; eauto). lia.
  - split; [lia|]. intros (k & _ & H1 & H2). congruence.
Qed.

Lemma has_value_iff w h : wf w -> cow_has_value w h = match cow_value w h with Some _ => true | None => false end.
Proof.
  intros W. unfold cow_has_value, cow_value. destruct (ptr w h) as [a|] eqn:E; [|reflexivity].
  destruct (wf_ptr_cell _ _ _ _ W E) as (v & n & -> & _). reflexivity.
Qed.

Lemma mutable_ok w h : wf w -> h < nh w ->
  match cow_mutable w h with
  | None => cow_value w h = None
  | Some w1 => wf w1 /\ nh w1 = nh w /\ (forall k, cow_value w1 k = cow_value w k) /\
      cow_value w h <> None /\ cow_is_shared w1 h = false
  end.
Proof.
  intros W Hh. unfold cow_mutable. destruct (cow_value w h) as [v|] eqn:E; [|reflexivity].
  destruct (cow_is_shared w h) eqn:S.
  - destruct (emplace_ok w h v W Hh) as (A & B & C). repeat split; try apply A; auto.
    + intros k. rewrite C. destruct (k =? h) eqn:Ek; [|reflexivity].
      apply Nat.eqb_eq in Ek; subst k. congruence.
    + congruence.
    + unfold cow_emplace. cbn [alloc].
      set (w1 := {| ptrs := ptrs w; cells := cells w ++ [Some (v, 1)] |}).
      destruct (alloc_ok w v W) as (A1 & B1 & C1 & D1). cbn [alloc fst snd] in *. fold w1 in A1, B1, C1, D1.
      (* the fresh cell has use count 1 *)
      change (ptr w1 h) with (ptr w h).
      set (a := length (cells w)) in *.
      set (w2 := set_ptr w1 h (Some a)).
      assert (Hp2 : ptr w2 h = Some a).
      { unfold w2. rewrite ptr_set_ptr by exact Hh. rewrite Nat.eqb_refl. reflexivity. }
      assert (Hc2 : cell w2 a = Some (v, 1)).
      { unfold cell, w2, w1, a; cbn [set_ptr cells]. rewrite app_nth2, Nat.sub_diag by lia. reflexivity. }
      unfold cow_value in E. destruct (ptr w h) as [b|] eqn:Eb; [|discriminate].
      assert (Hne : a <> b).
      { intros Hab. unfold cell in E. rewrite <- Hab in E. unfold a in E.
        rewrite nth_overflow in E by lia. discriminate. }
      assert (Hcb : cell w2 b = cell w b).
      { unfold cell, w2, w1; cbn [set_ptr cells]. rewrite app_nth1; [reflexivity|].
        destruct (lt_dec b (length (cells w))); [assumption|].
        unfold cell in E. rewrite nth_overflow in E by lia. discriminate. }
      unfold cow_is_shared, use_count, decref. rewrite Hcb.
      destruct (cell w b) as [[vb nb]|] eqn:Cb.
      * change (ptr (set_cell w2 b _) h) with (ptr w2 h). rewrite Hp2.
        rewrite cell_set_cell by congruence.
        destruct (a =? b) eqn:Eab; [apply Nat.eqb_eq in Eab; congruence|]. rewrite Hc2. reflexivity.
      * rewrite Hp2, Hc2. reflexivity.
  - repeat split; try apply W; auto; congruence.
Qed.

Lemma store_ok w h v : wf w -> cow_is_shared w h = false -> cow_value w h <> None ->
  wf (cow_store w h v) /\ nh (cow_store w h v) = nh w /\
  (forall k, cow_value (cow_store w h v) k = if k =? h then Some v else cow_value w k).
Proof.
  intros W S V. unfold cow_store. unfold cow_value in V.
  destruct (ptr w h) as [a|] eqn:E; [|congruence].
  destruct (cell w a) as [[v0 n]|] eqn:C; [|congruence].
  assert (NN : cell w a <> None) by congruence.
  split; [split|split].
  - intros b. destruct W as [W P]. specialize (W b). unfold ref, cnt in *.
    rewrite cell_set_cell by assumption. cbn [set_cell ptrs].
    destruct (b =? a) eqn:Eb; [|exact W]. apply Nat.eqb_eq in Eb; subst b. rewrite C in W. exact W.
  - intros b v' n'. rewrite cell_set_cell by assumption. destruct (b =? a) eqn:Eb; [|apply W].
    intros [= <- <-]. apply (proj2 W a v0 n C).
  - reflexivity.
  - intros k. unfold cow_value. change (ptr (set_cell w a _) k) with (ptr w k).
    destruct (k =? h) eqn:Ek.
    + apply Nat.eqb_eq in Ek; subst k. rewrite E. rewrite cell_set_cell by assumption.
      rewrite Nat.eqb_refl. reflexivity.
    + apply Nat.eqb_neq in Ek. destruct (ptr w k) as [b|] eqn:Eb; [|reflexivity].
      rewrite cell_set_cell by assumption. destruct (b =? a) eqn:Eba; [|reflexivity].
      apply Nat.eqb_eq in Eba; subst b. exfalso.
      assert (cow_is_shared w h = true); [|congruence].
      apply shared_iff; [exact W|]. exists k. rewrite Eb, E. repeat split; congruence.
Qed.

Lemma mutate_ok w h f : wf w -> h < nh w ->
  match cow_mutate w h f with
  | None => cow_value w h = None
  | Some w' => exists v, cow_value w h = Some v /\ wf w' /\ nh w' = nh w /\
      (forall k, cow_value w' k = if k =? h then Some (f v) else cow_value w k)
  end.
Proof.
  intros W Hh. unfold cow_mutate. pose proof (mutable_ok w h W Hh) as M.
  destruct (cow_mutable w h) as [w1|]; [|exact M]. destruct M as (W1 & N1 & V1 & NN & S1).
  destruct (cow_value w1 h) as [v|] eqn:E; [|rewrite V1 in E; congruence].
  assert (E1 : cow_value w1 h <> None) by congruence.
  destruct (store_ok w1 h (f v) W1 S1 E1) as (A & B & C).
  exists v. rewrite <- (V1 h). split; [exact E|]. split; [exact A|]. split; [congruence|].
  intros k. rewrite C. rewrite V1. reflexivity.
Qed.

Lemma init_wf n : wf (@cow_init T n).
Proof.
  split.
  - intros a. unfold ref, cnt, cell; cbn. destruct a; cbn; induction n; cbn; auto; lia.
  - intros a v k. unfold cell; cbn. destruct a; discriminate.
Qed.

Lemma init_value n h : cow_value (@cow_init T n) h = None.
Proof.
  unfold cow_value, ptr; cbn.
  assert (E : nth h (repeat (@None nat) n) None = None).
  { revert h; induction n; intros [|h]; cbn; auto. }
  rewrite E. reflexivity.
Qed.

Lemma put_eq (p : priv (T:=T)) h v k : put p h v k = if k =? h then v else p k.
Proof. reflexivity. Qed.

Lemma step_sim n w p o : wf w -> nh w = n -> op_in_range n o ->
  (forall k, cow_value w k = p k) ->
  match cow_step w o with
  | Some w' => exists p', priv_step n p o p' /\ wf w' /\ nh w' = n /\ (forall k, cow_value w' k = p' k)
  | None => ~ exists p', priv_step n p o p'
  end.
Proof.
  intros W N R V. destruct o as [d s|d s|h v|h|h f]; cbn [cow_step op_in_range] in *.
  - destruct R as [Rd Rs]. destruct (copy_ok w d s W) as (A & B & C); [lia|lia|].
    eexists; split; [apply P_copy; assumption|]. repeat split; try apply A; [lia|].
    intros k. rewrite C, put_eq, !V. reflexivity.
  - destruct R as [Rd Rs]. destruct (move_ok w d s W) as (A & B & C); [lia|lia|].
    destruct (Nat.eq_dec d s) as [->|Ne].
    + eexists; split; [apply P_move_self; assumption|]. repeat split; try apply A; [lia|].
      intros k. rewrite C, !V. destruct (k =? s) eqn:E; [|reflexivity].
      apply Nat.eqb_eq in E; congruence.
    + eexists; split; [apply P_move; assumption|]. repeat split; try apply A; [lia|].
      intros k. rewrite C, !put_eq, !V. destruct (k =? d) eqn:E; destruct (k =? s) eqn:E'; auto.
      apply Nat.eqb_eq in E, E'. congruence.
  - destruct (emplace_ok w h v W) as (A & B & C); [lia|].
    eexists; split; [apply P_emplace; assumption|]. repeat split; try apply A; [lia|].
    intros k. rewrite C, put_eq, !V. reflexivity.
  - destruct (reset_ok w h W) as (A & B & C); [lia|].
    eexists; split; [apply P_reset; assumption|]. repeat split; try apply A; [lia|].
    intros k. rewrite C, put_eq, !V. reflexivity.
  - pose proof (mutate_ok w h f W ltac:(lia)) as M. destruct (cow_mutate w h f) as [w'|].
    + destruct M as (v & Ev & A & B & C).
      exists (put p h (Some (f v))). split; [apply P_mutate; [assumption|rewrite <- V; exact Ev]|].
      repeat split; try apply A; [lia|]. intros k. rewrite C, put_eq, !V. reflexivity.
    + intros (p' & H). inversion H; subst. rewrite <- V in *. congruence.
Qed.

Lemma priv_step_det n p o p1 p2 : priv_step (T:=T) n p o p1 -> priv_step n p o p2 -> p1 = p2.
Proof.
  intros H1 H2. inversion H1; subst; inversion H2; subst; try reflexivity; try congruence.
Qed.

Lemma run_sim n os : forall w p, wf w -> nh w = n -> Forall (op_in_range n) os ->
  (forall k, cow_value w k = p k) ->
  match cow_run w os with
  | Some w' => exists p', priv_run n p os p' /\ wf w' /\ nh w' = n /\ (forall k, cow_value w' k = p' k)
  | None => ~ exists p', priv_run n p os p'
  end.
Proof.
  induction os as [|o os IH]; intros w p W N R V; cbn [cow_run].
  - exists p. split; [constructor|]. auto.
  - inversion R; subst. pose proof (step_sim (nh w) w p o W eq_refl H1 V) as S.
    destruct (cow_step w o) as [w'|].
    + destruct S as (p' & S & W' & N' & V').
      specialize (IH w' p' W' N' H2 V'). destruct (cow_run w' os) as [w''|].
      * destruct IH as (p'' & S' & R'). exists p''. split; [econstructor; eauto|exact R'].
      * intros (q & Hq). inversion Hq; subst. apply IH. exists q.
        rewrite (priv_step_det _ _ _ _ _ S H4). assumption.
    + intros (q & Hq). inversion Hq; subst. apply S. eauto.
Qed.

(** Main statement: starting from [n] empty handles. *)
Lemma cow_refines_private n (os : list (cow_op T)) : Forall (op_in_range n) os ->
  match cow_run (cow_init n) os with
  | Some w => exists p, priv_run n (fun _ => None) os p /\
      (forall h, cow_value w h = p h) /\
      (forall h, cow_has_value w h = match p h with Some _ => true | None => false end)
  | None => ~ exists p, priv_run n (fun _ => None) os p
  end.
Proof.
  intros R. pose proof (run_sim n os (cow_init n) (fun _ => None) (init_wf n)) as H.
  specialize (H ltac:(unfold nh; cbn; apply repeat_length) R (init_value n)).
  destruct (cow_run (cow_init n) os) as [w|]; [|exact H].
  destruct H as (p & A & B & C & D). exists p. split; [exact A|]. split; [exact D|].
  intros h. rewrite has_value_iff by exact B. rewrite D. reflexivity.
Qed.

(** IsShared is exact, and no cell leaks or dangles. *)
Lemma cow_shared_exact n (os : list (cow_op T)) w : Forall (op_in_range n) os ->
  cow_run (cow_init n) os = Some w ->
  (forall h, cow_is_shared w h = true <->
     exists k, k <> h /\ ptr w k <> None /\ ptr w k = ptr w h) /\
  (forall a, cell w a <> None <-> exists h, h < n /\ ptr w h = Some a).
Proof.
  intros R E. pose proof (run_sim n os (cow_init n) (fun _ => None) (init_wf n)) as H.
  specialize (H ltac:(unfold nh; cbn; apply repeat_length) R (init_value n)). rewrite E in H.
  destruct H as (p & A & B & C & D). split.
  - intros h. apply shared_iff, B.
  - intros a. split.
    + intros Hc. destruct B as [B P]. specialize (B a). unfold ref, cnt in B. cbn [ind] in B.
      destruct (cell w a) as [[v k]|] eqn:Ec; [|congruence]. apply P in Ec.
      assert (H1 : cntl (ptrs w) a >= 1) by lia.
      unfold nh in C. rewrite <- C. unfold ptr. clear -H1. revert H1.
      generalize (ptrs w) as l. induction l as [|q l IH]; cbn [cntl length]; intros H; [lia|].
      destruct q as [b|]; cbn [ind] in H.
      * destruct (b =? a) eqn:E.
        -- exists 0. apply Nat.eqb_eq in E; subst. cbn. split; [lia|reflexivity].
        -- destruct (IH ltac:(lia)) as (k & Hk & E'). exists (S k). cbn. split; [lia|exact E'].
      * destruct (IH ltac:(lia)) as (k & Hk & E'). exists (S k). cbn. split; [lia|exact E'].
    + intros (h & _ & Hh). destruct (wf_ptr_cell _ _ _ _ B Hh) as (v & k & -> & _). discriminate.
Qed.
End P.
