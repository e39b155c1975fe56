(** Lemmas for piecewise linear easing: dropping points in [compact] does not change the curve,
    for any arithmetic whose comparisons order some class of numbers. *)
From Coq Require Import ZArith Bool Reals Lra Lia List.
From Verif Require Import NumModel EasingModel.
Import ListNotations.
Open Scope R_scope.

Record ordered (N : num) := {
  ok : T N -> Prop;
  val : T N -> R;
  lt_val : forall a b, ok a -> ok b -> nlt N a b = true <-> val a < val b;
  eq_val : forall a b, ok a -> ok b -> neqb N a b = true <-> val a = val b;
  ok0 : ok n0; val0 : val n0 = 0; ok1 : ok n1; val1 : val n1 = 1;
  ok_nan : forall a, ok a -> nnan N a = false;
}.

Section Lin.
Variable N : num.
Variable O : ordered N.
Local Notation F := (T N).
Local Notation pt := (F * F)%type.
Local Notation v := (val N O).
Local Notation okp p := (ok N O (fst p)) (only parsing).

Definition good (p : pt) : Prop := ok N O (fst p) /\ ok N O (snd p) /\ 0 <= v (fst p) <= 1.
Inductive sorted : list pt -> Prop :=
| sorted_nil : sorted []
| sorted_snoc l p : sorted l -> (forall q, In q l -> v (fst q) <= v (fst p)) -> sorted (l ++ [p]).

Definition before x (l : list pt) := fst (upper_bound x l).
Definition after x (l : list pt) := snd (upper_bound x l).
Definition Lx x l := last (before x l) (n0, n0).
Definition Fx x l := hd (n1, n1) (after x l).

Lemma upper_snoc x l (p : pt) : upper_bound x (l ++ [p]) =
  match after x l with
  | [] => if nlt N x (fst p) then (before x l, [p]) else (before x l ++ [p], [])
  | _ => (before x l, after x l ++ [p])
  end.
Proof.
  unfold before, after. induction l as [|q l IH]; cbn [app upper_bound].
  - cbn. destruct (nlt N x (fst p)); reflexivity.
  - destruct (nlt N x (fst q)) eqn:C; [reflexivity|]. rewrite IH.
    destruct (upper_bound x l) as [a b]. cbn [fst snd].
    destruct b as [|b0 b]; [destruct (nlt N x (fst p)); reflexivity|reflexivity].
Qed.
Lemma after_in x l q : In q (after x l) -> In q l.
Proof.
  unfold after. induction l as [|p l IH]; cbn [upper_bound]; [trivial|].
  destruct (nlt N x (fst p)); [trivial|]. destruct (upper_bound x l) as [a b]. cbn in *. auto.
Qed.
Lemma after_hd x l q r : after x l = q :: r -> nlt N x (fst q) = true.
Proof.
  unfold after. induction l as [|p l IH]; cbn [upper_bound]; [discriminate|].
  destruct (nlt N x (fst p)) eqn:C.
  - cbn. intros H. injection H as <- <-. exact C.
  - destruct (upper_bound x l) as [a b]. cbn in *. auto.
Qed.
Lemma after_nil x (l : list pt) : after x l = [] <-> forall q : pt, In q l -> nlt N x (fst q) = false.
Proof.
  unfold after. induction l as [|p l IH]; cbn [upper_bound]; [cbn; tauto|].
  destruct (nlt N x (fst p)) eqn:C.
  - cbn. split; [discriminate|]. intros H. rewrite (H p) in C by auto. discriminate.
  - destruct (upper_bound x l) as [a b]. cbn in *. rewrite IH. split; intros H q.
    + intros [->|I]; auto. + intros I. auto.
Qed.
Lemma before_all x l : after x l = [] -> before x l = l.
Proof.
  unfold before, after. induction l as [|p l IH]; cbn [upper_bound]; [reflexivity|].
  destruct (nlt N x (fst p)); [discriminate|]. destruct (upper_bound x l) as [a b]. cbn in *. intros H. f_equal. auto.
Qed.

Lemma last_snoc {A} (l : list A) p d : last (l ++ [p]) d = p.
Proof. apply last_last. Qed.

(** snoc on a sorted list *)
Lemma after_lt x l (p : pt) : ok N O x -> Forall good l -> ok N O (fst p) -> (forall q, In q l -> v (fst q) <= v (fst p)) ->
  after x l <> [] -> nlt N x (fst p) = true.
Proof.
  intros Ox G Op B H. destruct (after x l) as [|q r] eqn:A; [congruence|].
  assert (I : In q l) by (apply (after_in x); rewrite A; left; reflexivity).
  apply after_hd in A. rewrite Forall_forall in G. destruct (G q I) as (Oq & _).
  apply (lt_val N O) in A; try assumption. apply (lt_val N O); try assumption. specialize (B q I). lra.
Qed.
Lemma Lx_snoc x l (p : pt) : ok N O x -> Forall good l -> ok N O (fst p) -> (forall q, In q l -> v (fst q) <= v (fst p)) ->
  Lx x (l ++ [p]) = if nlt N x (fst p) then Lx x l else p.
Proof.
  intros Ox G Op B. unfold Lx, before. rewrite upper_snoc.
  destruct (after x l) eqn:A.
  - destruct (nlt N x (fst p)); cbn [fst]; [reflexivity|apply last_snoc].
  - rewrite (after_lt x l p Ox G Op B) by (rewrite A; discriminate). reflexivity.
Qed.
Lemma Fx_snoc x l (p : pt) : Fx x (l ++ [p]) = match after x l with [] => if nlt N x (fst p) then p else (n1, n1) | _ => Fx x l end.
Proof.
  unfold Fx at 1, after at 1. rewrite upper_snoc. unfold Fx. destruct (after x l) as [|q r]; [destruct (nlt N x (fst p)); reflexivity|reflexivity].
Qed.

(** *** The invariant of the compaction loop *)
Definition same (x : F) (acc done : list pt) : Prop :=
  (Fx x acc = Fx x done \/ (v x < 0 /\ v (fst (Fx x acc)) = 0 /\ v (fst (Fx x done)) = 0 /\ good (Fx x acc) /\ good (Fx x done))) /\
  (Lx x acc = Lx x done \/ (1 <= v x /\ v (fst (Lx x acc)) = 1 /\ v (fst (Lx x done)) = 1 /\ good (Lx x acc) /\ good (Lx x done))).
Record inv (acc done : list pt) : Prop := {
  i_good : Forall good acc; i_goodd : Forall good done;
  i_sort : sorted acc; i_sortd : sorted done;
  i_same : forall x, ok N O x -> same x acc done;
  i_empty : acc = [] <-> done = [];
  i_last : done <> [] -> v (fst (last acc (n0, n0))) = v (fst (last done (n0, n0)));
  i_zero : done <> [] -> v (fst (last done (n0, n0))) = 0 -> length acc = 1%nat;
}.

Lemma sorted_last_le l (q : pt) : sorted l -> In q l -> v (fst q) <= v (fst (last l (n0, n0))).
Proof. intros S I. destruct S as [|l p S B]; [destruct I|]. rewrite last_snoc. apply in_app_or in I. destruct I as [I|[->|[]]]; [auto|lra]. Qed.
Lemma last_in (l : list pt) d : l <> [] -> In (last l d) l.
Proof.
  intros H. destruct (exists_last H) as (l' & a & ->). rewrite last_snoc. apply in_or_app. right. left. reflexivity.
Qed.
Lemma after_nil_last x l : ok N O x -> Forall good l -> sorted l -> l <> [] -> (after x l = [] <-> v (fst (last l (n0, n0))) <= v x).
Proof.
  intros Ox G S Ne. rewrite after_nil. rewrite Forall_forall in G. split.
  - intros H. pose proof (last_in l (n0, n0) Ne) as I. specialize (H _ I). destruct (G _ I) as (Ol & _).
    destruct (Rle_or_lt (v (fst (last l (n0, n0)))) (v x)) as [L|L]; [exact L|]. apply (lt_val N O) in L; try assumption. congruence.
  - intros H q I. destruct (nlt N x (fst q)) eqn:C; [|reflexivity]. apply (lt_val N O) in C; [|assumption|apply (G q I)].
    pose proof (sorted_last_le l q S I). lra.
Qed.
Lemma after_nil_same x acc done : ok N O x -> inv acc done -> (after x acc = [] <-> after x done = []).
Proof.
  intros Ox I. destruct acc as [|a acc'] eqn:EA.
  - assert (D : done = []) by (apply (i_empty _ _ I); reflexivity). rewrite D. tauto.
  - assert (D : done <> []) by (intros D; apply (i_empty _ _ I) in D; discriminate D).
    rewrite <- EA in *. rewrite !after_nil_last; try assumption; try apply I; [|rewrite EA; discriminate].
    rewrite (i_last _ _ I D). tauto.
Qed.

(** the step that keeps the point *)
Lemma inv_push acc done p : inv acc done -> good p -> (forall q, In q done -> v (fst q) <= v (fst p)) ->
  (forall q, In q acc -> v (fst q) <= v (fst p)) ->
  (done <> [] -> v (fst p) <> 0) -> inv (acc ++ [p]) (done ++ [p]).
Proof.
  intros I Gp Bd Ba Nz. destruct (Gp) as (Op & _). constructor.
  - apply Forall_app. split; [apply I|auto].
  - apply Forall_app. split; [apply I|auto].
  - constructor; [apply I|assumption].
  - constructor; [apply I|assumption].
  - intros x Ox. destruct (i_same _ _ I x Ox) as [SF SL]. split.
    + rewrite !Fx_snoc. pose proof (after_nil_same x acc done Ox I) as AE.
      destruct (after x acc) eqn:A, (after x done) eqn:B; try (left; reflexivity); try exact SF.
      * exfalso. assert (l = []) by (destruct AE as [A1 _]; specialize (A1 eq_refl); discriminate A1). destruct AE as [A1 _]; specialize (A1 eq_refl); discriminate A1.
      * exfalso. destruct AE as [_ A1]; specialize (A1 eq_refl); discriminate A1.
    + rewrite !Lx_snoc by (try assumption; apply I). destruct (nlt N x (fst p)); [exact SL|left; reflexivity].
  - split; intros H; apply app_eq_nil in H; destruct H; discriminate.
  - intros _. rewrite !last_snoc. reflexivity.
  - intros _. rewrite last_snoc. intros Z. destruct done as [|d done'].
    + assert (acc = []) by (apply (i_empty _ _ I); reflexivity). subst acc. reflexivity.
    + exfalso. apply Nz; [discriminate|exact Z].
Qed.

Lemma sorted_app_l a b : sorted (a ++ b) -> sorted a.
Proof.
  revert a. induction b as [|b0 b IH] using rev_ind; intros a H; [rewrite app_nil_r in H; exact H|].
  apply IH. rewrite app_assoc in H. inversion H as [E|l p S B E].
  - destruct (a ++ b); discriminate.
  - apply app_inj_tail in E. destruct E as [-> _]. exact S.
Qed.

Lemma sorted_inv l p : sorted (l ++ [p]) -> sorted l /\ forall q, In q l -> v (fst q) <= v (fst p).
Proof.
  intros H. inversion H as [E|l' p' S B E].
  - symmetry in E. apply app_eq_nil in E. destruct E; discriminate.
  - apply app_inj_tail in E. destruct E as [-> ->]. auto.
Qed.

(** replacing the last of two equal positions *)
Lemma inv_replace acc b done p : inv (acc ++ [b]) done -> good p -> (forall q, In q done -> v (fst q) <= v (fst p)) ->
  acc <> [] -> v (fst b) = v (fst p) -> v (fst (last acc (n0, n0))) = v (fst p) ->
  inv (acc ++ [p]) (done ++ [p]).
Proof.
  intros I Gp Bd Ne Eb El. destruct (Gp) as (Op & _).
  assert (Ga : Forall good acc) by (pose proof (i_good _ _ I) as G; apply Forall_app in G; apply G).
  assert (Gb : good b). { pose proof (i_good _ _ I) as G; apply Forall_app in G. destruct G as [_ G]. inversion G; assumption. }
  assert (Ob := proj1 Gb).
  assert (Sa : sorted acc) by (apply (sorted_app_l acc [b]), I).
  assert (Ba : forall q, In q acc -> v (fst q) <= v (fst p)).
  { intros q Iq. rewrite <- El. apply sorted_last_le; assumption. }
  assert (Bb : forall q, In q acc -> v (fst q) <= v (fst b)) by (intros q Iq; rewrite Eb; auto).
  assert (Nd : done <> []). { intros D. apply (i_empty _ _ I) in D. destruct acc; discriminate D. }
  constructor.
  - apply Forall_app. split; [exact Ga|auto].
  - apply Forall_app. split; [apply I|auto].
  - constructor; assumption.
  - constructor; [apply I|assumption].
  - intros x Ox. destruct (i_same _ _ I x Ox) as [SF SL].
    assert (C : nlt N x (fst b) = nlt N x (fst p)).
    { destruct (nlt N x (fst b)) eqn:C1, (nlt N x (fst p)) eqn:C2; try reflexivity.
      - apply (lt_val N O) in C1; try assumption. rewrite Eb in C1. apply (lt_val N O) in C1; try assumption. congruence.
      - apply (lt_val N O) in C2; try assumption. rewrite <- Eb in C2. apply (lt_val N O) in C2; try assumption. congruence. }
    pose proof (after_nil_same x (acc ++ [b]) done Ox I) as AE.
    assert (AB : after x acc = [] -> nlt N x (fst p) = false).
    { intros A. apply after_nil_last in A; try assumption. rewrite El in A. destruct (nlt N x (fst p)) eqn:Q; [|reflexivity]. apply (lt_val N O) in Q; try assumption. lra. }
    split.
    + rewrite Fx_snoc in SF. rewrite !Fx_snoc.
      destruct (after x acc) eqn:A.
      * rewrite (AB eq_refl). rewrite C, (AB eq_refl) in SF.
        assert (D : after x done = []). { apply AE. unfold after. rewrite upper_snoc, A, C, (AB eq_refl). reflexivity. }
        rewrite D. left. reflexivity.
      * destruct (after x done) eqn:D; [|exact SF].
        exfalso. destruct AE as [_ AE]. specialize (AE eq_refl). unfold after in AE. rewrite upper_snoc, A in AE. destruct l; discriminate AE.
    + rewrite Lx_snoc in SL by assumption. rewrite C in SL. rewrite !Lx_snoc by (try assumption; apply I).
      destruct (nlt N x (fst p)); [exact SL|left; reflexivity].
  - split; intros H; apply app_eq_nil in H; destruct H; discriminate.
  - intros _. rewrite !last_snoc. reflexivity.
  - intros _. rewrite last_snoc. intros Z. exfalso.
    assert (L : length (acc ++ [b]) = 1%nat).
    { apply (i_zero _ _ I Nd). rewrite <- (i_last _ _ I Nd), last_snoc. lra. }
    rewrite app_length in L. cbn in L. destruct acc; [congruence|cbn in L; lia].
Qed.

(** a further point at 0 *)
Lemma single_view x a : Lx x [a] = (if nlt N x (fst a) then (n0, n0) else a) /\ Fx x [a] = (if nlt N x (fst a) then a else (n1, n1)).
Proof. unfold Lx, Fx, before, after. cbn. destruct (nlt N x (fst a)); split; reflexivity. Qed.

Lemma inv_zero a done p : inv [a] done -> good p -> v (fst p) = 0 -> (forall q, In q done -> v (fst q) <= v (fst p)) ->
  inv [p] (done ++ [p]).
Proof.
  intros I Gp Zp Bd. destruct (Gp) as (Op & Osp & _).
  assert (Nd : done <> []). { intros D. apply (i_empty _ _ I) in D. discriminate D. }
  assert (Gd := i_goodd _ _ I).
  constructor.
  - auto.
  - apply Forall_app. split; [apply I|auto].
  - apply (sorted_snoc [] p); [constructor|intros q []].
  - constructor; [apply I|assumption].
  - intros x Ox. destruct (single_view x p) as [SL SF]. unfold same. rewrite SL, SF.
    rewrite Lx_snoc by assumption. rewrite Fx_snoc.
    destruct (nlt N x (fst p)) eqn:C.
    + assert (X : v x < 0) by (apply (lt_val N O) in C; [lra|assumption|assumption]).
      assert (AD : forall q, In q done -> nlt N x (fst q) = true).
      { intros q Iq. rewrite Forall_forall in Gd. destruct (Gd q Iq) as (Oq & _ & R0 & _). apply (lt_val N O); try assumption. lra. }
      destruct done as [|d done']; [congruence|].
      assert (U : upper_bound x (d :: done') = ([], d :: done')) by (cbn [upper_bound]; rewrite (AD d) by (left; reflexivity); reflexivity).
      unfold after, Fx, Lx, before, after. rewrite U. cbn [fst snd hd last].
      assert (Gd0 : good d) by (inversion Gd; assumption).
      split; [right|left; reflexivity]. repeat split; try assumption; try apply Gd0; try lra; try (apply Gp).
      specialize (Bd d (or_introl eq_refl)). destruct Gd0 as (_ & _ & R0). lra.
    + split; [|left; reflexivity]. left.
      destruct (after x done) eqn:A; [reflexivity|].
      exfalso. assert (K : nlt N x (fst p) = true) by (apply (after_lt x done p); try assumption; rewrite A; discriminate). congruence.
  - split; intros H; [discriminate|apply app_eq_nil in H; destruct H; discriminate].
  - intros _. rewrite last_snoc. reflexivity.
  - reflexivity.
Qed.

(** stopping at a further point at 1 *)
Lemma inv_stop acc done rest : inv acc done -> done <> [] -> v (fst (last acc (n0, n0))) = 1 ->
  Forall good rest -> (forall q, In q rest -> v (fst q) = 1) -> forall x, ok N O x -> same x acc (done ++ rest).
Proof.
  intros I Nd L1 Gr V1 x Ox. destruct (i_same _ _ I x Ox) as [SF SL].
  assert (Na : acc <> []). { intros Q. apply (i_empty _ _ I) in Q. congruence. }
  assert (Ld : v (fst (last done (n0, n0))) = 1) by (rewrite <- (i_last _ _ I Nd); exact L1).
  assert (K : Forall good (done ++ rest) /\ sorted (done ++ rest) /\
     (Fx x (done ++ rest) = Fx x done /\ (v x < 1 -> Lx x (done ++ rest) = Lx x done)) /\ v (fst (last (done ++ rest) (n0, n0))) = 1).
  { induction rest as [|r rest IH] using rev_ind.
    - rewrite app_nil_r. repeat split; try apply I. exact Ld.
    - apply Forall_app in Gr. destruct Gr as [Gr Gr0]. inversion Gr0 as [|? ? Gr1 _]; subst.
      destruct IH as (IH1 & IH2 & (IH3 & IH4) & IH5); [assumption|intros q Iq; apply V1, in_or_app; auto|].
      assert (Vr : v (fst r) = 1) by (apply V1, in_or_app; right; left; reflexivity).
      assert (Ne : done ++ rest <> []) by (intros Q; apply app_eq_nil in Q; destruct Q; congruence).
      assert (B : forall q, In q (done ++ rest) -> v (fst q) <= v (fst r)).
      { intros q Iq. rewrite Vr, <- IH5. apply sorted_last_le; assumption. }
      rewrite app_assoc. repeat split.
      + apply Forall_app. auto.
      + constructor; assumption.
      + rewrite Fx_snoc. destruct (after x (done ++ rest)) eqn:A; [|exact IH3].
        rewrite <- IH3. unfold Fx. rewrite A. cbn [hd].
        apply after_nil_last in A; try assumption. rewrite IH5 in A.
        destruct (nlt N x (fst r)) eqn:C; [|reflexivity]. apply (lt_val N O) in C; [lra|assumption|apply Gr1].
      + intros X. rewrite Lx_snoc by (try assumption; apply Gr1).
        assert (C : nlt N x (fst r) = true) by (apply (lt_val N O); [assumption|apply Gr1|lra]). rewrite C. auto.
      + rewrite last_snoc. exact Vr. }
  destruct K as (K1 & K2 & (K3 & K4) & K5). split.
  - rewrite K3. exact SF.
  - destruct (Rlt_or_le (v x) 1) as [X|X]; [rewrite K4 by exact X; exact SL|].
    assert (LV : forall l, Forall good l -> sorted l -> l <> [] -> v (fst (last l (n0, n0))) = 1 -> v (fst (Lx x l)) = 1 /\ good (Lx x l)).
    { intros l G S Ne E1. assert (A : after x l = []) by (apply after_nil_last; try assumption; lra).
      unfold Lx. rewrite (before_all _ _ A). split; [exact E1|]. rewrite Forall_forall in G. apply G, last_in, Ne. }
    right. destruct (LV acc) as [A1 A2]; [apply I|apply I|exact Na|exact L1|].
    destruct (LV (done ++ rest)) as [B1 B2]; [exact K1|exact K2|intros Q; apply app_eq_nil in Q; destruct Q; congruence|exact K5|].
    auto.
Qed.

Lemma compact_same pts : forall i acc done, inv acc done -> i = length done -> Forall good pts -> sorted (done ++ pts) ->
  forall x, ok N O x -> same x (compact_from i acc pts) (done ++ pts).
Proof.
  induction pts as [|p pts IH]; intros i acc done I Hi G S x Ox.
  - cbn. rewrite app_nil_r. apply I, Ox.
  - inversion G as [|? ? Gp Gr]; subst p0 l || idtac. subst.
    assert (Op := proj1 Gp).
    replace (done ++ p :: pts) with ((done ++ [p]) ++ pts) in S |- * by (rewrite <- app_assoc; reflexivity).
    assert (Sd : sorted (done ++ [p])) by (apply (sorted_app_l _ pts), S).
    assert (Bd : forall q, In q done -> v (fst q) <= v (fst p)).
    { inversion Sd as [E|l p' S' B E]; [destruct done; discriminate|]. apply app_inj_tail in E. destruct E as [-> ->]. exact B. }
    assert (Hl : Datatypes.S (length done) = length (done ++ [p])) by (rewrite app_length; cbn; lia).
    assert (Ba : forall q, In q acc -> v (fst q) <= v (fst p)).
    { intros q Iq. assert (Nd : done <> []) by (intros Q; apply (i_empty _ _ I) in Q; subst acc; destruct Iq).
      apply Rle_trans with (v (fst (last done (n0, n0)))); [|apply Bd, last_in, Nd].
      rewrite <- (i_last _ _ I Nd). apply sorted_last_le; [apply I|exact Iq]. }
    cbn [compact_from].
    destruct (Nat.ltb 0 (length done) && neqb N (fst p) n0) eqn:C1.
    { apply andb_prop in C1. destruct C1 as [C0 C1]. apply Nat.ltb_lt in C0.
      assert (Nd : done <> []) by (intros ->; cbn in C0; lia).
      apply (eq_val N O) in C1; [|assumption|apply (ok0 N O)]. rewrite (val0 N O) in C1.
      assert (Z : v (fst (last done (n0, n0))) = 0).
      { pose proof (last_in done (n0, n0) Nd) as Il. pose proof (Bd _ Il) as B1. pose proof (i_goodd _ _ I) as Gd. rewrite Forall_forall in Gd.
        destruct (Gd _ Il) as (_ & _ & R0). lra. }
      pose proof (i_zero _ _ I Nd Z) as L1. destruct acc as [|a [|a2 acc]]; try discriminate L1.
      apply IH; try assumption. apply (inv_zero a); assumption. }
    destruct (neqb N (fst p) n1 && Nat.leb 1 (length acc) && neqb N (fst (last acc (n0, n0))) n1) eqn:C2.
    { apply andb_prop in C2. destruct C2 as [C2 C4]. apply andb_prop in C2. destruct C2 as [C2 C3]. apply Nat.leb_le in C3.
      assert (Na : acc <> []) by (intros ->; cbn in C3; lia).
      assert (Nd : done <> []) by (intros Q; apply (i_empty _ _ I) in Q; congruence).
      pose proof (i_good _ _ I) as Ga. rewrite Forall_forall in Ga.
      apply (eq_val N O) in C2; [|assumption|apply (ok1 N O)]. rewrite (val1 N O) in C2.
      apply (eq_val N O) in C4; [|apply (Ga _ (last_in acc _ Na))|apply (ok1 N O)]. rewrite (val1 N O) in C4.
      rewrite <- app_assoc. apply inv_stop; try assumption.
      intros q Iq. cbn in Iq. destruct Iq as [<-|Iq]; [exact C2|].
      rewrite Forall_forall in Gr. destruct (Gr q Iq) as (_ & _ & R1).
      assert (v (fst p) <= v (fst q)); [|lra].
      clear - S Iq. revert Iq. induction pts as [|r pts IH] using rev_ind; [intros []|]. intros Iq.
      rewrite app_assoc in S. apply sorted_inv in S. destruct S as [S' B].
      apply in_app_or in Iq. destruct Iq as [Iq|[->|[]]]; [auto|]. apply B. apply in_or_app. left. apply in_or_app. right. left. reflexivity. }
    destruct (Nat.leb 2 (length acc) && neqb N (fst (last acc (n0, n0))) (fst p) && neqb N (fst (last (removelast acc) (n0, n0))) (fst p)) eqn:C3.
    { apply andb_prop in C3. destruct C3 as [C3 C5]. apply andb_prop in C3. destruct C3 as [C3 C4]. apply Nat.leb_le in C3.
      assert (Na : acc <> []) by (intros ->; cbn in C3; lia).
      destruct (exists_last Na) as (acc' & b & ->). rewrite last_snoc in C4. rewrite removelast_last in C5. rewrite app_length in C3. cbn in C3.
      assert (Na' : acc' <> []) by (intros ->; cbn in C3; lia).
      pose proof (i_good _ _ I) as Ga. apply Forall_app in Ga. destruct Ga as [Ga Gb]. inversion Gb as [|? ? Gb1 _]; subst.
      rewrite Forall_forall in Ga.
      apply (eq_val N O) in C4; [|apply Gb1|assumption]. apply (eq_val N O) in C5; [|apply (Ga _ (last_in acc' _ Na'))|assumption].
      unfold set_back. rewrite removelast_last. apply IH; try assumption.
      apply (inv_replace acc' b); assumption. }
    apply IH; try assumption. apply inv_push; try assumption.
    intros Nd Z. rewrite (proj2 (eq_val N O (fst p) n0 Op (ok0 N O))) in C1; [|rewrite (val0 N O); exact Z].
    rewrite andb_true_r in C1. apply Nat.ltb_ge in C1. destruct done; [congruence|cbn in C1; lia].
Qed.

Lemma inv_nil : inv [] [].
Proof.
  constructor; try constructor; try tauto; try (left; reflexivity); try congruence.
Qed.

(** *** The curve *)
Lemma get_y_view pts x : ok N O x -> get_y_linear pts x = segment_y (Lx x pts) (Fx x pts) x.
Proof.
  intros Ox. unfold get_y_linear. rewrite (ok_nan N O x Ox). unfold Lx, Fx, before, after. destruct (upper_bound x pts); reflexivity.
Qed.
Lemma Lx_neg pts x : ok N O x -> Forall good pts -> v x < 0 -> Lx x pts = (n0, n0).
Proof.
  intros Ox G X. unfold Lx, before. destruct pts as [|p pts]; [reflexivity|]. cbn [upper_bound].
  inversion G as [|? ? (Op & _ & R0) _]; subst. assert (C : nlt N x (fst p) = true) by (apply (lt_val N O); try assumption; lra).
  rewrite C. reflexivity.
Qed.
Lemma Fx_one pts x : ok N O x -> Forall good pts -> 1 <= v x -> Fx x pts = (n1, n1).
Proof.
  intros Ox G X. unfold Fx. replace (after x pts) with (@nil pt); [reflexivity|]. symmetry. apply after_nil.
  intros q Iq. rewrite Forall_forall in G. destruct (G q Iq) as (Oq & _ & R0).
  destruct (nlt N x (fst q)) eqn:C; [|reflexivity]. apply (lt_val N O) in C; try assumption. lra.
Qed.

Lemma segment_zero q x : ok N O x -> good q -> v x < 0 -> v (fst q) = 0 ->
  segment_y (n0, n0) q x = n0 \/ (segment_y (n0, n0) q x = snd q /\ v (snd q) = 0).
Proof.
  intros Ox (Oq & Os & _) X Z. unfold segment_y. cbn [fst snd].
  destruct (neqb N n0 (snd q)) eqn:E1.
  - right. split; [reflexivity|]. apply (eq_val N O) in E1; [|apply (ok0 N O)|assumption]. rewrite (val0 N O) in E1. lra.
  - left. rewrite (proj2 (eq_val N O n0 (fst q) (ok0 N O) Oq)) by (rewrite (val0 N O); lra).
    rewrite (proj2 (lt_val N O x (fst q) Ox Oq)) by lra. reflexivity.
Qed.
Lemma segment_one p x : ok N O x -> good p -> 1 <= v x -> v (fst p) = 1 -> segment_y p (n1, n1) x = n1.
Proof.
  intros Ox (Op & Os & _) X Z. unfold segment_y. cbn [fst snd]. destruct (neqb N (snd p) n1); [reflexivity|].
  rewrite (proj2 (eq_val N O (fst p) n1 Op (ok1 N O))) by (rewrite (val1 N O); lra).
  destruct (nlt N x n1) eqn:C; [|reflexivity]. apply (lt_val N O) in C; [|assumption|apply (ok1 N O)]. rewrite (val1 N O) in C. lra.
Qed.

Lemma compact_good pts : Forall good pts -> forall i acc, Forall good acc -> Forall good (compact_from i acc pts).
Proof.
  induction pts as [|p pts IH]; intros G i acc Ga; [exact Ga|]. inversion G as [|? ? Gp Gr]; subst. cbn [compact_from].
  destruct (_ && neqb N (fst p) n0).
  { apply IH; [assumption|]. destruct acc; [constructor|]. inversion Ga; constructor; assumption. }
  destruct (_ && _ && _); [exact Ga|].
  destruct (_ && _ && _).
  { apply IH; [assumption|]. unfold set_back. apply Forall_app. split; [|auto].
    destruct acc as [|a acc]; [constructor|]. destruct (exists_last (l := a :: acc)) as (l' & b & E); [discriminate|]. rewrite E in *. rewrite removelast_last.
    apply Forall_app in Ga. apply Ga. }
  apply IH; [assumption|]. apply Forall_app. auto.
Qed.

Theorem compact_curve pts x : Forall good pts -> sorted pts -> ok N O x ->
  get_y_linear (compact pts) x = get_y_linear pts x \/
  (v x < 0 /\ neqb N (get_y_linear (compact pts) x) (get_y_linear pts x) = true).
Proof.
  intros G S Ox. rewrite !get_y_view by assumption.
  pose proof (compact_good pts G 0 [] (Forall_nil _)) as Gc. fold (compact pts) in Gc.
  pose proof (compact_same pts 0 [] [] inv_nil eq_refl G S x Ox) as [SF SL]. fold (compact pts) in SF, SL. cbn [app] in SF, SL.
  destruct SF as [EF|(X & A1 & A2 & A3 & A4)].
  - destruct SL as [EL|(X & B1 & B2 & B3 & B4)].
    + left. rewrite EF, EL. reflexivity.
    + left. rewrite !Fx_one by assumption. rewrite !segment_one by assumption. reflexivity.
  - right. split; [exact X|]. rewrite !Lx_neg by assumption.
    pose proof (val0 N O) as V0. pose proof (ok0 N O) as O0.
    destruct (segment_zero _ x Ox A3 X A1) as [->|[-> Z1]]; destruct (segment_zero _ x Ox A4 X A2) as [->|[-> Z2]];
      apply (eq_val N O); try assumption; try apply A3; try apply A4; congruence.
Qed.

(** a given point that is the last at its position *)
Lemma upper_at x l1 p l2 : nlt N x (fst p) = false -> (forall q, In q l1 -> nlt N x (fst q) = false) ->
  (forall q, In q l2 -> nlt N x (fst q) = true) -> upper_bound x (l1 ++ p :: l2) = (l1 ++ [p], l2).
Proof.
  intros Hp H1 H2. induction l1 as [|q l1 IH]; cbn [app upper_bound].
  - rewrite Hp. destruct l2 as [|r l2]; cbn [upper_bound]; [reflexivity|]. rewrite (H2 r) by (left; reflexivity). reflexivity.
  - rewrite (H1 q) by (left; reflexivity). rewrite IH by (intros r Hr; apply H1; right; exact Hr). reflexivity.
Qed.
End Lin.
Arguments good {N}. Arguments sorted {N}.
