(** Validated node lists are exactly the listings of expression trees. *)
From Coq Require Import ZArith Bool Arith Lia List.
From Verif Require Import NumModel NumLaws EasingModel EasingSpec BehaviorModel BehaviorSpec.
Import ListNotations.

Scheme lists_value_ind2 := Induction for lists_value Sort Prop
  with lists_ind2 := Induction for lists Sort Prop.
Combined Scheme lists_mutind from lists_value_ind2, lists_ind2.

Section Tree.
Context {N : num} (L : laws N).
Notation F := (T N).

(** *** single nodes *)
Lemma valid_point_iff (p : F * F) : valid_point p = true <-> in_unit (fst p) /\ nfin N (snd p) = true.
Proof.
  unfold valid_point, in_unit. destruct (nfin N (fst p)) eqn:A; cbn [negb orb].
  - rewrite !(l_lt_le N L) by auto using (l_fin0 N L), (l_fin1 N L).
    destruct (nle N n0 (fst p)), (nle N (fst p) n1); cbn; intuition congruence.
  - intuition congruence.
Qed.
Lemma valid_order_iff ps : Forall (fun p : F * F => nfin N (fst p) = true) ps -> valid_order ps = true <-> xs_ordered ps.
Proof.
  induction ps as [|p [|q r] IH]; intros H; cbn [valid_order xs_ordered]; try tauto.
  inversion H; subst. inversion H3; subst. rewrite (l_lt_le N L) by auto.
  destruct (nle N (fst p) (fst q)); cbn [negb]; [rewrite IH by auto; tauto|]. intuition congruence.
Qed.
Lemma valid_easing_iff (e : easing N) : valid_easing e = true <-> documented_easing e.
Proof.
  destruct e as [p|x1 y1 x2 y2|ps|c s]; cbn [valid_easing documented_easing].
  - unfold valid_predef, kLinear, kEase, kEaseIn, kEaseOut, kEaseInOut, kStepStart, kStepEnd. cbn [existsb].
    rewrite !orb_true_iff, !Z.eqb_eq. lia.
  - unfold valid_bezier, in_unit. destruct (nfin N x1) eqn:A, (nfin N x2) eqn:B, (nfin N y1) eqn:C, (nfin N y2) eqn:D;
      cbn [negb andb orb]; try (intuition congruence).
    rewrite !(l_lt_le N L) by auto using (l_fin0 N L), (l_fin1 N L).
    destruct (nle N n0 x1), (nle N x1 n1), (nle N n0 x2), (nle N x2 n1); cbn; intuition congruence.
  - rewrite andb_true_iff, forallb_forall. split.
    + intros [H1 H2]. assert (Q : Forall (fun p => in_unit (fst p) /\ nfin N (snd p) = true) ps).
      { apply Forall_forall. intros p Hp. apply valid_point_iff, H1, Hp. }
      split; auto. apply valid_order_iff; auto. eapply Forall_impl; [|apply Q]. intros p [[H _] _]. exact H.
    + intros [H1 H2]. split.
      * intros p Hp. apply valid_point_iff. rewrite Forall_forall in H1. auto.
      * apply valid_order_iff; auto. eapply Forall_impl; [|apply H1]. intros p [[H _] _]. exact H.
  - unfold valid_steps, valid_position, kJumpEnd, kJumpStart, kJumpNone, kJumpBoth. cbn [existsb].
    destruct (Z.eqb_spec s 0), (Z.eqb_spec s 1), (Z.eqb_spec s 3), (Z.eqb_spec s 2); subst; cbn [orb negb andb];
      try destruct (Z.ltb_spec c 2), (Z.ltb_spec c 1); cbn [negb]; intuition (try congruence; try lia).
Qed.
Lemma range_iff (lo hi : F) : is_range_valid lo hi = true <-> finite_distinct lo hi.
Proof. unfold is_range_valid, finite_distinct. rewrite !andb_true_iff, negb_true_iff. tauto. Qed.
Lemma valid_node_iff (n : node N) : valid_node n = true <-> documented_node n.
Proof.
  destruct n; cbn [valid_node documented_node].
  - rewrite !andb_true_iff, range_iff.
    assert (A : is_valid_source src = true <-> forall z, src <> OtherSource z)
      by (destruct src; cbn; split; intros; try congruence; auto; exfalso; eapply H; reflexivity).
    assert (B : is_valid_out_of_range oor = true <-> forall z, oor <> OtherOutOfRange z)
      by (destruct oor; cbn; split; intros; try congruence; auto; exfalso; eapply H; reflexivity).
    assert (C : valid_combination src oor = true <->
      (src = kTimeSinceInputInSeconds \/ src = kTimeSinceInputInMillis -> oor = kClamp)).
    { destruct src; cbn [valid_combination]; try (split; [intros _ [X|X]; discriminate|reflexivity]);
        destruct oor; (split; [intros X Y; congruence|intros X; try reflexivity; specialize (X ltac:(auto)); discriminate]). }
    rewrite A, B, C. tauto.
  - tauto.
  - destruct p; cbn; split; intros; try congruence; auto. exfalso; eapply H; reflexivity.
  - destruct tts as [[] [] [] []]; cbn; split; intros; try congruence; try reflexivity.
  - assert (A : is_valid_damping d = true <-> forall z, d <> OtherDamping z)
      by (destruct d; cbn; split; intros; try congruence; auto; exfalso; eapply H; reflexivity).
    rewrite andb_true_iff, A, negb_true_iff, orb_false_iff, negb_false_iff.
    split; intros [H [H1 H2]]; (split; [|split]); auto.
    + rewrite (l_lt_le N L) in H2 by auto using (l_fin0 N L). destruct (nle N n0 gap); auto.
    + rewrite (l_lt_le N L) by auto using (l_fin0 N L). rewrite H2. reflexivity.
  - apply valid_easing_iff.
  - destruct op; cbn; split; intros; try congruence; auto. exfalso; eapply H; reflexivity.
  - destruct i; cbn; split; intros; try congruence; auto. exfalso; eapply H; reflexivity.
  - assert (A : is_valid_target t = true <-> forall z, t <> OtherTarget z)
      by (destruct t; cbn; split; intros; try congruence; auto; exfalso; eapply H; reflexivity).
    rewrite andb_true_iff, range_iff, A. tauto.
Qed.

(** *** listings *)
Context {M : Type}.
Lemma lists_app l (rs : list (root N M)) : lists l rs -> forall l' rs', lists l' rs' -> lists (l ++ l') (rs ++ rs').
Proof.
  induction 1; intros l' rs0 H'; [exact H'|].
  rewrite <- !app_assoc. cbn [app]. rewrite <- ?app_assoc. apply ls_target; auto.
Qed.
Lemma lists_value_app l (e : expr N M) rs : lists_value l e rs -> forall l' rs', lists l' rs' -> lists_value (l ++ l') e (rs ++ rs').
Proof.
  intros H l' rs0 H'. inversion H; subst; rewrite <- ?app_assoc; cbn [app].
  all: try (constructor; auto using lists_app; fail).
  all: rewrite <- ?app_assoc; constructor; auto using lists_app.
Qed.

Lemma valid_from_app d (l l' : list (node N)) : valid_from d l = true -> valid_from 0 l' = true -> valid_from d (l ++ l') = true.
Proof.
  revert d. induction l as [|n l IH]; intros d H H'; cbn [app].
  - cbn in H. destruct d; [exact H'|discriminate].
  - cbn [valid_from] in *. destruct (negb (valid_node n)); [discriminate|].
    destruct (Nat.ltb d (input_count n)); [discriminate|]. auto.
Qed.
(** depth after a listing *)
Lemma listing_depth :
  (forall l (e : expr N M) rs, lists_value l e rs ->
     forall d rest, Forall documented_node l -> valid_from d (l ++ rest) = valid_from (S d) rest) /\
  (forall l (rs : list (root N M)), lists l rs ->
     forall d rest, Forall documented_node l -> valid_from d (l ++ rest) = valid_from d rest).
Proof.
  apply lists_mutind; intros; cbn [app]; try rewrite <- !app_assoc; cbn [app]; try reflexivity.
  all: repeat match goal with
    | H : Forall _ (_ ++ _) |- _ => apply Forall_app in H; destruct H
    | H : Forall _ (_ :: _) |- _ => inversion H; clear H; subst
    end.
  all: repeat match goal with IH : forall d rest, Forall _ ?l -> valid_from d (?l ++ rest) = _ |- context [valid_from _ (?l ++ _)] =>
     rewrite IH by assumption end.
  all: cbn [valid_from];
    match goal with D : documented_node _ |- _ => apply valid_node_iff in D; rewrite D end; cbn [negb input_count output_count].
  all: repeat match goal with |- context [Nat.ltb ?a ?b] => destruct (Nat.ltb_spec a b); [lia|] end.
  all: match goal with IH : forall d rest, Forall _ ?b -> valid_from d (?b ++ rest) = _ |- _ => rewrite IH by assumption end; f_equal; lia.
Qed.
Lemma listing_valid l (rs : list (root N M)) : Forall documented_node l -> lists l rs -> valid_behavior l = true.
Proof.
  intros D H. unfold valid_behavior. rewrite <- (app_nil_r l). rewrite (proj2 listing_depth l rs H) by assumption. reflexivity.
Qed.

(** the values pending on the stack, top first *)
Definition pending := list (list (node N) * expr N M * list (root N M)).
Definition pending_ok (p : pending) : Prop := Forall (fun x => lists_value (fst (fst x)) (snd (fst x)) (snd x)) p.
Definition pending_nodes (p : pending) : list (node N) := concat (map (fun x => fst (fst x)) (rev p)).
Lemma pending_nodes_cons x p : pending_nodes (x :: p) = pending_nodes p ++ fst (fst x).
Proof. unfold pending_nodes. cbn [rev]. rewrite map_app, concat_app. cbn. rewrite app_nil_r. reflexivity. Qed.

Variable mem0 : M.
Lemma valid_listing l : forall (p : pending) done (rs : list (root N M)), lists done rs -> pending_ok p ->
  valid_from (length p) l = true ->
  Forall documented_node l /\ exists rs' : list (root N M), lists (done ++ pending_nodes p ++ l) rs'.
Proof.
  induction l as [|n l IH]; intros p done rs Hd Hp H.
  - split; [constructor|]. destruct p; [|discriminate]. exists rs. cbn. rewrite app_nil_r. exact Hd.
  - cbn [valid_from] in H. destruct (valid_node n) eqn:V; [cbn [negb] in H|discriminate].
    destruct (Nat.ltb_spec (length p) (input_count n)); [discriminate|].
    assert (K : forall (p' : pending) done' (rs' : list (root N M)), lists done' rs' -> pending_ok p' ->
              length p' = length p - input_count n + output_count n ->
              done' ++ pending_nodes p' = done ++ pending_nodes p ++ [n] ->
              Forall documented_node (n :: l) /\ exists rs' : list (root N M), lists (done ++ pending_nodes p ++ n :: l) rs').
    { intros p' done' rs' Hd' Hp' HL HE. rewrite <- HL in H. destruct (IH p' done' rs' Hd' Hp' H) as [D [r R]].
      split; [constructor; [apply valid_node_iff, V|exact D]|]. exists r. rewrite app_assoc, HE in R.
      rewrite <- !app_assoc in R. exact R. }
    destruct n; cbn [input_count output_count] in *.
    + apply (K (([SourceNode src oor lo hi], XSource M src oor lo hi, []) :: p) done rs); auto.
      * constructor; auto. cbn. constructor. constructor.
      * cbn. lia.
      * rewrite pending_nodes_cons. reflexivity.
    + apply (K (([ConstantNode v], XConst M v, []) :: p) done rs); auto.
      * constructor; auto. cbn. constructor. constructor.
      * cbn. lia.
      * rewrite pending_nodes_cons. reflexivity.
    + destruct p as [|[[la ea] ra] p]; [cbn in *; lia|]. inversion Hp; subst. cbn [fst snd] in *.
      apply (K ((la ++ [FallbackFilterNode p0], XFallback M p0 ea, ra ++ []) :: p) done rs); auto.
      * constructor; auto. cbn [fst snd]. constructor; auto. constructor.
      * cbn. lia.
      * rewrite !pending_nodes_cons. cbn [fst snd]. rewrite <- !app_assoc. reflexivity.
    + destruct p as [|[[la ea] ra] p]; [cbn in *; lia|]. inversion Hp; subst. cbn [fst snd] in *.
      apply (K ((la ++ [ToolTypeFilterNode tts], XTool M tts ea, ra ++ []) :: p) done rs); auto.
      * constructor; auto. cbn [fst snd]. constructor; auto. constructor.
      * cbn. lia.
      * rewrite !pending_nodes_cons. cbn [fst snd]. rewrite <- !app_assoc. reflexivity.
    + destruct p as [|[[la ea] ra] p]; [cbn in *; lia|]. inversion Hp; subst. cbn [fst snd] in *.
      apply (K ((la ++ [DampingNode d gap], XDamp M d gap mem0 ea, ra ++ []) :: p) done rs); auto.
      * constructor; auto. cbn [fst snd]. constructor; auto. constructor.
      * cbn. lia.
      * rewrite !pending_nodes_cons. cbn [fst snd]. rewrite <- !app_assoc. reflexivity.
    + destruct p as [|[[la ea] ra] p]; [cbn in *; lia|]. inversion Hp; subst. cbn [fst snd] in *.
      apply (K ((la ++ [ResponseNode e], XResponse M e ea, ra ++ []) :: p) done rs); auto.
      * constructor; auto. cbn [fst snd]. constructor; auto. constructor.
      * cbn. lia.
      * rewrite !pending_nodes_cons. cbn [fst snd]. rewrite <- !app_assoc. reflexivity.
    + destruct p as [|[[lb eb] rb] [|[[la ea] ra] p]]; [cbn in *; lia..|]. inversion Hp; subst. inversion H4; subst. cbn [fst snd] in *.
      apply (K ((la ++ lb ++ [BinaryOpNode op], XBinary M op ea eb, ra ++ rb ++ []) :: p) done rs); auto.
      * constructor; auto. cbn [fst snd]. constructor; auto. constructor.
      * cbn. lia.
      * rewrite !pending_nodes_cons. cbn [fst snd]. rewrite <- !app_assoc. reflexivity.
    + destruct p as [|[[lc ec] rc] [|[[lb eb] rb] [|[[la ea] ra] p]]]; [cbn in *; lia..|].
      inversion Hp; subst. inversion H4; subst. inversion H6; subst. cbn [fst snd] in *.
      apply (K ((la ++ lb ++ lc ++ [InterpolationNode i], XInterp M i ea eb ec, ra ++ rb ++ rc ++ []) :: p) done rs); auto.
      * constructor; auto. cbn [fst snd]. constructor; auto. constructor.
      * cbn. lia.
      * rewrite !pending_nodes_cons. cbn [fst snd]. rewrite <- !app_assoc. reflexivity.
    + destruct p as [|[[la ea] ra] p]; [cbn in *; lia|]. inversion Hp; subst. cbn [fst snd] in *.
      assert (Q : lists (la ++ [TargetNode t lo hi]) (ra ++ [Root M t lo hi ea n0])) by (constructor; auto; constructor).
      destruct p as [|[[lb eb] rb] p].
      * apply (K [] (done ++ la ++ [TargetNode t lo hi]) (rs ++ ra ++ [Root M t lo hi ea n0])); auto.
        -- apply lists_app; auto.
        -- unfold pending_nodes. cbn [fst snd rev map concat app]. rewrite !app_nil_r. reflexivity.
      * inversion H4; subst. cbn [fst snd] in *.
        apply (K ((lb ++ la ++ [TargetNode t lo hi], eb, rb ++ ra ++ [Root M t lo hi ea n0]) :: p) done rs); auto.
        -- constructor; auto. cbn [fst snd]. apply lists_value_app; auto.
        -- rewrite !pending_nodes_cons. cbn [fst snd]. rewrite <- !app_assoc. reflexivity.
Qed.
Lemma valid_behavior_iff l : valid_behavior l = true <-> Forall documented_node l /\ exists rs : list (root N M), lists l rs.
Proof.
  split.
  - intros H. destruct (valid_listing l [] [] [] ls_nil (Forall_nil _) H) as [A [rs B]]. eauto.
  - intros [A [rs B]]. eapply listing_valid; eauto.
Qed.

(** *** the plain flattening is one of the listings *)
Lemma postorder_lists (e : expr N M) : lists_value (postorder e) e [].
Proof.
  induction e; cbn [postorder].
  1,2: constructor; constructor.
  1-4: match goal with |- lists_value (?l ++ [?n]) _ _ => change (@nil (root N M)) with ((@nil (root N M)) ++ []) end; constructor; auto; constructor.
  - change (@nil (root N M)) with ((@nil (root N M)) ++ [] ++ []). constructor; auto; constructor.
  - change (@nil (root N M)) with ((@nil (root N M)) ++ [] ++ [] ++ []). constructor; auto; constructor.
Qed.
Lemma flattened_lists (rs : list (root N M)) : lists (flattened rs) rs.
Proof.
  induction rs as [|[t lo hi e md] rs IH]; cbn [flattened flat_map]; [constructor|].
  rewrite <- app_assoc. cbn [app r_expr r_target r_lo r_hi].
  change (Root M t lo hi e md :: rs) with ([] ++ Root M t lo hi e md :: rs). constructor; auto. apply postorder_lists.
Qed.

(** *** forgetting what is remembered *)
Fixpoint wipe (e : expr N M) : expr N (option F) :=
  match e with
  | XSource _ s o lo hi => XSource _ s o lo hi
  | XConst _ v => XConst _ v
  | XFallback _ p a => XFallback _ p (wipe a)
  | XTool _ t a => XTool _ t (wipe a)
  | XDamp _ d g _ a => XDamp _ d g None (wipe a)
  | XResponse _ f a => XResponse _ f (wipe a)
  | XBinary _ o a b => XBinary _ o (wipe a) (wipe b)
  | XInterp _ i a b c => XInterp _ i (wipe a) (wipe b) (wipe c)
  end.
Definition wipe_root (r : root N M) : root N (option F) :=
  Root _ (r_target M r) (r_lo M r) (r_hi M r) (wipe (r_expr M r)) (if multiplies (r_target M r) then n1 else n0).
Lemma wipe_fresh e : fresh_expr (wipe e).
Proof. induction e; cbn; auto. Qed.
Lemma wipe_root_fresh r : fresh_root (wipe_root r).
Proof. split; [apply wipe_fresh|reflexivity]. Qed.
Lemma wipe_lists : (forall l (e : expr N M) rs, lists_value l e rs -> lists_value l (wipe e) (map wipe_root rs)) /\
  (forall l (rs : list (root N M)), lists l rs -> lists l (map wipe_root rs)).
Proof.
  apply lists_mutind; intros; rewrite ?map_app; cbn [map]; try (constructor; auto; fail).
Qed.
End Tree.

(** *** a list is a listing of one graph only *)
Section Unique.
Context {N : num}.
Local Notation expr := (expr N unit).
Definition bare_root (r : root N unit) : target * T N * T N * expr := (r_target _ r, r_lo _ r, r_hi _ r, r_expr _ r).
Definition parse_node (n : node N) (s : list expr * list (target * T N * T N * expr)) : option (list expr * list (target * T N * T N * expr)) :=
  match n, s with
  | SourceNode a o lo hi, (st, out) => Some (XSource _ a o lo hi :: st, out)
  | ConstantNode v, (st, out) => Some (XConst _ v :: st, out)
  | FallbackFilterNode p, (e :: st, out) => Some (XFallback _ p e :: st, out)
  | ToolTypeFilterNode t, (e :: st, out) => Some (XTool _ t e :: st, out)
  | DampingNode d g, (e :: st, out) => Some (XDamp _ d g tt e :: st, out)
  | ResponseNode f, (e :: st, out) => Some (XResponse _ f e :: st, out)
  | BinaryOpNode o, (b :: a :: st, out) => Some (XBinary _ o a b :: st, out)
  | InterpolationNode i, (c :: b :: a :: st, out) => Some (XInterp _ i a b c :: st, out)
  | TargetNode t lo hi, (e :: st, out) => Some (st, out ++ [(t, lo, hi, e)])
  | _, _ => None
  end.
Fixpoint parse (l : list (node N)) s := match l with [] => Some s | n :: r => match parse_node n s with Some s' => parse r s' | None => None end end.
Lemma parse_app l l' s : parse (l ++ l') s = match parse l s with Some s' => parse l' s' | None => None end.
Proof. revert s. induction l as [|n l IH]; intros s; cbn [app parse]; [reflexivity|]. destruct (parse_node n s); auto. Qed.
Lemma parse_lists :
  (forall l e rs, lists_value l e rs -> forall st out, parse l (st, out) = Some (e :: st, out ++ map bare_root rs)) /\
  (forall l rs, lists l rs -> forall st out, parse l (st, out) = Some (st, out ++ map bare_root rs)).
Proof.
  apply lists_mutind; intros; rewrite ?parse_app; cbn [parse parse_node];
    repeat (match goal with IH : forall st out, parse ?l (st, out) = _ |- context [parse ?l _] => rewrite IH end; rewrite ?parse_app; cbn [parse parse_node]);
    rewrite ?map_app; cbn [map]; rewrite ?app_nil_r, <- ?app_assoc; try reflexivity; try (destruct mem; reflexivity).
Qed.
Lemma lists_unique l rs rs' : lists l rs -> lists l rs' -> map bare_root rs = map bare_root rs'.
Proof. intros A B. pose proof (proj2 parse_lists _ _ A [] []) as P. rewrite (proj2 parse_lists _ _ B [] []) in P. injection P as P. auto. Qed.
End Unique.
