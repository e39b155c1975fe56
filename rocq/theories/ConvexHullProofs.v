(** The scan keeps a convex chain that contains every point seen. *)
From Coq Require Import ZArith Bool Arith Reals Lra Lia Permutation Sorted List.
From Flocq Require Import Core.
From Verif Require Import NumModel EasingExact GeomModel GeomSpec GeomReal GeomExact ConvexHullModel.
Import ListNotations.
Local Open Scope R_scope.

(** the convex combinations of the points of a list *)
Inductive conv (L : list pt) : pt -> Prop :=
| conv_in p : In p L -> conv L p
| conv_mix t p q : 0 <= t <= 1 -> conv L p -> conv L q -> conv L (mix t p q).
Lemma conv_trans L K p : conv L p -> (forall q, In q L -> conv K q) -> conv K p.
Proof. intros H G. induction H as [p I|t p q T P IH1 Q IH2]; [apply G, I|apply conv_mix; assumption]. Qed.
Lemma conv_incl L K p : conv L p -> incl L K -> conv K p.
Proof. intros H I. apply (conv_trans L K p H). intros q Q. apply conv_in, I, Q. Qed.
Notation o3 := det3.
Lemma conv_tri L u v w p : conv L u -> conv L v -> conv L w -> tri_set u v w p -> conv L p.
Proof.
  intros U V W (a & b & c & A & B & C & S & ->). destruct (Req_dec (b + c) 0) as [Z|Z].
  - replace (P _ _) with u; [exact U|]. assert (a = 1) by lra. assert (b = 0) by lra. assert (c = 0) by lra. subst. apply pt_eq; cbn; ring.
  - replace (P (a * px u + b * px v + c * px w) (a * py u + b * py v + c * py w)) with (mix (b + c) u (mix (c / (b + c)) v w)).
    + apply conv_mix; [lra|exact U|]. apply conv_mix; [|exact V|exact W]. assert (0 < b + c) by lra. split.
      * apply Rmult_le_pos; [exact C|left; apply Rinv_0_lt_compat; assumption].
      * apply Rmult_le_reg_r with (b + c); [assumption|]. unfold Rdiv. rewrite Rmult_assoc, Rinv_l by lra. lra.
    + unfold mix. apply pt_eq; cbn [px py]; (replace a with (1 - (b + c)) by lra); field; exact Z.
Qed.
(** [p] is above [s], or level with it and to the right *)
Definition up (s p : pt) : Prop := py s < py p \/ (py s = py p /\ px s < px p).
Lemma det3_sub s u v : det3 s u v = (px u - px s) * (py v - py s) - (py u - py s) * (px v - px s).
Proof. unfold det3. ring. Qed.
Lemma angle_trans s u v w : up s u -> up s v -> up s w -> 0 <= det3 s u v -> 0 <= det3 s v w -> 0 <= det3 s u w /\ (0 < det3 s u v \/ 0 < det3 s v w -> 0 < det3 s u w).
Proof.
  rewrite !det3_sub. intros U V W. set (a := px u - px s). set (b := py u - py s). set (c := px v - px s). set (d := py v - py s). set (e := px w - px s). set (f := py w - py s).
  assert (U' : 0 < b \/ (b = 0 /\ 0 < a)) by (unfold up, a, b in *; lra). assert (V' : 0 < d \/ (d = 0 /\ 0 < c)) by (unfold up, c, d in *; lra). assert (W' : 0 < f \/ (f = 0 /\ 0 < e)) by (unfold up, e, f in *; lra).
  clearbody a b c d e f. intros H1 H2. assert (ID : (a * f - b * e) * d = (a * d - b * c) * f + (c * f - d * e) * b) by ring.
  destruct V' as [D|[-> C]].
  - assert (F : 0 < f). { destruct W' as [F|[-> Ep]]; [exact F|]. nra. }
    assert (Bn : 0 <= b) by lra. split.
    + apply Rmult_le_reg_r with d; [exact D|]. rewrite Rmult_0_l, ID. assert (0 <= (a * d - b * c) * f) by (apply Rmult_le_pos; lra). assert (0 <= (c * f - d * e) * b) by (apply Rmult_le_pos; lra). lra.
    + intros H. apply Rmult_lt_reg_r with d; [exact D|]. rewrite Rmult_0_l, ID.
      destruct (Rle_lt_or_eq_dec _ _ H1) as [S|S].
      * assert (0 < (a * d - b * c) * f) by (apply Rmult_lt_0_compat; lra). assert (0 <= (c * f - d * e) * b) by (apply Rmult_le_pos; lra). lra.
      * assert (S2 : 0 < c * f - d * e) by lra. rewrite <- S. assert (0 < b). { destruct U' as [Q|[-> Q]]; [exact Q|]. nra. } assert (0 < (c * f - d * e) * b) by (apply Rmult_lt_0_compat; lra). lra.
  - assert (b = 0) by nra. subst b. assert (A : 0 < a) by lra. assert (0 <= f) by lra. split; [nra|]. intros [Q|Q]; [lra|]. assert (0 < f) by nra. nra.
Qed.
(** the later point of two in angular order: a larger angle, or the same and not nearer *)
Definition before (s u v : pt) : Prop := 0 < det3 s u v \/ exists t, 1 <= t /\ v = P (px s + t * (px u - px s)) (py s + t * (py u - py s)).
Lemma before_det s u v : before s u v -> 0 <= det3 s u v.
Proof. intros [H|(t & T & ->)]; [lra|]. rewrite det3_sub. cbn [px py]. right. ring. Qed.
(** ** Popping *)
Fixpoint popR (h : list pt) (p : pt) : list pt :=
  match h with b :: ((a :: _) as r) => if Rle_bool (det3 a b p) 0 then popR r p else h | _ => h end.
Lemma pop_x h p : pop (map pv h) (pv p) = map pv (popR h p).
Proof.
  induction h as [|b [|a r] IH]; [reflexivity|reflexivity|].
  change (pop (map pv (b :: a :: r)) (pv p)) with (if nle N (det (vsub (pv b) (pv a)) (vsub (pv p) (pv b))) n0 then pop (map pv (a :: r)) (pv p) else map pv (b :: a :: r)).
  change (popR (b :: a :: r) p) with (if Rle_bool (det3 a b p) 0 then popR (a :: r) p else b :: a :: r). rewrite IH. rewrite !sub_x, det_x, EasingExact.x0.
  replace (det2 (sub b a) (sub p b)) with (det3 a b p) by (unfold det3, det2, sub; cbn; ring).
  destruct (Rle_bool_spec (det3 a b p) 0) as [H|H]; [rewrite (proj2 (le_x _ _) H); reflexivity|rewrite (proj2 (le_xf _ _) H); reflexivity].
Qed.
(** every three points of the stack, from the bottom up, turn left *)
Fixpoint turns (h : list pt) : Prop := match h with [] => True | c :: r => ForallOrdPairs (fun b a => 0 < det3 a b c) r /\ turns r end.
Definition ccw0 := fun (s : pt) (k : list pt) => turns (k ++ [s]).
Lemma turns_pair s c k b : ccw0 s (c :: k) -> In b k -> 0 < det3 s b c.
Proof.
  intros [F _] I. revert F. induction k as [|x k IH]; [destruct I|]. cbn [app]. intros F. inversion F as [|? ? H F']; subst. destruct I as [-> |I]; [|apply IH; assumption]. rewrite Forall_forall in H. apply H. rewrite in_app_iff. right. left. reflexivity.
Qed.
(** the five-point relations *)
Lemma five_1 s a b c d : 0 < det3 s b c -> 0 < det3 s c d -> 0 < det3 s a c -> 0 < det3 a b c -> 0 < det3 b c d -> 0 < det3 a c d.
Proof.
  intros H1 H2 H3 H4 H5. assert (ID : det3 a c d * det3 s b c = det3 a b c * det3 s c d + det3 s a c * det3 b c d) by (unfold det3; ring).
  apply Rmult_lt_reg_r with (det3 s b c); [exact H1|]. rewrite Rmult_0_l, ID. pose proof (Rmult_lt_0_compat _ _ H4 H2). pose proof (Rmult_lt_0_compat _ _ H3 H5). lra.
Qed.
Lemma five_2 s a b c d : 0 < det3 s b c -> 0 < det3 s b d -> 0 < det3 s a b -> 0 < det3 a b c -> 0 < det3 b c d -> 0 < det3 a b d.
Proof.
  intros H1 H2 H3 H4 H5. assert (ID : det3 a b d * det3 s b c = det3 a b c * det3 s b d + det3 s a b * det3 b c d) by (unfold det3; ring).
  apply Rmult_lt_reg_r with (det3 s b c); [exact H1|]. rewrite Rmult_0_l, ID. pose proof (Rmult_lt_0_compat _ _ H4 H2). pose proof (Rmult_lt_0_compat _ _ H3 H5). lra.
Qed.
(** pushing keeps all turns *)
Lemma push_turns s p : forall k, ccw0 s k -> (forall b, In b k -> 0 < det3 s b p) -> (match k with b :: a :: _ => 0 < det3 a b p | _ => True end) -> ForallOrdPairs (fun b a => 0 < det3 a b p) (k ++ [s]).
Proof.
  induction k as [|c k IH]; intros H A Tp; [constructor; constructor|]. cbn [app]. constructor.
  - rewrite Forall_forall. intros a I. apply in_app_iff in I. destruct I as [I|[<- |[]]]; [|apply A; left; reflexivity].
    destruct k as [|b k]; [destruct I|]. destruct I as [-> |I]; [exact Tp|].
    assert (Sb : 0 < det3 s b c) by (apply (turns_pair s c (b :: k) b H); left; reflexivity).
    assert (Sa : 0 < det3 s a c) by (apply (turns_pair s c (b :: k) a H); right; exact I).
    apply (five_1 s a b c p); try assumption; [apply A; left; reflexivity|].
    destruct H as [F _]. cbn [app] in F. inversion F as [|? ? Hb F']; subst. rewrite Forall_forall in Hb. apply Hb. apply in_app_iff. left. exact I.
  - apply IH; [apply H|intros b I; apply A; right; exact I|]. destruct k as [|b [|a k]]; auto.
    assert (Sb : 0 < det3 s b c) by (apply (turns_pair s c (b :: a :: k) b H); left; reflexivity).
    assert (Sab : 0 < det3 s a b) by (apply (turns_pair s b (a :: k) a); [apply H|left; reflexivity]).
    apply (five_2 s a b c p); try assumption; [apply A; right; left; reflexivity|].
    destruct H as [F _]. cbn [app] in F. inversion F as [|? ? Hb F']; subst. inversion Hb. assumption.
Qed.
Lemma pop_ok s p : up s p -> forall k, ccw0 s k -> Forall (up s) k -> (forall b, In b k -> before s b p) ->
  exists m k', k = m ++ k' /\ popR (k ++ [s]) p = k' ++ [s] /\ ccw0 s (p :: k') /\ forall x, In x k -> conv (p :: k' ++ [s]) x.
Proof.
  intros Up. induction k as [|b k IH]; intros H U B.
  - exists [], []. split; [reflexivity|]. split; [reflexivity|]. split; [split; [constructor; constructor|split; [constructor|exact Logic.I]]|intros x []].
  - assert (Hk : ccw0 s k) by apply H. inversion U as [|? ? Ub Uk]; subst.
    assert (CASE : forall a r, k ++ [s] = a :: r -> 0 < det3 a b p -> ccw0 s (p :: b :: k)).
    { intros a r Er Pos. split; [|exact H]. apply push_turns; [exact H| |destruct k as [|x k]; [exact Logic.I|injection Er as -> _; exact Pos]].
      assert (SB : 0 < det3 s b p).
      { destruct k as [|x k]; [injection Er as <- _; exact Pos|]. injection Er as -> _. destruct (B b (or_introl eq_refl)) as [Q|(t & T & ->)]; [exact Q|]. exfalso.
        pose proof (turns_pair s b (a :: k) a H (or_introl eq_refl)) as Q. replace (det3 a b _) with (- (t - 1) * det3 s a b) in Pos by (unfold det3; cbn [px py]; ring). nra. }
      intros c [<- |I]; [exact SB|]. apply (angle_trans s c b p); [rewrite Forall_forall in Uk; apply Uk, I|exact Ub|exact Up|left; apply (turns_pair s b k c H I)|left; exact SB|right; exact SB]. }
    destruct (k ++ [s]) as [|a r] eqn:Er; [destruct k; discriminate|].
    cbn [app popR]. rewrite Er. destruct (Rle_bool_spec (det3 a b p) 0) as [L|L].
    + destruct (IH Hk Uk (fun c I => B c (or_intror I))) as (m & k' & Ek & Ep & Hc & Cv). exists (b :: m), k'. rewrite <- Er, Er, Ep. split; [cbn; rewrite Ek; reflexivity|]. split; [reflexivity|]. split; [exact Hc|].
      intros x [<- |I]; [|apply Cv, I].
      assert (Cs : conv (p :: k' ++ [s]) s) by (apply conv_in; right; apply in_app_iff; right; left; reflexivity). assert (Cp : conv (p :: k' ++ [s]) p) by (apply conv_in; left; reflexivity).
      destruct k as [|x k].
      * injection Er as <- _. destruct (B b (or_introl eq_refl)) as [Q|(t & T & Q)]; [lra|].
        replace b with (mix (/ t) s p). { apply conv_mix; [|exact Cs|exact Cp]. split; [left; apply Rinv_0_lt_compat; lra|]. rewrite <- Rinv_1. apply Rinv_le_contravar; lra. }
        rewrite Q. unfold mix. apply pt_eq; cbn [px py]; field; lra.
      * injection Er as -> _. apply (conv_tri _ s a p); [exact Cs|apply Cv; left; reflexivity|exact Cp|].
        pose proof (turns_pair s b (a :: k) a H (or_introl eq_refl)) as Q1. pose proof (before_det _ _ _ (B b (or_introl eq_refl))) as Q2.
        assert (Q3 : 0 < det3 s a p). { apply (angle_trans s a b p); [inversion Uk; assumption|exact Ub|exact Up|lra|exact Q2|left; exact Q1]. }
        assert (ID : det3 a b p = det3 s b p - det3 s a p + det3 s a b) by (unfold det3; ring).
        exists (1 - det3 s b p / det3 s a p - det3 s a b / det3 s a p), (det3 s b p / det3 s a p), (det3 s a b / det3 s a p).
        assert (NN : forall y, 0 <= y -> 0 <= y / det3 s a p) by (intros y Y; apply Rmult_le_pos; [exact Y|left; apply Rinv_0_lt_compat; exact Q3]).
        split; [|split; [apply NN; lra|split; [apply NN; lra|split; [ring|]]]].
        -- replace (1 - det3 s b p / det3 s a p - det3 s a b / det3 s a p) with ((det3 s a p - det3 s b p - det3 s a b) / det3 s a p) by (field; lra). apply NN. lra.
        -- assert (NZ : det3 s a p <> 0) by lra. unfold det3 in *. apply pt_eq; cbn [px py]; field; exact NZ.
    + exists [], (b :: k). split; [reflexivity|]. split; [cbn; rewrite Er; reflexivity|]. split; [apply (CASE a r eq_refl L)|]. intros x I. apply conv_in. right. apply in_app_iff. left. exact I.
Qed.
(** ** The whole scan *)
Theorem scan_ok s : forall l k, ccw0 s k -> Forall (up s) k -> Forall (up s) l -> (forall b p, In b k -> In p l -> before s b p) -> StronglySorted (before s) l ->
  exists k', fold_left (fun h p => p :: popR h p) l (k ++ [s]) = k' ++ [s] /\ ccw0 s k' /\ Forall (up s) k' /\ incl k' (k ++ l) /\ forall x, In x (k ++ l ++ [s]) -> conv (k' ++ [s]) x.
Proof.
  induction l as [|p l IH]; intros k H U Ul B S.
  - exists k. split; [reflexivity|]. split; [exact H|]. split; [exact U|]. split; [rewrite app_nil_r; apply incl_refl|]. intros x I. apply conv_in, I.
  - inversion Ul as [|? ? Up Ul']; subst. inversion S as [|? ? S' F]; subst. rewrite Forall_forall in F.
    destruct (pop_ok s p Up k H U (fun b I => B b p I (or_introl eq_refl))) as (m & k1 & Ek & Ep & Hc & Cv). cbn [fold_left]. rewrite Ep. change (p :: k1 ++ [s]) with ((p :: k1) ++ [s]).
    destruct (IH (p :: k1)) as (k' & E & H' & U' & I' & C').
    + exact Hc.
    + constructor; [exact Up|]. subst k. apply Forall_app in U. apply U.
    + exact Ul'.
    + intros b q [<- |I] J; [apply F, J|]. apply B; [subst k; apply in_app_iff; right; exact I|right; exact J].
    + exact S'.
    + exists k'. split; [exact E|]. split; [exact H'|]. split; [exact U'|]. split.
      * intros x I. apply I' in I. rewrite in_app_iff in *. destruct I as [[<- |I]|I]; [right; left; reflexivity|left; subst k; apply in_app_iff; right; exact I|right; right; exact I].
      * intros x I. rewrite !in_app_iff in I.
        assert (G : forall y, In y ((p :: k1) ++ [s]) -> conv (k' ++ [s]) y). { intros y J. apply C'. rewrite !in_app_iff in *. tauto. }
        destruct I as [I|[[<- |I]|I]].
        -- apply (conv_trans _ _ _ (Cv x I) G).
        -- apply G. left. reflexivity.
        -- apply C'. rewrite !in_app_iff. tauto.
        -- apply C'. rewrite !in_app_iff. tauto.
Qed.
