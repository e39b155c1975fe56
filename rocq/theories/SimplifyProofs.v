(** Simplification keeps the described vertices, for any numbers that are ordered. *)
From Coq Require Import Reals Lra Lia Bool Arith List.
From Flocq Require Import Core IEEE754.BinarySingleNaN.
From Verif Require Import F32 F32Lemmas NumModel GeomModel DistanceModel SimplifyModel SimplifySpec.
Import ListNotations.
Local Open Scope nat_scope.

(** what is needed of [<]; [ok] are the numbers that are not NaN *)
Record ordered (N : num) (ok : T N -> Prop) : Prop := {
  o_ok : forall a b, nlt N a b = true -> ok a /\ ok b;
  o_le : forall a b, nle N a b = true -> ok b /\ nlt N b a = false;
  o_zero : ok n0;
  o_irr : forall a, nlt N a a = false;
  o_trans : forall a b c, nlt N a b = true -> nlt N b c = true -> nlt N a c = true;
  o_weak : forall a b c, ok b -> nlt N a b = false -> nlt N a c = true -> nlt N b c = true;
}.
Lemma ordered_f E : ordered (fnum E) (fun x => is_nan x = false).
Proof.
  constructor; cbn [fnum T nlt].
  - intros a b H. exact (flt_not_nan _ _ H).
  - cbn [nle]. intros a b H. destruct (fle_not_nan _ _ H). split; [assumption|]. apply fle_spec in H; auto. apply flt_false; auto.
  - reflexivity.
  - intros a. destruct (flt a a) eqn:H; [|reflexivity]. destruct (flt_not_nan _ _ H). apply flt_spec in H; auto. lra.
  - intros a b c H1 H2. destruct (flt_not_nan _ _ H1), (flt_not_nan _ _ H2). apply flt_spec in H1, H2; auto. apply flt_spec; auto. lra.
  - intros a b c Hb H1 H2. destruct (flt_not_nan _ _ H2). apply flt_spec in H2; auto. apply flt_false in H1; auto. apply flt_spec; auto. lra.
Qed.
Lemma ordered_x : ordered xnum (fun x => x <> Nan).
Proof.
  assert (L : forall a b, Rlt_bool a b = true <-> (a < b)%R) by (intros a b; destruct (Rlt_bool_spec a b); split; intros; try lra; try discriminate; auto).
  assert (L' : forall a b, Rlt_bool a b = false <-> (b <= a)%R) by (intros a b; destruct (Rlt_bool_spec a b); split; intros; try lra; try discriminate; auto).
  constructor; cbn [xnum T nlt].
  - intros [a|[]|] [b|[]|]; cbn; intros H; try discriminate; split; discriminate.
  - intros [a|[]|] [b|[]|]; cbn; intros H; try discriminate; (split; [discriminate|]); try reflexivity. unfold xle in H. cbn in H. apply L'. apply orb_true_iff in H. rewrite L in H. destruct H as [H|H]; [lra|]. destruct (Req_bool_spec a b); [lra|discriminate].
  - discriminate.
  - intros [a|[]|]; cbn; try reflexivity. apply L'. lra.
  - intros [a|[]|] [b|[]|] [c|[]|]; cbn; intros H1 H2; try discriminate; try reflexivity. rewrite L in *. lra.
  - intros [a|[]|] [b|[]|] [c|[]|]; cbn; intros Hb H1 H2; try discriminate; try reflexivity; try (exfalso; apply Hb; reflexivity). rewrite L, L' in *. lra.
Qed.

Section Simplify.
Context {N : num} {A : Type}.
Variable pos : A -> vec N.
Variable ok : T N -> Prop.
Hypothesis O : ordered N ok.
Variable eps : T N.
Notation far a b v := (nlt N eps (dist_point_segment (pos v) (Seg (pos a) (pos b))) = true).

Lemma le_lt m d e : ok m -> nlt N m d = false -> nlt N e m = false -> nlt N e d = false.
Proof using O.
  intros Hm H1 H2. destruct (nlt N e d) eqn:E; [|reflexivity]. rewrite (o_weak _ _ O e m d Hm H2 E) in H1. discriminate.
Qed.

(** ** The farthest vertex *)
Section Scan.
Variable seg : segment N.
Notation D v := (dist_point_segment (pos v) seg).
(** [m] is the largest distance of [l], and [i] the number of the first vertex that has it *)
Definition first_max (l : list A) (i : nat) (m : T N) : Prop :=
  (i = 0%nat /\ m = n0 /\ forall x, In x l -> nlt N n0 (D x) = false) \/
  (exists l1 v l2, l = l1 ++ v :: l2 /\ i = length l1 /\ m = D v /\ nlt N n0 m = true /\
     (forall x, In x l1 -> ok (D x) -> nlt N (D x) m = true) /\ forall x, In x l2 -> nlt N m (D x) = false).
Lemma scan_from l2 : forall l1 b, first_max l1 (fst b) (snd b) -> let r := farthest_from pos seg l2 (length l1) b in first_max (l1 ++ l2) (fst r) (snd r).
Proof using O.
  induction l2 as [|v l2 IH]; intros l1 b H; [rewrite app_nil_r; exact H|]. cbn [farthest_from].
  replace (S (length l1)) with (length (l1 ++ [v])) by (rewrite app_length; cbn; lia). replace (l1 ++ v :: l2) with ((l1 ++ [v]) ++ l2) by (rewrite <- app_assoc; reflexivity).
  apply IH. destruct (nlt N (snd b) (D v)) eqn:L; cbn [fst snd].
  - right. exists l1, v, []. split; [reflexivity|]. split; [reflexivity|]. split; [reflexivity|]. destruct H as [(H1 & H2 & H3)|(k1 & w & k2 & E1 & H1 & H2 & H3 & H4 & H5)].
    + rewrite H2 in L. split; [exact L|]. split; [|intros x []]. intros x Hx Ho. exact (o_weak _ _ O _ _ _ Ho (H3 x Hx) L).
    + split; [exact (o_trans _ _ O _ _ _ H3 L)|]. split; [|intros x []]. intros x Hx Ho. rewrite E1 in Hx. apply in_app_or in Hx. destruct Hx as [Hx|[<-|Hx]].
      * exact (o_trans _ _ O _ _ _ (H4 x Hx Ho) L).
      * rewrite <- H2. exact L.
      * exact (o_weak _ _ O _ _ _ Ho (H5 x Hx) L).
  - destruct H as [(H1 & H2 & H3)|(k1 & w & k2 & E1 & H1 & H2 & H3 & H4 & H5)].
    + left. split; [exact H1|]. split; [exact H2|]. intros x Hx. apply in_app_or in Hx. destruct Hx as [Hx|[<-|[]]]; [exact (H3 x Hx)|]. rewrite <- H2. exact L.
    + right. exists k1, w, (k2 ++ [v]). rewrite E1, <- app_assoc. repeat (split; [first [reflexivity|assumption]|]). intros x Hx. apply in_app_or in Hx. destruct Hx as [Hx|[<-|[]]]; [exact (H5 x Hx)|exact L].
Qed.
Lemma scan l : first_max l (fst (farthest pos seg l)) (snd (farthest pos seg l)).
Proof using O. apply (scan_from l [] (0%nat, n0)). left. repeat split. intros x []. Qed.
Lemma max_unique l i m j n : first_max l i m -> first_max l j n -> i = j /\ m = n.
Proof using O.
  intros [(H1 & H2 & H3)|(l1 & v & l2 & E1 & H1 & H2 & H3 & H4 & H5)] [(K1 & K2 & K3)|(k1 & w & k2 & F1 & K1 & K2 & K3 & K4 & K5)].
  - subst. auto.
  - exfalso. rewrite K2, (H3 w) in K3; [discriminate|]. rewrite F1. apply in_or_app. right. left. reflexivity.
  - exfalso. rewrite H2, (K3 v) in H3; [discriminate|]. rewrite E1. apply in_or_app. right. left. reflexivity.
  - assert (T : forall l1 (v : A) l2 k1 w k2, l1 ++ v :: l2 = k1 ++ w :: k2 -> length l1 < length k1 -> In v k1 /\ In w l2).
    { clear. induction l1 as [|a l1 IH]; intros v l2 k1 w k2 E L.
      - destruct k1 as [|b k1]; [cbn in L; lia|]. cbn in E. injection E as -> ->. split; [left; reflexivity|]. apply in_or_app. right. left. reflexivity.
      - destruct k1 as [|b k1]; [cbn in L; lia|]. cbn in E, L. injection E as -> E. destruct (IH _ _ _ _ _ E ltac:(lia)). split; [right; assumption|assumption]. }
    rewrite E1 in F1. destruct (Nat.lt_trichotomy (length l1) (length k1)) as [L|[L|L]].
    + exfalso. destruct (T _ _ _ _ _ _ F1 L) as [A1 A2]. specialize (H5 _ A2). subst m n. rewrite (K4 v A1 (proj2 (o_ok _ _ O _ _ H3))) in H5. discriminate.
    + assert (X : forall l1 (v : A) l2 k1 w k2, l1 ++ v :: l2 = k1 ++ w :: k2 -> length l1 = length k1 -> v = w).
      { clear. induction l1 as [|a l1 IH]; intros v l2 k1 w k2 E L; destruct k1 as [|b k1]; cbn in L; try lia; cbn in E; injection E; intros; [auto|]. eapply IH; [eassumption|lia]. }
      rewrite (X _ _ _ _ _ _ F1 L) in H2. subst. auto.
    + exfalso. destruct (T _ _ _ _ _ _ (eq_sym F1) L) as [A1 A2]. specialize (K5 _ A2). subst m n. rewrite (H4 w A1 (proj2 (o_ok _ _ O _ _ K3))) in K5. discriminate.
Qed.
Lemma max_farthest l i m : first_max l i m -> farthest pos seg l = (i, m).
Proof using O. intros H. destruct (max_unique _ _ _ _ _ (scan l) H). destruct (farthest pos seg l). cbn in *. subst. reflexivity. Qed.
Lemma max_ok l i m : first_max l i m -> ok m.
Proof using O. intros [(_ & -> & _)|(_ & _ & _ & _ & _ & _ & H & _)]; [apply O|exact (proj2 (o_ok _ _ O _ _ H))]. Qed.
Lemma max_all l i m x : first_max l i m -> In x l -> nlt N m (D x) = false.
Proof using O.
  intros H Hx. destruct (nlt N m (D x)) eqn:L; [exfalso|reflexivity]. destruct H as [(_ & -> & H)|(l1 & v & l2 & -> & _ & E & _ & H4 & H5)]; [rewrite (H x Hx) in L; discriminate|].
  apply in_app_or in Hx. destruct Hx as [Hx|[<-|Hx]].
  - pose proof (H4 x Hx (proj2 (o_ok _ _ O _ _ L))) as K. pose proof (o_trans _ _ O _ _ _ K L) as Q. rewrite (o_irr _ _ O) in Q. discriminate.
  - rewrite E, (o_irr _ _ O) in L. discriminate.
  - rewrite (H5 x Hx) in L. discriminate.
Qed.
Lemma max_at l i m : l <> [] -> first_max l i m -> exists l1 v l2, l = l1 ++ v :: l2 /\ i = length l1.
Proof using.
  intros Hl [(-> & _)|(l1 & v & l2 & E & H & _)]; [|exists l1, v, l2; auto]. destruct l as [|v l]; [congruence|]. exists [], v, l. auto.
Qed.
End Scan.

(** ** The recursion *)
Notation I seg l := (interior pos eps (length l) seg l).
Lemma step_stop f seg l i m : first_max seg l i m -> nlt N eps m = false -> interior pos eps f seg l = [].
Proof using O. intros H L. destruct f as [|f]; [reflexivity|]. destruct l as [|x l]; [reflexivity|]. cbn [interior]. rewrite (max_farthest _ _ _ _ H), L. reflexivity. Qed.
Lemma step_split f seg l1 v l2 m : first_max seg (l1 ++ v :: l2) (length l1) m -> nlt N eps m = true ->
  interior pos eps (S f) seg (l1 ++ v :: l2) = interior pos eps f (Seg (s_start seg) (pos v)) l1 ++ v :: interior pos eps f (Seg (pos v) (s_end seg)) l2.
Proof using O.
  intros H L. cbn [interior]. rewrite (max_farthest _ _ _ _ H), L, nth_error_app2, Nat.sub_diag by lia. cbn [nth_error].
  rewrite firstn_app, Nat.sub_diag, firstn_all. cbn [firstn]. rewrite app_nil_r. rewrite skipn_app, skipn_all2 by lia. replace (S (length l1) - length l1) with 1 by lia. cbn [skipn app].
  destruct (l1 ++ v :: l2) eqn:E; [destruct l1; discriminate|reflexivity].
Qed.
Lemma fuel_enough f : forall seg l, length l <= f -> interior pos eps f seg l = I seg l.
Proof using O.
  induction f as [f IH] using lt_wf_ind. intros seg l Hl. destruct f as [|f]; [destruct l; [reflexivity|cbn in Hl; lia]|].
  destruct l as [|x l]; [reflexivity|]. pose proof (scan seg (x :: l)) as H. destruct (farthest pos seg (x :: l)) as [i m]. cbn [fst snd] in H.
  destruct (nlt N eps m) eqn:L; [|rewrite !(step_stop _ _ _ _ _ H L); reflexivity].
  destruct (max_at seg (x :: l) i m ltac:(discriminate) H) as (l1 & v & l2 & E & ->). rewrite E in *. rewrite (step_split f seg l1 v l2 m H L).
  replace (length (l1 ++ v :: l2)) with (S (length l1 + length l2)) in * by (rewrite app_length; cbn; lia). rewrite (step_split _ seg l1 v l2 m H L).
  rewrite (IH f) by lia. rewrite (IH f) by lia. rewrite (IH (length l1 + length l2) ltac:(lia) _ l1) by lia. rewrite (IH (length l1 + length l2) ltac:(lia) _ l2) by lia. reflexivity.
Qed.
Lemma I_split seg l1 v l2 m : first_max seg (l1 ++ v :: l2) (length l1) m -> nlt N eps m = true ->
  I seg (l1 ++ v :: l2) = I (Seg (s_start seg) (pos v)) l1 ++ v :: I (Seg (pos v) (s_end seg)) l2.
Proof using O.
  intros H L. replace (length (l1 ++ v :: l2)) with (S (length l1 + length l2)) by (rewrite app_length; cbn; lia). rewrite (step_split _ seg l1 v l2 m H L).
  rewrite (fuel_enough (length l1 + length l2) _ l1), (fuel_enough (length l1 + length l2) _ l2) by lia. reflexivity.
Qed.
(** an induction for everything that the recursion does *)
Lemma I_ind (P : segment N -> list A -> list A -> Prop) :
  (forall seg l i m, first_max seg l i m -> nlt N eps m = false -> P seg l []) -> (forall seg, P seg [] []) ->
  (forall seg l1 v l2 m k1 k2, first_max seg (l1 ++ v :: l2) (length l1) m -> nlt N eps m = true ->
     P (Seg (s_start seg) (pos v)) l1 k1 -> P (Seg (pos v) (s_end seg)) l2 k2 -> P seg (l1 ++ v :: l2) (k1 ++ v :: k2)) ->
  forall seg l, P seg l (I seg l).
Proof using O.
  intros H1 H0 H2 seg l. remember (length l) as n eqn:En. revert seg l En. induction n as [n IH] using lt_wf_ind. intros seg l ->.
  destruct l as [|x l]; [apply H0|]. pose proof (scan seg (x :: l)) as H. destruct (farthest pos seg (x :: l)) as [i m]. cbn [fst snd] in H.
  destruct (nlt N eps m) eqn:L; [|rewrite (step_stop _ _ _ _ _ H L); eapply H1; eassumption].
  destruct (max_at seg (x :: l) i m ltac:(discriminate) H) as (l1 & v & l2 & E & ->). rewrite E in *. rewrite (I_split seg l1 v l2 m H L). assert (Q : length (l1 ++ v :: l2) = S (length l1 + length l2)) by (rewrite app_length; cbn; lia).
  eapply H2; [eassumption|exact L| |]; eapply IH; try reflexivity; lia.
Qed.
Lemma I_incl seg l x : In x (I seg l) -> In x l.
Proof using O.
  revert x. apply (I_ind (fun seg l k => forall x, In x k -> In x l)); [intros ? ? ? ? ? ? x []|intros ? x []|].
  intros s l1 v l2 m k1 k2 _ _ H1 H2 x Hx. apply in_app_or in Hx. apply in_or_app. destruct Hx as [Hx|[<-|Hx]]; [left; auto|right; left; reflexivity|right; right; auto].
Qed.
Lemma I_idem seg l : I seg (I seg l) = I seg l.
Proof using O.
  remember (length l) as n eqn:En. revert seg l En. induction n as [n IH] using lt_wf_ind. intros seg l ->.
  destruct l as [|x l]; [reflexivity|]. pose proof (scan seg (x :: l)) as H. destruct (farthest pos seg (x :: l)) as [i m]. cbn [fst snd] in H.
  destruct (nlt N eps m) eqn:L; [|rewrite (step_stop _ _ _ _ _ H L); reflexivity].
  destruct (max_at seg (x :: l) i m ltac:(discriminate) H) as (l1 & v & l2 & E & ->). rewrite E in *. rewrite (I_split seg l1 v l2 m H L). assert (Q : length (l1 ++ v :: l2) = S (length l1 + length l2)) by (rewrite app_length; cbn; lia).
  set (k1 := I (Seg (s_start seg) (pos v)) l1). set (k2 := I (Seg (pos v) (s_end seg)) l2).
  assert (F : first_max seg (k1 ++ v :: k2) (length k1) m).
  { destruct H as [(H1 & H2 & H3)|(j1 & w & j2 & F1 & H1 & H2 & H3 & H4 & H5)].
    - destruct l1; [|discriminate]. left. split; [reflexivity|]. split; [exact H2|]. intros y [<-|Hy]; apply H3; [left; reflexivity|]. right. apply (I_incl _ _ _ Hy).
    - assert (X : l1 = j1 /\ v = w /\ l2 = j2). { clear - F1 H1. revert j1 F1 H1. induction l1 as [|a l1 IH]; intros [|b j1] F1 H1; try discriminate; cbn in F1; injection F1; intros; subst; [auto|]. cbn in H1. destruct (IH j1 ltac:(assumption) ltac:(lia)) as (-> & -> & ->). auto. }
      destruct X as (<- & <- & <-). right. exists k1, v, k2. repeat (split; [first [reflexivity|assumption]|]). split; [intros y Hy; apply H4; apply (I_incl _ _ _ Hy)|]. intros y Hy. apply H5, (I_incl _ _ _ Hy). }
  rewrite (I_split seg k1 v k2 m F L). unfold k1, k2. rewrite (IH (length l1) ltac:(lia) _ l1 eq_refl), (IH (length l2) ltac:(lia) _ l2 eq_refl). reflexivity.
Qed.
(** ** What is kept *)
Lemma max_far seg l1 v l2 m : nlt N eps n0 = false -> first_max seg (l1 ++ v :: l2) (length l1) m -> nlt N eps m = true ->
  m = dist_point_segment (pos v) seg /\ (forall x, In x l1 -> ok (dist_point_segment (pos x) seg) -> nlt N (dist_point_segment (pos x) seg) m = true) /\ forall x, In x l2 -> nlt N m (dist_point_segment (pos x) seg) = false.
Proof using.
  intros E0 [(_ & -> & _)|(j1 & w & j2 & F1 & H1 & H2 & H3 & H4 & H5)] L; [congruence|].
  assert (X : l1 = j1 /\ v = w /\ l2 = j2). { clear - F1 H1. revert j1 F1 H1. induction l1 as [|a l1 IH]; intros [|b j1] F1 H1; try discriminate; cbn in F1; injection F1; intros; subst; [auto|]. cbn in H1. destruct (IH j1 ltac:(assumption) ltac:(lia)) as (-> & -> & ->). auto. }
  destruct X as (<- & <- & <-). auto.
Qed.
Notation D a b v := (dist_point_segment (pos v) (Seg (pos a) (pos b))).
Lemma I_peucker a b l : nlt N eps n0 = false ->
  peucker (fun a b v => far a b v) (fun a b x v => nle N (D a b v) (D a b x) = true) (fun a b x v => nlt N (D a b v) (D a b x) = true) a b l (I (Seg (pos a) (pos b)) l).
Proof using O.
  intros E0.
  assert (H := I_ind (fun seg l k => forall a b, seg = Seg (pos a) (pos b) -> peucker (fun a b v => far a b v) (fun a b x v => nle N (D a b v) (D a b x) = true) (fun a b x v => nlt N (D a b v) (D a b x) = true) a b l k)).
  cbv beta in H. refine (H _ _ _ (Seg (pos a) (pos b)) l a b eq_refl); clear H.
  - intros seg k i m H L c d ->. apply p_stop. intros v Hv F. pose proof (max_all _ _ _ _ v H Hv) as K. rewrite (le_lt _ _ _ (max_ok _ _ _ _ H) K L) in F. discriminate.
  - intros seg c d ->. apply p_stop. intros v [].
  - intros seg l1 v l2 m k1 k2 H L P1 P2 c d ->. destruct (max_far _ _ _ _ _ E0 H L) as (-> & H4 & H5). apply p_split.
    + exact L.
    + intros x Hx Q. destruct (o_le _ _ O _ _ Q) as [Q1 Q2]. rewrite (H4 x Hx Q1) in Q2. discriminate.
    + intros x Hx Q. rewrite (H5 x Hx) in Q. discriminate.
    + apply P1. reflexivity.
    + apply P2. reflexivity.
Qed.
Lemma drops_app near l1 v l2 k1 k2 : drops near (l1 ++ [v]) (k1 ++ [v]) -> drops near (v :: l2) (v :: k2) -> drops near (l1 ++ v :: l2) (k1 ++ v :: k2) (A := A).
Proof using.
  intros H1 H2. remember (l1 ++ [v]) as l eqn:El. remember (k1 ++ [v]) as k eqn:Ek. revert l1 k1 El Ek. induction H1 as [c|c mid d l k Hn H IH]; intros l1 k1 El Ek.
  - destruct l1 as [|x [|]]; try discriminate. destruct k1 as [|y [|]]; try discriminate. exact H2.
  - destruct k1 as [|y k1]; [discriminate|]. cbn in Ek. injection Ek as -> Ek.
    assert (Q : exists l1', l1 = y :: mid ++ l1' /\ d :: l = l1' ++ [v]).
    { destruct (exists_last (l := d :: l) ltac:(discriminate)) as (r & w & Er). rewrite Er in El. change (y :: mid ++ r ++ [w]) with ((y :: mid) ++ (r ++ [w])) in El. rewrite app_assoc in El. apply app_inj_tail in El. destruct El as [El ->]. exists r. split; [symmetry; exact El|exact Er]. }
    destruct Q as (l1' & -> & Q). specialize (IH _ _ Q Ek). cbn. rewrite <- app_assoc.
    assert (X : forall (m1 m2 m3 : list A), d :: m1 = m2 ++ [v] -> exists m4, m2 ++ v :: m3 = d :: m4).
    { intros m1 [|e m2] m3 X; cbn in X; injection X; intros; subst; [exists m3; reflexivity|exists (m2 ++ v :: m3); reflexivity]. }
    destruct (X _ _ l2 Q) as [l3 E3]. destruct (X _ _ k2 Ek) as [k3 F3]. rewrite E3, F3 in *. apply drop_run; assumption.
Qed.
Lemma I_drops a b l : drops (fun a b v => ~ far a b v) (a :: l ++ [b]) (a :: I (Seg (pos a) (pos b)) l ++ [b]).
Proof using O.
  assert (H := I_ind (fun seg l k => forall a b, seg = Seg (pos a) (pos b) -> drops (fun a b v => ~ far a b v) (a :: l ++ [b]) (a :: k ++ [b]))).
  cbv beta in H. refine (H _ _ _ (Seg (pos a) (pos b)) l a b eq_refl); clear H.
  - intros seg k i m H L c d ->. cbn [app]. apply drop_run; [|apply drop_end]. intros v Hv F. pose proof (max_all _ _ _ _ v H Hv) as K. rewrite (le_lt _ _ _ (max_ok _ _ _ _ H) K L) in F. discriminate.
  - intros seg c d ->. apply (drop_run _ c []); [intros v []|apply drop_end].
  - intros seg l1 v l2 m k1 k2 H L P1 P2 c d ->. cbn [s_start s_end] in P1, P2. rewrite <- !app_assoc. cbn [app]. change (c :: l1 ++ v :: l2 ++ [d]) with ((c :: l1) ++ v :: l2 ++ [d]). change (c :: k1 ++ v :: k2 ++ [d]) with ((c :: k1) ++ v :: k2 ++ [d]).
    apply drops_app; [apply P1|apply P2]; reflexivity.
Qed.
End Simplify.
