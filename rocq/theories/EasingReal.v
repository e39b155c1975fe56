(** Exact piecewise linear, step and Bezier easing; monotone Bezier tables in floats. *)
From Coq Require Import ZArith Bool Reals Lra Lia List.
From Flocq Require Import Core IEEE754.BinarySingleNaN.
From Verif Require Import F32 F32Lemmas F32Round NumModel EasingModel EasingSteps EasingBezier EasingExact EasingLinear EasingSpec EasingCurve.
Import ListNotations.
Open Scope R_scope.

Definition finp (p : R * R) : ereal * ereal := (Fin (fst p), Fin (snd p)).
Local Notation X := xnum.

(** *** Linear *)
Lemma segment_x p q x : segment_y (N := X) (finp p) (finp q) (Fin x) =
  Fin (if Req_bool (snd p) (snd q) then snd q else if Req_bool (fst p) (fst q) then (if Rlt_bool x (fst q) then snd p else snd q) else line p q x).
Proof.
  unfold segment_y, finp. cbn [fst snd neqb nlt X xeq xlt].
  destruct (Req_bool_spec (snd p) (snd q)); [reflexivity|]. destruct (Req_bool_spec (fst p) (fst q)); [destruct (Rlt_bool x (fst q)); reflexivity|].
  unfold lerp. cbn [nadd nsub nmul ndiv X]. rewrite !xsub_fin. rewrite xdiv_fin by lra. cbn [xmul xadd]. reflexivity.
Qed.
Lemma split_x x pts : ordered_points pts -> exists l1 l2, pts = l1 ++ l2 /\ Forall (fun p => fst p <= x) l1 /\ Forall (fun p => x < fst p) l2 /\
  upper_bound (N := X) (Fin x) (fin_points pts) = (fin_points l1, fin_points l2).
Proof.
  induction pts as [|p pts IH]; intros S; [exists [], []; repeat split; constructor|].
  change (fin_points (p :: pts)) with (finp p :: fin_points pts). cbn [upper_bound]. cbn [nlt X finp fst xlt].
  destruct (Rlt_bool_spec x (fst p)) as [L|L].
  - exists [], (p :: pts). split; [reflexivity|]. split; [constructor|]. split; [|reflexivity].
    clear IH. revert p S L. induction pts as [|q pts IH]; intros p S L; constructor; try exact L; [constructor|].
    destruct S as [S1 S2]. apply IH; [exact S2|lra].
  - destruct IH as (l1 & l2 & E & H1 & H2 & H3). { destruct pts; [exact I|apply S]. }
    exists (p :: l1), l2. rewrite H3. split; [cbn; f_equal; exact E|]. split; [constructor; assumption|]. split; [exact H2|reflexivity].
Qed.
Lemma last_fin l d : last (fin_points l) (finp d) = finp (last l d).
Proof. induction l as [|p l IH]; [reflexivity|]. destruct l; [reflexivity|]. exact IH. Qed.
Lemma hd_fin l d : hd (finp d) (fin_points l) = finp (hd d l).
Proof. destruct l; reflexivity. Qed.
Lemma order_x pts : ordered_points pts -> valid_order (N := X) (fin_points pts) = true.
Proof.
  induction pts as [|p pts IH]; [reflexivity|]. destruct pts as [|q pts]; [reflexivity|]. intros [A B].
  change (valid_order (N := X) (fin_points (p :: q :: pts))) with (if nlt X (Fin (fst q)) (Fin (fst p)) then false else valid_order (N := X) (fin_points (q :: pts))).
  cbn [nlt X xlt]. rewrite Rlt_bool_false by lra. apply IH, B.
Qed.

Lemma linear_exact pts x : Forall (fun p => 0 <= fst p <= 1) pts -> ordered_points pts ->
  exists y, eases (N := X) (ELinear (N := X) (fin_points pts)) (Fin x) (Fin y) /\ curve pts x y.
Proof.
  intros B S.
  assert (GG : Forall (good xord) (fin_points pts)).
  { apply Forall_forall. intros p I. unfold fin_points in I. apply in_map_iff in I. destruct I as (q & <- & Iq).
    rewrite Forall_forall in B. split; [exists (fst q); reflexivity|]. split; [exists (snd q); reflexivity|]. exact (B q Iq). }
  pose proof (order_sorted X xord _ GG (order_x pts S)) as SS.
  assert (Ox : ok X xord (Fin x)) by (exists x; reflexivity).
  destruct (split_x x pts S) as (l1 & l2 & E & H1 & H2 & U).
  set (p := last l1 (0, 0)). set (q := hd (1, 1) l2).
  assert (V : get_y_linear (N := X) (fin_points pts) (Fin x) = segment_y (N := X) (finp p) (finp q) (Fin x)).
  { rewrite (get_y_view X xord) by exact Ox. unfold Lx, Fx, before, after. rewrite U. cbn [fst snd]. rewrite x0, x1e.
    change (Fin 0, Fin 0) with (finp (0, 0)). change (Fin 1, Fin 1) with (finp (1, 1)). rewrite last_fin, hd_fin. reflexivity. }
  rewrite segment_x in V.
  match type of V with _ = Fin ?r => remember r as y eqn:Ey in V end.
  assert (C : get_y_linear (N := X) (compact (N := X) (fin_points pts)) (Fin x) = Fin y).
  { destruct (compact_curve X xord (fin_points pts) (Fin x) GG SS Ox) as [Q|[_ Q]]; [rewrite Q; exact V|].
    rewrite V in Q. cbn [neqb X] in Q. destruct (get_y_linear (N := X) (compact (N := X) (fin_points pts)) (Fin x)) as [r|s|]; cbn in Q; try discriminate Q.
    destruct (Req_bool_spec r y); [f_equal; assumption|discriminate Q]. }
  exists y. split. { exists 0%nat. eexists. split; [reflexivity|]. cbn [get_y]. f_equal. exact C. }
  assert (B1 : Forall (fun p => 0 <= fst p <= 1) l1 /\ Forall (fun p => 0 <= fst p <= 1) l2) by (rewrite E in B; apply Forall_app in B; exact B).
  destruct B1 as [B1 B2].
  assert (EA : exists A, (0, 0) :: l1 = A ++ [p]).
  { destruct l1 as [|a l1] using rev_ind; [exists []; reflexivity|]. unfold p. rewrite last_last. exists ((0, 0) :: l1). reflexivity. }
  destruct EA as [A EA].
  assert (EB : exists Bq, l2 ++ [(1, 1)] = q :: Bq). { destruct l2 as [|b l2]; [exists []; reflexivity|]. eexists; reflexivity. }
  destruct EB as [Bq EB].
  assert (EF : (0, 0) :: pts ++ [(1, 1)] = A ++ p :: q :: Bq).
  { rewrite E, <- app_assoc, EB. change ((0, 0) :: l1 ++ q :: Bq) with (((0, 0) :: l1) ++ q :: Bq). rewrite EA, <- app_assoc. reflexivity. }
  assert (Pp : fst p <= x \/ x < 0).
  { destruct (Rlt_or_le x 0) as [|X0]; [right; assumption|left]. unfold p. destruct l1 as [|a l1] using rev_ind; [cbn; lra|]. rewrite last_last. apply Forall_app in H1. destruct H1 as [_ H1]. inversion H1; assumption. }
  assert (Qq : x < fst q \/ 1 <= x).
  { destruct (Rlt_or_le x 1) as [X1|]; [left|right; assumption]. unfold q. destruct l2 as [|b l2]; [cbn; lra|]. inversion H2; assumption. }
  unfold curve. destruct (Rlt_or_le x 0) as [X0|X0].
  - right; right; left. split; [exact X0|].
    assert (l1 = []) as ->. { destruct l1 as [|a l1]; [reflexivity|]. inversion H1; subst. inversion B1; subst. cbn in *. lra. }
    assert (Hp : p = (0, 0)) by reflexivity. assert (A = []) as -> by (destruct A as [|a [|a' A]]; [reflexivity|discriminate EA|discriminate EA]).
    exists q, Bq. rewrite EF, Hp. split; [reflexivity|]. 
    assert (Q0 : 0 <= fst q). { unfold q. destruct l2; cbn; [lra|]. inversion B2; subst. lra. }
    rewrite Ey, Hp. cbn [fst snd]. split; intros Z.
    + destruct (Req_bool_spec 0 (snd q)); [lra|]. rewrite Req_bool_true by lra. rewrite Rlt_bool_true by lra. reflexivity.
    + destruct (Req_bool_spec 0 (snd q)) as [Z1|]; [unfold line; cbn [fst snd]; rewrite <- Z1; lra|]. rewrite Req_bool_false by lra. reflexivity.
  - destruct Pp as [Pp|]; [|lra].
    destruct (Rlt_or_le x 1) as [X1|X1].
    + destruct Qq as [Qq|]; [|lra]. destruct (Req_dec (fst p) x) as [PX|PX].
      * left. exists A, p, (q :: Bq). split; [exact EF|]. split; [exact PX|]. split.
        { rewrite <- EB. apply Forall_app. split; [exact H2|]. constructor; [cbn; lra|constructor]. }
        rewrite Ey. destruct (Req_bool_spec (snd p) (snd q)); [lra|]. rewrite Req_bool_false by lra. unfold line. rewrite PX. unfold Rdiv. replace (x - x) with 0 by lra. lra.
      * right; left. exists A, p, q, Bq. split; [exact EF|]. split; [lra|].
        rewrite Ey. destruct (Req_bool_spec (snd p) (snd q)) as [Z|Z]; [unfold line; rewrite Z; replace (snd q - snd q) with 0 by lra; lra|]. rewrite Req_bool_false by lra. reflexivity.
    + assert (l2 = []) as ->. { destruct l2 as [|b l2]; [reflexivity|]. inversion H2; subst. inversion B2; subst. cbn in *. lra. }
      assert (Hq : q = (1, 1)) by reflexivity. cbn in EB. injection EB as EB2. subst Bq. rewrite Hq in Ey, EF. cbn [fst snd] in Ey.
      assert (P1 : fst p <= 1). { unfold p. destruct l1 as [|a l1] using rev_ind; [cbn; lra|]. rewrite last_last. apply Forall_app in B1. destruct B1 as [_ B1]. inversion B1; subst. lra. }
      assert (Y1 : fst p = 1 -> y = 1).
      { intros Z. rewrite Ey. destruct (Req_bool_spec (snd p) 1); [reflexivity|]. rewrite Req_bool_true by exact Z. rewrite Rlt_bool_false by lra. reflexivity. }
      assert (YL : fst p <> 1 -> y = line p (1, 1) x).
      { intros Z. rewrite Ey. destruct (Req_bool_spec (snd p) 1) as [Z1|]; [unfold line; cbn [fst snd]; rewrite Z1; lra|]. rewrite Req_bool_false by exact Z. reflexivity. }
      destruct (Req_dec x 1) as [->|XN].
      * left. exists (A ++ [p]), (1, 1), []. split; [rewrite EF, <- app_assoc; reflexivity|]. split; [reflexivity|]. split; [constructor|]. cbn [snd].
        destruct (Req_dec (fst p) 1) as [Z|Z]; [apply Y1, Z|]. rewrite (YL Z). unfold line. cbn [fst snd]. field. lra.
      * right; right; right. split; [lra|]. exists A, p. split; [exact EF|]. auto.
Qed.

(** *** Steps *)
Lemma steps_exact n pos x : (1 <= n)%Z -> valid_steps n pos = true ->
  (x < 0 -> eases (N := X) (ESteps (N := X) n pos) (Fin x) (Fin 0)) /\
  (1 <= x -> eases (N := X) (ESteps (N := X) n pos) (Fin x) (Fin 1)) /\
  (forall k, (0 <= k < n)%Z -> IZR k / IZR n <= x < IZR (k + 1) / IZR n ->
     eases (N := X) (ESteps (N := X) n pos) (Fin x) (Fin (stair pos (IZR n) (IZR k)))).
Proof.
  intros Hn Hv. assert (Pn : 1 <= IZR n) by (apply IZR_le; lia).
  assert (K : forall y, match steps_impl (N := X) n pos with ISteps c h s => get_y_steps (N := X) c h s (Fin x) | _ => Nan end = Fin y ->
     eases (N := X) (ESteps (N := X) n pos) (Fin x) (Fin y)).
  { intros y H. assert (SI : exists c h s, steps_impl (N := X) n pos = ISteps (N := X) c h s).
    { unfold steps_impl. repeat match goal with |- context [if ?b then _ else _] => destruct b end; eauto. }
    destruct SI as (c & h & s & SI). rewrite SI in H. exists 0%nat, (ISteps (N := X) c h s). split; [cbn [make_impl]; rewrite SI; reflexivity|cbn [get_y]; f_equal; exact H]. }
  assert (SI : exists h s, steps_impl (N := X) n pos = ISteps (N := X) (Fin (IZR n)) (Fin h) (Fin s) /\ forall k, s + h * k = stair pos (IZR n) k).
  { unfold steps_impl, stair. rewrite !x1e, !x0, !xZ. cbn [ndiv nadd nsub X]. rewrite !xsub_fin. cbn [xadd]. unfold valid_steps in Hv.
    unfold kJumpEnd, kJumpStart, kJumpNone, kJumpBoth in *.
    destruct (negb (valid_position pos)) eqn:VP; [discriminate Hv|]. apply negb_false_iff in VP.
    unfold valid_position, kJumpEnd, kJumpStart, kJumpNone, kJumpBoth in VP. cbn [existsb] in VP. rewrite orb_false_r in VP.
    destruct (Z.eqb_spec pos 0); [subst pos|destruct (Z.eqb_spec pos 1); [subst pos|destruct (Z.eqb_spec pos 3); [subst pos|destruct (Z.eqb_spec pos 2); [subst pos|discriminate VP]]]]; cbn [Z.eqb].
    - rewrite xdiv_fin by lra. do 2 eexists. split; [reflexivity|]. intros k. field. lra.
    - rewrite xdiv_fin by lra. do 2 eexists. split; [reflexivity|]. intros k. field. lra.
    - cbn [Z.eqb andb Pos.eqb] in Hv. destruct (Z.ltb_spec n 2); [discriminate Hv|].
      assert (2 <= IZR n) by (apply IZR_le; lia).
      rewrite xdiv_fin by lra. do 2 eexists. split; [reflexivity|]. intros k. cbn [Pos.eqb]. field. lra.
    - rewrite xdiv_fin by lra. do 2 eexists. split; [reflexivity|]. intros k. cbn [Pos.eqb]. field. lra. }
  destruct SI as (h & s & SI & ST). rewrite SI in K. unfold get_y_steps in K. rewrite x0, x1e in K. cbn [nlt nle X xlt] in K. unfold xle, xlt, xeq in K.
  split; [|split].
  - intros H. apply K. rewrite Rlt_bool_true by exact H. reflexivity.
  - intros H. apply K. rewrite Rlt_bool_false by lra. destruct (Rlt_bool_spec 1 x); [reflexivity|]. rewrite Req_bool_true by lra. reflexivity.
  - intros k Hk Hx. apply K.
    assert (X0 : 0 <= x). { apply Rle_trans with (IZR k / IZR n); [|lra]. apply Rmult_le_pos; [apply IZR_le; lia|]. left. apply Rinv_0_lt_compat. lra. }
    assert (X1 : x < 1).
    { apply Rlt_le_trans with (IZR (k + 1) / IZR n); [lra|]. apply Rmult_le_reg_r with (IZR n); [lra|]. unfold Rdiv. rewrite Rmult_assoc, Rinv_l by lra. rewrite Rmult_1_r, Rmult_1_l. apply IZR_le. lia. }
    rewrite Rlt_bool_false by lra. rewrite Rlt_bool_false by lra. rewrite Req_bool_false by lra. cbn [orb nadd nmul nfloor X xmul xadd].
    assert (Fl : Zfloor (IZR n * x) = k).
    { apply Zfloor_imp. destruct Hx as [Hx1 Hx2]. split.
      - apply Rmult_le_compat_l with (r := IZR n) in Hx1; [|lra]. replace (IZR n * (IZR k / IZR n)) with (IZR k) in Hx1 by (field; lra). exact Hx1.
      - apply Rmult_lt_compat_l with (r := IZR n) in Hx2; [|lra]. replace (IZR n * (IZR (k + 1) / IZR n)) with (IZR (k + 1)) in Hx2 by (field; lra). exact Hx2. }
    rewrite Fl. f_equal. apply ST.
Qed.

(** *** Exact Bezier *)
Lemma cubic_bezier a b t : cubic a b t = bezier a b t. Proof. unfold cubic, bezier. ring. Qed.
Lemma chord_near x1 y1 x2 y2 g y k : (1 <= k <= 78)%nat -> on_chord x1 y1 x2 y2 g y k -> near_bezier x1 y1 x2 y2 g y.
Proof.
  intros Hk ((A1 & A2) & B & ->). exists (INR (k - 1) / 78), (INR k / 78), ((g - cubic x1 x2 (INR (k - 1) / 78)) / (cubic x1 x2 (INR k / 78) - cubic x1 x2 (INR (k - 1) / 78))).
  rewrite <- !cubic_bezier. assert (Kp : INR k = INR (k - 1) + 1) by (rewrite <- S_INR; f_equal; lia).
  assert (0 <= INR (k - 1)) by apply pos_INR. assert (INR k <= 78). { replace 78 with (INR 78) by (rewrite INR_IZR_INZ; reflexivity). apply le_INR; lia. }
  set (u := cubic x1 x2 (INR (k - 1) / 78)) in *. set (w := cubic x1 x2 (INR k / 78)) in *.
  split; [split; [apply Rmult_le_pos; lra|apply Rmult_lt_compat_r; lra]|]. split; [lra|]. split; [lra|]. split; [|split].
  - split; [apply Rmult_le_pos; [lra|left; apply Rinv_0_lt_compat; lra]|].
    apply Rmult_le_reg_r with (w - u); [lra|]. unfold Rdiv. rewrite Rmult_assoc, Rinv_l by lra. lra.
  - field. lra.
  - ring.
Qed.
Lemma bezier_exact x1 y1 x2 y2 : 0 <= x1 <= 1 -> 0 <= x2 <= 1 ->
  exists g : nat -> R, g 0%nat = 0 /\ g 13%nat = 1 /\
    (forall j, (j <= 13)%nat -> near_bezier x1 y1 x2 y2 (INR j / 13) (g j)) /\
    forall x, let e := EBezier (N := X) (Fin x1) (Fin y1) (Fin x2) (Fin y2) in
      (x <= 0 -> eases (N := X) e (Fin x) (Fin 0)) /\
      (1 <= x -> eases (N := X) e (Fin x) (Fin 1)) /\
      (forall j, (j < 13)%nat -> INR j / 13 <= x < INR (S j) / 13 ->
         eases (N := X) e (Fin x) (Fin (g j + (g (S j) - g j) * (13 * x - INR j)))).
Proof.
  intros U1 U2. destruct (table_x x1 y1 x2 y2 U1 U2) as (l & L1 & L2 & L3).
  exists (fun j => match nth_error l j with Some (Fin r) => r | _ => 0 end).
  assert (G : forall j, (j < 14)%nat -> exists y, nth_error l j = Some (Fin y) /\ near_bezier x1 y1 x2 y2 (INR j / 13) y /\ (j = 0%nat -> y = 0) /\ (j = 13%nat -> y = 1)).
  { intros j Hj. destruct (L3 j Hj) as (y & k & Hk & C & Q). exists y. split; [exact Q|]. split; [apply (chord_near _ _ _ _ _ _ k Hk C)|]. split; intros ->.
    - apply (chord_first x1 y1 x2 y2 U1 U2 y k Hk). replace (INR 0 / 13) with 0 in C by (cbn; lra). exact C.
    - apply (chord_last x1 y1 x2 y2 U1 U2 y k Hk). replace (INR 13 / 13) with 1 in C by (rewrite INR_IZR_INZ; cbn; lra). exact C. }
  destruct (G 0%nat ltac:(lia)) as (g0 & N0 & _ & Z0 & _). destruct (G 13%nat ltac:(lia)) as (g1 & N1 & _ & _ & Z1).
  rewrite (Z0 eq_refl) in N0. rewrite (Z1 eq_refl) in N1.
  split; [rewrite N0; reflexivity|]. split; [rewrite N1; reflexivity|]. split.
  { intros j Hj. destruct (G j ltac:(lia)) as (y & -> & Q & _). exact Q. }
  intros x e.
  assert (K : forall y, get_y_table (N := X) l (Fin x) = Some (Fin y) -> eases (N := X) e (Fin x) (Fin y)).
  { intros y H. exists 78%nat, (ITable (N := X) l). split; [|exact H]. unfold e. cbn [make_impl]. rewrite L1. reflexivity. }
  unfold get_y_table in K. rewrite x0, x1e in K. cbn [nnan nle X] in K. unfold xle, xlt, xeq in K.
  split; [|split].
  - intros H. apply K. assert (HH : Rlt_bool x 0 || Req_bool x 0 = true).
    { destruct (Rlt_bool_spec x 0); [reflexivity|]. rewrite Req_bool_true by lra. reflexivity. }
    rewrite HH. destruct l; [discriminate N0|exact N0].
  - intros H. apply K. rewrite Rlt_bool_false, Req_bool_false by lra. cbn [orb].
    assert (HH : Rlt_bool 1 x || Req_bool 1 x = true).
    { destruct (Rlt_bool_spec 1 x); [reflexivity|]. rewrite Req_bool_true by lra. reflexivity. }
    rewrite HH. clear - L2 N1. do 14 (destruct l as [|? l]; [discriminate L2|]). destruct l; [|discriminate L2]. cbn in *. exact N1.
  - intros j Hj Hx. rewrite S_INR in Hx. apply K.
    destruct (G j ltac:(lia)) as (a & Na & _). destruct (G (S j) ltac:(lia)) as (b & Nb & _).
    assert (Pj : 0 <= INR j) by apply pos_INR.
    assert (J13 : INR j + 1 <= 13). { rewrite <- S_INR. replace 13 with (INR 13) by (rewrite INR_IZR_INZ; reflexivity). apply le_INR. lia. }
    destruct (Req_dec x 0) as [X0|X0].
    + assert (j = 0%nat) as ->. { destruct j; [reflexivity|]. exfalso. rewrite S_INR in Hx. pose proof (pos_INR j). lra. }
      rewrite X0, Rlt_bool_false, Req_bool_true by lra. cbn [orb]. rewrite N0, Nb. replace (13 * 0 - INR 0) with 0 by (cbn; lra). rewrite Rmult_0_r, Rplus_0_l. destruct l; [discriminate N0|exact N0].
    + assert (0 < x) by (assert (0 <= INR j / 13) by (apply Rmult_le_pos; lra); lra).
      rewrite Rlt_bool_false, Req_bool_false by lra. cbn [orb]. rewrite Rlt_bool_false, Req_bool_false by lra. cbn [orb].
      rewrite xZ. cbn [nmul ntrunc nsub X xmul].
      assert (Tr : Ztrunc (x * 13) = Z.of_nat j).
      { rewrite Ztrunc_floor by lra. apply Zfloor_imp. rewrite plus_IZR, <- INR_IZR_INZ. lra. }
      rewrite Tr, Nat2Z.id, Nat.add_1_r. rewrite Na, Nb.
      destruct (Z.ltb_spec (Z.of_nat j) 0); [lia|]. rewrite xZ. unfold lerp. cbn [nadd nmul nsub X]. rewrite !xsub_fin. cbn [xmul xadd]. rewrite <- INR_IZR_INZ. do 2 f_equal. ring.
Qed.
