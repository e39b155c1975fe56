(** Executing a validated node list evaluates its expression trees. *)
From Coq Require Import ZArith Bool Arith Lia List.
From Verif Require Import NumModel NumLaws EasingModel EasingSpec EasingCurve BehaviorModel BehaviorSpec BehaviorTree TipModel.
Import ListNotations.

(** a table of the size the code builds can be read everywhere *)
Definition reads (N : num) : Prop := forall (tab : list (T N)) x, length tab = 14 -> exists y, get_y_table tab x = Some y.

Section Run.
Context {N : num} (L : laws N) (RD : reads N).
Notation F := (T N).
Notation mem := (option F).
Notation expr := (expr N mem).
Notation root := (root N mem).

Lemma table_length x1 y1 x2 y2 n : forall fuel i t vx vy (l : list F), table_from x1 y1 x2 y2 fuel i n t vx vy = Some l -> length l = n.
Proof.
  induction n as [|n IH]; intros fuel i t vx vy l H; cbn [table_from] in H; [injection H as <-; reflexivity|].
  destruct (table_entry x1 y1 x2 y2 fuel t vx vy (nmul N (nZ (Z.of_nat i)) table_dx)) as [[[[[f' t'] vx'] vy'] y]|]; [|discriminate].
  destruct (table_from x1 y1 x2 y2 f' (S i) n t' vx' vy') as [l'|] eqn:E; [|discriminate]. injection H as <-.
  cbn. f_equal. eauto.
Qed.
Definition shaped (i : impl N) : Prop := match i with ITable tab => length tab = 14 | _ => True end.
Lemma impl_shape fuel (e : easing N) i : make_impl fuel e = Some i -> shaped i.
Proof.
  assert (Q : forall x1 y1 x2 y2 j, option_map ITable (bezier_table (N := N) x1 y1 x2 y2 fuel) = Some j -> shaped j).
  { intros x1 y1 x2 y2 j H. unfold bezier_table in H. destruct (table_from x1 y1 x2 y2 fuel 0 14 n0 n0 n0) eqn:E; [|discriminate].
    injection H as <-. eapply table_length, E. }
  assert (R : forall c s, shaped (steps_impl (N := N) c s)).
  { intros. unfold steps_impl. destruct (Z.eqb s kJumpEnd), (Z.eqb s kJumpStart), (Z.eqb s kJumpNone), (Z.eqb s kJumpBoth); exact I. }
  destruct e; cbn [make_impl]; intros H; eauto.
  - destruct (Z.eqb p kLinear); [injection H as <-; exact I|].
    destruct (Z.eqb p kStepEnd); [injection H as <-; apply R|].
    destruct (Z.eqb p kStepStart); [injection H as <-; apply R|].
    destruct (predef_bezier p) as [[[[x1 y1] x2] y2]|]; [eauto|discriminate].
  - injection H as <-. exact I.
  - injection H as <-. apply R.
Qed.
Lemma get_y_total fuel (e : easing N) i x : make_impl fuel e = Some i -> exists y, get_y i x = Some y.
Proof. intros H. apply impl_shape in H. unfold shaped in H. destruct i; cbn [get_y]; eauto. Qed.
Lemma get_y_nan (i : impl N) x y : nnan N x = true -> get_y i x = Some y -> nnan N y = true.
Proof.
  intros Hx H. destruct i; cbn [get_y] in H.
  - injection H as <-. exact Hx.
  - unfold get_y_table in H. rewrite Hx in H. injection H as <-. exact Hx.
  - unfold get_y_linear in H. rewrite Hx in H. injection H as <-. exact Hx.
  - injection H as <-. unfold get_y_steps. rewrite (l_lt_nan N L) by exact Hx. rewrite (l_le_nan N L) by exact Hx.
    apply (l_add N L). right. apply (l_mul N L). right. apply (l_floor N L). apply (l_mul N L). auto.
Qed.

(** *** Runtime nodes of a listing: [di], [ti] are the next free slots, [dm] what the
    damping nodes remember, in the order of their slots *)
Inductive cv : nat -> nat -> list (rnode N) -> expr -> list root -> list mem -> Prop :=
| cv_source di ti s o lo hi b rs dm : ca di ti b rs dm -> cv di ti (RSource s o lo hi :: b) (XSource _ s o lo hi) rs dm
| cv_const di ti v b rs dm : nfin N v = true -> ca di ti b rs dm -> cv di ti (RConstant v :: b) (XConst _ v) rs dm
| cv_fallback di ti p l e rs dm b rs' dm' : cv di ti l e rs dm -> ca (di + length dm) (ti + length rs) b rs' dm' ->
    cv di ti (l ++ RFallback p :: b) (XFallback _ p e) (rs ++ rs') (dm ++ dm')
| cv_tool di ti p l e rs dm b rs' dm' : cv di ti l e rs dm -> ca (di + length dm) (ti + length rs) b rs' dm' ->
    cv di ti (l ++ RToolType p :: b) (XTool _ p e) (rs ++ rs') (dm ++ dm')
| cv_damp di ti d g md l e rs dm b rs' dm' : documented_node (DampingNode (N := N) d g) ->
    cv di ti l e rs dm -> ca (S (di + length dm)) (ti + length rs) b rs' dm' ->
    cv di ti (l ++ RDamping (di + length dm) d g :: b) (XDamp _ d g md e) (rs ++ rs') (dm ++ md :: dm')
| cv_response di ti fuel f i l e rs dm b rs' dm' : make_impl fuel f = Some i ->
    cv di ti l e rs dm -> ca (di + length dm) (ti + length rs) b rs' dm' ->
    cv di ti (l ++ REasing i :: b) (XResponse _ f e) (rs ++ rs') (dm ++ dm')
| cv_binary di ti o l1 e1 rs1 dm1 l2 e2 rs2 dm2 b rs' dm' : (forall z, o <> OtherBinaryOp z) ->
    cv di ti l1 e1 rs1 dm1 -> cv (di + length dm1) (ti + length rs1) l2 e2 rs2 dm2 ->
    ca (di + length dm1 + length dm2) (ti + length rs1 + length rs2) b rs' dm' ->
    cv di ti (l1 ++ l2 ++ RBinary o :: b) (XBinary _ o e1 e2) (rs1 ++ rs2 ++ rs') (dm1 ++ dm2 ++ dm')
| cv_interp di ti o l1 e1 rs1 dm1 l2 e2 rs2 dm2 l3 e3 rs3 dm3 b rs' dm' : (forall z, o <> OtherInterpolation z) ->
    cv di ti l1 e1 rs1 dm1 -> cv (di + length dm1) (ti + length rs1) l2 e2 rs2 dm2 ->
    cv (di + length dm1 + length dm2) (ti + length rs1 + length rs2) l3 e3 rs3 dm3 ->
    ca (di + length dm1 + length dm2 + length dm3) (ti + length rs1 + length rs2 + length rs3) b rs' dm' ->
    cv di ti (l1 ++ l2 ++ l3 ++ RInterpolation o :: b) (XInterp _ o e1 e2 e3) (rs1 ++ rs2 ++ rs3 ++ rs') (dm1 ++ dm2 ++ dm3 ++ dm')
with ca : nat -> nat -> list (rnode N) -> list root -> list mem -> Prop :=
| ca_nil di ti : ca di ti [] [] []
| ca_target di ti t lo hi md l e rs dm b rs' dm' : cv di ti l e rs dm -> ca (di + length dm) (S (ti + length rs)) b rs' dm' ->
    ca di ti (l ++ RTarget (ti + length rs) lo hi :: b) (rs ++ Root _ t lo hi e md :: rs') (dm ++ dm').

Scheme cv_ind2 := Induction for cv Sort Prop with ca_ind2 := Induction for ca Sort Prop.
Combined Scheme cv_mutind from cv_ind2, ca_ind2.

(** *** Building the runtime nodes *)
Record grown (m m' : tip_modeler N) (code : list (rnode N)) (rs : list root) (k : nat) : Prop := {
  g_tip : tip m' = tip m; g_size : size m' = size m; g_next : next_fixed m' = next_fixed m; g_gap : gap m' = gap m;
  g_last : last_fixed m' = last_fixed m; g_saved : saved m' = saved m; g_new : new_fixed m' = new_fixed m;
  g_nodes : nodes m' = nodes m ++ code; g_stack : bstack m' = bstack m;
  g_cd : cur_damped m' = cur_damped m ++ repeat (nNaN N) k;
  g_fd : fixed_damped m' = fixed_damped m ++ repeat (nNaN N) k;
  g_targets : targets m' = targets m ++ map (r_target _) rs;
  g_cm : cur_mods m' = cur_mods m ++ map (r_modifier _) rs;
  g_fm : fixed_mods m' = fixed_mods m ++ map (r_modifier _) rs }.
Lemma grown_refl m : grown m m [] [] 0.
Proof. split; cbn; rewrite ?app_nil_r; reflexivity. Qed.
Lemma grown_trans a b c x y r s k j : grown a b x r k -> grown b c y s j -> grown a c (x ++ y) (r ++ s) (k + j).
Proof. intros [] []. split; rewrite ?map_app, ?repeat_app, ?app_assoc; congruence. Qed.
Lemma append_nodes_app fuel l l' (m : tip_modeler N) :
  append_nodes fuel m (l ++ l') = match append_nodes fuel m l with Some m1 => append_nodes fuel m1 l' | None => None end.
Proof. revert m. induction l as [|n l IH]; intros m; cbn [app append_nodes]; [reflexivity|]. destruct (append_node fuel m n); auto. Qed.
Lemma append_concat fuel bs (m : tip_modeler N) : append_behaviors fuel m bs = append_nodes fuel m (concat bs).
Proof.
  revert m. induction bs as [|b bs IH]; intros m; cbn [append_behaviors concat]; [reflexivity|].
  rewrite append_nodes_app. destruct (append_nodes fuel m b); auto.
Qed.

Definition plain_code (n : node N) : option (rnode N) :=
  match n with
  | SourceNode s o lo hi => Some (RSource s o lo hi)
  | ConstantNode v => Some (RConstant v)
  | FallbackFilterNode p => Some (RFallback p)
  | ToolTypeFilterNode t => Some (RToolType t)
  | BinaryOpNode o => Some (RBinary o)
  | InterpolationNode i => Some (RInterpolation i)
  | _ => None
  end.
Lemma plain_grown fuel (m : tip_modeler N) n r m' : append_node fuel m n = Some m' -> plain_code n = Some r -> grown m m' [r] [] 0.
Proof.
  intros H P. destruct n; cbn [plain_code] in P; try discriminate; injection P as <-; cbn [append_node] in H; injection H as <-;
    split; cbn [tip size next_fixed gap last_fixed saved new_fixed nodes bstack cur_damped fixed_damped targets cur_mods fixed_mods map repeat];
    rewrite ?app_nil_r; reflexivity.
Qed.
Lemma damp_grown fuel (m : tip_modeler N) d g m' : append_node fuel m (DampingNode d g) = Some m' ->
  grown m m' [RDamping (length (cur_damped m)) d g] [] 1.
Proof.
  intros H. cbn [append_node] in H; injection H as <-.
    split; cbn [tip size next_fixed gap last_fixed saved new_fixed nodes bstack cur_damped fixed_damped targets cur_mods fixed_mods map repeat];
    rewrite ?app_nil_r; reflexivity.
Qed.
Lemma response_grown fuel m e m' : append_node fuel m (ResponseNode e) = Some m' ->
  exists i, make_impl fuel e = Some i /\ grown m m' [REasing i] [] 0.
Proof.
  intros H. cbn [append_node] in H. destruct (make_impl fuel e) as [i|]; [|discriminate]. cbn [option_map] in H. injection H as <-.
  exists i. split; [reflexivity|].
    split; cbn [tip size next_fixed gap last_fixed saved new_fixed nodes bstack cur_damped fixed_damped targets cur_mods fixed_mods map repeat];
    rewrite ?app_nil_r; reflexivity.
Qed.
Lemma initial_multiplies t : initial_modifier t = (if multiplies t then n1 else n0 : F).
Proof. destruct t; reflexivity. Qed.
Lemma target_grown fuel m t lo hi (e : expr) m' : append_node fuel m (TargetNode t lo hi) = Some m' ->
  grown m m' [RTarget (length (targets m)) lo hi] [Root _ t lo hi e (if multiplies t then n1 else n0)] 0.
Proof.
  intros H. cbn [append_node] in H; injection H as <-.
    split; cbn [tip size next_fixed gap last_fixed saved new_fixed nodes bstack cur_damped fixed_damped targets cur_mods fixed_mods map repeat r_target r_modifier];
    rewrite ?app_nil_r, <- ?initial_multiplies; reflexivity.
Qed.

Lemma append_one fuel (m : tip_modeler N) n l m' : append_nodes fuel m (n :: l) = Some m' ->
  exists m1, append_node fuel m n = Some m1 /\ append_nodes fuel m1 l = Some m'.
Proof. cbn [append_nodes]. destruct (append_node fuel m n) as [m1|]; [eauto|discriminate]. Qed.
Lemma append_split fuel (m : tip_modeler N) l l' m' : append_nodes fuel m (l ++ l') = Some m' ->
  exists m1, append_nodes fuel m l = Some m1 /\ append_nodes fuel m1 l' = Some m'.
Proof. rewrite append_nodes_app. destruct (append_nodes fuel m l) as [m1|]; [eauto|discriminate]. Qed.

Definition compiled (fuel : nat) (rel : nat -> nat -> list (rnode N) -> list mem -> Prop) (l : list (node N)) (rs : list root) : Prop :=
  forall m m', append_nodes fuel m l = Some m' ->
    exists code k, grown m m' code rs k /\ rel (length (cur_damped m)) (length (targets m)) code (repeat None k).
Lemma grown_d m m' code rs k : grown m m' code rs k -> length (cur_damped m') = length (cur_damped m) + k.
Proof. intros []. rewrite g_cd0, app_length, repeat_length. reflexivity. Qed.
Lemma grown_t m m' code rs k : grown m m' code rs k -> length (targets m') = length (targets m) + length rs.
Proof. intros []. rewrite g_targets0, app_length, map_length. reflexivity. Qed.

Lemma compile fuel :
  (forall l (e : expr) rs, lists_value l e rs -> Forall documented_node l -> fresh_expr e -> Forall fresh_root rs ->
     compiled fuel (fun di ti code dm => cv di ti code e rs dm) l rs) /\
  (forall l (rs : list root), lists l rs -> Forall documented_node l -> Forall fresh_root rs ->
     compiled fuel (fun di ti code dm => ca di ti code rs dm) l rs).
Proof.
  apply lists_mutind; unfold compiled; cbn [fresh_expr]; intros;
  repeat match goal with
    | H : Forall _ (_ ++ _) |- _ => apply Forall_app in H; destruct H
    | H : Forall _ (_ :: _) |- _ => inversion H; clear H; subst
    | H : _ /\ _ |- _ => destruct H
    | H : append_nodes _ _ (_ ++ _) = Some _ |- _ => apply append_split in H; destruct H as (? & ? & ?)
    | H : append_nodes _ _ (_ :: _) = Some _ |- _ => apply append_one in H; destruct H as (? & ? & ?)
    end;
  repeat match goal with
    | IH : Forall _ ?l -> _, D : Forall documented_node ?l |- _ => specialize (IH D)
    | IH : fresh_expr ?e -> _, D : fresh_expr ?e |- _ => specialize (IH D)
    | IH : Forall fresh_root ?e -> _, D : Forall fresh_root ?e |- _ => specialize (IH D)
    end.
  - (* source *)
    match goal with A : append_node _ _ _ = Some ?m1, B : append_nodes _ ?m1 _ = Some _ |- _ =>
      pose proof (plain_grown _ _ _ _ _ A eq_refl) as G1; destruct (H _ _ B) as (code & k & G & C) end.
    eexists (_ :: code), k. split; [exact (grown_trans _ _ _ _ _ _ _ _ _ G1 G)|]. constructor; auto.
    rewrite (grown_d _ _ _ _ _ G1), (grown_t _ _ _ _ _ G1), !Nat.add_0_r in C. exact C.
  - match goal with A : append_node _ _ _ = Some ?m1, B : append_nodes _ ?m1 _ = Some _ |- _ =>
      pose proof (plain_grown _ _ _ _ _ A eq_refl) as G1; destruct (H _ _ B) as (code & k & G & C) end.
    eexists (_ :: code), k. split; [exact (grown_trans _ _ _ _ _ _ _ _ _ G1 G)|]. constructor; auto.
    rewrite (grown_d _ _ _ _ _ G1), (grown_t _ _ _ _ _ G1), !Nat.add_0_r in C. exact C.
  - (* fallback *)
    match goal with A : append_nodes _ m l = Some ?m1, B : append_node _ ?m1 _ = Some ?m2, D : append_nodes _ ?m2 b = Some _ |- _ =>
      destruct (H _ _ A) as (code & k & G & C); pose proof (plain_grown _ _ _ _ _ B eq_refl) as G1;
      destruct (H0 _ _ D) as (code' & k' & G' & C') end.
    eexists (code ++ _ :: code'), (k + k'). split; [exact (grown_trans _ _ _ _ _ _ _ _ _ G (grown_trans _ _ _ _ _ _ _ _ _ G1 G'))|].
    rewrite repeat_app; constructor; auto.
    rewrite (grown_d _ _ _ _ _ G1), (grown_t _ _ _ _ _ G1), !Nat.add_0_r, (grown_d _ _ _ _ _ G), (grown_t _ _ _ _ _ G) in C'.
    rewrite repeat_length; exact C'.
  - match goal with A : append_nodes _ m l = Some ?m1, B : append_node _ ?m1 _ = Some ?m2, D : append_nodes _ ?m2 b = Some _ |- _ =>
      destruct (H _ _ A) as (code & k & G & C); pose proof (plain_grown _ _ _ _ _ B eq_refl) as G1;
      destruct (H0 _ _ D) as (code' & k' & G' & C') end.
    eexists (code ++ _ :: code'), (k + k'). split; [exact (grown_trans _ _ _ _ _ _ _ _ _ G (grown_trans _ _ _ _ _ _ _ _ _ G1 G'))|].
    rewrite repeat_app; constructor; auto.
    rewrite (grown_d _ _ _ _ _ G1), (grown_t _ _ _ _ _ G1), !Nat.add_0_r, (grown_d _ _ _ _ _ G), (grown_t _ _ _ _ _ G) in C'.
    rewrite repeat_length; exact C'.
  - (* damping *)
    match goal with A : append_nodes _ m l = Some ?m1, B : append_node _ ?m1 _ = Some ?m2, D : append_nodes _ ?m2 b = Some _ |- _ =>
      destruct (H _ _ A) as (code & k & G & C); pose proof (damp_grown _ _ _ _ _ B) as G1;
      destruct (H0 _ _ D) as (code' & k' & G' & C') end.
    pose proof (grown_d _ _ _ _ _ G) as GD. pose proof (grown_t _ _ _ _ _ G) as GT.
    rewrite (grown_d _ _ _ _ _ G1), (grown_t _ _ _ _ _ G1), GD, GT, Nat.add_1_r in C'. cbn [length] in C'. rewrite Nat.add_0_r in C'.
    rewrite GD in G1.
    exists (code ++ RDamping (length (cur_damped m) + k) d g :: code'), (k + (1 + k')). split.
    + exact (grown_trans _ _ _ _ _ _ _ _ _ G (grown_trans _ _ _ _ _ _ _ _ _ G1 G')).
    + rewrite repeat_app. cbn [repeat Nat.add]. subst mem. rewrite <- (repeat_length (@None F) k) at 1.
      constructor; auto. rewrite repeat_length. exact C'.
  - (* response *)
    match goal with A : append_nodes _ m l = Some ?m1, B : append_node _ ?m1 _ = Some ?m2, D : append_nodes _ ?m2 b = Some _ |- _ =>
      destruct (H _ _ A) as (code & k & G & C); destruct (response_grown _ _ _ _ B) as (i & Hi & G1);
      destruct (H0 _ _ D) as (code' & k' & G' & C') end.
    rewrite (grown_d _ _ _ _ _ G1), (grown_t _ _ _ _ _ G1), !Nat.add_0_r, (grown_d _ _ _ _ _ G), (grown_t _ _ _ _ _ G) in C'.
    exists (code ++ REasing i :: code'), (k + k'). split.
    + exact (grown_trans _ _ _ _ _ _ _ _ _ G (grown_trans _ _ _ _ _ _ _ _ _ G1 G')).
    + rewrite repeat_app. econstructor; eauto. rewrite repeat_length. exact C'.
  - (* binary *)
    match goal with A : append_nodes _ m l1 = Some ?m1, A2 : append_nodes _ ?m1 l2 = Some ?m2,
        B : append_node _ ?m2 _ = Some ?m3, D : append_nodes _ ?m3 b = Some _ |- _ =>
      destruct (H _ _ A) as (code & k & G & C); destruct (H0 _ _ A2) as (code2 & k2 & G2 & C2);
      pose proof (plain_grown _ _ _ _ _ B eq_refl) as G1; destruct (H1 _ _ D) as (code' & k' & G' & C') end.
    rewrite (grown_d _ _ _ _ _ G1), (grown_t _ _ _ _ _ G1), !Nat.add_0_r, (grown_d _ _ _ _ _ G2), (grown_t _ _ _ _ _ G2), (grown_d _ _ _ _ _ G), (grown_t _ _ _ _ _ G) in C'.
    rewrite (grown_d _ _ _ _ _ G), (grown_t _ _ _ _ _ G) in C2.
    eexists (code ++ code2 ++ _ :: code'), (k + (k2 + k')). split.
    + exact (grown_trans _ _ _ _ _ _ _ _ _ G (grown_trans _ _ _ _ _ _ _ _ _ G2 (grown_trans _ _ _ _ _ _ _ _ _ G1 G'))).
    + rewrite !repeat_app. constructor; rewrite ?repeat_length; auto.
  - match goal with A : append_nodes _ m l1 = Some ?m1, A2 : append_nodes _ ?m1 l2 = Some ?m2, A3 : append_nodes _ ?m2 l3 = Some ?m3,
        B : append_node _ ?m3 _ = Some ?m4, D : append_nodes _ ?m4 b = Some _ |- _ =>
      destruct (H _ _ A) as (code & k & G & C); destruct (H0 _ _ A2) as (code2 & k2 & G2 & C2); destruct (H1 _ _ A3) as (code3 & k3 & G3 & C3);
      pose proof (plain_grown _ _ _ _ _ B eq_refl) as G1; destruct (H2 _ _ D) as (code' & k' & G' & C') end.
    rewrite (grown_d _ _ _ _ _ G1), (grown_t _ _ _ _ _ G1), !Nat.add_0_r, (grown_d _ _ _ _ _ G3), (grown_t _ _ _ _ _ G3), (grown_d _ _ _ _ _ G2), (grown_t _ _ _ _ _ G2), (grown_d _ _ _ _ _ G), (grown_t _ _ _ _ _ G) in C'.
    rewrite (grown_d _ _ _ _ _ G2), (grown_t _ _ _ _ _ G2), (grown_d _ _ _ _ _ G), (grown_t _ _ _ _ _ G) in C3.
    rewrite (grown_d _ _ _ _ _ G), (grown_t _ _ _ _ _ G) in C2.
    eexists (code ++ code2 ++ code3 ++ _ :: code'), (k + (k2 + (k3 + k'))). split.
    + exact (grown_trans _ _ _ _ _ _ _ _ _ G (grown_trans _ _ _ _ _ _ _ _ _ G2 (grown_trans _ _ _ _ _ _ _ _ _ G3 (grown_trans _ _ _ _ _ _ _ _ _ G1 G')))).
    + rewrite !repeat_app. constructor; rewrite ?repeat_length; auto.
  - exists [], 0. match goal with A : append_nodes _ _ [] = Some _ |- _ => injection A as <- end. split; [apply grown_refl|constructor].
  - (* target *)
    match goal with A : append_nodes _ m l = Some ?m1, B : append_node _ ?m1 _ = Some ?m2, D : append_nodes _ ?m2 b = Some _, Q : fresh_root _ |- _ =>
      destruct Q as [FE FM]; cbn [r_expr r_modifier r_target] in FE, FM; specialize (H FE ltac:(assumption));
      destruct (H _ _ A) as (code & k & G & C); pose proof (target_grown _ _ _ _ _ e _ B) as G1; rewrite <- FM in G1;
      destruct (H0 _ _ D) as (code' & k' & G' & C') end.
    pose proof (grown_d _ _ _ _ _ G) as GD. pose proof (grown_t _ _ _ _ _ G) as GT.
    rewrite (grown_d _ _ _ _ _ G1), (grown_t _ _ _ _ _ G1), GD, GT in C'. cbn [length] in C'. rewrite Nat.add_1_r, Nat.add_0_r in C'.
    rewrite GT in G1.
    exists (code ++ RTarget (length (targets m) + length rs) lo hi :: code'), (k + k'). split.
    + exact (grown_trans _ _ _ _ _ _ _ _ _ G (grown_trans _ _ _ _ _ _ _ _ _ G1 G')).
    + rewrite repeat_app. constructor; auto. rewrite repeat_length. exact C'.
Qed.

(** *** Executing them *)
Lemma set_nth_mid (p q : list F) a v : set_nth (length p) v (p ++ a :: q) = Some (p ++ v :: q).
Proof. induction p as [|b p IH]; cbn [length app set_nth]; [reflexivity|]. rewrite IH. reflexivity. Qed.
Lemma nth_error_mid (p q : list F) a : nth_error (p ++ a :: q) (length p) = Some a.
Proof. rewrite nth_error_app2, Nat.sub_diag; auto. Qed.
Lemma process_app c l l' (m : machine N) :
  process_nodes c (l ++ l') m = match process_nodes c l m with Some m1 => process_nodes c l' m1 | None => None end.
Proof. revert m. induction l as [|n l IH]; intros m; cbn [app process_nodes]; [reflexivity|]. destruct (process_node c n m); auto. Qed.

Lemma nan_some x : nnan N x = false -> not_nan (N := N) x = Some x.
Proof. intros H. unfold not_nan. rewrite H. reflexivity. Qed.
Lemma nan_none x : nnan N x = true -> not_nan (N := N) x = None.
Proof. intros H. unfold not_nan. rewrite H. reflexivity. Qed.
Lemma not_nan_NaN : not_nan (nNaN N) = None.
Proof. apply nan_none, (l_nan N L). Qed.
Lemma not_nan_inv x v : not_nan (N := N) x = Some v -> v = x /\ nnan N x = false.
Proof. unfold not_nan. destruct (nnan N x); [discriminate|]. intros [= <-]. auto. Qed.
Lemma not_nan_inv0 x : not_nan (N := N) x = None -> nnan N x = true.
Proof. unfold not_nan. destruct (nnan N x); [reflexivity|discriminate]. Qed.

Lemma binary_ok o a b : (forall z, o <> OtherBinaryOp z) -> not_nan (apply_binary o a b) = binary_step (N := N) o (not_nan a) (not_nan b).
Proof.
  intros Ho. unfold apply_binary, binary_step, finite_only.
  assert (Q : forall r, not_nan (if nfin N r then r else nNaN N) = if nfin N r then Some r else None).
  { intros r. destruct (nfin N r) eqn:E; [apply nan_some, (l_fin N L), E|apply not_nan_NaN]. }
  destruct o as [| |z]; [| |exfalso; apply (Ho z); reflexivity]; rewrite Q;
    (destruct (nnan N a) eqn:A; [rewrite (nan_none a A)|rewrite (nan_some a A)];
     [|destruct (nnan N b) eqn:B; [rewrite (nan_none b B)|rewrite (nan_some b B); reflexivity]]).
  1,2: rewrite (l_nan_fin N L); [reflexivity|apply (l_mul N L); auto].
  1,2: rewrite (l_nan_fin N L); [reflexivity|apply (l_add N L); auto].
Qed.
Lemma interp_ok i p lo hi : (forall z, i <> OtherInterpolation z) ->
  not_nan (apply_interpolation i p lo hi) = interp_step (N := N) i (not_nan p) (not_nan lo) (not_nan hi).
Proof.
  intros Ho. unfold apply_interpolation, interp_step, finite_only.
  assert (Q : forall r, not_nan (if nfin N r then r else nNaN N) = if nfin N r then Some r else None).
  { intros r. destruct (nfin N r) eqn:E; [apply nan_some, (l_fin N L), E|apply not_nan_NaN]. }
  destruct (nnan N lo) eqn:A, (nnan N hi) eqn:B, (nnan N p) eqn:C; cbn [orb];
    try (rewrite not_nan_NaN);
    rewrite ?(nan_none p C), ?(nan_some p C), ?(nan_none lo A), ?(nan_some lo A), ?(nan_none hi B), ?(nan_some hi B);
    destruct i as [| |z]; try (exfalso; apply (Ho z); reflexivity); try reflexivity; rewrite ?Q; try reflexivity.
  destruct (neqb N lo hi); [apply not_nan_NaN|apply Q].
Qed.
Lemma damp_ok c d g old x : documented_node (DampingNode (N := N) d g) -> (cx_prev c = None -> not_nan old = None) ->
  exists v, damp_value c d g old x = Some v /\ not_nan v = damp_step c d g (not_nan old) (not_nan x).
Proof.
  intros (Hd & Hg & _) Hp. unfold damp_value, damp_step.
  destruct (nnan N x) eqn:X; [rewrite (nan_none x X); eauto|rewrite (nan_some x X)].
  destruct (nnan N old) eqn:O; cbn [orb]; [rewrite (nan_none old O); eexists; split; [reflexivity|apply nan_some, X]|rewrite (nan_some old O)].
  destruct (neqb N g n0); [eexists; split; [reflexivity|apply nan_some, X]|].
  destruct (cx_prev c) as [prev|]; [|specialize (Hp eq_refl); rewrite (nan_some old O) in Hp; discriminate].
  destruct d as [| | |z]; [| | |exfalso; apply (Hd z); reflexivity].
  - destruct (st_unit (cx_state c)); eexists; (split; [reflexivity|]); [reflexivity|apply nan_some, X].
  - eexists; (split; [reflexivity|]). reflexivity.
  - eexists; (split; [reflexivity|]). unfold dur_seconds. rewrite (l_fin N L g Hg). reflexivity.
Qed.

Definition bare (c : context N) (dm : list mem) : Prop := cx_prev c = None -> Forall (fun x => x = None) dm.
Lemma bare_app c dm dm' : bare c (dm ++ dm') -> bare c dm /\ bare c dm'.
Proof. intros H. split; intros E; specialize (H E); apply Forall_app in H; tauto. Qed.
Lemma bare_cons c x dm : bare c (x :: dm) -> (cx_prev c = None -> x = None) /\ bare c dm.
Proof. intros H. split; intros E; specialize (H E); inversion H; auto. Qed.

Definition mach (s dpre fs dpost mpre : list F) (rs : list root) (mpost : list F) : machine N :=
  {| stack := s; damped := dpre ++ fs ++ dpost; modifiers := mpre ++ map (r_modifier _) rs ++ mpost |}.

Lemma mach_l s dpre f1 f2 dpost mpre r1 r2 mpost :
  mach s dpre (f1 ++ f2) dpost mpre (r1 ++ r2) mpost = mach s dpre f1 (f2 ++ dpost) mpre r1 (map (r_modifier _) r2 ++ mpost).
Proof. unfold mach. rewrite map_app, <- !app_assoc. reflexivity. Qed.
Lemma mach_r s dpre f1 f2 dpost mpre r1 r2 mpost :
  mach s dpre f1 (f2 ++ dpost) mpre r1 (map (r_modifier _) r2 ++ mpost) = mach s (dpre ++ f1) f2 dpost (mpre ++ map (r_modifier _) r1) r2 mpost.
Proof. unfold mach. rewrite <- !app_assoc. reflexivity. Qed.
Lemma mach_stack s dpre fs dpost mpre rs mpost : stack (mach s dpre fs dpost mpre rs mpost) = s.
Proof. reflexivity. Qed.

Lemma all_step_length c rs rs' : all_step (N := N) c rs rs' -> length rs' = length rs.
Proof. induction 1; cbn; congruence. Qed.

Lemma exec c :
  (forall di ti code e rs dm, cv di ti code e rs dm -> bare c dm ->
     forall s dpre dpost mpre mpost fs, length dpre = di -> length mpre = ti -> map not_nan fs = dm ->
     exists f e' rs' dm' fs', evals c e (not_nan f) e' /\ all_step c rs rs' /\ cv di ti code e' rs' dm' /\
       map not_nan fs' = dm' /\ length fs' = length fs /\
       process_nodes c code (mach s dpre fs dpost mpre rs mpost) = Some (mach (f :: s) dpre fs' dpost mpre rs' mpost)) /\
  (forall di ti code rs dm, ca di ti code rs dm -> bare c dm ->
     forall s dpre dpost mpre mpost fs, length dpre = di -> length mpre = ti -> map not_nan fs = dm ->
     exists rs' dm' fs', all_step c rs rs' /\ ca di ti code rs' dm' /\
       map not_nan fs' = dm' /\ length fs' = length fs /\
       process_nodes c code (mach s dpre fs dpost mpre rs mpost) = Some (mach s dpre fs' dpost mpre rs' mpost)).
Proof.
  apply cv_mutind.
  - (* source *)
    intros di ti sr o lo hi b rs dm Hb IHb B s dpre dpost mpre mpost fs E1 E2 E3.
    set (f := match get_source_value (cx_input c) (cx_dir c) (cx_size c) (cx_state c) sr with
              | None => nNaN N | Some v => apply_out_of_range o (inverse_lerp lo hi v) end).
    destruct (IHb B (f :: s) dpre dpost mpre mpost fs E1 E2 E3) as (rs' & dm' & fs' & S1 & S2 & S3 & S4 & S5).
    exists f, (XSource _ sr o lo hi), rs', dm', fs'. split; [|split; [exact S1|split; [constructor; exact S2|split; [exact S3|split; [exact S4|]]]]].
    + replace (not_nan f) with (match get_source_value (cx_input c) (cx_dir c) (cx_size c) (cx_state c) sr with
       | None => None | Some v => not_nan (apply_out_of_range o (inverse_lerp lo hi v)) end); [constructor|].
      unfold f. destruct (get_source_value (cx_input c) (cx_dir c) (cx_size c) (cx_state c) sr); [reflexivity|]. symmetry; apply not_nan_NaN.
    + cbn [process_nodes process_node]. rewrite <- S5. unfold f, mach. cbn [stack damped modifiers].
      destruct (get_source_value (cx_input c) (cx_dir c) (cx_size c) (cx_state c) sr); reflexivity.
  - (* constant *)
    intros di ti v b rs dm Hv Hb IHb B s dpre dpost mpre mpost fs E1 E2 E3.
    destruct (IHb B (v :: s) dpre dpost mpre mpost fs E1 E2 E3) as (rs' & dm' & fs' & S1 & S2 & S3 & S4 & S5).
    exists v, (XConst _ v), rs', dm', fs'. split; [|split; [exact S1|split; [constructor; [exact Hv|exact S2]|split; [exact S3|split; [exact S4|]]]]].
    + rewrite nan_some by (apply (l_fin N L), Hv). constructor.
    + cbn [process_nodes process_node]. exact S5.
  - (* fallback *)
    intros di ti p l e rs dm b rs' dm' Hl IHl Hb IHb B s dpre dpost mpre mpost fs E1 E2 E3.
    apply map_eq_app in E3. destruct E3 as (fs1 & fs2 & -> & E3 & E4). apply bare_app in B. destruct B as [B1 B2].
    destruct (IHl B1 s dpre (fs2 ++ dpost) mpre (map (r_modifier _) rs' ++ mpost) fs1 E1 E2 E3) as (f & e1 & rs1 & dm1 & fs1' & S1 & S2 & S3 & S4 & S5 & S6).
    assert (LD : length dm1 = length dm) by (rewrite <- S4, <- E3, !map_length; exact S5).
    assert (LR : length rs1 = length rs) by (exact (all_step_length _ _ _ S2)).
    
    destruct (IHb B2 ((if is_property_present p (cx_input c) then nNaN N else f) :: s) (dpre ++ fs1') dpost (mpre ++ map (r_modifier _) rs1) mpost fs2) as (rs2 & dm2 & fs2' & U1 & U2 & U3 & U4 & U5);
      [rewrite app_length, S5, <- (map_length not_nan fs1), E3; congruence|rewrite app_length, map_length; congruence|exact E4|].
    exists ((if is_property_present p (cx_input c) then nNaN N else f)), (XFallback _ p e1), (rs1 ++ rs2), (dm1 ++ dm2), (fs1' ++ fs2').
    split; [|split; [|split; [|split; [|split]]]].
    + replace (not_nan (if is_property_present p (cx_input c) then nNaN N else f)) with (if is_property_present p (cx_input c) then None else not_nan f);
      [constructor; exact S1|destruct (is_property_present p (cx_input c)); [symmetry; apply not_nan_NaN|reflexivity]].
    + apply Forall2_app; assumption.
    + constructor; [exact S3|rewrite LD, LR; exact U2].
    + rewrite map_app. congruence.
    + rewrite !app_length. congruence.
    + rewrite mach_l, process_app, S6. cbn [process_nodes process_node]. rewrite mach_stack.
      rewrite (mach_l _ dpre fs1' fs2'), (mach_r _ dpre fs1' fs2'). rewrite <- (mach_r _ dpre fs1' fs2) in U5. exact U5.
  - (* tool *)
    intros di ti p l e rs dm b rs' dm' Hl IHl Hb IHb B s dpre dpost mpre mpost fs E1 E2 E3.
    apply map_eq_app in E3. destruct E3 as (fs1 & fs2 & -> & E3 & E4). apply bare_app in B. destruct B as [B1 B2].
    destruct (IHl B1 s dpre (fs2 ++ dpost) mpre (map (r_modifier _) rs' ++ mpost) fs1 E1 E2 E3) as (f & e1 & rs1 & dm1 & fs1' & S1 & S2 & S3 & S4 & S5 & S6).
    assert (LD : length dm1 = length dm) by (rewrite <- S4, <- E3, !map_length; exact S5).
    assert (LR : length rs1 = length rs) by (exact (all_step_length _ _ _ S2)).
    
    destruct (IHb B2 ((if negb (is_tool_type_enabled p (st_tool (cx_state c))) then nNaN N else f) :: s) (dpre ++ fs1') dpost (mpre ++ map (r_modifier _) rs1) mpost fs2) as (rs2 & dm2 & fs2' & U1 & U2 & U3 & U4 & U5);
      [rewrite app_length, S5, <- (map_length not_nan fs1), E3; congruence|rewrite app_length, map_length; congruence|exact E4|].
    exists ((if negb (is_tool_type_enabled p (st_tool (cx_state c))) then nNaN N else f)), (XTool _ p e1), (rs1 ++ rs2), (dm1 ++ dm2), (fs1' ++ fs2').
    split; [|split; [|split; [|split; [|split]]]].
    + replace (not_nan (if negb (is_tool_type_enabled p (st_tool (cx_state c))) then nNaN N else f)) with (if is_tool_type_enabled p (st_tool (cx_state c)) then not_nan f else None);
      [constructor; exact S1|destruct (is_tool_type_enabled p (st_tool (cx_state c))); [reflexivity|symmetry; apply not_nan_NaN]].
    + apply Forall2_app; assumption.
    + constructor; [exact S3|rewrite LD, LR; exact U2].
    + rewrite map_app. congruence.
    + rewrite !app_length. congruence.
    + rewrite mach_l, process_app, S6. cbn [process_nodes process_node]. rewrite mach_stack.
      rewrite (mach_l _ dpre fs1' fs2'), (mach_r _ dpre fs1' fs2'). rewrite <- (mach_r _ dpre fs1' fs2) in U5. exact U5.
  - (* damp *)
    intros di ti d g md l e rs dm b rs' dm' Hd Hl IHl Hb IHb B s dpre dpost mpre mpost fs E1 E2 E3.
    apply map_eq_app in E3. destruct E3 as (fs1 & fs2 & -> & E3 & E4). destruct fs2 as [|old fs2]; [discriminate|].
    cbn [map] in E4. injection E4 as E4 E5.
    apply bare_app in B. destruct B as [B1 B2]. apply bare_cons in B2. destruct B2 as [BO B2].
    destruct (IHl B1 s dpre ((old :: fs2) ++ dpost) mpre (map (r_modifier _) rs' ++ mpost) fs1 E1 E2 E3) as (f & e1 & rs1 & dm1 & fs1' & S1 & S2 & S3 & S4 & S5 & S6).
    assert (LD : length dm1 = length dm) by (rewrite <- S4, <- E3, !map_length; exact S5).
    assert (LR : length rs1 = length rs) by (exact (all_step_length _ _ _ S2)).
    assert (LF : length (dpre ++ fs1') = di + length dm) by (rewrite app_length, S5, <- (map_length not_nan fs1), E3; congruence).
    destruct (damp_ok c d g old f Hd) as (v & V1 & V2); [rewrite E4; exact BO|].
    destruct (IHb B2 (v :: s) ((dpre ++ fs1') ++ [v]) dpost (mpre ++ map (r_modifier _) rs1) mpost fs2) as (rs2 & dm2 & fs2' & U1 & U2 & U3 & U4 & U5);
      [rewrite app_length, LF; cbn; lia|rewrite app_length, map_length; congruence|exact E5|].
    exists v, (XDamp _ d g (not_nan v) e1), (rs1 ++ rs2), (dm1 ++ not_nan v :: dm2), (fs1' ++ v :: fs2').
    split; [|split; [|split; [|split; [|split]]]].
    + rewrite V2, E4. constructor. exact S1.
    + apply Forall2_app; assumption.
    + rewrite <- LD. constructor; [exact Hd|exact S3|rewrite LD, LR; exact U2].
    + rewrite map_app. cbn [map]. congruence.
    + rewrite !app_length. cbn [length]. congruence.
    + rewrite mach_l, process_app, S6. cbn [process_nodes process_node]. rewrite mach_stack.
      cbn [mach damped modifiers]. rewrite <- LF. rewrite (app_assoc dpre fs1'). cbn [app].
      rewrite nth_error_mid, V1, set_nth_mid.
      unfold mach in U5 |- *. rewrite map_app, <- ?app_assoc in *. cbn [app] in *. rewrite <- ?app_assoc in *. exact U5.
  - (* response *)
    intros di ti fuel g i l e rs dm b rs' dm' Hi Hl IHl Hb IHb B s dpre dpost mpre mpost fs E1 E2 E3.
    apply map_eq_app in E3. destruct E3 as (fs1 & fs2 & -> & E3 & E4). apply bare_app in B. destruct B as [B1 B2].
    destruct (IHl B1 s dpre (fs2 ++ dpost) mpre (map (r_modifier _) rs' ++ mpost) fs1 E1 E2 E3) as (f & e1 & rs1 & dm1 & fs1' & S1 & S2 & S3 & S4 & S5 & S6).
    assert (LD : length dm1 = length dm) by (rewrite <- S4, <- E3, !map_length; exact S5).
    assert (LR : length rs1 = length rs) by (exact (all_step_length _ _ _ S2)).
    destruct (get_y_total fuel g i f Hi) as [y Hy].
    destruct (IHb B2 (y :: s) (dpre ++ fs1') dpost (mpre ++ map (r_modifier _) rs1) mpost fs2) as (rs2 & dm2 & fs2' & U1 & U2 & U3 & U4 & U5);
      [rewrite app_length, S5, <- (map_length not_nan fs1), E3; congruence|rewrite app_length, map_length; congruence|exact E4|].
    exists (y), (XResponse _ g e1), (rs1 ++ rs2), (dm1 ++ dm2), (fs1' ++ fs2').
    split; [|split; [|split; [|split; [|split]]]].
    + destruct (nnan N f) eqn:NF.
      * rewrite (nan_none y) by (eapply get_y_nan; eauto). rewrite (nan_none f NF) in S1. constructor. exact S1.
      * rewrite (nan_some f NF) in S1. econstructor; [exact S1|]. exists fuel, i. auto.
    + apply Forall2_app; assumption.
    + apply (cv_response _ _ fuel); [exact Hi| |]; [exact S3|rewrite LD, LR; exact U2].
    + rewrite map_app. congruence.
    + rewrite !app_length. congruence.
    + rewrite mach_l, process_app, S6. cbn [process_nodes process_node]. rewrite mach_stack.
      rewrite Hy. rewrite (mach_l _ dpre fs1' fs2'), (mach_r _ dpre fs1' fs2'). rewrite <- (mach_r _ dpre fs1' fs2) in U5. exact U5.
  - (* binary *)
    intros di ti o l1 e1 rs1 dm1 l2 e2 rs2 dm2 b rs' dm' Ho H1 IH1 H2 IH2 Hb IHb B s dpre dpost mpre mpost fs E1 E2 E3.
    apply map_eq_app in E3. destruct E3 as (fs1 & fs23 & -> & E3 & E4). apply map_eq_app in E4. destruct E4 as (fs2 & fs3 & -> & E4 & E5).
    apply bare_app in B. destruct B as [B1 B2]. apply bare_app in B2. destruct B2 as [B2 B3].
    destruct (IH1 B1 s dpre ((fs2 ++ fs3) ++ dpost) mpre (map (r_modifier _) (rs2 ++ rs') ++ mpost) fs1 E1 E2 E3) as (f1 & e1' & r1 & d1 & g1 & S1 & S2 & S3 & S4 & S5 & S6).
    assert (LD1 : length d1 = length dm1) by (rewrite <- S4, <- E3, !map_length; exact S5).
    assert (LR1 : length r1 = length rs1) by (exact (all_step_length _ _ _ S2)).
    assert (LF1 : length (dpre ++ g1) = di + length dm1) by (rewrite app_length, S5, <- (map_length not_nan fs1), E3; congruence).
    assert (LM1 : length (mpre ++ map (r_modifier _) r1) = ti + length rs1) by (rewrite app_length, map_length; congruence).
    destruct (IH2 B2 (f1 :: s) (dpre ++ g1) (fs3 ++ dpost) (mpre ++ map (r_modifier _) r1) (map (r_modifier _) rs' ++ mpost) fs2 LF1 LM1 E4) as (f2 & e2' & r2 & d2 & g2 & T1 & T2 & T3 & T4 & T5 & T6).
    assert (LD2 : length d2 = length dm2) by (rewrite <- T4, <- E4, !map_length; exact T5).
    assert (LR2 : length r2 = length rs2) by (exact (all_step_length _ _ _ T2)).
    assert (LF2 : length ((dpre ++ g1) ++ g2) = di + length dm1 + length dm2) by (rewrite app_length, LF1, T5, <- (map_length not_nan fs2), E4; congruence).
    assert (LM2 : length ((mpre ++ map (r_modifier _) r1) ++ map (r_modifier _) r2) = ti + length rs1 + length rs2) by (rewrite app_length, LM1, map_length; congruence).
    destruct (IHb B3 (apply_binary o f1 f2 :: s) ((dpre ++ g1) ++ g2) dpost ((mpre ++ map (r_modifier _) r1) ++ map (r_modifier _) r2) mpost fs3 LF2 LM2 E5) as (r3 & d3 & g3 & U1 & U2 & U3 & U4 & U5).
    exists (apply_binary o f1 f2), (XBinary _ o e1' e2'), (r1 ++ r2 ++ r3), (d1 ++ d2 ++ d3), (g1 ++ g2 ++ g3).
    split; [|split; [|split; [|split; [|split]]]].
    + rewrite binary_ok by exact Ho. constructor; assumption.
    + apply Forall2_app; [|apply Forall2_app]; assumption.
    + constructor; rewrite ?LD1, ?LR1, ?LD2, ?LR2; assumption.
    + rewrite !map_app. congruence.
    + rewrite !app_length. congruence.
    + rewrite mach_l, process_app, S6. rewrite mach_r, mach_l, process_app, T6. cbn [process_nodes process_node]. rewrite mach_stack.
      unfold mach in U5 |- *. rewrite !map_app, <- ?app_assoc in *. exact U5.
  - (* interpolation *)
    intros di ti o l1 e1 rs1 dm1 l2 e2 rs2 dm2 l3 e3 rs3 dm3 b rs' dm' Ho H1 IH1 H2 IH2 H3 IH3 Hb IHb B s dpre dpost mpre mpost fs E1 E2 E3.
    apply map_eq_app in E3. destruct E3 as (fs1 & fs234 & -> & E3 & E4). apply map_eq_app in E4. destruct E4 as (fs2 & fs34 & -> & E4 & E5).
    apply map_eq_app in E5. destruct E5 as (fs3 & fs4 & -> & E5 & E6).
    apply bare_app in B. destruct B as [B1 B2]. apply bare_app in B2. destruct B2 as [B2 B3]. apply bare_app in B3. destruct B3 as [B3 B4].
    destruct (IH1 B1 s dpre ((fs2 ++ fs3 ++ fs4) ++ dpost) mpre (map (r_modifier _) (rs2 ++ rs3 ++ rs') ++ mpost) fs1 E1 E2 E3) as (f1 & e1' & r1 & d1 & g1 & S1 & S2 & S3 & S4 & S5 & S6).
    assert (LD1 : length d1 = length dm1) by (rewrite <- S4, <- E3, !map_length; exact S5).
    assert (LR1 : length r1 = length rs1) by (exact (all_step_length _ _ _ S2)).
    assert (LF1 : length (dpre ++ g1) = di + length dm1) by (rewrite app_length, S5, <- (map_length not_nan fs1), E3; congruence).
    assert (LM1 : length (mpre ++ map (r_modifier _) r1) = ti + length rs1) by (rewrite app_length, map_length; congruence).
    destruct (IH2 B2 (f1 :: s) (dpre ++ g1) ((fs3 ++ fs4) ++ dpost) (mpre ++ map (r_modifier _) r1) (map (r_modifier _) (rs3 ++ rs') ++ mpost) fs2 LF1 LM1 E4) as (f2 & e2' & r2 & d2 & g2 & T1 & T2 & T3 & T4 & T5 & T6).
    assert (LD2 : length d2 = length dm2) by (rewrite <- T4, <- E4, !map_length; exact T5).
    assert (LR2 : length r2 = length rs2) by (exact (all_step_length _ _ _ T2)).
    assert (LF2 : length ((dpre ++ g1) ++ g2) = di + length dm1 + length dm2) by (rewrite app_length, LF1, T5, <- (map_length not_nan fs2), E4; congruence).
    assert (LM2 : length ((mpre ++ map (r_modifier _) r1) ++ map (r_modifier _) r2) = ti + length rs1 + length rs2) by (rewrite app_length, LM1, map_length; congruence).
    destruct (IH3 B3 (f2 :: f1 :: s) ((dpre ++ g1) ++ g2) (fs4 ++ dpost) ((mpre ++ map (r_modifier _) r1) ++ map (r_modifier _) r2) (map (r_modifier _) rs' ++ mpost) fs3 LF2 LM2 E5) as (f3 & e3' & r3 & d3 & g3 & V1 & V2 & V3 & V4 & V5 & V6).
    assert (LD3 : length d3 = length dm3) by (rewrite <- V4, <- E5, !map_length; exact V5).
    assert (LR3 : length r3 = length rs3) by (exact (all_step_length _ _ _ V2)).
    assert (LF3 : length (((dpre ++ g1) ++ g2) ++ g3) = di + length dm1 + length dm2 + length dm3) by (rewrite app_length, LF2, V5, <- (map_length not_nan fs3), E5; congruence).
    assert (LM3 : length (((mpre ++ map (r_modifier _) r1) ++ map (r_modifier _) r2) ++ map (r_modifier _) r3) = ti + length rs1 + length rs2 + length rs3) by (rewrite app_length, LM2, map_length; congruence).
    destruct (IHb B4 (apply_interpolation o f1 f2 f3 :: s) (((dpre ++ g1) ++ g2) ++ g3) dpost (((mpre ++ map (r_modifier _) r1) ++ map (r_modifier _) r2) ++ map (r_modifier _) r3) mpost fs4 LF3 LM3 E6) as (r4 & d4 & g4 & U1 & U2 & U3 & U4 & U5).
    exists (apply_interpolation o f1 f2 f3), (XInterp _ o e1' e2' e3'), (r1 ++ r2 ++ r3 ++ r4), (d1 ++ d2 ++ d3 ++ d4), (g1 ++ g2 ++ g3 ++ g4).
    split; [|split; [|split; [|split; [|split]]]].
    + rewrite interp_ok by exact Ho. constructor; assumption.
    + apply Forall2_app; [|apply Forall2_app; [|apply Forall2_app]]; assumption.
    + constructor; rewrite ?LD1, ?LR1, ?LD2, ?LR2, ?LD3, ?LR3; assumption.
    + rewrite !map_app. congruence.
    + rewrite !app_length. congruence.
    + rewrite mach_l, process_app, S6. rewrite mach_r, mach_l, process_app, T6. rewrite mach_r, mach_l, process_app, V6.
      cbn [process_nodes process_node]. rewrite mach_stack.
      unfold mach in U5 |- *. rewrite !map_app, <- ?app_assoc in *. exact U5.
  - (* nothing *)
    intros di ti B s dpre dpost mpre mpost fs E1 E2 E3. exists [], [], fs. split; [constructor|]. split; [constructor|]. split; [exact E3|]. split; reflexivity.
  - (* target *)
    intros di ti t lo hi md l e rs dm b rs' dm' Hl IHl Hb IHb B s dpre dpost mpre mpost fs E1 E2 E3.
    apply map_eq_app in E3. destruct E3 as (fs1 & fs2 & -> & E3 & E4). apply bare_app in B. destruct B as [B1 B2].
    destruct (IHl B1 s dpre (fs2 ++ dpost) mpre (map (r_modifier _) (Root _ t lo hi e md :: rs') ++ mpost) fs1 E1 E2 E3) as (f & e1 & rs1 & dm1 & fs1' & S1 & S2 & S3 & S4 & S5 & S6).
    assert (LD : length dm1 = length dm) by (rewrite <- S4, <- E3, !map_length; exact S5).
    assert (LR : length rs1 = length rs) by (exact (all_step_length _ _ _ S2)).
    assert (LM : length (mpre ++ map (r_modifier _) rs1) = ti + length rs) by (rewrite app_length, map_length; congruence).
    pose (md' := match not_nan f with None => md | Some x => lerp lo hi x end).
    destruct (IHb B2 s (dpre ++ fs1') dpost ((mpre ++ map (r_modifier _) rs1) ++ [md']) mpost fs2) as (rs2 & dm2 & fs2' & U1 & U2 & U3 & U4 & U5);
      [rewrite app_length, S5, <- (map_length not_nan fs1), E3; congruence|rewrite app_length, LM; cbn; lia|exact E4|].
    exists (rs1 ++ Root _ t lo hi e1 md' :: rs2), (dm1 ++ dm2), (fs1' ++ fs2').
    split; [|split; [|split; [|split]]].
    + apply Forall2_app; [assumption|constructor; [|assumption]]. exists (not_nan f), e1. split; [exact S1|reflexivity].
    + rewrite <- LR. constructor; [exact S3|rewrite LD, LR; exact U2].
    + rewrite map_app. congruence.
    + rewrite !app_length. congruence.
    + rewrite mach_l, process_app, S6. cbn [process_nodes process_node]. rewrite mach_stack.
      cbn [mach damped modifiers map r_modifier app]. rewrite (app_assoc mpre), <- LM, set_nth_mid.
      unfold md' in *. unfold mach in U5 |- *. rewrite !map_app, <- ?app_assoc in *. cbn [app map r_modifier] in *. rewrite <- ?app_assoc in *. cbn [app].
      destruct (nnan N f) eqn:NF; [rewrite (nan_none f NF) in *|rewrite (nan_some f NF) in *]; exact U5.
Qed.

Lemma run_ok code : forall cs rs dm fs, ca 0 0 code rs dm -> map not_nan fs = dm ->
  Forall (fun c => bare c dm) (firstn 1 cs) -> Forall (fun c => cx_prev c <> None) (tl cs) ->
  exists rs' fs', all_steps cs rs rs' /\
    run_inputs code cs {| stack := []; damped := fs; modifiers := map (r_modifier _) rs |}
    = Some {| stack := []; damped := fs'; modifiers := map (r_modifier _) rs' |} /\ length fs' = length fs.
Proof.
  induction cs as [|c cs IH]; intros rs dm fs C E B H; cbn [run_inputs all_steps tl firstn] in *; [eauto|].
  inversion B; subst.
  destruct (proj2 (exec c) _ _ _ _ _ C H2 [] [] [] [] [] fs eq_refl eq_refl eq_refl) as (rs1 & dm1 & fs1 & S1 & S2 & S3 & S4 & S5).
  unfold mach in S5. rewrite !app_nil_r in S5. cbn [app] in S5. rewrite S5.
  destruct (IH rs1 dm1 fs1 S2 S3) as (rs2 & fs2 & U1 & U2 & U3).
  - destruct cs as [|c' cs]; cbn [firstn]; [constructor|]. inversion H; subst. constructor; [|constructor]. intros Q; contradiction.
  - destruct cs; cbn [tl]; [constructor|]. inversion H; auto.
  - exists rs2, fs2. split; [exists rs1; auto|]. split; [exact U2|congruence].
Qed.

(** a started stroke *)
Definition start_machine (m : tip_modeler N) : machine N := {| stack := bstack m; damped := fixed_damped m; modifiers := fixed_mods m |}.
Lemma started fuel t sz m (rs : list root) : start_stroke fuel t sz = Some m -> Forall documented_node (concat (behaviors t)) ->
  lists (concat (behaviors t)) rs -> Forall fresh_root rs ->
  exists k, ca 0 0 (nodes m) rs (repeat None k) /\ targets m = map (r_target _) rs /\
    start_machine m = {| stack := []; damped := repeat (nNaN N) k; modifiers := map (r_modifier _) rs |} /\ tip m = t /\ size m = sz
    /\ next_fixed m = 0 /\ last_fixed m = None /\ saved m = [] /\ new_fixed m = 0
    /\ gap m = {| m_traveled := nmul N (particle_gap_distance_scale t) sz; m_elapsed := particle_gap_duration t |}
    /\ cur_damped m = fixed_damped m /\ cur_mods m = fixed_mods m.
Proof.
  intros H D Ls Fr. unfold start_stroke in H. destruct (negb (nfin N sz) || negb (nlt N n0 sz)); [discriminate|].
  rewrite append_concat in H. destruct (proj2 (compile fuel) _ _ Ls D Fr _ _ H) as (code & k & G & C).
  destruct G. cbn [tip size next_fixed gap last_fixed saved new_fixed nodes bstack cur_damped fixed_damped targets cur_mods fixed_mods app length] in *.
  exists k. unfold start_machine. rewrite g_nodes0, g_stack0, g_fd0, g_fm0. repeat (split; [assumption || reflexivity|]). assumption.
Qed.
Lemma map_NaN k : map not_nan (repeat (nNaN N) k) = repeat None k.
Proof. induction k; cbn; [reflexivity|]. rewrite IHk, not_nan_NaN. reflexivity. Qed.
Lemma stroke_run fuel t sz m (rs : list root) cs : start_stroke fuel t sz = Some m -> Forall documented_node (concat (behaviors t)) ->
  lists (concat (behaviors t)) rs -> Forall fresh_root rs -> has_history cs ->
  targets m = map (r_target _) rs /\
  exists rs' k, run_inputs (nodes m) cs (start_machine m) = Some k /\ stack k = [] /\ modifiers k = map (r_modifier _) rs' /\ all_steps cs rs rs'.
Proof.
  intros H D Ls Fr HC. destruct (started fuel t sz m rs H D Ls Fr) as (k & C & T & SM & _). split; [exact T|].
  destruct (run_ok (nodes m) cs rs _ (repeat (nNaN N) k) C (map_NaN k)) as (rs' & fs' & A & R & _).
  - destruct cs; cbn [firstn]; [constructor|]. constructor; [|constructor]. intros _. apply Forall_forall. intros x Hx. apply repeat_spec in Hx. exact Hx.
  - destruct cs; [constructor|exact HC].
  - rewrite SM. rewrite R. exists rs', {| stack := []; damped := fs'; modifiers := map (r_modifier _) rs' |}. auto.
Qed.

(** *** The value of an expression is unique *)
Lemma evals_fun c (e : expr) v e' : evals c e v e' -> forall v2 e2, evals c e v2 e2 -> v2 = v /\ e2 = e'.
Proof.
  induction 1; intros v2 x2 H2; inversion H2; subst; auto;
  repeat match goal with IH : forall v2 e2, evals c ?a v2 e2 -> _, H : evals c ?a _ _ |- _ => destruct (IH _ _ H) as [? ?]; clear H end;
  subst; auto; try discriminate.
  match goal with A : Some _ = Some _ |- _ => injection A as -> end.
  match goal with A : eases ?f ?x ?y, B : eases ?f ?x ?z |- _ => rewrite (eases_fun N f x y z A B) end. auto.
Qed.
Lemma all_steps_fun cs : forall rs rs1 rs2, all_steps (N := N) cs rs rs1 -> all_steps cs rs rs2 -> rs1 = rs2.
Proof.
  assert (Q : forall c rs r1 r2, all_step (N := N) c rs r1 -> all_step c rs r2 -> r1 = r2).
  { intros c rs r1 r2 H. revert r2. induction H as [|a b l l' (v & e' & Ev & Eb) _ IH]; intros r2 H2; inversion H2; subst; [reflexivity|].
    f_equal; [|auto]. destruct H1 as (v2 & e2 & Ev2 & ->). destruct (evals_fun _ _ _ _ Ev _ _ Ev2) as [-> ->]. reflexivity. }
  induction cs as [|c cs IH]; intros rs rs1 rs2 A B; cbn [all_steps] in *; [congruence|].
  destruct A as (r1 & A1 & A2). destruct B as (r2 & B1 & B2). rewrite (Q _ _ _ _ A1 B1) in A2. eauto.
Qed.

(** *** Starting a stroke succeeds *)
Definition builds : Prop := forall e : easing N, valid_easing e = true -> exists fuel i, make_impl fuel e = Some i.
Lemma node_fuel fuel j (m : tip_modeler N) n m' : append_node fuel m n = Some m' -> append_node (fuel + j) m n = Some m'.
Proof.
  destruct n; cbn [append_node]; auto. destruct (make_impl fuel e) as [i|] eqn:E; [|discriminate]. rewrite (make_fuel N fuel j e i E). auto.
Qed.
Lemma nodes_fuel j l : forall fuel (m m' : tip_modeler N), append_nodes fuel m l = Some m' -> append_nodes (fuel + j) m l = Some m'.
Proof.
  induction l as [|n l IH]; intros fuel m m' H; cbn [append_nodes] in *; [exact H|].
  destruct (append_node fuel m n) as [m1|] eqn:E; [|discriminate]. rewrite (node_fuel _ j _ _ _ E). auto.
Qed.
Lemma nodes_built l : builds -> Forall documented_node l -> forall m : tip_modeler N, exists fuel m', append_nodes fuel m l = Some m'.
Proof.
  intros BU D. induction D as [|n l Dn D IH]; intros m; [exists 0, m; reflexivity|].
  assert (Q : exists f1 m1, append_node f1 m n = Some m1).
  { destruct n; try (exists 0; eexists; reflexivity). cbn [documented_node] in Dn. apply (valid_easing_iff L) in Dn.
    destruct (BU e Dn) as (f & i & A). exists f. eexists. cbn [append_node]. rewrite A. reflexivity. }
  destruct Q as (f1 & m1 & A). destruct (IH m1) as (f2 & m2 & B). exists (f1 + f2), m2.
  cbn [append_nodes]. rewrite (node_fuel _ f2 _ _ _ A). rewrite Nat.add_comm. apply nodes_fuel, B.
Qed.
Lemma behaviors_documented bs : forallb (valid_behavior (N := N)) bs = true -> Forall documented_node (concat bs) /\ exists rs : list root, lists (concat bs) rs /\ Forall fresh_root rs.
Proof.
  induction bs as [|b bs IH]; intros H; cbn [forallb concat] in *.
  - split; [constructor|]. exists []. split; constructor.
  - apply andb_prop in H. destruct H as [H1 H2]. destruct (IH H2) as (D & rs & Ls & Fr).
    apply (valid_behavior_iff (M := unit) L tt) in H1. destruct H1 as (D1 & rs1 & Ls1).
    split; [apply Forall_app; auto|]. exists (map wipe_root rs1 ++ rs). split.
    + apply lists_app; [apply (proj2 wipe_lists), Ls1|exact Ls].
    + apply Forall_app. split; [|exact Fr]. apply Forall_forall. intros r Hr. apply in_map_iff in Hr. destruct Hr as (x & <- & _). apply wipe_root_fresh.
Qed.
Lemma start_succeeds t sz : builds -> forallb (valid_behavior (N := N)) (behaviors t) = true -> nfin N sz = true -> nlt N n0 sz = true ->
  exists fuel m, start_stroke fuel t sz = Some m.
Proof.
  intros BU V F1 F2. unfold start_stroke. rewrite F1, F2. cbn [negb orb]. destruct (behaviors_documented _ V) as [D _].
  match goal with |- exists fuel m, append_behaviors fuel ?m0 _ = _ => destruct (nodes_built _ BU D m0) as (f & m & H) end.
  exists f, m. rewrite append_concat. exact H.
Qed.
End Run.
