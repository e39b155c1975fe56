From Coq Require Import ZArith Reals List Bool Arith Lia Lra.
From Flocq Require Import Core IEEE754.BinarySingleNaN.
From Verif Require Import F32 F32Lemmas BrushModel BrushSpec BrushProofs BatchModel StrokeModel StrokeSpec.
Import ListNotations.

Section S.
Variables Tip Tex IM Col Mesh Group : Type.
Variable tips_eqb : list Tip -> list Tip -> bool.
Variable has_particles : list Tip -> bool.
Variable build : IM -> list Tip -> bool -> f32 -> f32 -> list stroke_input -> Mesh.
Variable from_groups : list Mesh -> option (list Group).
Variable empty_group : Group.
Notation stroke := (stroke Tip Tex IM Col Group).
Notation coat := (coat Tip Tex).
Notation family := (family Tip Tex IM).
Notation brush := (BrushModel.brush family Col).
Notation step := (stroke_step Tip Tex IM Col Mesh Group tips_eqb has_particles build from_groups empty_group).
Notation run := (stroke_run Tip Tex IM Col Mesh Group tips_eqb has_particles build from_groups empty_group).
Notation fresh := (stroke_of_inputs Tip Tex IM Col Mesh Group has_particles build from_groups empty_group).
Notation regen := (regenerate Tip Tex IM Col Mesh Group has_particles build from_groups empty_group).
Notation tips_equal := (coat_tips_equal Tip Tex tips_eqb).
Notation winding := (winding_particles Tip Tex has_particles).
Arguments s_brush {Tip Tex IM Col Group}. Arguments s_inputs {Tip Tex IM Col Group}.
Arguments s_shape {Tip Tex IM Col Group}.
Arguments coats {Tip Tex IM}. Arguments input_model {Tip Tex IM}. Arguments tips {Tip Tex}.

Notation legal_brush := (legal_brush Tip Tex IM Col).
Notation same_hidden := (same_hidden Tip Tex IM has_particles).
Notation up_to_date := (up_to_date Tip Tex IM Col Mesh Group has_particles build from_groups empty_group).
Notation tracked := (tracked Tip Tex IM Col Group tips_eqb has_particles).
Notation tracked_history := (tracked_history Tip Tex IM Col Mesh Group tips_eqb has_particles build from_groups empty_group).
Notation counted := (counted Tip Tex IM Col Group).
(** [tips_eqb] is BrushTip's operator==; geometry generation does not distinguish
    equal tips. *)
Hypothesis build_ext : forall im t1 t2 w s e i, tips_eqb t1 t2 = true ->
  build im t1 w s e i = build im t2 w s e i.
Hypothesis groups_len : forall ms gs, from_groups ms = Some gs -> length gs = length ms.

Lemma tips_equal_length c1 c2 : tips_equal c1 c2 = true -> length c1 = length c2.
Proof.
  revert c2; induction c1 as [|a c1 IH]; intros [|b c2] H; cbn in *; try discriminate; auto.
  apply andb_prop in H. f_equal. apply IH, H.
Qed.

Lemma refresh_ok (s : stroke) : up_to_date (refresh Tip Tex IM Col Mesh Group has_particles build from_groups empty_group s).
Proof. reflexivity. Qed.

Lemma fne_finite (x y : f32) : is_finite x = true -> is_finite y = true -> fne x y = false -> B2R x = B2R y.
Proof.
  intros Hx Hy H. unfold fne in H. apply negb_false_iff in H.
  pose proof (feq_spec x y (finite_not_nan _ Hx) (finite_not_nan _ Hy)) as L.
  rewrite !fX_finite in L by assumption. apply L. exact H.
Qed.
Lemma pos_eq (x y : f32) : is_finite x = true -> is_finite y = true -> (0 < B2R x)%R -> B2R x = B2R y -> x = y.
Proof.
  intros Hx Hy P E. apply B2R_inj; [| |exact E].
  - destruct x; cbn in *; try discriminate; [lra|reflexivity].
  - rewrite E in P. destruct y; cbn in *; try discriminate; [lra|reflexivity].
Qed.

Lemma regen_same (b1 b2 : brush) i :
  b_size b1 = b_size b2 -> b_epsilon b1 = b_epsilon b2 ->
  tips_equal (coats (b_family b1)) (coats (b_family b2)) = true ->
  same_hidden (b_family b1) (b_family b2) ->
  regen b1 i = regen b2 i.
Proof.
  intros Es Ee Et [Ei Ew]. unfold regenerate, get_coats.
  pose proof (tips_equal_length _ _ Et) as El. rewrite El, Ei, Es, Ee.
  assert (Em : forall im s e, map (fun c => build im (tips c) (winding c) s e i) (coats (b_family b1))
             = map (fun c => build im (tips c) (winding c) s e i) (coats (b_family b2))).
  { intros im s e. revert Et Ew. generalize (coats (b_family b1)) (coats (b_family b2)). clear -build_ext.
    induction l as [|a l IH]; intros [|b l'] Et Ew; cbn in *; try discriminate; [reflexivity|].
    inversion Ew; subst. apply andb_prop in Et. destruct Et as [Et1 Et2]. f_equal; [|apply IH; assumption].
    rewrite H2. apply build_ext, Et1. }
  rewrite Em. destruct (coats (b_family b1)), (coats (b_family b2)); cbn in El; try discriminate; reflexivity.
Qed.

Lemma step_ok s o : legal_brush (s_brush s) -> up_to_date s -> tracked s o ->
  legal_brush (s_brush (snd (step s o))) /\ up_to_date (snd (step s o)).
Proof.
  intros L U T. destruct o as [b i|b|f|c|v|v|a]; cbn [stroke_step snd].
  - split; [exact T|reflexivity].
  - destruct T as [Lb T]. unfold set_brush.
    destruct (fne (b_size b) (b_size (s_brush s)) || fne (b_epsilon b) (b_epsilon (s_brush s))
              || negb (tips_equal (get_coats _ _ _ _ b) (get_coats _ _ _ _ (s_brush s)))) eqn:E;
      (split; [exact Lb|]); [reflexivity|].
    apply orb_false_iff in E. destruct E as [E E3]. apply orb_false_iff in E. destruct E as [E1 E2].
    apply negb_false_iff in E3. destruct L as (A1 & A2 & A3 & A4), Lb as (B1 & B2 & B3 & B4).
    apply fne_finite in E1; try assumption. apply fne_finite in E2; try assumption.
    destruct T as [T|[T|[T|T]]]; try congruence; [unfold get_coats in E3; congruence|].
    unfold StrokeSpec.up_to_date. cbn. rewrite U. cbn. symmetry. apply regen_same; try assumption; apply pos_eq; try assumption; lra.
  - unfold set_brush_family.
    destruct (negb (tips_equal (coats f) (get_coats _ _ _ _ (s_brush s)))) eqn:E; (split; [exact L|]); [reflexivity|].
    apply negb_false_iff in E. destruct T as [T|T]; [unfold get_coats in E; congruence|].
    unfold StrokeSpec.up_to_date. cbn. rewrite U. cbn. symmetry. apply regen_same; try reflexivity; assumption.
  - split; [exact L|]. unfold StrokeSpec.up_to_date. cbn. rewrite U. reflexivity.
  - unfold set_brush_size. destruct (feq v (b_size (s_brush s))); [split; assumption|].
    destruct (set_size_spec _ _ (s_brush s) v L) as [[H E]|[_ E]]; rewrite E; cbn.
    + split; [exact H|reflexivity].
    + split; [exact L|]. unfold StrokeSpec.up_to_date. exact U.
  - unfold set_brush_epsilon. destruct (feq v (b_epsilon (s_brush s))); [split; assumption|].
    destruct (set_epsilon_spec _ _ (s_brush s) v L) as [[H E]|[_ E]]; rewrite E; cbn.
    + split; [exact H|reflexivity].
    + split; [exact L|]. unfold StrokeSpec.up_to_date. exact U.
  - split; [exact L|reflexivity].
Qed.

Lemma new_up_to_date b : up_to_date (stroke_new Tip Tex IM Col Group empty_group b).
Proof. unfold StrokeSpec.up_to_date, stroke_new. cbn. unfold regenerate. destruct (get_coats _ _ _ _ b); reflexivity. Qed.

Lemma run_ok os : forall s, legal_brush (s_brush s) -> up_to_date s -> tracked_history s os ->
  up_to_date (run s os).
Proof.
  induction os as [|o os IH]; intros s L U T; [exact U|]. destruct T as [T1 T2].
  destruct (step_ok s o L U T1) as [L' U']. apply IH; assumption.
Qed.

Lemma regen_length b i : length (regen b i) = length (get_coats _ _ _ _ b).
Proof.
  unfold regenerate. destruct (get_coats _ _ _ _ b) as [|c cs] eqn:E; [reflexivity|].
  destruct i as [|x i]; [apply repeat_length|].
  destruct (from_groups _) as [g|] eqn:G; [|apply repeat_length].
  rewrite (groups_len _ _ G). apply map_length.
Qed.

Lemma step_counted s o : counted s -> counted (snd (step s o)).
Proof.
  intros C. unfold StrokeSpec.counted in *. destruct o as [b i|b|f|c|v|v|a]; cbn [stroke_step snd].
  - apply regen_length.
  - unfold set_brush. destruct (tips_equal (get_coats _ _ _ _ b) (get_coats _ _ _ _ (s_brush s))) eqn:E.
    + apply tips_equal_length in E. destruct (_ || _); [apply regen_length|]. cbn. rewrite E. exact C.
    + rewrite orb_true_r. apply regen_length.
  - unfold set_brush_family. destruct (tips_equal (coats f) (get_coats _ _ _ _ (s_brush s))) eqn:E.
    + apply tips_equal_length in E. cbn. rewrite C. symmetry. exact E.
    + apply regen_length.
  - exact C.
  - unfold set_brush_size. destruct (feq _ _); [exact C|]. unfold brush_set_size.
    destruct (negb _); [exact C|]. destruct (negb _); [exact C|]. apply regen_length.
  - unfold set_brush_epsilon. destruct (feq _ _); [exact C|]. unfold brush_set_epsilon.
    destruct (negb _); [exact C|]. destruct (negb _); [exact C|]. apply regen_length.
  - apply regen_length.
Qed.
Lemma run_counted os : forall s, counted s -> counted (run s os).
Proof. induction os as [|o os IH]; intros s C; [exact C|]. apply IH, step_counted, C. Qed.

Lemma failed_setter s o : legal_brush (s_brush s) -> fst (step s o) = false -> snd (step s o) = s.
Proof.
  intros L H. destruct s as [b i g]. destruct o as [b' i'|b'|f|c|v|v|a]; cbn [stroke_step fst snd] in *; try discriminate.
  - unfold set_brush_size in *. cbn [s_brush] in *. destruct (feq _ _); [discriminate|].
    destruct (set_size_spec _ _ b v L) as [[_ E]|[_ E]]; rewrite E in *; [discriminate|reflexivity].
  - unfold set_brush_epsilon in *. cbn [s_brush] in *. destruct (feq _ _); [discriminate|].
    destruct (set_epsilon_spec _ _ b v L) as [[_ E]|[_ E]]; rewrite E in *; [discriminate|reflexivity].
Qed.

Lemma setter_fails_iff s v : legal_brush (s_brush s) ->
  (fst (step s (SSize _ _ _ _ v)) = true <-> legal_sizes v (b_epsilon (s_brush s))) /\
  (fst (step s (SEpsilon _ _ _ _ v)) = true <-> legal_sizes (b_size (s_brush s)) v).
Proof.
  intros L. assert (L' := L). destruct L' as (L1 & L2 & L3 & L4). cbn [stroke_step]. split.
  - unfold set_brush_size. destruct (feq v (b_size (s_brush s))) eqn:E.
    + cbn. split; [intros _|reflexivity].
      assert (v = b_size (s_brush s)) as ->; [|exact L].
      assert (Fv : is_finite v = true).
      { destruct v as [| | |]; try reflexivity; destruct (b_size (s_brush s)) as [| | |]; cbn in *; try discriminate.
        all: unfold feq, Beqb in E; cbn in E; destruct s0; discriminate. }
      symmetry. apply pos_eq; [exact L1|exact Fv|lra|]. symmetry.
      apply fne_finite; try assumption. unfold fne. unfold feq in E. rewrite E. reflexivity.
    + destruct (set_size_spec _ _ (s_brush s) v L) as [[H E']|[H E']]; rewrite E'; cbn; split; auto; discriminate || tauto.
  - unfold set_brush_epsilon. destruct (feq v (b_epsilon (s_brush s))) eqn:E.
    + cbn. split; [intros _|reflexivity].
      assert (v = b_epsilon (s_brush s)) as ->; [|exact L].
      assert (Fv : is_finite v = true).
      { destruct v as [| | |]; try reflexivity; destruct (b_epsilon (s_brush s)) as [| | |]; cbn in *; try discriminate.
        all: unfold feq, Beqb in E; cbn in E; destruct s0; discriminate. }
      symmetry. apply pos_eq; [exact L2|exact Fv|lra|]. symmetry.
      apply fne_finite; try assumption. unfold fne. unfold feq in E. rewrite E. reflexivity.
    + destruct (set_epsilon_spec _ _ (s_brush s) v L) as [[H E']|[H E']]; rewrite E'; cbn; split; auto; discriminate || tauto.
Qed.
End S.
