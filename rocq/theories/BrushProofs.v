From Coq Require Import ZArith Reals List Bool Lra.
From Flocq Require Import Core IEEE754.BinarySingleNaN.
From Verif Require Import F32 F32Lemmas BrushModel BrushSpec.
Import ListNotations.
Open Scope R_scope.

Lemma positive_spec x : (negb (fisfinite x) || fle x f0) = false <-> is_finite x = true /\ 0 < B2R x.
Proof.
  unfold fisfinite. destruct (is_finite x) eqn:E; cbn [negb orb]; [|split; [discriminate|intros [? _]; discriminate]].
  pose proof (fle_spec x f0 (finite_not_nan _ E) eq_refl) as L.
  rewrite !fX_finite in L by (try exact E; reflexivity). rewrite f0_R in L.
  destruct (fle x f0) eqn:F.
  - split; [discriminate|]. intros [_ H]. assert (B2R x <= 0) by (apply L; reflexivity). lra.
  - split; [|reflexivity]. intros _. split; [reflexivity|].
    destruct (Rle_lt_dec (B2R x) 0) as [H|H]; [|exact H]. apply L in H. discriminate.
Qed.
Lemma flt_finite x y : is_finite x = true -> is_finite y = true -> (flt x y = true <-> B2R x < B2R y).
Proof.
  intros Hx Hy. pose proof (flt_spec x y (finite_not_nan _ Hx) (finite_not_nan _ Hy)) as L.
  rewrite !fX_finite in L by assumption. exact L.
Qed.

Lemma valid_size_spec x : validate_size x = true <-> is_finite x = true /\ 0 < B2R x.
Proof. rewrite <- positive_spec. unfold validate_size. destruct (_ || _); split; congruence. Qed.
Lemma valid_epsilon_spec x : validate_epsilon x = true <-> is_finite x = true /\ 0 < B2R x.
Proof. rewrite <- positive_spec. unfold validate_epsilon. destruct (_ || _); split; congruence. Qed.
Lemma valid_relative_spec s e : is_finite s = true -> is_finite e = true ->
  (validate_relative s e = true <-> B2R e <= B2R s).
Proof.
  intros Hs He. unfold validate_relative. pose proof (flt_finite s e Hs He) as L.
  destruct (flt s e).
  - split; [discriminate|]. intros H. assert (B2R s < B2R e) by (apply L; reflexivity). lra.
  - split; [|reflexivity]. intros _. destruct (Rle_lt_dec (B2R e) (B2R s)) as [H|H]; [exact H|].
    apply L in H. discriminate.
Qed.

Section B.
Variables Fam Col : Type.
Notation brush := (brush Fam Col).
Definition legal (b : brush) : Prop := legal_sizes (b_size b) (b_epsilon b).

Lemma create_spec (f : Fam) (c : Col) s e :
  (legal_sizes s e -> brush_create f c s e = Some (Build_brush f c s e)) /\
  (~ legal_sizes s e -> brush_create f c s e = None).
Proof.
  unfold brush_create, legal_sizes.
  destruct (validate_size s) eqn:V1; cbn [negb].
  - apply valid_size_spec in V1. destruct (validate_epsilon e) eqn:V2; cbn [negb].
    + apply valid_epsilon_spec in V2. pose proof (valid_relative_spec s e (proj1 V1) (proj1 V2)) as R.
      destruct (validate_relative s e); cbn [negb].
      * split; [reflexivity|]. intros H; exfalso; apply H. assert (B2R e <= B2R s) by (apply R; reflexivity). tauto.
      * split; [|reflexivity]. intros (_ & _ & _ & H). apply R in H. discriminate.
    + split; [|reflexivity]. intros (_ & H1 & H2 & _).
      assert (validate_epsilon e = true) by (apply valid_epsilon_spec; tauto). congruence.
  - split; [|reflexivity]. intros (H1 & _ & H2 & H3).
    assert (validate_size s = true) by (apply valid_size_spec; split; [assumption|lra]). congruence.
Qed.

Lemma set_size_spec (b : brush) s : legal b ->
  (legal_sizes s (b_epsilon b) /\
   brush_set_size b s = (true, Build_brush (b_family b) (b_color b) s (b_epsilon b))) \/
  (~ legal_sizes s (b_epsilon b) /\ brush_set_size b s = (false, b)).
Proof.
  intros (L1 & L2 & L3 & L4). unfold brush_set_size, legal_sizes.
  destruct (validate_size s) eqn:V1; cbn [negb].
  - apply valid_size_spec in V1. pose proof (valid_relative_spec s (b_epsilon b) (proj1 V1) L2) as R.
    destruct (validate_relative s (b_epsilon b)); cbn [negb].
    + left. split; [|reflexivity]. assert (B2R (b_epsilon b) <= B2R s) by (apply R; reflexivity). tauto.
    + right. split; [|reflexivity]. intros (_ & _ & _ & H). apply R in H. discriminate.
  - right. split; [|reflexivity]. intros (H1 & _ & H2 & H3).
    assert (validate_size s = true) by (apply valid_size_spec; split; [assumption|lra]). congruence.
Qed.
Lemma set_epsilon_spec (b : brush) e : legal b ->
  (legal_sizes (b_size b) e /\
   brush_set_epsilon b e = (true, Build_brush (b_family b) (b_color b) (b_size b) e)) \/
  (~ legal_sizes (b_size b) e /\ brush_set_epsilon b e = (false, b)).
Proof.
  intros (L1 & L2 & L3 & L4). unfold brush_set_epsilon, legal_sizes.
  destruct (validate_epsilon e) eqn:V1; cbn [negb].
  - apply valid_epsilon_spec in V1. pose proof (valid_relative_spec (b_size b) e L1 (proj1 V1)) as R.
    destruct (validate_relative (b_size b) e); cbn [negb].
    + left. split; [|reflexivity]. assert (B2R e <= B2R (b_size b)) by (apply R; reflexivity). tauto.
    + right. split; [|reflexivity]. intros (_ & _ & _ & H). apply R in H. discriminate.
  - right. split; [|reflexivity]. intros (_ & H1 & H2 & _).
    assert (validate_epsilon e = true) by (apply valid_epsilon_spec; tauto). congruence.
Qed.

Lemma brush_step_legal (b : brush) o : legal b -> legal (snd (brush_step b o)).
Proof.
  intros L. destruct o; cbn [brush_step].
  - destruct (set_size_spec b s L) as [[H ->]|[_ ->]]; [exact H|exact L].
  - destruct (set_epsilon_spec b e L) as [[H ->]|[_ ->]]; [exact H|exact L].
  - exact L.
  - exact L.
Qed.
Lemma brush_run_legal os : forall b : brush, legal b -> legal (brush_run b os).
Proof. induction os as [|o os IH]; intros b L; [exact L|]. apply IH, brush_step_legal, L. Qed.
End B.
Arguments legal {Fam Col}.
