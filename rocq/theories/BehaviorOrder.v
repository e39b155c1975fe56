(** In exact arithmetic the order of modifiers and of behaviors does not matter. *)
From Coq Require Import ZArith List Bool Lia Permutation Reals Lra.
From Flocq Require Import Core.
From Verif Require Import NumModel NumLaws EasingModel EasingExact BehaviorModel BehaviorSpec BehaviorTree BehaviorRun TipModel TipRun.
Import ListNotations.
Open Scope R_scope.
Local Notation N := xnum.

(** *** Sums and products of extended reals *)
Lemma xadd_comm a b : xadd a b = xadd b a.
Proof. destruct a as [x|[]|], b as [y|[]|]; cbn; try reflexivity. f_equal. ring. Qed.
Lemma xadd_assoc a b c : xadd (xadd a b) c = xadd a (xadd b c).
Proof. destruct a as [x|[]|], b as [y|[]|], c as [z|[]|]; cbn; try reflexivity. f_equal. ring. Qed.
Lemma xmul_comm a b : xmul a b = xmul b a.
Proof.
  destruct a as [x|s|], b as [y|t|]; cbn; try reflexivity; [f_equal; ring|rewrite xorb_comm; reflexivity].
Qed.
Lemma sign_mul x y : x <> 0 -> y <> 0 -> Rlt_bool (x * y) 0 = xorb (Rlt_bool x 0) (Rlt_bool y 0).
Proof.
  intros Hx Hy. destruct (Rlt_bool_spec x 0), (Rlt_bool_spec y 0), (Rlt_bool_spec (x * y) 0); try reflexivity; exfalso; nra.
Qed.
Lemma zero_mul x y : Req_bool (x * y) 0 = Req_bool x 0 || Req_bool y 0.
Proof.
  destruct (Req_bool_spec x 0), (Req_bool_spec y 0), (Req_bool_spec (x * y) 0); try reflexivity; exfalso; try nra.
Qed.
Lemma xmul_assoc a b c : xmul (xmul a b) c = xmul a (xmul b c).
Proof.
  destruct a as [x|s|], b as [y|t|], c as [z|u|]; cbn; try reflexivity;
  repeat match goal with |- context [Req_bool ?x 0] =>
    lazymatch x with _ * _ => rewrite (zero_mul) | _ => destruct (Req_bool_spec x 0) end end; cbn; try reflexivity;
  repeat match goal with H : ?x <> 0 |- context [Req_bool ?x 0] => rewrite (Req_bool_false x 0 H)
    | H : ?x = 0 |- context [Req_bool ?x 0] => rewrite (Req_bool_true x 0 H) end;
  rewrite ?sign_mul by assumption; rewrite ?xorb_assoc; try reflexivity; try (f_equal; ring).
  all: exfalso; contradiction.
Qed.

(** *** Modifiers *)
Lemma modifiers_eq (a b : tip_modifiers N) :
  mo_x a = mo_x b -> mo_y a = mo_y b -> mo_width a = mo_width b -> mo_height a = mo_height b -> mo_slant a = mo_slant b ->
  mo_rounding a = mo_rounding b -> mo_rotation a = mo_rotation b -> mo_pinch a = mo_pinch b -> mo_hue a = mo_hue b ->
  mo_saturation a = mo_saturation b -> mo_luminosity a = mo_luminosity b -> mo_opacity a = mo_opacity b -> a = b.
Proof. destruct a, b. cbn. congruence. Qed.
Lemma xadd_swap a b c : xadd (xadd a b) c = xadd (xadd a c) b.
Proof. rewrite !xadd_assoc, (xadd_comm b). reflexivity. Qed.
Lemma xmul_swap a b c : xmul (xmul a b) c = xmul (xmul a c) b.
Proof. rewrite !xmul_assoc, (xmul_comm b). reflexivity. Qed.
Lemma modifier_swap dir size m a b :
  apply_modifier (N := N) dir size (apply_modifier (N := N) dir size m a) b = apply_modifier (N := N) dir size (apply_modifier (N := N) dir size m b) a.
Proof.
  destruct a as [ta va], b as [tb vb]. destruct ta, tb, dir as [d|]; cbn [apply_modifier];
  try reflexivity; apply modifiers_eq; cbn [mo_x mo_y mo_width mo_height mo_slant mo_rounding mo_rotation mo_pinch mo_hue mo_saturation mo_luminosity mo_opacity];
  try reflexivity; (exact (xadd_swap _ _ _) || exact (xmul_swap _ _ _)).
Qed.
Lemma fold_perm dir size l l' : Permutation l l' -> forall m,
  fold_left (apply_modifier (N := N) dir size) l m = fold_left (apply_modifier (N := N) dir size) l' m.
Proof.
  induction 1 as [|x l l' _ IH|x y l|l l1 l2 _ IH1 _ IH2]; intros m; cbn [fold_left]; auto; [rewrite modifier_swap; reflexivity|].
  rewrite IH1. apply IH2.
Qed.
Definition same_shape (t t' : brush_tip N) : Prop :=
  scale_x t' = scale_x t /\ scale_y t' = scale_y t /\ corner_rounding t' = corner_rounding t /\ slant t' = slant t /\ pinch t' = pinch t /\
  rotation t' = rotation t /\ opacity_multiplier t' = opacity_multiplier t /\
  particle_gap_distance_scale t' = particle_gap_distance_scale t /\ particle_gap_duration t' = particle_gap_duration t.
Lemma create_perm x y dir t t' size tms tms' : same_shape t t' -> Permutation tms tms' ->
  create_tip_state (N := N) x y dir t' size tms' = create_tip_state (N := N) x y dir t size tms.
Proof.
  intros (A1 & A2 & A3 & A4 & A5 & A6 & A7 & _) P. unfold create_tip_state.
  rewrite (fold_perm dir size _ _ P), A1, A2, A3, A4, A5, A6, A7. reflexivity.
Qed.

(** *** Tables can be read and valid easing functions built *)
Lemma xreads : reads N.
Proof.
  intros tab x Hl. unfold get_y_table. rewrite x0, x1e.
  destruct x as [x|[]|]; cbn [nnan nle N xnum]; [| | |eauto].
  - unfold xle. cbn [xlt xeq].
    destruct (Rlt_bool_spec x 0) as [A|A]; cbn [orb].
    { destruct tab; [discriminate|]. cbn. eauto. }
    destruct (Req_bool_spec x 0) as [B|B]. { destruct tab; [discriminate|]. cbn. eauto. }
    assert (R1 : exists y, hd_error (rev tab) = Some y).
    { destruct (rev tab) eqn:E; [|cbn; eauto]. apply (f_equal (@length _)) in E. rewrite rev_length, Hl in E. discriminate. }
    destruct (Rlt_bool_spec 1 x) as [C|C]; [exact R1|]. destruct (Req_bool_spec 1 x) as [D|D]; [exact R1|]. cbn [orb].
    rewrite xZ. cbn [nmul N xnum xmul ntrunc]. rewrite Ztrunc_floor by lra.
    assert (H0 : (0 <= Zfloor (x * 13) < 13)%Z).
    { split; [apply Zfloor_lub; cbn; lra|]. apply lt_IZR. eapply Rle_lt_trans; [apply Zfloor_lb|]. lra. }
    destruct (nth_error tab (Z.to_nat (Zfloor (x * 13)))) eqn:E1; [|apply nth_error_None in E1; lia].
    destruct (nth_error tab (Z.to_nat (Zfloor (x * 13)) + 1)) eqn:E2; [|apply nth_error_None in E2; lia].
    destruct (Z.ltb_spec (Zfloor (x * 13)) 0); [lia|]. eauto.
  - unfold xle. cbn [xlt xeq orb]. destruct tab; [discriminate|]. cbn. eauto.
  - unfold xle. cbn [xlt xeq orb].
    destruct (rev tab) eqn:E; [|cbn; eauto]. apply (f_equal (@length _)) in E. rewrite rev_length, Hl in E. discriminate.
Qed.

(** *** Largest of a set of bounds *)
Definition num_ok (a : ereal) : Prop := match a with Nan => False | _ => True end.
Lemma xmax_ok a b : num_ok a -> num_ok b -> num_ok (nmax (N := N) a b).
Proof. unfold nmax. cbn [nlt N xnum]. destruct (xlt a b); auto. Qed.
Lemma xmax_swap a b c : num_ok a -> num_ok b -> num_ok c -> nmax (N := N) (nmax (N := N) a b) c = nmax (N := N) (nmax (N := N) a c) b.
Proof.
  unfold nmax. cbn [nlt N xnum]. intros A B C.
  destruct a as [a|[]|], b as [b|[]|], c as [c|[]|]; try contradiction; cbn [xlt]; try reflexivity;
  repeat (match goal with |- context [Rlt_bool ?x ?y] => destruct (Rlt_bool_spec x y) end; cbn [xlt]); try reflexivity; try (exfalso; lra); f_equal; lra.
Qed.
Lemma xbuilds : builds (N := N).
Proof.
  assert (BZ : forall x1 y1 x2 y2, (0 <= x1 <= 1)%R -> (0 <= x2 <= 1)%R -> exists l, bezier_table (N := N) (Fin x1) (Fin y1) (Fin x2) (Fin y2) 78 = Some l).
  { intros x1 y1 x2 y2 H1 H2. destruct (table_x x1 y1 x2 y2 H1 H2) as (l & A & _). eauto. }
  intros e V. destruct e as [p|x1 y1 x2 y2|ps|n pos].
  - cbn [make_impl]. exists 78%nat. destruct (Z.eqb p kLinear) eqn:E1; [eauto|]. destruct (Z.eqb p kStepEnd) eqn:E2; [eauto|]. destruct (Z.eqb p kStepStart) eqn:E3; [eauto|].
    unfold predef_bezier. rewrite x0, x1e, !xdy.
    change (bpow radix2 (-2)) with (/ 4)%R. change (bpow radix2 (-25)) with (/ 33554432)%R. change (bpow radix2 (-24)) with (/ 16777216)%R. change (bpow radix2 (-27)) with (/ 134217728)%R.
    cbn [valid_easing] in V. unfold valid_predef in V. cbn [existsb] in V. rewrite E1, E2, E3 in V.
    destruct (Z.eqb p kEase). { destruct (BZ (1 * / 4) (13421773 * / 134217728) (1 * / 4) 1 ltac:(lra) ltac:(lra))%R as [l ->]. eexists. reflexivity. }
    destruct (Z.eqb p kEaseIn). { destruct (BZ (14092861 * / 33554432) 0 1 1 ltac:(lra) ltac:(lra))%R as [l ->]. eexists. reflexivity. }
    destruct (Z.eqb p kEaseOut). { destruct (BZ 0 0 (9730785 * / 16777216) 1 ltac:(lra) ltac:(lra))%R as [l ->]. eexists. reflexivity. }
    destruct (Z.eqb p kEaseInOut). { destruct (BZ (14092861 * / 33554432) 0 (9730785 * / 16777216) 1 ltac:(lra) ltac:(lra))%R as [l ->]. eexists. reflexivity. }
    discriminate V.
  - apply (valid_easing_iff xlaws) in V. cbn [documented_easing] in V. destruct V as ((A1 & A2 & A3) & (B1 & B2 & B3) & C1 & C2).
    rewrite x0, x1e in *. destruct x1 as [x1| |], x2 as [x2| |], y1 as [y1| |], y2 as [y2| |]; try discriminate.
    cbn [nle N xnum] in *. unfold xle in *. cbn [xlt xeq] in *.
    destruct (BZ x1 y1 x2 y2) as [l Hl]; [| |exists 78%nat, (ITable l); cbn [make_impl]; rewrite Hl; reflexivity].
    + destruct (Rlt_bool_spec 0 x1), (Req_bool_spec 0 x1), (Rlt_bool_spec x1 1), (Req_bool_spec x1 1); try discriminate; lra.
    + destruct (Rlt_bool_spec 0 x2), (Req_bool_spec 0 x2), (Rlt_bool_spec x2 1), (Req_bool_spec x2 1); try discriminate; lra.
  - exists 0%nat. eexists. reflexivity.
  - exists 0%nat. eexists. reflexivity.
Qed.
