(** Proofs about ratios along segments. *)
From Coq Require Import ZArith Reals Lra Psatz Bool List.
From Flocq Require Import Core.
From Verif Require Import NumModel EasingExact GeomModel GeomSpec GeomReal GeomExact AlgorithmsModel AlgorithmsSpec.
Import ListNotations.
Local Open Scope R_scope.
Notation N := xnum.

Lemma first_range a b S lo hi : (forall t, S (mix t a b) <-> lo <= t <= hi) -> lo <= 1 -> 0 <= hi -> lo <= hi -> first_at a b S (Rmax lo 0).
Proof.
  intros H L1 H0 LH. unfold first_at. rewrite H. unfold Rmax. destruct (Rle_dec lo 0); (split; [lra|]; split; [lra|]); intros t' Ht' Hs; apply H in Hs; lra.
Qed.
(** the ratios at which a line is in a segment of itself *)
Lemma mix_inj a b t u : a <> b -> mix t a b = mix u a b -> t = u.
Proof.
  intros H E. apply (f_equal (fun z => dot2 (sub z a) (sub b a) / dot2 (sub b a) (sub b a))) in E. rewrite !project_of_mix in E by exact H. exact E.
Qed.
Lemma on_range a b k k' : a <> b -> k <> k' -> forall t, seg_set (mix k a b) (mix k' a b) (mix t a b) <-> Rmin k k' <= t <= Rmax k k'.
Proof.
  intros H K t. split.
  - intros (s & Hs & E). rewrite mix_mix in E. apply mix_inj in E; [|exact H]. subst t. unfold Rmin, Rmax. destruct (Rle_dec k k'); nra.
  - intros B. exists ((t - k) / (k' - k)). assert (E : (t - k) / (k' - k) * (k' - k) = t - k) by (field; lra). set (s := (t - k) / (k' - k)) in *. clearbody s. split.
    + unfold Rmin, Rmax in B. destruct (Rle_dec k k'); nra.
    + rewrite mix_mix. f_equal. lra.
Qed.
Lemma mix_ne a b k k' : mix k a b <> mix k' a b -> k <> k'.
Proof. intros H ->. apply H. reflexivity. Qed.

(** where two lines that are not parallel cross *)
Lemma crossing a b c d t s : det2 (sub b a) (sub d c) <> 0 ->
  (mix t a b = mix s c d <-> t = det2 (sub c a) (sub d c) / det2 (sub b a) (sub d c) /\ s = det2 (sub c a) (sub b a) / det2 (sub b a) (sub d c)).
Proof.
  intros D. split.
  - intros E. apply (f_equal px) in E as E1. apply (f_equal py) in E as E2. cbn in E1, E2.
    assert (C1 : px c - px a = t * (px b - px a) - s * (px d - px c)) by lra. assert (C2 : py c - py a = t * (py b - py a) - s * (py d - py c)) by lra.
    assert (W1 : det2 (sub c a) (sub d c) = t * det2 (sub b a) (sub d c)) by (unfold det2, sub; cbn; rewrite C1, C2; ring).
    assert (W2 : det2 (sub c a) (sub b a) = s * det2 (sub b a) (sub d c)) by (unfold det2, sub; cbn; rewrite C1, C2; ring).
    rewrite W1, W2. split; field; exact D.
  - intros [-> ->]. unfold det2, sub in *. cbn in *. apply pt_eq; cbn; field; exact D.
Qed.
Lemma apart a b c d : det2 (sub b a) (sub d c) = 0 -> det2 (sub b a) (sub c a) <> 0 -> ~ meet (seg_set a b) (seg_set c d).
Proof.
  intros D C (p & (t & _ & ->) & (u & _ & E)). elim C.
  assert (G : sub c a = P (t * px (sub b a) - u * px (sub d c)) (t * py (sub b a) - u * py (sub d c))). { apply (f_equal px) in E as E1. apply (f_equal py) in E as E2. cbn in E1, E2. apply pt_eq; cbn; lra. }
  rewrite G. replace (det2 (sub b a) _) with (- u * det2 (sub b a) (sub d c)) by (unfold det2; cbn; ring). rewrite D. ring.
Qed.
Lemma first_in a b S t : first_at a b S t -> meet (seg_set a b) S.
Proof. intros (H & Hs & _). exists (mix t a b). split; [exists t; auto|exact Hs]. Qed.
Lemma first_point a (S : shape) : S a -> first_at a a S 0.
Proof. intros H. split; [lra|]. split; [rewrite mix_0; exact H|]. intros; lra. Qed.
Lemma first_only a b k : a <> b -> 0 <= k <= 1 -> first_at a b (point_set (mix k a b)) k.
Proof. intros H K. split; [exact K|]. split; [reflexivity|]. intros t' _ E. apply mix_inj in E; [lra|exact H]. Qed.
Lemma first_ext a b (S U : shape) t : (forall p, S p <-> U p) -> first_at a b S t -> first_at a b U t.
Proof. intros H (A & B & C). split; [exact A|]. split; [apply H, B|]. intros t' Ht' Hu. apply C; [exact Ht'|]. apply H, Hu. Qed.
Lemma seg_eq_x a b c d : seg_eq (sg a b) (sg c d) = true <-> a = c /\ b = d.
Proof. unfold seg_eq. cbn [sg s_start s_end]. rewrite andb_true_iff, !veq_x. tauto. Qed.
Lemma div_x x y : y <> 0 -> ndiv N (Fin x) (Fin y) = Fin (x / y).
Proof. apply xdiv_fin. Qed.

Theorem ratio_spec a b c d :
  match segment_ratio (sg a b) (sg c d) with
  | None => ~ meet (seg_set a b) (seg_set c d)
  | Some (t, s) => exists rt rs, t = Fin rt /\ s = Fin rs /\ first_at a b (seg_set c d) rt /\ first_at c d (seg_set a b) rs
  end.
Proof.
  unfold segment_ratio. destruct (seg_eq (sg a b) (sg c d)) eqn:SE.
  { apply seg_eq_x in SE. destruct SE as [<- <-]. exists 0, 0. split; [exact x0|]. split; [exact x0|].
    assert (F : first_at a b (seg_set a b) 0) by (split; [lra|]; split; [rewrite mix_0; apply seg_start|]; intros; lra). auto. }
  assert (NE : ~ (a = c /\ b = d)) by (intros C; apply seg_eq_x in C; congruence). clear SE.
  unfold seg_vector. cbn [sg s_start s_end]. rewrite !sub_x, !det_x, x0, x1e.
  change (Seg (pv a) (pv b)) with (sg a b). change (Seg (pv c) (pv d)) with (sg c d).
  destruct (neqb N (Fin (det2 (sub b a) (sub d c))) (Fin 0)) eqn:D.
  - apply eq_x in D. destruct (neqb N (Fin (det2 (sub b a) (sub c a))) (Fin 0)) eqn:C; cbn [negb].
    2:{ apply eq_xf in C. apply apart; assumption. }
    apply eq_x in C.
    assert (Dec : forall x y : pt, x = y \/ x <> y) by (intros x y; destruct (veq (pv x) (pv y)) eqn:Q; [left; apply veq_x|right; apply veq_xf]; exact Q).
    destruct (Dec a b) as [<-|Eab]; destruct (Dec c d) as [<-|Ecd].
    + rewrite !project_same. intros (p & H & H'). apply seg_point in H, H'. apply NE. split; congruence.
    + rewrite project_same. destruct (project_x c d a Ecd) as [Q R]. rewrite R. destruct (int_point_segment (pv a) (sg c d)) eqn:I.
      * apply point_segment in I. exists 0, (dot2 (sub a c) (sub d c) / dot2 (sub d c) (sub d c)). split; [reflexivity|]. split; [reflexivity|]. split; [apply first_point; exact I|].
        destruct I as (k & K & ->). rewrite project_of_mix by exact Ecd. eapply first_ext; [|apply first_only; assumption]. intros p. symmetry. apply seg_point.
      * intros (p & H & H'). apply seg_point in H. subst p. apply point_segment in H'. congruence.
    + rewrite project_same. destruct (project_x a b c Eab) as [Q R]. rewrite R. destruct (int_point_segment (pv c) (sg a b)) eqn:I.
      * apply point_segment in I. exists (dot2 (sub c a) (sub b a) / dot2 (sub b a) (sub b a)), 0. split; [reflexivity|]. split; [reflexivity|]. split; [|apply first_point; exact I].
        destruct I as (k & K & ->). rewrite project_of_mix by exact Eab. eapply first_ext; [|apply first_only; assumption]. intros p. symmetry. apply seg_point.
      * intros (p & H & H'). apply seg_point in H'. subst p. apply point_segment in H. congruence.
    + destruct (project_x a b c Eab) as [Qa ->], (project_x a b d Eab) as [_ ->], (project_x c d a Ecd) as [Qc ->], (project_x c d b Ecd) as [_ ->].
      rewrite !min_x, !max_x.
      assert (Dc : det2 (sub c a) (sub b a) = 0) by (unfold det2, sub in *; cbn in *; lra).
      assert (Dd : det2 (sub d a) (sub b a) = 0) by (unfold det2, sub in *; cbn in *; lra).
      destruct (on_line a b c Eab) as (k0 & Hk0); [unfold det3, det2, sub in *; cbn in *; lra|].
      assert (Da : det2 (sub a c) (sub d c) = 0). { rewrite Hk0. replace (det2 (sub a (mix k0 a b)) (sub d (mix k0 a b))) with (- k0 * det2 (sub b a) (sub d (mix k0 a b))) by (unfold det2, sub; cbn; ring). rewrite <- Hk0, D. ring. }
      assert (Db : det2 (sub b c) (sub d c) = 0). { replace (det2 (sub b c) (sub d c)) with (det2 (sub a c) (sub d c) + det2 (sub b a) (sub d c)) by (unfold det2, sub; cbn; ring). lra. }
      apply project_mix in Da, Db, Dc, Dd; try assumption. clear k0 Hk0.
      set (k := dot2 (sub c a) (sub b a) / dot2 (sub b a) (sub b a)) in *. set (k' := dot2 (sub d a) (sub b a) / dot2 (sub b a) (sub b a)) in *.
      set (r := dot2 (sub a c) (sub d c) / dot2 (sub d c) (sub d c)) in *. set (r' := dot2 (sub b c) (sub d c) / dot2 (sub d c) (sub d c)) in *. clearbody k k' r r'.
      assert (Kk : k <> k') by (intros E; apply Ecd; rewrite Dc, Dd, E; reflexivity).
      assert (Kr : r <> r') by (intros E; apply Eab; rewrite Da, Db, E; reflexivity).
      assert (Ra : forall t, seg_set c d (mix t a b) <-> Rmin k k' <= t <= Rmax k k') by (intros t; rewrite Dc, Dd; apply on_range; assumption).
      assert (Rc : forall t, seg_set a b (mix t c d) <-> Rmin r r' <= t <= Rmax r r') by (intros t; rewrite Da, Db; apply on_range; assumption).
      assert (MN : forall x y, Rmin x y <= Rmax x y) by (intros x y; apply Rle_trans with x; [apply Rmin_l|apply Rmax_l]).
      destruct ((nlt N (Fin k) (Fin 0) && nlt N (Fin k') (Fin 0)) || (nlt N (Fin 1) (Fin k) && nlt N (Fin 1) (Fin k'))) eqn:O.
      * rewrite orb_true_iff, !andb_true_iff, !lt_x in O. intros (p & (t & Ht & ->) & Hp). apply Ra in Hp. unfold Rmin, Rmax in Hp. destruct (Rle_dec k k'); lra.
      * rewrite orb_false_iff, !andb_false_iff, !lt_xf in O.
        assert (L : Rmin k k' <= 1) by (unfold Rmin; destruct (Rle_dec k k'); lra). assert (H : 0 <= Rmax k k') by (unfold Rmax; destruct (Rle_dec k k'); lra).
        pose proof (first_range a b (seg_set c d) _ _ Ra L H (MN k k')) as F1. exists (Rmax (Rmin k k') 0), (Rmax (Rmin r r') 0). split; [reflexivity|]. split; [reflexivity|]. split; [exact F1|].
        destruct (first_in _ _ _ _ F1) as (p & P1 & (s & Hs & ->)). apply Rc in P1. apply (first_range c d (seg_set a b) _ _ Rc); [lra|lra|apply MN].
  - apply eq_xf in D. rewrite !div_x by exact D.
    set (t := det2 (sub c a) (sub d c) / det2 (sub b a) (sub d c)). set (s := det2 (sub c a) (sub b a) / det2 (sub b a) (sub d c)).
    assert (X : forall t' s', mix t' a b = mix s' c d <-> t' = t /\ s' = s) by (intros; apply crossing; exact D).
    destruct (nle N (Fin 0) (Fin t) && nle N (Fin t) (Fin 1) && nle N (Fin 0) (Fin s) && nle N (Fin s) (Fin 1)) eqn:B.
    + rewrite !andb_true_iff, !le_x in B. exists t, s. split; [reflexivity|]. split; [reflexivity|]. split.
      * split; [tauto|]. split; [exists s; split; [tauto|]; apply X; auto|]. intros t' _ (s' & _ & E). apply X in E. lra.
      * split; [tauto|]. split; [exists t; split; [tauto|]; symmetry; apply X; auto|]. intros s' _ (t' & _ & E). symmetry in E. apply X in E. lra.
    + intros (p & (t' & Ht & ->) & (s' & Hs & E)). apply X in E. destruct E as [-> ->].
      rewrite <- not_true_iff_false, !andb_true_iff, !le_x in B. tauto.
Qed.
