(** C79: polygons with rounded corners. *)
From Coq Require Import ZArith Reals Lra Lia Psatz Bool List.
From Flocq Require Import Core.
From Verif Require Import NumModel EasingExact BehaviorMeaning BehaviorExact GeomModel AffineModel GeomSpec GeomReal GeomExact AffineProofs CircleModel CircleSpec CircleProofs CircleProps RoundedModel RoundedSpec RoundedProofs RoundedHull.
Import ListNotations.
Local Open Scope R_scope.

(** ** Construction, for either reading of numbers *)
Section Make.
Context {M : num}.
Variable acos : T M -> T M.
Lemma arcs_from_ok (la inc : T M) rest : forall c arcs, arcs_from acos la inc c rest = Some arcs ->
  length arcs = S (length rest) /\ (exists x, nth_error arcs 0 = Some x /\ a_from x = from_direction inc n1) /\
  (exists x, nth_error arcs (length rest) = Some x /\ a_to x = from_direction la n1) /\
  (forall i x, nth_error arcs i = Some x -> nth_error (c :: rest) i = Some (a_circle x)) /\
  (forall i d e, nth_error (c :: rest) i = Some d -> nth_error (c :: rest) (S i) = Some e -> contains d e = false /\ contains e d = false /\
     exists x y, nth_error arcs i = Some x /\ nth_error arcs (S i) = Some y /\ a_to x = from_direction (right_tangent_angle acos d e) n1 /\ a_from y = a_to x).
Proof.
  revert inc. induction rest as [|d rest IH]; intros inc c arcs; cbn [arcs_from].
  - intros E. injection E as <-. split; [reflexivity|]. split; [eexists; split; reflexivity|]. split; [eexists; split; reflexivity|]. split.
    + intros [|i] x; [intros E; injection E as <-; reflexivity|destruct i; discriminate 1].
    + intros i ? ? _ E. destruct i; discriminate E.
  - destruct (contains c d || contains d c) eqn:K; [discriminate 1|]. apply orb_false_iff in K. destruct (arcs_from acos la (right_tangent_angle acos c d) d rest) as [tl|] eqn:A; [|discriminate 1]. intros E. injection E as <-.
    destruct (IH _ _ _ A) as (L & (x & X0 & XF) & (z & Z & ZT) & C & P). split; [cbn; rewrite L; reflexivity|]. split; [eexists; split; reflexivity|]. split; [exists z; split; assumption|]. split.
    + intros [|i] y; [intros E; injection E as <-; reflexivity|apply C].
    + intros [|i] e f E F.
      * cbn in E, F. injection E as <-. injection F as <-. split; [apply K|]. split; [apply K|]. eexists. exists x. split; [reflexivity|]. split; [exact X0|]. split; [reflexivity|exact XF].
      * destruct (P i e f E F) as (Q1 & Q2 & x' & y' & X' & Y' & R). split; [exact Q1|]. split; [exact Q2|]. exists x', y'. auto.
Qed.
Lemma arcs_from_none (la inc : T M) rest : forall c, arcs_from acos la inc c rest = None ->
  exists i d e, nth_error (c :: rest) i = Some d /\ nth_error (c :: rest) (S i) = Some e /\ (contains d e = true \/ contains e d = true).
Proof.
  revert inc. induction rest as [|d rest IH]; intros inc c; cbn [arcs_from]; [discriminate 1|]. destruct (contains c d || contains d c) eqn:K.
  - intros _. exists 0%nat, c, d. split; [reflexivity|]. split; [reflexivity|]. apply orb_true_iff. exact K.
  - destruct (arcs_from acos la (right_tangent_angle acos c d) d rest) eqn:A; [discriminate 1|]. intros _. destruct (IH _ _ A) as (i & e & f & E & F & Q). exists (S i), e, f. auto.
Qed.
Lemma last_nth {A} (d : A) l : nth_error (d :: l) (length l) = Some (last l d).
Proof.
  revert d. induction l as [|x l IH]; intros d; [reflexivity|]. change (nth_error (x :: l) (length l) = Some (last (x :: l) d)). rewrite IH. f_equal. clear. revert d x.
  induction l as [|y l IH]; intros d x; [reflexivity|]. change (last (y :: l) x = last (y :: l) d). rewrite <- (IH x y), <- (IH d y). reflexivity.
Qed.
(** the constructor fails if and only if there are fewer than two circles or one of two neighbours contains the other, the last and the
    first being neighbours; otherwise there is an arc for every circle, and each arc ends in the direction of the right tangent of
    its circle and the next, in which the next arc starts *)
Theorem C79_make (cs : list (circle M)) : match make_polygon acos cs with
  | None => (length cs < 2)%nat \/ exists i c d, nth_error cs i = Some c /\ nth_error cs (S i mod length cs) = Some d /\ (contains c d = true \/ contains d c = true)
  | Some arcs => (2 <= length cs)%nat /\ length arcs = length cs /\ forall i c d, nth_error cs i = Some c -> nth_error cs (S i mod length cs) = Some d ->
      contains c d = false /\ contains d c = false /\
      exists x y, nth_error arcs i = Some x /\ nth_error arcs (S i mod length cs) = Some y /\ a_circle x = c /\ a_to x = from_direction (right_tangent_angle acos c d) n1 /\ a_from y = a_to x
  end.
Proof.
  destruct cs as [|f [|g rest]]; [left; cbn; lia|left; cbn; lia|]. set (tl := g :: rest). change (length (f :: tl)) with (S (length tl)).
  assert (W : S (length tl) mod S (length tl) = 0%nat) by (apply Nat.mod_same; lia). assert (LN := last_nth f tl). cbn [make_polygon]. fold tl.
  destruct (contains f (last tl f) || contains (last tl f) f) eqn:K.
  - right. exists (length tl), (last tl f), f. rewrite W. split; [exact LN|]. split; [reflexivity|]. apply orb_true_iff in K. tauto.
  - apply orb_false_iff in K. destruct (arcs_from _ _ _ f tl) as [arcs|] eqn:A.
    + apply arcs_from_ok in A. destruct A as (L & (x0 & X0 & XF) & (z & Z & ZT) & C & P). split; [cbn; lia|]. split; [exact L|]. intros i c d E F.
      assert (I : (i < S (length tl))%nat) by (apply (nth_error_Some (f :: tl)); rewrite E; discriminate). destruct (Nat.eq_dec i (length tl)) as [->|D].
      * rewrite W in *. rewrite LN in E. injection E as <-. cbn in F. injection F as <-. split; [apply K|]. split; [apply K|]. exists z, x0. split; [exact Z|]. split; [exact X0|]. split; [|split; [exact ZT|congruence]].
        apply C in Z. rewrite LN in Z. injection Z as ->. reflexivity.
      * rewrite Nat.mod_small in * by lia. destruct (P i c d E F) as (Q1 & Q2 & x & y & X & Y & R). split; [exact Q1|]. split; [exact Q2|]. exists x, y. split; [exact X|]. split; [exact Y|]. split; [|exact R]. apply C in X. congruence.
    + right. apply arcs_from_none in A. destruct A as (i & d & e & E & F & Q). assert (I : (S i < S (length tl))%nat) by (apply (nth_error_Some (f :: tl)); rewrite F; discriminate). exists i, d, e. rewrite Nat.mod_small by lia. auto.
Qed.
End Make.

(** ** Exact arithmetic *)
Definition circles (bs : list ball) : list (circle N) := map (fun b => circ (fst b) (snd b)) bs.
Lemma nth_circles (bs : list ball) i : (i < length bs)%nat -> nth_error (circles bs) i = Some (circ (fst (at_ bs i)) (snd (at_ bs i))).
Proof. intros I. unfold circles. rewrite nth_error_map, (nth_error_nth' bs (P 0 0, 0)) by exact I. reflexivity. Qed.
Lemma circles_length (bs : list ball) : length (circles bs) = length bs. Proof. apply map_length. Qed.
Lemma made_apart (bs : list ball) arcs : (forall b, In b bs -> 0 <= snd b) -> make_polygon (N := N) xacos (circles bs) = Some arcs -> (2 <= length bs)%nat /\ apart bs.
Proof.
  intros R0 E. pose proof (C79_make (M := N) xacos (circles bs)) as H. rewrite E, circles_length in H. destruct H as (L & _ & P). split; [exact L|]. intros i I.
  assert (J := next_lt (length bs) i ltac:(lia)). destruct (P i _ _ (nth_circles bs i I) (nth_circles bs _ J)) as (A & B & _). rewrite <- !C76_contains by (apply R0, nth_In; assumption). split; intros Q; congruence.
Qed.
Lemma toward_plus x y e : toward x = toward y -> toward (x + e) = toward (y + e).
Proof. unfold toward. intros H. injection H as A B. rewrite !cos_plus, !sin_plus, A, B. reflexivity. Qed.
(** The computed angle is that of the right tangent, to which the difference of the float nearest to a turn and a turn may have been added *)
Lemma right_angle_x c d r s : Rabs (r - s) < len (minus d c) -> exists y, right_tangent_angle (N := N) xacos (circ c r) (circ d s) = Fin y /\
  (y = theta c d - alpha c d r s /\ - (turn / 2) < theta c d - alpha c d r s \/ y = theta c d - alpha c d r s + turn /\ theta c d - alpha c d r s <= - (turn / 2)).
Proof.
  intros L. pose proof (Rabs_pos (r - s)) as Ra. destruct (alpha_ok c d r s L) as (AB & _). destruct (theta_ok c d ltac:(lra)) as (TB & _). pose proof turn_pi as TP.
  destruct (about_zero (theta c d - alpha c d r s)) as (y & EY & BY & KY); [apply Rabs_lt; lra|]. exists y. rewrite right_x by exact L. split; [exact EY|]. destruct KY as [K|[K|K]]; [lra|left; lra|right; lra].
Qed.
Lemma right_toward c d r s u : 0 <= r -> 0 <= s -> Rabs (r - s) < len (minus d c) -> inner c (toward u) + r = inner d (toward u) + s -> 0 < inner (minus d c) (perp (toward u)) ->
  toward (theta c d - alpha c d r s) = toward u.
Proof.
  intros R S L E T0. pose proof (Rabs_pos (r - s)) as Ra. assert (L0 : 0 < len (minus d c)) by lra. destruct (alpha_ok c d r s L) as (AB & CA & SA).
  destruct (inner_toward c d (theta c d - alpha c d r s) L0) as [I2 C2]. replace (theta c d - alpha c d r s - theta c d) with (- alpha c d r s) in I2, C2 by ring. rewrite cos_neg in I2. rewrite sin_neg in C2.
  set (l := len (minus d c)) in *. set (m := minus d c) in *. assert (LL : px m * px m + py m * py m = l * l) by (symmetry; apply (len_sq m)).
  assert (I1 : inner m (toward u) = r - s) by (unfold m, inner, minus in *; cbn in *; lra). pose proof (toward_unit u) as U. unfold unit in U.
  assert (C1 : cross m (toward u) = - (l * sin (alpha c d r s))).
  { assert (P : inner m (perp (toward u)) = - cross m (toward u)) by (unfold inner, cross, perp; cbn; ring). rewrite P in T0.
    assert (Q : cross m (toward u) * cross m (toward u) = (l * sin (alpha c d r s)) * (l * sin (alpha c d r s))).
    { assert (X : cross m (toward u) * cross m (toward u) + inner m (toward u) * inner m (toward u) = l * l) by (rewrite <- LL; transitivity ((px m * px m + py m * py m) * (px (toward u) * px (toward u) + py (toward u) * py (toward u))); [unfold cross, inner; ring|rewrite U; ring]).
      rewrite I1, <- CA in X. pose proof (sin2_cos2 (alpha c d r s)) as SC. unfold Rsqr in SC. nra. }
    assert (0 < l * sin (alpha c d r s)) by (apply Rmult_lt_0_compat; assumption). nra. }
  assert (0 < l * l) by nra. unfold inner in I1, I2. unfold cross in C1, C2. set (v := toward (theta c d - alpha c d r s)) in *. set (t := toward u) in *.
  assert (E1 : px m * px v + py m * py v = px m * px t + py m * py t) by lra. assert (E2 : px m * py v - py m * px v = px m * py t - py m * px t) by lra.
  apply pt_eq; apply (Rmult_eq_reg_l (l * l)); try lra; rewrite <- LL;
    [transitivity (px m * (px m * px v + py m * py v) - py m * (px m * py v - py m * px v)); [ring|rewrite E1, E2; ring]|transitivity (py m * (px m * px v + py m * py v) + px m * (px m * py v - py m * px v)); [ring|rewrite E1, E2; ring]].
Qed.
Lemma apart_len c d r s : 0 <= r -> 0 <= s -> ~ within (disc c r) (disc d s) -> ~ within (disc d s) (disc c r) -> Rabs (r - s) < len (minus d c).
Proof. intros R S A B. rewrite within_disc in A, B by assumption. rewrite (len_sym c d) in A. apply Rabs_def1; lra. Qed.
(** the arcs of a convex arrangement end where another disc starts to reach farther, exactly or turned by less than 2e-7 *)
Theorem C79_arcs (bs : list ball) a arcs : convex bs a -> make_polygon (N := N) xacos (circles bs) = Some arcs ->
  length arcs = length bs /\ forall i, (i < length bs)%nat -> exists x y, nth_error arcs i = Some x /\ nth_error arcs (S i mod length bs) = Some y /\ a_circle x = circ (fst (at_ bs i)) (snd (at_ bs i)) /\
  a_from y = a_to x /\ exists e, a_to x = pv (toward (a (S i) + e)) /\ (e = 0 \/ e = turn - 2 * PI) /\ 0 <= e < 2 / 10000000.
Proof.
  intros CV E. destruct (made_apart bs arcs (convex_radius _ _ CV) E) as [_ AP]. pose proof (C79_make (M := N) xacos (circles bs)) as H. rewrite E, circles_length in H. destruct H as (L & LA & P). split; [exact LA|]. intros i I.
  assert (J := next_lt (length bs) i ltac:(lia)). destruct (P i _ _ (nth_circles bs i I) (nth_circles bs _ J)) as (_ & _ & x & y & X & Y & C & T & F). exists x, y. split; [exact X|]. split; [exact Y|]. split; [exact C|]. split; [exact F|].
  fold (next (length bs) i) in T. destruct (AP i I) as [A1 A2]. pose proof (reach_next bs a CV i I) as RN. pose proof (ahead_next bs a CV AP i I) as AN. unfold reach in RN. pose proof (at_radius bs a CV i I) as R1. pose proof (at_radius bs a CV _ J) as R2.
  destruct (at_ bs i) as [c r]. destruct (at_ bs (next (length bs) i)) as [d s]. cbn [fst snd] in *.
  pose proof (apart_len c d r s R1 R2 A1 A2) as LN. destruct (right_angle_x c d r s LN) as (t & ET & Q). rewrite ET, direction_unit in T. pose proof (right_toward c d r s (a (S i)) R1 R2 LN RN AN) as W. pose proof turn_pi as TP.
  destruct Q as [[Q _]|[Q _]]; rewrite Q in T.
  - exists 0. rewrite Rplus_0_r, T, W. split; [reflexivity|]. split; [left; reflexivity|lra].
  - exists (turn - 2 * PI). rewrite T. split; [|split; [right; reflexivity|lra]]. rewrite <- (toward_plus _ _ (turn - 2 * PI) W). f_equal. rewrite <- (toward_turns (_ + (turn - 2 * PI)) 1). f_equal. ring.
Qed.
(** Where all arcs end exactly where another disc starts to reach farther, and no arc is so short, or so close to half a turn, that it is
    skipped: a circle is reported to be contained if and only if its disc is within the convex hull of the discs *)
Theorem C79_contains (bs : list ball) a arcs p s : convex bs a -> make_polygon (N := N) xacos (circles bs) = Some arcs ->
  (forall i x, nth_error arcs i = Some x -> a_to x = pv (toward (a (S i)))) ->
  (forall i, (i < length bs)%nat -> 5 / 1000000 <= Rabs (sin (a (S i) - a i))) -> 0 <= s ->
  polygon_contains arcs (circ p s) = true <-> within (disc p s) (hull bs).
Proof.
  intros CV E EX K S0. destruct (made_apart bs arcs (convex_radius _ _ CV) E) as [B2 AP]. destruct (C79_arcs bs a arcs CV E) as [LA P].
  rewrite <- (hull_iff bs a CV) by (try assumption; intros i I; specialize (K i I); unfold tol; lra). replace arcs with (arcs_of bs a); [reflexivity|].
  apply nth_ext with (d := xarc (GeomSpec.P 0 0, 0) 0 0) (d' := xarc (GeomSpec.P 0 0, 0) 0 0); [unfold arcs_of; rewrite map_length, seq_length, LA; reflexivity|]. unfold arcs_of. rewrite map_length, seq_length. intros i I.
  rewrite nth_indep with (d' := (fun i => xarc (at_ bs i) (a i) (a (S i))) 0%nat) by (rewrite map_length, seq_length; exact I). rewrite (map_nth (fun i => xarc (at_ bs i) (a i) (a (S i)))), seq_nth by exact I. cbn [plus].
  destruct (P i I) as (x & _ & X & _ & C & _). destruct (next_prev (length bs) i I) as [PI' NP]. destruct (P _ PI') as (z & y & Z & Y & _ & F & _). fold (next (length bs) (prev (length bs) i)) in Y. rewrite NP in Y. assert (y = x) by congruence. subst y.
  rewrite (EX _ _ Z) in F. rewrite (nth_error_nth arcs i _ X). pose proof (EX _ _ X) as T. destruct x as [xc xf xt]. cbn [a_circle a_from a_to] in *. subst xc xf xt. unfold xarc. f_equal. f_equal. rewrite <- (toward_next bs a CV _ PI'). rewrite NP. reflexivity.
Qed.

(** ** Examples *)
Lemma unwrapped c d r s x : Rabs (r - s) < len (minus d c) -> theta c d = x -> alpha c d r s = PI / 2 -> - (turn / 2) < x - PI / 2 -> right_tangent_angle (N := N) xacos (circ c r) (circ d s) = Fin (x - PI / 2).
Proof. intros L T A H. destruct (right_angle_x c d r s L) as (y & -> & [[-> _]|[_ Q]]); [rewrite T, A; reflexivity|]. rewrite T, A in Q. lra. Qed.
Lemma alpha_same c d r : 0 < len (minus d c) -> alpha c d r r = PI / 2.
Proof. intros L. unfold alpha. replace ((r - r) / len (minus d c)) with 0 by (field; lra). apply acos_0. Qed.
Lemma len_x x y : y * y = x * x -> 0 <= y -> forall v, px v * px v + py v * py v = x * x -> len v = y.
Proof. intros E Y v V. unfold len, inner. rewrite V, <- E. apply sqrt_square. exact Y. Qed.
Lemma theta_right c d : py d = py c -> px c < px d -> theta c d = 0.
Proof. intros A B. unfold theta, atan2R. rewrite Rlt_bool_true by lra. replace ((py d - py c) / (px d - px c)) with 0 by (field_simplify_eq; lra). apply atan_0. Qed.
Lemma theta_left c d : py d = py c -> px d < px c -> theta c d = PI.
Proof. intros A B. unfold theta, atan2R. rewrite Rlt_bool_false, Rlt_bool_true by lra. rewrite Rle_bool_true by lra. replace ((py d - py c) / (px d - px c)) with 0 by (field_simplify_eq; lra). rewrite atan_0. ring. Qed.
Lemma theta_up c d : px d = px c -> py c < py d -> theta c d = PI / 2.
Proof. intros A B. unfold theta, atan2R. rewrite !Rlt_bool_false by lra. rewrite Rlt_bool_true by lra. reflexivity. Qed.
Lemma theta_down c d : px d = px c -> py d < py c -> theta c d = - (PI / 2).
Proof. intros A B. unfold theta, atan2R. rewrite !Rlt_bool_false by lra. rewrite Rlt_bool_true by lra. reflexivity. Qed.
Lemma toward_right : toward 0 = P 1 0. Proof. unfold toward. rewrite cos_0, sin_0. reflexivity. Qed.
Lemma toward_up : toward (PI / 2) = P 0 1. Proof. unfold toward. rewrite cos_PI2, sin_PI2. reflexivity. Qed.
Lemma toward_left : toward PI = P (-1) 0. Proof. unfold toward. rewrite cos_PI, sin_PI. reflexivity. Qed.
Lemma toward_down : toward (- (PI / 2)) = P 0 (-1). Proof. unfold toward. rewrite cos_neg, sin_neg, cos_PI2, sin_PI2. reflexivity. Qed.
Lemma toward_back x : toward (x - 2 * PI) = toward x. Proof. rewrite <- (toward_turns (x - 2 * PI) 1). f_equal. ring. Qed.
Lemma step_contains c d l r : len (minus d c) = l -> 0 < l -> contains (N := N) (circ c r) (circ d r) = false.
Proof. intros E L. destruct (contains _ _) eqn:K; [|reflexivity]. apply contains_x in K. lra. Qed.
Ltac len4 l := apply (len_x l l); [lra|lra|cbn; lra].

(** four circles of radius 1 at the corners of a square, which rounds its corners *)
Definition square : list ball := [(P 0 0, 1); (P 4 0, 1); (P 4 4, 1); (P 0 4, 1)].
Definition square_cuts (i : nat) : R := - PI + INR i * (PI / 2).
Definition square_arcs : list (arc N) :=
  [Arc (circ (P 0 0) 1) (pv (P (-1) 0)) (pv (P 0 (-1))); Arc (circ (P 4 0) 1) (pv (P 0 (-1))) (pv (P 1 0));
   Arc (circ (P 4 4) 1) (pv (P 1 0)) (pv (P 0 1)); Arc (circ (P 0 4) 1) (pv (P 0 1)) (pv (P (-1) 0))].
Lemma square_convex : convex square square_cuts.
Proof.
  pose proof PI_RGT_0 as PP. constructor.
  - cbn. lia.
  - intros b [<-|[<-|[<-|[<-|[]]]]]; cbn; lra.
  - intros i _. unfold square_cuts. rewrite S_INR. lra.
  - unfold square_cuts. cbn. lra.
  - intros i x b I X B. unfold square_cuts in X. rewrite S_INR in X. cbn in I.
    assert (Q : i = 0%nat /\ cos x <= 0 /\ sin x <= 0 \/ i = 1%nat /\ 0 <= cos x /\ sin x <= 0 \/ i = 2%nat /\ 0 <= cos x /\ 0 <= sin x \/ i = 3%nat /\ cos x <= 0 /\ 0 <= sin x).
    { assert (SN : forall y, - PI <= y <= 0 -> sin y <= 0) by (intros y Y; rewrite <- (Ropp_involutive y), sin_neg; pose proof (sin_ge_0 (- y) ltac:(lra) ltac:(lra)); lra).
      destruct i as [|[|[|[|i]]]]; [left|right; left|right; right; left|right; right; right|lia]; cbn in X; (split; [reflexivity|]); split.
      - rewrite <- cos_neg. apply cos_le_0; lra.
      - apply SN; lra.
      - apply cos_ge_0; lra.
      - apply SN; lra.
      - apply cos_ge_0; lra.
      - apply sin_ge_0; lra.
      - apply cos_le_0; lra.
      - apply sin_ge_0; lra. }
    unfold reach, inner, toward, at_, square. destruct Q as [(-> & A & C)|[(-> & A & C)|[(-> & A & C)|(-> & A & C)]]]; destruct B as [<-|[<-|[<-|[<-|[]]]]]; cbn; lra.
Qed.
Lemma square_made : make_polygon (N := N) xacos (circles square) = Some square_arcs.
Proof.
  pose proof PI_RGT_0 as PP. pose proof turn_pi as TP. unfold circles, square, make_polygon. cbn [map fst snd last arcs_from].
  rewrite !(step_contains _ _ 4) by (try lra; len4 4). cbn [orb].
  assert (Q : forall c d, len (minus d c) = 4 -> Rabs (1 - 1) < len (minus d c) /\ alpha c d 1 1 = PI / 2). { intros c d L. split; [rewrite L; replace (1 - 1) with 0 by ring; rewrite Rabs_R0; lra|apply alpha_same; rewrite L; lra]. }
  rewrite (unwrapped (P 0 4) (P 0 0) 1 1 (- (PI / 2))); [|apply Q; len4 4|apply theta_down; cbn; lra|apply Q; len4 4|lra].
  rewrite (unwrapped (P 0 0) (P 4 0) 1 1 0); [|apply Q; len4 4|apply theta_right; cbn; lra|apply Q; len4 4|lra].
  rewrite (unwrapped (P 4 0) (P 4 4) 1 1 (PI / 2)); [|apply Q; len4 4|apply theta_up; cbn; lra|apply Q; len4 4|lra].
  rewrite (unwrapped (P 4 4) (P 0 4) 1 1 PI); [|apply Q; len4 4|apply theta_left; cbn; lra|apply Q; len4 4|lra].
  rewrite !direction_unit. replace (- (PI / 2) - PI / 2) with (PI - 2 * PI) by field. replace (0 - PI / 2) with (- (PI / 2)) by ring. replace (PI / 2 - PI / 2) with 0 by ring. replace (PI - PI / 2) with (PI / 2) by field.
  rewrite toward_back, toward_left, toward_right, toward_up, toward_down. reflexivity.
Qed.
(** the hypotheses of C79_contains hold, and it decides both ways *)
Example square_contains : polygon_contains square_arcs (circ (P 2 2) 3) = true /\ polygon_contains square_arcs (circ (P 2 2) 4) = false.
Proof.
  pose proof PI_RGT_0 as PP.
  assert (H : forall p s, 0 <= s -> polygon_contains square_arcs (circ p s) = true <-> within (disc p s) (hull square)).
  { intros p s S0. apply C79_contains with (a := square_cuts); [apply square_convex|apply square_made| | |exact S0].
    - unfold square_cuts. intros i x. destruct i as [|[|[|[|i]]]]; cbn [nth_error square_arcs]; [intros E; injection E as <-; cbn [a_to]; f_equal..|destruct i; discriminate 1]; cbn [INR].
      + rewrite <- toward_down. f_equal. field.
      + rewrite <- toward_right. f_equal. field.
      + rewrite <- toward_up. f_equal. field.
      + rewrite <- toward_left. f_equal. field.
    - intros i _. unfold square_cuts. rewrite S_INR. replace (_ - _) with (PI / 2) by ring. rewrite sin_PI2, Rabs_R1. lra. }
  split.
  - apply H; [lra|]. intros q D u U. apply disc_len in D; [|lra]. pose proof (cauchy (minus q (P 2 2)) u) as C. assert (Lu : len u = 1) by (unfold len; unfold unit, inner in *; rewrite U; apply sqrt_1). rewrite Lu in C.
    assert (B : inner q u <= 2 * px u + 2 * py u + 3) by (unfold inner, minus in *; cbn in *; lra). unfold unit in U.
    destruct (Rle_dec 0 (px u)) as [X|X], (Rle_dec 0 (py u)) as [Y|Y];
      [exists (P 4 4, 1)|exists (P 4 0, 1)|exists (P 0 4, 1)|exists (P 0 0, 1)]; (split; [cbn; tauto|]); apply Rle_trans with (1 := B); unfold reach, inner; cbn; nra.
  - destruct (polygon_contains square_arcs (circ (P 2 2) 4)) eqn:K; [|reflexivity]. exfalso. apply H in K; [|lra]. destruct (K (P 6 2)) with (u := P 1 0) as (b & B & L); [unfold disc, dist2; cbn; lra|unfold unit; cbn; lra|].
    destruct B as [<-|[<-|[<-|[<-|[]]]]]; unfold reach, inner in L; cbn in L; lra.
Qed.

(** two circles of the same size: both arcs are half circles *)
Definition stadium : list ball := [(P 0 0, 1); (P 10 0, 1)].
Definition stadium_cuts (i : nat) : R := PI / 2 + INR i * PI.
Definition stadium_arcs : list (arc N) := [Arc (circ (P 0 0) 1) (pv (P 0 1)) (pv (P 0 (-1))); Arc (circ (P 10 0) 1) (pv (P 0 (-1))) (pv (P 0 1))].
Lemma stadium_convex : convex stadium stadium_cuts.
Proof.
  pose proof PI_RGT_0 as PP. constructor.
  - cbn. lia.
  - intros b [<-|[<-|[]]]; cbn; lra.
  - intros i _. unfold stadium_cuts. rewrite S_INR. lra.
  - unfold stadium_cuts. cbn. lra.
  - intros i x b I X B. unfold stadium_cuts in X. rewrite S_INR in X. cbn in I.
    assert (Q : i = 0%nat /\ cos x <= 0 \/ i = 1%nat /\ 0 <= cos x).
    { destruct i as [|[|i]]; [left|right|lia]; cbn in X; (split; [reflexivity|]).
      - apply cos_le_0; lra.
      - replace (cos x) with (cos (x - 2 * PI)); [apply cos_ge_0; lra|]. pose proof (toward_back x) as T. injection T as T _. exact T. }
    unfold reach, inner, toward, at_, stadium. destruct Q as [(-> & A)|(-> & A)]; destruct B as [<-|[<-|[]]]; cbn; lra.
Qed.
Lemma stadium_made : make_polygon (N := N) xacos (circles stadium) = Some stadium_arcs.
Proof.
  pose proof PI_RGT_0 as PP. pose proof turn_pi as TP. unfold circles, stadium, make_polygon. cbn [map fst snd last arcs_from].
  rewrite !(step_contains _ _ 10) by (try lra; len4 10). cbn [orb].
  assert (Q : forall c d, len (minus d c) = 10 -> Rabs (1 - 1) < len (minus d c) /\ alpha c d 1 1 = PI / 2). { intros c d L. split; [rewrite L; replace (1 - 1) with 0 by ring; rewrite Rabs_R0; lra|apply alpha_same; rewrite L; lra]. }
  rewrite (unwrapped (P 10 0) (P 0 0) 1 1 PI); [|apply Q; len4 10|apply theta_left; cbn; lra|apply Q; len4 10|lra].
  rewrite (unwrapped (P 0 0) (P 10 0) 1 1 0); [|apply Q; len4 10|apply theta_right; cbn; lra|apply Q; len4 10|lra].
  rewrite !direction_unit. replace (0 - PI / 2) with (- (PI / 2)) by ring. replace (PI - PI / 2) with (PI / 2) by field. rewrite toward_up, toward_down. reflexivity.
Qed.
(** "The start and end vector are sufficiently close that we consider there to be no arc": half circles are skipped too, so that a circle
    far away is reported to be contained *)
Theorem C79_half_refuted : exists (bs : list ball) a arcs p s, convex bs a /\ make_polygon (N := N) xacos (circles bs) = Some arcs /\
  (forall i x, nth_error arcs i = Some x -> a_to x = pv (toward (a (S i)))) /\ 0 <= s /\ polygon_contains arcs (circ p s) = true /\
  ~ within (disc p s) (hull bs) /\ forall q, disc p s q -> ~ hull bs q.
Proof.
  pose proof PI_RGT_0 as PP. exists stadium, stadium_cuts, stadium_arcs, (P 100 0), 1.
  assert (FAR : forall q, disc (P 100 0) 1 q -> ~ hull stadium q).
  { intros q D K. apply disc_len in D; [|lra]. pose proof (cauchy (minus (P 100 0) q) (P 1 0)) as C. rewrite (len_sym (P 100 0) q) in C. rewrite (len_x 1 1 ltac:(lra) ltac:(lra) (P 1 0) ltac:(cbn; lra)) in C.
    destruct (K (P 1 0)) as (b & B & L); [unfold unit; cbn; lra|]. destruct B as [<-|[<-|[]]]; unfold reach, inner, minus in *; cbn in *; lra. }
  split; [apply stadium_convex|]. split; [apply stadium_made|]. split; [|split; [lra|split; [|split; [|exact FAR]]]].
  - unfold stadium_cuts. intros i x. destruct i as [|[|i]]; cbn [nth_error stadium_arcs]; [intros E; injection E as <-; cbn [a_to]; f_equal..|destruct i; discriminate 1]; cbn [INR].
    + rewrite <- toward_down, <- (toward_back (_ + _)). f_equal. field.
    + rewrite <- toward_up, <- (toward_back (_ + _)). f_equal. field.
  - unfold polygon_contains. cbn [length stadium_arcs seq forallb nth_error get_segment Nat.modulo Nat.divmod fst snd Nat.sub center radius circ].
    assert (AD : forall c u v, det2 u v = 0 -> arc_distance (Arc c (pv u) (pv v)) (pv (P 100 0)) = None).
    { intros c u v D. unfold arc_distance. cbn [a_from a_to a_circle]. rewrite det_x, D, no_arc_x. cbn [nabs N]. rewrite (proj2 (le_x _ _)); [reflexivity|]. rewrite Rabs_R0. unfold tol. lra. }
    assert (J : forall (p q : pt) x, p <> q -> dot2 (sub (P 100 0) p) (sub q p) / dot2 (sub q p) (sub q p) = x -> x < 0 \/ 1 < x -> segment_distance (sg p q) (pv (P 100 0)) = None).
    { intros p q x D E B. unfold segment_distance. rewrite (proj2 (project_x p q _ D)), E, x0, x1e. destruct B as [B|B]; [rewrite (proj2 (lt_x x 0)) by exact B|rewrite (proj2 (lt_x 1 x)), orb_true_r by exact B]; reflexivity. }
    assert (GS : forall b x y b' x' y', joining (Arc (circ (fst b) (snd b)) (pv x) (pv y)) (Arc (circ (fst b') (snd b')) (pv x') (pv y')) = sg (rim (fst b) (snd b) y) (rim (fst b') (snd b') x')).
    { intros. unfold joining, sg, rim, circ, padd, vscale, pv. cbn [a_circle a_to a_from center radius vx vy px py nadd nmul N xadd xmul]. f_equal; f_equal; f_equal; ring. }
    unfold get_segment. cbn [length stadium_arcs nth_error Nat.modulo Nat.divmod fst snd Nat.sub].
    rewrite !AD by (unfold det2; cbn; ring). rewrite (GS (P 0 0, 1) _ _ (P 10 0, 1)), (GS (P 10 0, 1) _ _ (P 0 0, 1)). cbn [fst snd].
    rewrite (J _ _ 10), (J _ _ (-9)); [reflexivity|..].
    + intros E. apply (f_equal px) in E. cbn in E. lra.
    + unfold dot2, sub, rim. cbn. field.
    + lra.
    + intros E. apply (f_equal px) in E. cbn in E. lra.
    + unfold dot2, sub, rim. cbn. field.
    + lra.
  - intros W. apply (FAR (P 100 0)); [unfold disc, dist2; cbn; lra|]. apply W. unfold disc, dist2. cbn. lra.
Qed.

Print Assumptions C79_make.
Print Assumptions C79_arcs.
Print Assumptions C79_contains.
Print Assumptions C79_half_refuted.
