(** C83: the intersection of two segments in stroke tessellation. *)
From Coq Require Import ZArith Bool Arith Reals Lra Lia List.
From Verif Require Import NumModel EasingExact BehaviorMeaning BehaviorExact GeomModel GeomSpec GeomReal GeomExact LegacyModel LegacySpec.
Import ListNotations.
Local Open Scope R_scope.
Notation N := xnum.

Lemma div_x (x y : R) : y <> 0 -> ndiv N (Fin x) (Fin y) = Fin (x / y). Proof. intros H. apply xdiv_fin. exact H. Qed.
(** between neighbours there is nothing: in exact arithmetic there are no next and previous numbers to try *)
Definition same (x : T N) : T N := x.
Local Notation on := (is_on_line (N := N) same same).
Local Notation core := (intersect_scaled (N := N) same same).

Lemma adjust_same x d : adjust_for_error (N := N) same same x d = x.
Proof. unfold adjust_for_error, adjust, same. destruct x as [x y]. cbn [vx vy]. destruct (nlt N n0 (vx d)), (nlt N (vx d) n0), (nlt N n0 (vy d)), (nlt N (vy d) n0); reflexivity. Qed.
Lemma on_x a b x : on (pv a) (pv b) (pv x) = true <-> a <> b /\ det2 (sub b a) (sub x a) = 0.
Proof.
  unfold is_on_line, position_relative. destruct (veq (pv a) (pv b)) eqn:E. { apply veq_x in E. split; [discriminate|intros [D _]; contradiction]. }
  apply veq_xf in E. destruct (veq (pv a) (pv x) || veq (pv b) (pv x)) eqn:F.
  { split; [intros _; split; [exact E|]|reflexivity]. apply orb_true_iff in F. destruct F as [F|F]; apply veq_x in F; subst x; unfold det2, sub; cbn; ring. }
  rewrite !sub_x, det_x, !x0. destruct (neqb N (Fin (det2 (sub b a) (sub x a))) (Fin 0)) eqn:D. { apply eq_x in D. tauto. }
  apply eq_xf in D. split; [|intros [_ X]; contradiction]. intros H. exfalso. rewrite !adjust_same in H. destruct (nlt N (nmax (dot (pv a) (pv a)) (dot (pv b) (pv b))) (dot (pv x) (pv x))) in H; rewrite !sub_x, det_x in H;
    (change (nmul N (Fin (det2 (sub b a) (sub x a))) (Fin (det2 (sub b a) (sub x a)))) with (Fin (det2 (sub b a) (sub x a) * det2 (sub b a) (sub x a))) in H;
     rewrite (proj2 (le_xf (det2 (sub b a) (sub x a) * det2 (sub b a) (sub x a)) 0)) in H by nra; destruct (nlt N (Fin 0) (Fin (det2 (sub b a) (sub x a)))), (nle N (Fin (det2 (sub b a) (sub x a) * det2 (sub b a) (sub x a))) _) in H; discriminate).
Qed.
Lemma unit_x p : within_unit (N := N) (Fin p) = true <-> 0 <= p <= 1.
Proof. unfold within_unit. rewrite x0, x1e, andb_true_iff, !le_x. tauto. Qed.
(** how far along the line through [p] and [q] a point is *)
Definition par (p q x : pt) : R := dot2 (sub q p) (sub x p) / dot2 (sub q p) (sub q p).
Lemma dot_apart p q : p <> q -> 0 < dot2 (sub q p) (sub q p). Proof. intros H. apply (project_x p q p H). Qed.
Lemma par_mix p q t : p <> q -> par p q (mix t p q) = t.
Proof. intros H. rewrite <- (project_of_mix t p q H) at 2. unfold par. f_equal. unfold dot2. ring. Qed.
Lemma mix_par p q x : p <> q -> det2 (sub q p) (sub x p) = 0 -> x = mix (par p q x) p q.
Proof. intros H D. rewrite (project_mix p q x H) at 1 by (unfold det2 in *; lra). f_equal. unfold par. f_equal. unfold dot2. ring. Qed.
Lemma mix_inj p q s t : p <> q -> mix s p q = mix t p q -> s = t. Proof. intros H E. rewrite <- (par_mix p q s H), <- (par_mix p q t H), E. reflexivity. Qed.
Lemma mix_same t p : mix t p p = p. Proof. destruct p. unfold mix. cbn. f_equal; ring. Qed.
Lemma mix_0 p q : mix 0 p q = p. Proof. destruct p. unfold mix. cbn. f_equal; ring. Qed.
Lemma mix_1 p q : mix 1 p q = q. Proof. destruct q. unfold mix. cbn. f_equal; ring. Qed.
Lemma mix_mix t x y p q : mix t (mix x p q) (mix y p q) = mix ((1 - t) * x + t * y) p q. Proof. unfold mix. cbn. f_equal; ring. Qed.
Lemma pt_dec (p q : pt) : p = q \/ p <> q. Proof. destruct (veq (pv p) (pv q)) eqn:E; [left; apply veq_x; exact E|right; apply veq_xf; exact E]. Qed.

(** what the intersection returns *)
Definition common (a b c d : pt) (r : option (@intervals N)) : Prop :=
  match r with
  | None => ~ meet (seg_set a b) (seg_set c d)
  | Some ((t0, t1), (u0, u1)) => exists x0 x1 y0 y1, t0 = Fin x0 /\ t1 = Fin x1 /\ u0 = Fin y0 /\ u1 = Fin y1 /\ overlap a b c d x0 x1 y0 y1
  end.
Lemma parallel_x a b x y : a <> b -> x <> y ->
  let '(lo, hi) := if nlt N (Fin y) (Fin x) then (Fin y : T N, Fin x : T N) else (Fin x : T N, Fin y : T N) in
  common a b (mix x a b) (mix y a b)
    (if nlt N hi n0 || nlt N n1 lo then None
     else let '(lo, from) := if nlt N lo n0 then (n0, Fin (- x / (y - x)) : T N) else (lo, if nlt N (Fin y) (Fin x) then n1 else n0) in
          let '(hi, to) := if nlt N n1 hi then (n1, Fin ((1 - x) / (y - x)) : T N) else (hi, if nlt N (Fin y) (Fin x) then n0 else n1) in
          Some ((lo, hi), (from, to))).
Proof.
  intros AB XY. assert (IN : forall t, seg_set (mix x a b) (mix y a b) (mix t a b) -> Rmin x y <= t <= Rmax x y).
  { intros t (s & S & E). rewrite mix_mix in E. apply (mix_inj a b) in E; [|exact AB]. subst t. unfold Rmin, Rmax. destruct (Rle_dec x y); nra. }
  assert (NM : Rmax x y < 0 \/ 1 < Rmin x y -> ~ meet (seg_set a b) (seg_set (mix x a b) (mix y a b))). { intros H (p & (t & T & ->) & Q). apply IN in Q. lra. }
  assert (PA : (1 - - x / (y - x)) * x + - x / (y - x) * y = 0) by (field; lra). assert (PB : (1 - (1 - x) / (y - x)) * x + (1 - x) / (y - x) * y = 1) by (field; lra).
  assert (K : forall z s, z = s * (y - x) -> s = z / (y - x)) by (intros z s ->; field; lra).
  assert (UN : forall s z, (1 - s) * x + s * y = z -> Rmin x y <= z <= Rmax x y -> 0 <= s <= 1). { intros s z E Z. unfold Rmin, Rmax in Z. destruct (Rle_dec x y); split; nra. }
  assert (OV : forall t0 t1 s0 s1, 0 <= t0 <= t1 -> t1 <= 1 -> (1 - s0) * x + s0 * y = t0 -> (1 - s1) * x + s1 * y = t1 -> (t0 = 0 \/ t0 = Rmin x y) -> (t1 = 1 \/ t1 = Rmax x y) -> Rmin x y <= t0 <= Rmax x y -> Rmin x y <= t1 <= Rmax x y -> overlap a b (mix x a b) (mix y a b) t0 t1 s0 s1).
  { intros t0 t1 s0 s1 T T1 E0 E1 Q0 Q1 R0 R1. split; [exact T|]. split; [exact T1|]. split; [apply (UN s0 t0); assumption|]. split; [apply (UN s1 t1); assumption|]. rewrite !mix_mix, E0, E1. split; [reflexivity|]. split; [reflexivity|]. intros t HT I. apply IN in I. split; [destruct Q0; lra|]. intros _. destruct Q1; lra. }
  assert (M : x < y /\ Rmin x y = x /\ Rmax x y = y \/ y < x /\ Rmin x y = y /\ Rmax x y = x). { unfold Rmin, Rmax. destruct (Rle_dec x y); [left|right]; repeat split; lra. }
  rewrite !x0, !x1e. destruct M as [(L & EMN & EMX)|(L & EMN & EMX)]; rewrite EMN, EMX in *.
  - rewrite (proj2 (lt_xf y x)) by lra. destruct (nlt N (Fin y) (Fin 0)) eqn:H1; cbn [orb]; [apply lt_x in H1; cbn; apply NM; lra|]. apply lt_xf in H1. destruct (nlt N (Fin 1) (Fin x)) eqn:H2; [apply lt_x in H2; cbn; apply NM; lra|]. apply lt_xf in H2.
    destruct (nlt N (Fin x) (Fin 0)) eqn:H3; [apply lt_x in H3|apply lt_xf in H3]; (destruct (nlt N (Fin 1) (Fin y)) eqn:H4; [apply lt_x in H4|apply lt_xf in H4]); cbv iota beta; cbn [common]; do 4 eexists; do 4 (split; [reflexivity|]); apply OV; solve [lra|assumption|ring|left; lra|right; lra].
  - rewrite (proj2 (lt_x y x)) by lra. destruct (nlt N (Fin x) (Fin 0)) eqn:H1; cbn [orb]; [apply lt_x in H1; cbn; apply NM; lra|]. apply lt_xf in H1. destruct (nlt N (Fin 1) (Fin y)) eqn:H2; [apply lt_x in H2; cbn; apply NM; lra|]. apply lt_xf in H2.
    destruct (nlt N (Fin y) (Fin 0)) eqn:H3; [apply lt_x in H3|apply lt_xf in H3]; (destruct (nlt N (Fin 1) (Fin x)) eqn:H4; [apply lt_x in H4|apply lt_xf in H4]); cbv iota beta; cbn [common]; do 4 eexists; do 4 (split; [reflexivity|]); apply OV; solve [lra|assumption|ring|left; lra|right; lra].
Qed.
(** the determinants of two directions with a third *)
Lemma det_dot (u v w : pt) : dot2 v v * det2 u w = dot2 v u * det2 v w - det2 v u * dot2 v w. Proof. unfold dot2, det2. ring. Qed.
Lemma lines_same a b c d : a <> b -> c <> d -> det2 (sub d c) (sub a c) = 0 -> det2 (sub d c) (sub b c) = 0 -> det2 (sub b a) (sub c a) = 0 /\ det2 (sub b a) (sub d a) = 0.
Proof.
  intros AB CD H1 H2. pose proof (dot_apart c d CD) as V. assert (U : det2 (sub d c) (sub b a) = 0). { replace (det2 (sub d c) (sub b a)) with (det2 (sub d c) (sub b c) - det2 (sub d c) (sub a c)) by (unfold det2, sub; cbn; ring). lra. }
  split; apply Rmult_eq_reg_l with (dot2 (sub d c) (sub d c)); try lra; rewrite det_dot, U.
  - replace (det2 (sub d c) (sub c a)) with (- det2 (sub d c) (sub a c)) by (unfold det2, sub; cbn; ring). rewrite H1. ring.
  - replace (det2 (sub d c) (sub d a)) with (- det2 (sub d c) (sub a c)) by (unfold det2, sub; cbn; ring). rewrite H1. ring.
Qed.
Lemma single_ok a b c d t s : 0 <= t <= 1 -> 0 <= s <= 1 -> mix t a b = mix s c d -> (a = b -> t = 0) -> (a <> b -> det2 (sub b a) (sub d c) <> 0 \/ c = d) -> common a b c d (Some ((Fin t : T N, Fin t : T N), (Fin s : T N, Fin s : T N))).
Proof.
  intros T S E Z U. exists t, t, s, s. do 4 (split; [reflexivity|]). split; [lra|]. split; [lra|]. split; [exact S|]. split; [exact S|]. split; [exact E|]. split; [exact E|]. intros t' T' (s' & S' & E').
  destruct (pt_dec a b) as [AB|AB]; [rewrite (Z AB); split; [lra|contradiction]|]. assert (t' = t); [|subst; lra]. destruct (U AB) as [D|CD].
  - assert (Q : forall t s, mix t a b = mix s c d -> t * det2 (sub b a) (sub d c) = det2 (sub c a) (sub d c)). { clear. intros t s E. unfold mix in E. injection E as X Y. unfold det2, sub. cbn. assert (X' : t * (px b - px a) = px c - px a + s * (px d - px c)) by lra. assert (Y' : t * (py b - py a) = py c - py a + s * (py d - py c)) by lra. transitivity ((t * (px b - px a)) * (py d - py c) - (t * (py b - py a)) * (px d - px c)); [ring|]. rewrite X', Y'. ring. }
    apply Rmult_eq_reg_r with (det2 (sub b a) (sub d c)); [|exact D]. rewrite (Q _ _ E), (Q _ _ E'). reflexivity.
  - subst d. rewrite mix_same in E, E'. apply (mix_inj a b); [exact AB|congruence].
Qed.
Lemma eqb0_x x : neqb N (Fin x) n0 = if Req_EM_T x 0 then true else false. Proof. rewrite x0. destruct (Req_EM_T x 0); [apply eq_x|apply eq_xf]; assumption. Qed.
Lemma neg_sub a b : vneg (pv (sub a b)) = pv (sub b a). Proof. unfold vneg, pv, sub. cbn. f_equal; f_equal; ring. Qed.
Lemma zero_same p q : dot2 (sub q p) (sub q p) = 0 <-> p = q.
Proof. split; [intros H; symmetry; apply sub_zero, dot_zero; exact H|intros ->; unfold dot2, sub; cbn; ring]. Qed.
Lemma meets_line a b c d t s : mix t a b = mix s c d -> det2 (sub b a) (sub d c) = 0 -> det2 (sub d c) (sub a c) = 0 /\ det2 (sub d c) (sub b c) = 0.
Proof.
  intros E D. unfold mix in E. injection E as X Y. unfold det2, sub in *. cbn in *. assert (X' : px a - px c = s * (px d - px c) - t * (px b - px a)) by lra. assert (Y' : py a - py c = s * (py d - py c) - t * (py b - py a)) by lra. assert (Q : (px d - px c) * (py a - py c) - (py d - py c) * (px a - px c) = 0).
  { rewrite X', Y'. transitivity (t * ((px b - px a) * (py d - py c) - (py b - py a) * (px d - px c))); [ring|]. rewrite D. ring. }
  split; [exact Q|]. transitivity (((px d - px c) * (py a - py c) - (py d - py c) * (px a - px c)) - ((px b - px a) * (py d - py c) - (py b - py a) * (px d - px c))); [ring|]. rewrite Q, D. ring.
Qed.
Theorem core_x a b c d : common a b c d (core (pv a) (pv b) (pv c) (pv d)).
Proof.
  unfold intersect_scaled. rewrite !sub_x, !neg_sub, !dot_x, !det_x, !eqb0_x.
  set (uu := dot2 (sub b a) (sub b a)). set (vv := dot2 (sub d c) (sub d c)).
  assert (UU : uu = 0 <-> a = b) by (apply zero_same). assert (VV : vv = 0 <-> c = d) by (apply zero_same).
  assert (QA : dot2 (sub d c) (sub a c) / vv = par c d a) by reflexivity. assert (QB : dot2 (sub d c) (sub b c) / vv = par c d b) by reflexivity. assert (QC : dot2 (sub b a) (sub c a) / uu = par a b c) by reflexivity. assert (QD : dot2 (sub b a) (sub d a) / uu = par a b d) by reflexivity.
  destruct (pt_dec a b) as [AB|AB], (pt_dec c d) as [CD|CD].
  - destruct (Req_EM_T uu 0) as [_|X]; [|tauto]. destruct (Req_EM_T vv 0) as [_|X]; [|tauto]. cbn [andb]. subst b d. destruct (Req_EM_T (dot2 (sub c a) (sub c a)) 0) as [E|E].
    + apply zero_same in E. subst c. rewrite x0, x1e. exists 0, 1, 0, 1. do 4 (split; [reflexivity|]). unfold overlap. rewrite !mix_same. repeat split; lra.
    + cbn. intros (p & (t & _ & ->) & (s & _ & Q)). rewrite !mix_same in Q. apply E. apply zero_same. exact Q.
  - destruct (Req_EM_T uu 0) as [_|X]; [|tauto]. destruct (Req_EM_T vv 0) as [X|_]; [tauto|]. cbn [andb negb]. subst b. rewrite !div_x by tauto. rewrite ?QA, ?QB, ?QC, ?QD.
    destruct (on (pv c) (pv d) (pv a)) eqn:A; cbn [andb].
    + apply on_x in A. destruct A as [_ A]. destruct (within_unit (N := N) (Fin (par c d a))) eqn:W.
      * apply unit_x in W. rewrite x0. apply single_ok; [lra|exact W|rewrite mix_same; apply mix_par; assumption|reflexivity|contradiction].
      * replace (det2 (sub a a) (sub d c)) with 0 by (unfold det2, sub; cbn; ring). destruct (Req_EM_T 0 0) as [_|X]; [|tauto]. cbn. intros (p & (t & _ & ->) & (s & S & Q)). rewrite mix_same in Q. assert (within_unit (N := N) (Fin (par c d a)) = true); [|congruence]. apply unit_x. rewrite Q, par_mix by exact CD. exact S.
    + replace (det2 (sub a a) (sub d c)) with 0 by (unfold det2, sub; cbn; ring). destruct (Req_EM_T 0 0) as [_|X]; [|tauto]. cbn. intros (p & (t & _ & ->) & (s & S & Q)). rewrite mix_same in Q. assert (on (pv c) (pv d) (pv a) = true); [|congruence]. apply on_x. split; [exact CD|]. rewrite Q. unfold det2, sub, mix. cbn. ring.
  - destruct (Req_EM_T uu 0) as [X|_]; [tauto|]. destruct (Req_EM_T vv 0) as [_|X]; [|tauto]. cbn [andb negb]. subst d. rewrite !(div_x _ uu) by tauto. rewrite ?QA, ?QB, ?QC, ?QD. 
    destruct (on (pv a) (pv b) (pv c)) eqn:A; cbn [andb].
    + apply on_x in A. destruct A as [_ A]. destruct (within_unit (N := N) (Fin (par a b c))) eqn:W.
      * apply unit_x in W. rewrite x0. apply single_ok; [exact W|lra|rewrite mix_same; symmetry; apply mix_par; assumption|contradiction|right; reflexivity].
      * replace (det2 (sub b a) (sub c c)) with 0 by (unfold det2, sub; cbn; ring). destruct (Req_EM_T 0 0) as [_|X]; [|tauto]. cbn. intros (p & (t & T & ->) & (s & _ & Q)). rewrite mix_same in Q. assert (within_unit (N := N) (Fin (par a b c)) = true); [|congruence]. apply unit_x. rewrite <- Q, par_mix by exact AB. exact T.
    + replace (det2 (sub b a) (sub c c)) with 0 by (unfold det2, sub; cbn; ring). destruct (Req_EM_T 0 0) as [_|X]; [|tauto]. cbn. intros (p & (t & T & ->) & (s & _ & Q)). rewrite mix_same in Q. assert (on (pv a) (pv b) (pv c) = true); [|congruence]. apply on_x. split; [exact AB|]. rewrite <- Q. unfold det2, sub, mix. cbn. ring.
  - destruct (Req_EM_T uu 0) as [X|_]; [tauto|]. destruct (Req_EM_T vv 0) as [X|_]; [tauto|]. cbn [andb negb]. rewrite !(div_x _ uu), !(div_x _ vv) by tauto. rewrite ?QA, ?QB, ?QC, ?QD.
    destruct ((on (pv c) (pv d) (pv a) && on (pv c) (pv d) (pv b)) || (on (pv a) (pv b) (pv c) && on (pv a) (pv b) (pv d))) eqn:PL.
    + assert (LL : det2 (sub b a) (sub c a) = 0 /\ det2 (sub b a) (sub d a) = 0). { apply orb_true_iff in PL. destruct PL as [PL|PL]; apply andb_true_iff in PL; destruct PL as [P1 P2]; apply on_x in P1, P2; [apply lines_same; tauto|tauto]. }
      destruct LL as [L1 L2]. assert (EC := mix_par a b c AB L1). assert (ED := mix_par a b d AB L2). set (x := par a b c) in *. set (y := par a b d) in *. assert (XY : x <> y) by (intros Q; apply CD; rewrite EC, ED, Q; reflexivity).
      assert (PA : par c d a = - x / (y - x)). { assert (Q : mix (- x / (y - x)) c d = a). { rewrite EC, ED, mix_mix. replace ((1 - - x / (y - x)) * x + - x / (y - x) * y) with 0 by (field; lra). apply mix_0. } rewrite <- Q. apply par_mix. exact CD. }
      assert (PB : par c d b = (1 - x) / (y - x)). { assert (Q : mix ((1 - x) / (y - x)) c d = b). { rewrite EC, ED, mix_mix. replace ((1 - (1 - x) / (y - x)) * x + (1 - x) / (y - x) * y) with 1 by (field; lra). apply mix_1. } rewrite <- Q. apply par_mix. exact CD. }
      rewrite PA, PB. pose proof (parallel_x a b x y AB XY) as PX. rewrite <- EC, <- ED in PX. destruct (nlt N (Fin y) (Fin x)); exact PX.
    + apply orb_false_iff in PL. destruct PL as [PL1 PL2]. set (D := det2 (sub b a) (sub d c)).
      assert (DA : on (pv c) (pv d) (pv a) = true -> D <> 0). { intros A Z. apply on_x in A. assert (B' : on (pv c) (pv d) (pv b) = true). { apply on_x. split; [exact CD|]. transitivity (det2 (sub d c) (sub a c) - D); [unfold D, det2, sub; cbn; ring|]. lra. } rewrite B' in PL1. rewrite (proj2 (on_x c d a) A) in PL1. discriminate. }
      assert (DB : on (pv c) (pv d) (pv b) = true -> D <> 0). { intros A Z. apply on_x in A. assert (B' : on (pv c) (pv d) (pv a) = true). { apply on_x. split; [exact CD|]. transitivity (det2 (sub d c) (sub b c) + D); [unfold D, det2, sub; cbn; ring|]. lra. } rewrite B' in PL1. rewrite (proj2 (on_x c d b) A) in PL1. discriminate. }
      assert (DC : on (pv a) (pv b) (pv c) = true -> D <> 0). { intros A Z. apply on_x in A. assert (B' : on (pv a) (pv b) (pv d) = true). { apply on_x. split; [exact AB|]. transitivity (det2 (sub b a) (sub c a) + D); [unfold D, det2, sub; cbn; ring|]. lra. } rewrite B' in PL2. rewrite (proj2 (on_x a b c) A) in PL2. discriminate. }
      assert (DD : on (pv a) (pv b) (pv d) = true -> D <> 0). { intros A Z. apply on_x in A. assert (B' : on (pv a) (pv b) (pv c) = true). { apply on_x. split; [exact AB|]. transitivity (det2 (sub b a) (sub d a) - D); [unfold D, det2, sub; cbn; ring|]. lra. } rewrite B' in PL2. rewrite (proj2 (on_x a b d) A) in PL2. discriminate. }
      destruct (on (pv c) (pv d) (pv a) && within_unit (N := N) (Fin (par c d a))) eqn:A1.
      { apply andb_true_iff in A1. destruct A1 as [A1 W]. apply unit_x in W. rewrite x0. apply single_ok; [lra|exact W|rewrite mix_0; apply mix_par; [exact CD|apply on_x; exact A1]|contradiction|left; apply DA; exact A1]. }
      destruct (on (pv c) (pv d) (pv b) && within_unit (N := N) (Fin (par c d b))) eqn:A2.
      { apply andb_true_iff in A2. destruct A2 as [A2 W]. apply unit_x in W. rewrite x1e. apply single_ok; [lra|exact W|rewrite mix_1; apply mix_par; [exact CD|apply on_x; exact A2]|contradiction|left; apply DB; exact A2]. }
      destruct (on (pv a) (pv b) (pv c) && within_unit (N := N) (Fin (par a b c))) eqn:A3.
      { apply andb_true_iff in A3. destruct A3 as [A3 W]. apply unit_x in W. rewrite x0. apply single_ok; [exact W|lra|rewrite mix_0; symmetry; apply mix_par; [exact AB|apply on_x; exact A3]|contradiction|left; apply DC; exact A3]. }
      destruct (on (pv a) (pv b) (pv d) && within_unit (N := N) (Fin (par a b d))) eqn:A4.
      { apply andb_true_iff in A4. destruct A4 as [A4 W]. apply unit_x in W. rewrite x1e. apply single_ok; [exact W|lra|rewrite mix_1; symmetry; apply mix_par; [exact AB|apply on_x; exact A4]|contradiction|left; apply DD; exact A4]. }
      destruct (Req_EM_T D 0) as [Z|Z].
      { cbn. intros (p & (t & T & ->) & (s & S & Q)). destruct (meets_line a b c d t s Q Z) as [Q1 Q2]. rewrite (proj2 (on_x c d a)), (proj2 (on_x c d b)) in PL1 by tauto. discriminate. }
      rewrite !div_x by exact Z. set (t := det2 (sub c a) (sub d c) / D). set (s := det2 (sub c a) (sub b a) / D).
      assert (TS : mix t a b = mix s c d). { unfold t, s, mix. f_equal; unfold D, det2, sub in *; cbn in *; field; exact Z. }
      destruct (within_unit (N := N) (Fin t)) eqn:W1; cbn [andb]; [destruct (within_unit (N := N) (Fin s)) eqn:W2; cbn [andb]|].
      * apply unit_x in W1, W2. apply single_ok; [exact W1|exact W2|exact TS|contradiction|left; exact Z].
      * cbn. intros (p & (t' & T & ->) & (s' & S & Q)). assert (within_unit (N := N) (Fin s) = true); [|congruence]. apply unit_x. replace s with s'; [exact S|]. unfold s. apply Rmult_eq_reg_r with D; [|exact Z]. unfold Rdiv. rewrite Rmult_assoc, Rinv_l by exact Z. rewrite Rmult_1_r. unfold mix in Q. injection Q as X Y. unfold D, det2, sub. cbn. assert (X' : s' * (px d - px c) = px a - px c + t' * (px b - px a)) by lra. assert (Y' : s' * (py d - py c) = py a - py c + t' * (py b - py a)) by lra. transitivity ((px b - px a) * (s' * (py d - py c)) - (py b - py a) * (s' * (px d - px c))); [ring|]. rewrite X', Y'. ring.
      * cbn. intros (p & (t' & T & ->) & (s' & S & Q)). assert (within_unit (N := N) (Fin t) = true); [|congruence]. apply unit_x. replace t with t'; [exact T|]. unfold t. apply Rmult_eq_reg_r with D; [|exact Z]. unfold Rdiv. rewrite Rmult_assoc, Rinv_l by exact Z. rewrite Rmult_1_r. unfold mix in Q. injection Q as X Y. unfold D, det2, sub. cbn. assert (X' : t' * (px b - px a) = px c - px a + s' * (px d - px c)) by lra. assert (Y' : t' * (py b - py a) = py c - py a + s' * (py d - py c)) by lra. transitivity ((t' * (px b - px a)) * (py d - py c) - (t' * (py b - py a)) * (px d - px c)); [ring|]. rewrite X', Y'. ring.
Qed.
(** scaling changes neither the parameters nor whether there is an intersection *)
Definition times (k : R) (p : pt) : pt := P (px p * k) (py p * k).
Lemma times_inj k p q : k <> 0 -> times k p = times k q -> p = q.
Proof. intros K E. injection E as X Y. apply Rmult_eq_reg_r in X, Y; try exact K. destruct p, q. cbn in *. congruence. Qed.
Lemma times_mix k t p q : mix t (times k p) (times k q) = times k (mix t p q). Proof. unfold mix, times. cbn. f_equal; ring. Qed.
Lemma common_times k a b c d r : k <> 0 -> common (times k a) (times k b) (times k c) (times k d) r -> common a b c d r.
Proof.
  intros K. unfold common. destruct r as [[[t0 t1] [u0 u1]]|].
  - intros (x & x' & y & y' & A & B & C & D & (T & T1 & U & U1 & E & E1 & ALL)). exists x, x', y, y'. do 4 (split; [assumption|]). rewrite !times_mix in E, E1. split; [exact T|]. split; [exact T1|]. split; [exact U|]. split; [exact U1|]. split; [apply (times_inj k); assumption|]. split; [apply (times_inj k); assumption|].
    intros t HT (s & S & Q). destruct (ALL t HT) as [L H]; [exists s; split; [exact S|]; rewrite !times_mix, Q; reflexivity|]. split; [exact L|]. intros NE. apply H. intros Z. apply NE. apply (times_inj k); assumption.
  - intros M (p & (t & T & ->) & (s & S & Q)). apply M. exists (times k (mix t a b)). split; [exists t; rewrite times_mix; auto|exists s; split; [exact S|]; rewrite Q, times_mix; reflexivity].
Qed.
Lemma scaled_x e : exists k, k <> 0 /\ forall p, scaled (N := N) e (pv p) = pv (times k p).
Proof. exists (Flocq.Core.Raux.bpow Flocq.Core.Zaux.radix2 e). split; [apply Rgt_not_eq, Flocq.Core.Raux.bpow_gt_0|]. intros q. unfold scaled. rewrite !xdy, Rmult_1_l. reflexivity. Qed.
Notation legacy := (legacy_intersection (N := N) same same).
Lemma helper_x exponent a b c d : common a b c d (intersect_helper (N := N) same same exponent (sg a b) (sg c d)).
Proof.
  unfold intersect_helper. unfold sg at 1 2 3 4 5 6 7 8. cbn [s_start s_end]. rewrite x0, x1e. destruct (veq (pv a) (pv c) && veq (pv b) (pv d)) eqn:E1.
  { apply andb_true_iff in E1. destruct E1 as [A B]. apply veq_x in A, B. subst c d. exists 0, 1, 0, 1. do 4 (split; [reflexivity|]). repeat split; lra. }
  destruct (veq (pv a) (pv d) && veq (pv b) (pv c)) eqn:E2.
  { apply andb_true_iff in E2. destruct E2 as [A B]. apply veq_x in A, B. subst c d. exists 0, 1, 1, 0. do 4 (split; [reflexivity|]). split; [lra|]. split; [lra|]. split; [lra|]. split; [lra|]. rewrite !mix_0, !mix_1. split; [reflexivity|]. split; [reflexivity|]. intros; lra. }
  destruct (Z.eqb (exponent (sg a b) (sg c d)) 0); [apply core_x|]. destruct (scaled_x (exponent (sg a b) (sg c d))) as (k & K & SC). change (s_start (sg a b)) with (pv a). change (s_end (sg a b)) with (pv b). change (s_start (sg c d)) with (pv c). change (s_end (sg c d)) with (pv d). rewrite !SC. apply (common_times k); [exact K|apply core_x].
Qed.
(** Two segments: nothing if they have no point in common; otherwise the part of the first, by its ends, that they have in common, where it is along each of them, and
    its points, whatever the exponent that both are scaled by *)
Theorem C83_intersection exponent a b c d :
  match legacy exponent (sg a b) (sg c d) with
  | None => ~ meet (seg_set a b) (seg_set c d)
  | Some (((t0, t1), (u0, u1)), s) => exists x0 x1 y0 y1, t0 = Fin x0 /\ t1 = Fin x1 /\ u0 = Fin y0 /\ u1 = Fin y1 /\ overlap a b c d x0 x1 y0 y1 /\ s = sg (mix x0 a b) (mix x1 a b)
  end.
Proof.
  unfold legacy_intersection. pose proof (helper_x exponent a b c d) as H. destruct (intersect_helper _ _ _ _ _) as [[[t0 t1] [u0 u1]]|]; [|exact H]. destruct H as (x & x' & y & y' & -> & -> & -> & -> & O). exists x, x', y, y'. do 4 (split; [reflexivity|]). split; [exact O|]. cbn [fst snd]. rewrite !lerp_x. unfold sg. f_equal; f_equal; unfold mix; f_equal; ring.
Qed.
(** All that lies between the ends is common to both *)
Theorem C83_common a b c d x0 x1 y0 y1 t : overlap a b c d x0 x1 y0 y1 -> a <> b -> 0 <= t <= 1 -> (x0 <= t <= x1 <-> seg_set c d (mix t a b)).
Proof.
  intros (T & T1 & U & U1 & E & E1 & ALL) AB HT. split; [|intros S; specialize (ALL t HT S); tauto]. intros H. destruct (Req_dec x0 x1) as [Q|Q].
  - assert (t = x0) by lra. subst t. exists y0. auto.
  - set (r := (t - x0) / (x1 - x0)). assert (R0 : 0 <= r <= 1). { unfold r. split; [apply Rmult_le_pos; [lra|left; apply Rinv_0_lt_compat; lra]|]. apply Rmult_le_reg_r with (x1 - x0); [lra|]. unfold Rdiv. rewrite Rmult_assoc, Rinv_l by lra. lra. }
    exists ((1 - r) * y0 + r * y1). split; [nra|]. replace t with ((1 - r) * x0 + r * x1) by (unfold r; field; lra). rewrite <- mix_mix, E, E1, mix_mix. reflexivity.
Qed.
(** A single common point of segments that are not both points gives equal ends along the first segment if that has an extent, and along the second if that has one *)
Theorem C83_single a b c d x0 x1 y0 y1 : overlap a b c d x0 x1 y0 y1 -> (forall p q, seg_set a b p -> seg_set c d p -> seg_set a b q -> seg_set c d q -> p = q) -> (a <> b -> x0 = x1) /\ (c <> d -> y0 = y1).
Proof.
  intros (T & T1 & U & U1 & E & E1 & ALL) S. assert (Q : mix x0 a b = mix x1 a b). { apply S; [exists x0; split; [lra|reflexivity]|exists y0; auto|exists x1; split; [lra|reflexivity]|exists y1; auto]. }
  split; intros NE; [apply (mix_inj a b); assumption|]. apply (mix_inj c d); [exact NE|congruence].
Qed.
(** "If the segments intersect at a single point, the first and second element of each interval will be equal": not if both are that point *)
Theorem C83_point_refuted exponent p : legacy exponent (sg p p) (sg p p) = Some (((Fin 0, Fin 1), (Fin 0, Fin 1)), sg p p).
Proof.
  unfold legacy_intersection, intersect_helper. unfold sg at 1 2 3 4. cbn [s_start s_end]. rewrite (proj2 (veq_x p p) eq_refl). cbn [andb fst snd]. rewrite x0, x1e, !lerp_x. f_equal. f_equal. unfold sg. f_equal; destruct p; cbn; f_equal; cbn; f_equal; ring.
Qed.
Example C83_cross : legacy (fun _ _ => 3%Z) (sg (P 0 0) (P 4 0)) (sg (P 1 (-1)) (P 1 3)) <> None /\ overlap (P 0 0) (P 4 0) (P 1 (-1)) (P 1 3) (1 / 4) (1 / 4) (1 / 4) (1 / 4).
Proof.
  assert (O : overlap (P 0 0) (P 4 0) (P 1 (-1)) (P 1 3) (1 / 4) (1 / 4) (1 / 4) (1 / 4)).
  { split; [lra|]. split; [lra|]. split; [lra|]. split; [lra|]. unfold mix. cbn. split; [f_equal; lra|]. split; [f_equal; lra|]. intros t T (s & S & E). unfold mix in E. cbn in E. injection E as X Y. split; lra. }
  split; [|exact O]. pose proof (C83_intersection (fun _ _ => 3%Z) (P 0 0) (P 4 0) (P 1 (-1)) (P 1 3)) as H. intros D. rewrite D in H. apply H. exists (mix (1 / 4) (P 0 0) (P 4 0)). destruct O as (T & _ & U & _ & E & _). split; [exists (1 / 4); split; [lra|reflexivity]|exists (1 / 4); auto].
Qed.
Example C83_overlap : overlap (P 0 0) (P 4 0) (P 6 0) (P 1 0) (1 / 4) 1 1 (2 / 5).
Proof. split; [lra|]. split; [lra|]. split; [lra|]. split; [lra|]. unfold mix. cbn. split; [f_equal; lra|]. split; [f_equal; lra|]. intros t T (s & S & E). unfold mix in E. cbn in E. injection E as X. split; [nra|intros _; lra]. Qed.
Print Assumptions C83_intersection. Print Assumptions C83_common. Print Assumptions C83_single. Print Assumptions C83_point_refuted.
