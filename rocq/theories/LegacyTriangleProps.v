(** C84: containment in a triangle as the tessellation decides it. *)
From Coq Require Import ZArith Bool Reals Lra List.
From Verif Require Import NumModel EasingExact GeomModel GeomSpec GeomReal GeomExact AffineProofs LegacyModel LegacyProps LegacyTriangleModel.
Import ListNotations.

(** either reading of numbers: a corner is contained, whatever the triangle *)
Theorem C84_corner {M : num} (next previous : T M -> T M) t p : veq p (p0 t) = true \/ veq p (p1 t) = true \/ veq p (p2 t) = true -> legacy_contains next previous t p = true.
Proof. intros H. unfold legacy_contains. destruct H as [H|[H|H]]; rewrite H; rewrite ?orb_true_r; reflexivity. Qed.

Local Open Scope R_scope.
Notation N := xnum.
Local Notation position := (position_relative (N := N) same same).
Local Notation holds := (legacy_contains (N := N) same same).
(** which side of the line from [a] to [b] a point is on *)
Definition sign_of (d : R) : relative := if Rlt_dec 0 d then OnLeft else if Rlt_dec d 0 then OnRight else OnLine.
Definition pt_same (a b : pt) : {a = b} + {a <> b}.
Proof. destruct a as [x y], b as [u v]. destruct (Req_EM_T x u) as [X|X]; [|right; congruence]. destruct (Req_EM_T y v) as [Y|Y]; [left|right]; congruence. Defined.
Lemma position_x a b x : position (pv a) (pv b) (pv x) = if pt_same a b then Indeterminate else sign_of (det2 (sub b a) (sub x a)).
Proof.
  unfold position_relative. destruct (veq (pv a) (pv b)) eqn:E. { apply veq_x in E. destruct (pt_same a b); [reflexivity|contradiction]. }
  apply veq_xf in E. destruct (pt_same a b) as [|_]; [contradiction|]. unfold sign_of. destruct (veq (pv a) (pv x) || veq (pv b) (pv x)) eqn:F.
  { assert (Z : det2 (sub b a) (sub x a) = 0) by (apply orb_true_iff in F; destruct F as [F|F]; apply veq_x in F; subst x; unfold det2, sub; cbn; ring). rewrite Z. destruct (Rlt_dec 0 0); [lra|reflexivity]. }
  rewrite !sub_x, det_x, !x0. set (d := det2 (sub b a) (sub x a)). destruct (neqb N (Fin d) (Fin 0)) eqn:D. { apply eq_x in D. rewrite D. destruct (Rlt_dec 0 0); [lra|reflexivity]. }
  apply eq_xf in D. rewrite !adjust_same.
  assert (S : (if nlt N (Fin 0) (Fin d) then OnLeft else OnRight) = if Rlt_dec 0 d then OnLeft else if Rlt_dec d 0 then OnRight else OnLine).
  { destruct (nlt N (Fin 0) (Fin d)) eqn:L; [apply lt_x in L|apply lt_xf in L]; destruct (Rlt_dec 0 d), (Rlt_dec d 0); try reflexivity; lra. }
  match goal with |- (if ?q then _ else _) = _ => destruct q end; [|exact S].
  destruct (nlt N (nmax (dot (pv a) (pv a)) (dot (pv b) (pv b))) (dot (pv x) (pv x))); rewrite !sub_x, det_x; fold d; change (nmul N (Fin d) (Fin d)) with (Fin (d * d)); rewrite (proj2 (le_xf (d * d) 0)) by nra; exact S.
Qed.
(** twice the signed area *)
Definition area2 (a b c : pt) : R := det2 (sub b a) (sub c a).
Lemma signs r s : relative_eqb (sign_of r) (reverse (sign_of s)) = true <-> (r = 0 /\ s = 0) \/ r * s < 0.
Proof.
  unfold sign_of. destruct (Rlt_dec 0 r), (Rlt_dec r 0), (Rlt_dec 0 s), (Rlt_dec s 0); cbn; (split; [intros H; try discriminate H|intros H; try reflexivity; exfalso]); try lra; try nra.
Qed.
(** a triangle whose corners are not on a line contains exactly its points *)
Theorem C84_contains a b c p : area2 a b c <> 0 -> (holds (tr a b c) (pv p) = true <-> tri_set a b c p).
Proof.
  intros D. assert (AB : a <> b) by (intros ->; apply D; unfold area2, det2, sub; cbn; ring). assert (BC : b <> c) by (intros ->; apply D; unfold area2, det2, sub; cbn; ring). assert (CA : c <> a) by (intros ->; apply D; unfold area2, det2, sub; cbn; ring).
  unfold legacy_contains. cbn [tr p0 p1 p2]. destruct (veq (pv p) (pv a) || veq (pv p) (pv b) || veq (pv p) (pv c)) eqn:V.
  { rewrite !orb_true_iff in V. split; [intros _|reflexivity]. destruct V as [[V|V]|V]; apply veq_x in V; subst p; [apply tri_0|apply tri_1|apply tri_2]. }
  rewrite !orb_false_iff in V. destruct V as [[V1 V2] V3]. apply veq_xf in V1, V2, V3. rewrite !position_x. destruct (pt_same a b); [contradiction|]. destruct (pt_same b c); [contradiction|]. destruct (pt_same c a); [contradiction|].
  set (d0 := det2 (sub b a) (sub p a)). set (d1 := det2 (sub c b) (sub p b)). set (d2 := det2 (sub a c) (sub p c)).
  assert (E0 : det3 a b p = d0) by (unfold d0, det2, det3, sub; cbn; ring). assert (E1 : det3 p b c = d1) by (unfold d1, det2, det3, sub; cbn; ring). assert (E2 : det3 a p c = d2) by (unfold d2, det2, det3, sub; cbn; ring). assert (ES : det3 a b c = area2 a b c) by (unfold area2, det2, det3, sub; cbn; ring).
  assert (SM : d0 + d1 + d2 = area2 a b c) by (unfold d0, d1, d2, area2, det2, sub; cbn; ring).
  assert (NZ : forall u v w q, u <> v -> det2 (sub v u) (sub w v) <> 0 -> det2 (sub v u) (sub q u) = 0 -> det2 (sub w v) (sub q v) = 0 -> q = v).
  { intros u v w q UV NP Q1 Q2. assert (Q3 : det2 (sub v u) (sub q v) = 0) by (rewrite <- Q1; unfold det2, sub; cbn; ring).
    assert (X : (px q - px v) * det2 (sub v u) (sub w v) = 0). { transitivity (px (sub w v) * det2 (sub v u) (sub q v) - px (sub v u) * det2 (sub w v) (sub q v)); [unfold det2, sub; cbn; ring|rewrite Q2, Q3; ring]. }
    assert (Y : (py q - py v) * det2 (sub v u) (sub w v) = 0). { transitivity (py (sub w v) * det2 (sub v u) (sub q v) - py (sub v u) * det2 (sub w v) (sub q v)); [unfold det2, sub; cbn; ring|rewrite Q2, Q3; ring]. }
    apply Rmult_integral in X, Y. apply pt_eq; [destruct X as [X|X]|destruct Y as [Y|Y]]; try contradiction; lra. }
  assert (Z01 : ~ (d0 = 0 /\ d1 = 0)). { intros [Q1 Q2]. apply V2. apply (NZ a b c p AB); [|exact Q1|exact Q2]. replace (det2 (sub b a) (sub c b)) with (area2 a b c) by (unfold area2, det2, sub; cbn; ring). exact D. }
  assert (Z12 : ~ (d1 = 0 /\ d2 = 0)). { intros [Q1 Q2]. apply V3. apply (NZ b c a p BC); [|exact Q1|exact Q2]. replace (det2 (sub c b) (sub a c)) with (area2 a b c) by (unfold area2, det2, sub; cbn; ring). exact D. }
  assert (Z02 : ~ (d0 = 0 /\ d2 = 0)). { intros [Q1 Q2]. apply V1. apply (NZ c a b p CA); [|exact Q2|exact Q1]. replace (det2 (sub a c) (sub b a)) with (area2 a b c) by (unfold area2, det2, sub; cbn; ring). exact D. }
  assert (RHS : tri_set a b c p <-> 0 <= d0 * d1 /\ 0 <= d0 * d2 /\ 0 <= d1 * d2).
  { rewrite tri_iff by (rewrite ES; exact D). rewrite E0, E1, E2, ES. rewrite <- SM in *. clearbody d0 d1 d2. clear - D.
    assert (G : forall x S, S <> 0 -> (0 <= x / S <-> 0 <= x * S)). { intros x S H. assert (x * S = (x / S) * (S * S)) as -> by (field; exact H). assert (0 < S * S) by nra. split; intros; nra. }
    rewrite !G by exact D. clear G. rewrite !same_sign. split.
    - intros (H1 & H2 & H3). destruct (Rtotal_order (d0 + d1 + d2) 0) as [S|[S|S]]; [|lra|]; repeat split; intros [X Y]; lra.
    - intros (H1 & H2 & H3). destruct (Rtotal_order (d0 + d1 + d2) 0) as [S|[S|S]]; [|lra|]; repeat split; intros [X Y]; lra. }
  rewrite RHS. destruct (relative_eqb (sign_of d0) (reverse (sign_of d1))) eqn:R1.
  - apply signs in R1. split; [discriminate|]. intros (H & _). destruct R1 as [R1|R1]; [tauto|lra].
  - assert (P1 : 0 <= d0 * d1) by (apply Rnot_lt_le; intros Q; assert (relative_eqb (sign_of d0) (reverse (sign_of d1)) = true) by (apply signs; auto); congruence).
    rewrite andb_true_iff, !negb_true_iff. split.
    + intros [H1 H2]. split; [exact P1|]. split; apply Rnot_lt_le; intros Q; [apply not_true_iff_false in H1; apply H1|apply not_true_iff_false in H2; apply H2]; apply signs; auto.
    + intros (_ & H1 & H2). split; apply not_true_iff_false; intros Q; apply signs in Q; destruct Q as [Q|Q]; try tauto; lra.
Qed.
(** and one whose corners are on a line contains only these *)
Theorem C84_flat a b c p : area2 a b c = 0 -> (holds (tr a b c) (pv p) = true <-> p = a \/ p = b \/ p = c).
Proof.
  intros D. unfold legacy_contains. cbn [tr p0 p1 p2]. destruct (veq (pv p) (pv a) || veq (pv p) (pv b) || veq (pv p) (pv c)) eqn:V.
  { rewrite !orb_true_iff in V. split; [intros _|reflexivity]. destruct V as [[V|V]|V]; apply veq_x in V; auto. }
  rewrite !orb_false_iff in V. destruct V as [[V1 V2] V3]. apply veq_xf in V1, V2, V3. split; [|intros [Q|[Q|Q]]; contradiction]. intros H. exfalso.
  rewrite !position_x in H. set (d0 := det2 (sub b a) (sub p a)) in *. set (d1 := det2 (sub c b) (sub p b)) in *. set (d2 := det2 (sub a c) (sub p c)) in *.
  assert (SM : d0 + d1 + d2 = 0) by (rewrite <- D; unfold d0, d1, d2, area2, det2, sub; cbn; ring).
  assert (OPP : forall r s, r + s = 0 -> relative_eqb (sign_of r) (reverse (sign_of s)) = true). { intros r s Q. apply signs. destruct (Req_dec r 0); [left; lra|right; nra]. }
  destruct (pt_same a b) as [Q1|Q1].
  { assert (Z : d0 = 0) by (unfold d0; rewrite Q1; unfold det2, sub; cbn; ring). destruct (pt_same b c) as [Q2|Q2]; [cbn in H; discriminate H|]. destruct (pt_same c a) as [Q3|Q3]; [congruence|]. rewrite (OPP d1 d2) in H by lra. cbn [negb] in H. rewrite andb_false_r in H. destruct (relative_eqb _ _) in H; discriminate H. }
  destruct (pt_same b c) as [Q2|Q2].
  { assert (Z : d1 = 0) by (unfold d1; rewrite Q2; unfold det2, sub; cbn; ring). destruct (pt_same c a) as [Q3|Q3]; [congruence|]. rewrite (OPP d0 d2) in H by lra. cbn [negb andb] in H. destruct (relative_eqb (sign_of d0) (reverse Indeterminate)) in H; discriminate H. }
  destruct (pt_same c a) as [Q3|Q3].
  { assert (Z : d2 = 0) by (unfold d2; rewrite Q3; unfold det2, sub; cbn; ring). rewrite (OPP d0 d1) in H by lra. discriminate H. }
  destruct (relative_eqb (sign_of d0) (reverse (sign_of d1))) eqn:R1; [discriminate H|]. rewrite andb_true_iff, !negb_true_iff in H. destruct H as [R2 R3].
  apply not_true_iff_false in R1, R2, R3. rewrite signs in R1, R2, R3. destruct (Req_dec d0 0) as [Z0|Z0].
  - assert (d1 <> 0) by (intros Q; apply R1; auto). apply R3. right. nra.
  - destruct (Req_dec d1 0) as [Z1|Z1]; [apply R2; right; nra|]. destruct (Req_dec d2 0) as [Z2|Z2]; [apply R1; right; nra|].
    destruct (Rlt_dec (d0 * d1) 0) as [X|X]; [tauto|]. destruct (Rlt_dec (d0 * d2) 0) as [Y|Y]; [tauto|]. nra.
Qed.
(** the order of the corners does not matter *)
Theorem C84_order a b c p : holds (tr b a c) (pv p) = holds (tr a b c) (pv p) /\ holds (tr b c a) (pv p) = holds (tr a b c) (pv p).
Proof.
  assert (E1 : area2 b a c = - area2 a b c) by (unfold area2, det2, sub; cbn; ring). assert (E2 : area2 b c a = area2 a b c) by (unfold area2, det2, sub; cbn; ring).
  assert (S1 : forall a b c p, tri_set a b c p -> tri_set b a c p). { intros a' b' c' q (u & v & w & U & V & W & S & ->). exists v, u, w. repeat split; try lra. apply pt_eq; cbn; ring. }
  assert (S2 : forall a b c p, tri_set a b c p -> tri_set b c a p). { intros a' b' c' q (u & v & w & U & V & W & S & ->). exists v, w, u. repeat split; try lra. apply pt_eq; cbn; ring. }
  split; apply eq_true_iff_eq; (destruct (Req_dec (area2 a b c) 0) as [Z|Z]; [rewrite !C84_flat by lra; tauto|rewrite !C84_contains by lra; split; auto]).
Qed.
(** "the equivalent algorithm in ../geometry/triangle.h": not for corners on a line, where that one contains the segment between them *)
Theorem C84_equivalent_refuted : exists a b c p, tri_contains (tr a b c) (pv p) = true /\ holds (tr a b c) (pv p) = false.
Proof.
  exists (P 0 0), (P 4 0), (P 1 0), (P 2 0). split.
  - apply triangle_contains. exists (1 / 2), (1 / 2), 0. repeat split; try lra. apply pt_eq; cbn; lra.
  - apply not_true_iff_false. rewrite C84_flat by (unfold area2, det2, sub; cbn; ring). intros [Q|[Q|Q]]; injection Q; intros; lra.
Qed.
Example C84_inside : area2 (P 0 0) (P 4 0) (P 0 4) <> 0 /\ holds (tr (P 0 0) (P 4 0) (P 0 4)) (pv (P 1 2)) = true /\ holds (tr (P 0 0) (P 4 0) (P 0 4)) (pv (P 2 2)) = true /\ holds (tr (P 0 0) (P 4 0) (P 0 4)) (pv (P 3 2)) = false.
Proof.
  assert (A : area2 (P 0 0) (P 4 0) (P 0 4) <> 0) by (unfold area2, det2, sub; cbn; lra). split; [exact A|]. rewrite !C84_contains by exact A. split; [|split].
  - exists (1 / 4), (1 / 4), (1 / 2). repeat split; try lra. apply pt_eq; cbn; lra.
  - exists 0, (1 / 2), (1 / 2). repeat split; try lra. apply pt_eq; cbn; lra.
  - apply not_true_iff_false. rewrite C84_contains by exact A. intros (u & v & w & U & V & W & S & E). pose proof (f_equal px E) as E1. pose proof (f_equal py E) as E2. cbn in E1, E2. lra.
Qed.

Print Assumptions C84_corner.
Print Assumptions C84_contains.
Print Assumptions C84_flat.
Print Assumptions C84_order.
Print Assumptions C84_equivalent_refuted.
