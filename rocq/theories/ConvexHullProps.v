(** C46: ConvexHull *)
From Coq Require Import ZArith Bool Arith Reals Lra Lia Permutation Sorted List.
From Flocq Require Import Core BinarySingleNaN.
From Verif Require Import F32 NumModel EasingExact GeomModel GeomSpec GeomReal GeomExact ConvexHullModel ConvexHullProofs.
Import ListNotations.
Local Open Scope R_scope.

(** ** What std::sort promises *)
Definition strict_weak {A} (f : A -> A -> bool) (l : list A) : Prop :=
  (forall a, In a l -> f a a = false) /\
  (forall a b c, In a l -> In b l -> In c l -> f a b = true -> f b c = true -> f a c = true) /\
  (forall a b c, In a l -> In b l -> In c l -> f a b = false -> f b a = false -> f b c = false -> f c b = false -> f a c = false /\ f c a = false).
Definition sorts {A} (sort : (A -> A -> bool) -> list A -> list A) : Prop := forall f l, strict_weak f l ->
  Permutation l (sort f l) /\ StronglySorted (fun a b => f b a = false) (sort f l).
(** [h] goes around a convex polygon counterclockwise, with no three points on a line *)
Definition convex_ccw (h : list pt) : Prop := forall l1 a l2 b l3 c l4, h = l1 ++ a :: l2 ++ b :: l3 ++ c :: l4 -> 0 < det3 a b c.
Definition lowest (ps : list pt) (s : pt) : Prop := In s ps /\ forall p, In p ps -> py s < py p \/ (py s = py p /\ px s <= px p).

(** ** The start point *)
Lemma lower_x a b : lower (pv a) (pv b) = true <-> py a < py b \/ (py a = py b /\ px a < px b).
Proof. unfold lower. cbn [pv vx vy]. rewrite orb_true_iff, andb_true_iff, !lt_x, eq_x. tauto. Qed.
Lemma start_x : forall r p, exists s, start_point (pv p) (map pv r) = pv s /\ lowest (p :: r) s.
Proof.
  unfold start_point, lowest.
  assert (G : forall r m, exists s, fold_left (fun m q => if lower q m then q else m) (map pv r) (pv m) = pv s /\ (s = m \/ In s r) /\ (forall p, p = m \/ In p r -> py s < py p \/ (py s = py p /\ px s <= px p))).
  { induction r as [|q r IH]; intros m; [exists m; split; [reflexivity|]; split; [left; reflexivity|]; intros p [-> |[]]; lra|]. cbn [map fold_left].
    destruct (lower (pv q) (pv m)) eqn:L.
    - apply lower_x in L. destruct (IH q) as (s & E & I & H). exists s. split; [exact E|]. split; [right; destruct I as [-> |I]; [left; reflexivity|right; exact I]|]. intros p [-> |[<- |J]]; [pose proof (H q (or_introl eq_refl)); lra|apply H; left; reflexivity|apply H; right; exact J].
    - assert (L' : ~ (py q < py m \/ (py q = py m /\ px q < px m))) by (rewrite <- lower_x, L; discriminate). destruct (IH m) as (s & E & I & H). exists s. split; [exact E|]. split; [destruct I as [-> |I]; [left; reflexivity|right; right; exact I]|]. intros p [-> |[<- |J]]; [apply H; left; reflexivity|pose proof (H m (or_introl eq_refl)); lra|apply H; right; exact J]. }
  intros r p. destruct (G r p) as (s & E & I & H). exists s. split; [exact E|]. split; [destruct I as [-> |I]; [left; reflexivity|right; exact I]|]. intros q [<- |J]; apply H; auto.
Qed.
(** ** The comparison is a strict weak ordering *)
Lemma angle_x s a b : by_angle (pv s) (pv a) (pv b) = true <-> 0 < det3 s a b \/ (det3 s a b = 0 /\ Rabs (px a - px s) < Rabs (px b - px s)).
Proof.
  unfold by_angle. rewrite !sub_x, det_x, EasingExact.x0. replace (det2 (sub a s) (sub b s)) with (det3 s a b) by (unfold det3, det2, sub; cbn; ring).
  rewrite orb_true_iff, andb_true_iff, lt_x, eq_x. cbn [pv vx sub px nabs N xnum]. rewrite lt_x. tauto.
Qed.
Lemma angle_xf s a b : by_angle (pv s) (pv a) (pv b) = false <-> det3 s a b < 0 \/ (det3 s a b = 0 /\ Rabs (px b - px s) <= Rabs (px a - px s)).
Proof. rewrite <- not_true_iff_false, angle_x. lra. Qed.
Lemma det_swap s a b : det3 s a b = - det3 s b a. Proof. unfold det3. ring. Qed.
Lemma zero_trans s a b c : up s a -> up s b -> up s c -> det3 s a b = 0 -> det3 s b c = 0 -> det3 s a c = 0.
Proof.
  intros A B C H1 H2. destruct (angle_trans s a b c A B C ltac:(lra) ltac:(lra)) as [X _]. destruct (angle_trans s c b a C B A) as [Y _]; [rewrite det_swap; lra|rewrite det_swap; lra|]. rewrite (det_swap s c a) in Y. lra.
Qed.
Lemma angle_order s l : Forall (up s) l -> strict_weak (by_angle (pv s)) (map pv l).
Proof.
  intros U. rewrite Forall_forall in U. split; [|split].
  - intros a I. apply in_map_iff in I. destruct I as (p & <- & I). apply angle_xf. right. split; [unfold det3; ring|lra].
  - intros a b c A B C H1 H2. apply in_map_iff in A, B, C. destruct A as (p & <- & A), B as (q & <- & B), C as (r & <- & C). apply U in A, B, C. rewrite angle_x in *.
    destruct (angle_trans s p q r A B C ltac:(lra) ltac:(lra)) as [X Y]. destruct H1 as [H1|[H1 M1]]; [left; apply Y; left; exact H1|]. destruct H2 as [H2|[H2 M2]]; [left; apply Y; right; exact H2|]. right. split; [apply (zero_trans s p q r); assumption|lra].
  - intros a b c A B C H1 H2 H3 H4. apply in_map_iff in A, B, C. destruct A as (p & <- & A), B as (q & <- & B), C as (r & <- & C). apply U in A, B, C. rewrite angle_xf in *. rewrite (det_swap s q p) in H2. rewrite (det_swap s r q) in H4.
    pose proof (zero_trans s p q r A B C ltac:(lra) ltac:(lra)) as Z. pose proof (det_swap s r p). rewrite (angle_xf s r p). split; right; lra.
Qed.
Lemma sorted_before s u v : up s u -> up s v -> (px u = px s -> px v = px s -> u = v) -> by_angle (pv s) (pv v) (pv u) = false -> before s u v.
Proof.
  intros Uu Uv Vt H. apply angle_xf in H. rewrite (det_swap s v u) in H. unfold before. destruct H as [H|[H A]]; [left; lra|]. right. assert (Z : det3 s u v = 0) by lra. clear H.
  destruct (Req_dec (px u) (px s)) as [E|E].
  - assert (px v = px s). { rewrite det3_sub, E in Z. unfold up in Uu. assert (0 < py u - py s) by lra. nra. } exists 1. split; [lra|]. rewrite <- (Vt E H). apply pt_eq; cbn; ring.
  - rewrite det3_sub in Z. set (a := px u - px s) in *. set (c := px v - px s) in *. assert (NZ : a <> 0) by (unfold a; lra). set (b := py u - py s) in *. set (d := py v - py s) in *.
    assert (Ed : d = c / a * b) by (apply Rmult_eq_reg_l with a; [|exact NZ]; field_simplify; [lra|exact NZ]).
    exists (c / a). split.
    + assert (S : 0 < c / a).
      { assert (P1 : 0 < b \/ (b = 0 /\ 0 < a)) by (unfold up, a, b in *; lra). assert (P2 : 0 < d \/ (d = 0 /\ 0 < c)) by (unfold up, c, d in *; lra). destruct P1 as [P1|[P1 Q1]].
        - destruct P2 as [P2|[P2 Q2]]; [|exfalso; rewrite P2 in Z; nra]. rewrite Ed in P2. destruct (Rlt_dec 0 (c / a)) as [Y|Y]; [exact Y|]. nra.
        - assert (c <> 0) by (intros ->; destruct P2 as [P2|P2]; [rewrite Ed, P1 in P2; lra|lra]). destruct P2 as [P2|[_ P2]]; [rewrite Ed, P1 in P2; lra|]. apply Rmult_lt_0_compat; [exact P2|apply Rinv_0_lt_compat, Q1]. }
      assert (Rabs (c / a) = c / a) by (apply Rabs_pos_eq; lra). unfold Rdiv in H. rewrite Rabs_mult, Rabs_inv in H.
      assert (0 < Rabs a) by (apply Rabs_pos_lt, NZ). rewrite <- (Rabs_pos_eq (c / a)) by lra. unfold Rdiv. rewrite Rabs_mult, Rabs_inv. apply Rmult_le_reg_r with (Rabs a); [assumption|]. rewrite Rmult_assoc, Rinv_l by lra. lra.
    + apply pt_eq; cbn [px py]; [unfold a, c; field; exact NZ|]. rewrite <- Ed. unfold d. ring.
Qed.
(** ** The theorem *)
Lemma ccw_turns h : turns h -> convex_ccw (rev h).
Proof.
  intros H l1 a l2 b l3 c l4 E. apply (f_equal (@rev pt)) in E. rewrite rev_involutive in E. rewrite rev_app_distr in E. cbn [rev] in E. rewrite rev_app_distr in E. cbn [rev] in E. rewrite rev_app_distr in E. cbn [rev] in E. rewrite <- !app_assoc in E. cbn [app] in E. subst h.
  induction (rev l4) as [|x l IH].
  - cbn [app] in H. destruct H as [F _]. induction (rev l3) as [|y l IH]; cbn [app] in F; inversion F as [|? ? Hb F']; subst; [|apply IH; exact F']. rewrite Forall_forall in Hb. apply Hb. rewrite in_app_iff. right. left. reflexivity.
  - apply IH. apply H.
Qed.
Lemma hull_x (sort : (vec N -> vec N -> bool) -> list (vec N) -> list (vec N)) p0 p1 r : convex_hull sort (map pv (p0 :: p1 :: r)) =
  let s := start_point (pv p0) (map pv (p1 :: r)) in
  scan s (sort (by_angle s) (filter (fun v => negb (veq v s)) (if (500 <? length (map pv (p0 :: p1 :: r)))%nat then prune (map pv (p0 :: p1 :: r)) else map pv (p0 :: p1 :: r)))).
Proof. reflexivity. Qed.
Theorem C46_hull (sort : (vec N -> vec N -> bool) -> list (vec N) -> list (vec N)) (ps : list pt) : sorts sort -> (length ps <= 500)%nat ->
  (forall s p q, lowest ps s -> In p ps -> In q ps -> px p = px s -> px q = px s -> p <> s -> q <> s -> p = q) ->
  exists h, convex_hull sort (map pv ps) = map pv h /\ incl h ps /\ (forall p, In p ps -> conv h p) /\ convex_ccw h /\ NoDup h.
Proof.
  intros SO L V. destruct ps as [|p0 [|p1 r]].
  - exists []. split; [reflexivity|]. split; [intros x []|]. split; [intros x []|]. split; [intros [|] a l2 b l3 c l4 E; discriminate|constructor].
  - exists [p0]. split; [reflexivity|]. split; [apply incl_refl|]. split; [intros x I; apply conv_in, I|]. split; [intros [|? [|? ?]] a [|? [|? ?]] b l3 c l4 E; discriminate|constructor; [intros []|constructor]].
  - set (ps := p0 :: p1 :: r) in *. destruct (start_x (p1 :: r) p0) as (s & Es & Ls).
    assert (EF : forall l, filter (fun v => negb (veq v (pv s))) (map pv l) = map pv (filter (fun q => negb (veq (pv q) (pv s))) l)).
    { induction l as [|q l IH]; [reflexivity|]. cbn [map filter]. destruct (negb (veq (pv q) (pv s))); cbn [map]; rewrite IH; reflexivity. }
    set (l := filter (fun q => negb (veq (pv q) (pv s))) ps). assert (IL : forall x, In x l <-> In x ps /\ x <> s).
    { intros x. unfold l. rewrite filter_In, negb_true_iff, veq_xf. tauto. }
    assert (U : forall x, In x l -> up s x).
    { intros x I. apply IL in I. destruct I as [I Nx]. destruct (proj2 Ls x I) as [Q|[Q1 Q2]]; [left; exact Q|]. right. split; [exact Q1|]. destruct (Req_dec (px s) (px x)) as [E|E]; [|lra]. exfalso. apply Nx. apply pt_eq; congruence. }
    destruct (SO (by_angle (pv s)) (map pv l) (angle_order s l (proj2 (Forall_forall _ _) U))) as [PM SS].
    apply Permutation_sym in PM. apply Permutation_map_inv in PM. destruct PM as (l' & El & Pl). rewrite El in SS.
    assert (IL' : forall x, In x l' <-> In x ps /\ x <> s) by (intros x; rewrite <- IL; split; intros I; [apply (Permutation_in _ (Permutation_sym Pl) I)|apply (Permutation_in _ Pl I)]).
    assert (UL' : Forall (up s) l'). { apply Forall_forall. intros x I. apply U, IL, IL', I. }
    assert (SB : StronglySorted (before s) l').
    { clear El Pl. assert (K : forall x, In x l' -> In x ps /\ x <> s) by (intros x I; apply IL', I). clear IL'. induction l' as [|x l' IH]; [constructor|]. cbn [map] in SS. inversion SS as [|? ? SS' F]; subst. inversion UL' as [|? ? Ux Ul]; subst. constructor; [apply IH; auto; intros y I; apply K; right; exact I|].
      apply Forall_forall. intros y I. rewrite Forall_forall in F, Ul. apply sorted_before; [exact Ux|apply Ul, I| |apply F, in_map, I]. intros Ex Ey. destruct (K x (or_introl eq_refl)), (K y (or_intror I)). apply (V s x y); assumption. }
    assert (H0 : ccw0 s []) by (split; [constructor|exact Logic.I]).
    destruct (scan_ok s l' [] H0 ltac:(constructor) UL' ltac:(intros b p []) SB) as (k & Ek & Hk & Uk & Ik & Ck). cbn [app] in *.
    exists (rev (k ++ [s])). split; [|split; [|split; [|split]]].
    + unfold ps. rewrite hull_x. cbv zeta. rewrite Es. fold ps.
      assert ((500 <? length (map pv ps))%nat = false) as -> by (apply Nat.ltb_ge; rewrite map_length; exact L). rewrite EF. fold l. rewrite El. unfold scan. rewrite map_rev. f_equal. rewrite <- Ek.
      change [pv s] with (map pv [s]). clear. generalize [s]. induction l' as [|x l IH]; intros h; [reflexivity|]. cbn [map fold_left]. rewrite pop_x. apply (IH (x :: popR h x)).
    + intros x I. apply in_rev in I. apply in_app_iff in I. destruct I as [I|[<- |[]]]; [|apply Ls]. apply Ik in I. apply IL' in I. apply I.
    + intros p I. apply (conv_incl (k ++ [s])); [|intros x X; apply in_rev in X; exact X || (apply -> in_rev; exact X)]. apply Ck. apply in_app_iff. destruct (veq (pv p) (pv s)) eqn:E; [apply veq_x in E; right; left; congruence|]. apply veq_xf in E. left. apply IL'. split; assumption.
    + apply ccw_turns. exact Hk.
    + apply NoDup_rev. clear Ek Ik Ck. induction k as [|c k IH]; [constructor; [intros []|constructor]|]. cbn [app]. inversion Uk as [|? ? Uc Uk']; subst. constructor; [|apply IH; [apply Hk|exact Uk']].
      intros I. apply in_app_iff in I. destruct I as [I|[<- |[]]].
      * pose proof (turns_pair s c k c Hk I) as Q. replace (det3 s c c) with 0 in Q by (unfold det3; ring). lra.
      * unfold up in Uc. lra.
Qed.

(** ** More than 500 points *)
Lemma extremes_x : forall r a b c d, exists a' b' c' d', fold_left extreme_step (map pv r) (pv a, pv b, pv c, pv d) = (pv a', pv b', pv c', pv d') /\
  px a <= px a' /\ (forall q, In q r -> px q <= px a') /\ (a' = a \/ In a' r).
Proof.
  induction r as [|p r IH]; intros a b c d; [exists a, b, c, d; split; [reflexivity|]; split; [lra|]; split; [intros q []|left; reflexivity]|]. cbn [map fold_left]. unfold extreme_step at 2. cbn [pv vx vy].
  assert (G : exists a1 b1 c1 d1, (let '(xx, nx) := if nlt N (Fin (px a) : T N) (Fin (px p)) then (pv p, pv b) else if nlt N (Fin (px p) : T N) (Fin (px b)) then (pv a, pv p) else (pv a, pv b) in
      let '(xy, ny) := if nlt N (Fin (py c) : T N) (Fin (py p)) then (pv p, pv d) else if nlt N (Fin (py p) : T N) (Fin (py d)) then (pv c, pv p) else (pv c, pv d) in (xx, nx, xy, ny)) = (pv a1, pv b1, pv c1, pv d1) /\ px a <= px a1 /\ px p <= px a1 /\ (a1 = a \/ a1 = p)).
  { destruct (nlt N (Fin (px a) : T N) (Fin (px p))) eqn:L1; [apply lt_x in L1|apply lt_xf in L1]; destruct (nlt N (Fin (px p) : T N) (Fin (px b))); destruct (nlt N (Fin (py c) : T N) (Fin (py p))); destruct (nlt N (Fin (py p) : T N) (Fin (py d)));
      (eexists _, _, _, _; split; [reflexivity|]; split; [lra|]; split; [lra|]; auto). }
  destruct G as (a1 & b1 & c1 & d1 & G & A1 & A2 & A3). destruct (IH a1 b1 c1 d1) as (a' & b' & c' & d' & E & H1 & H2 & H3). exists a', b', c', d'. split; [rewrite <- E; f_equal; exact G|]. split; [lra|]. split; [intros q [<- |I]; [lra|apply H2, I]|].
  destruct H3 as [-> |I]; [destruct A3 as [-> | ->]; [left; reflexivity|right; left; reflexivity]|right; right; exact I].
Qed.
Lemma pop_incl h p : incl (popR h p) h.
Proof.
  induction h as [|b [|a r] IH]; [apply incl_refl|apply incl_refl|]. change (popR (b :: a :: r) p) with (if Rle_bool (det3 a b p) 0 then popR (a :: r) p else b :: a :: r). destruct (Rle_bool (det3 a b p) 0); [intros x I; right; apply IH, I|apply incl_refl].
Qed.
Lemma scan_incl s l : exists h, scan (pv s) (map pv l) = map pv h /\ incl h (s :: l).
Proof.
  unfold scan. assert (G : forall l h, exists h', fold_left (fun h p => p :: pop h p) (map pv l) (map pv h) = map pv h' /\ incl h' (h ++ l)).
  { clear. induction l as [|p l IH]; intros h; [exists h; split; [reflexivity|rewrite app_nil_r; apply incl_refl]|]. cbn [map fold_left]. rewrite pop_x. destruct (IH (p :: popR h p)) as (h' & E & I). exists h'. split; [exact E|]. intros x X. apply I in X. rewrite in_app_iff in *. destruct X as [[<- |X]|X]; [right; left; reflexivity|left; apply (pop_incl h p), X|right; right; exact X]. }
  destruct (G l [s]) as (h & E & I). exists (rev h). change [pv s] with (map pv [s]). rewrite E, map_rev. split; [reflexivity|]. intros x X. apply in_rev in X. apply I, X.
Qed.
Lemma conv_left L m p : (forall q, In q L -> px q < m) -> conv L p -> px p < m.
Proof. intros H. induction 1 as [p I|t p q T P IH1 Q IH2]; [apply H, I|]. cbn [mix px]. destruct (Req_dec t 1) as [-> |Nt]; [lra|]. nra. Qed.
(** With more than 500 points the extreme points themselves are removed before the hull is built, because the test for being
    inside the two triangles that they form includes the boundary: the rightmost point is outside the result unless it is the lowest. *)
Theorem C46_large_refuted (sort : (vec N -> vec N -> bool) -> list (vec N) -> list (vec N)) (ps : list pt) (m : pt) : (forall f l, Permutation l (sort f l)) -> (500 < length ps)%nat ->
  In m ps -> (forall q, In q ps -> q <> m -> px q < px m) -> ~ lowest ps m ->
  exists h, convex_hull sort (map pv ps) = map pv h /\ incl h ps /\ ~ conv h m.
Proof.
  intros SP L Im Mx NL. destruct ps as [|p0 [|p1 r]]; [cbn in L; lia|cbn in L; lia|]. rewrite hull_x. set (ps := p0 :: p1 :: r) in *. cbv zeta. assert ((500 <? length (map pv ps))%nat = true) as -> by (apply Nat.ltb_lt; rewrite map_length; exact L).
  destruct (start_x (p1 :: r) p0) as (s & Es & Ls). rewrite Es.
  assert (PR : exists l, prune (map pv ps) = map pv l /\ forall q, In q l -> In q ps /\ q <> m).
  { unfold ps, prune. cbn [map]. change (pv p1 :: map pv r) with (map pv (p1 :: r)). destruct (extremes_x (p1 :: r) p0 p0 p0 p0) as (a & b & c & d & -> & H1 & H2 & H3).
    assert (a = m) as ->. { assert (Q : px m <= px a) by (destruct Im as [<- |I]; [exact H1|apply H2, I]). destruct (veq (pv a) (pv m)) eqn:E; [apply veq_x in E; exact E|apply veq_xf in E]. assert (In a ps) by (destruct H3 as [-> |I]; [left; reflexivity|right; exact I]). specialize (Mx a H E). lra. }
    change (pv p0 :: map pv (p1 :: r)) with (map pv ps).
    set (g := fun q => negb (tri_contains (Tri (pv b) (pv m) (pv c)) q) && negb (tri_contains (Tri (pv b) (pv d) (pv m)) q)).
    exists (filter (fun q => g (pv q)) ps). split.
    - clear. induction ps as [|q l IH]; [reflexivity|]. cbn [map filter]. destruct (g (pv q)); cbn [map]; rewrite IH; reflexivity.
    - intros q I. apply filter_In in I. destruct I as [I G]. split; [exact I|]. intros ->. unfold g in G. apply andb_true_iff in G. destruct G as [G _]. apply negb_true_iff in G. change (Tri (pv b) (pv m) (pv c)) with (tr b m c) in G.
      assert (T : tri_contains (tr b m c) (pv m) = true). { apply triangle_contains. exists 0, 1, 0. repeat split; try lra. apply pt_eq; cbn; ring. } congruence. }
  destruct PR as (l & -> & Hl).
  assert (EF : filter (fun v => negb (veq v (pv s))) (map pv l) = map pv (filter (fun q => negb (veq (pv q) (pv s))) l)).
  { clear. induction l as [|q l IH]; [reflexivity|]. cbn [map filter]. destruct (negb (veq (pv q) (pv s))); cbn [map]; rewrite IH; reflexivity. }
  rewrite EF. pose proof (SP (by_angle (pv s)) (map pv (filter (fun q => negb (veq (pv q) (pv s))) l))) as PM. apply Permutation_sym in PM. apply Permutation_map_inv in PM. destruct PM as (l' & -> & Pl).
  destruct (scan_incl s l') as (h & -> & I). exists h. split; [reflexivity|].
  assert (K : forall q, In q h -> In q ps /\ q <> m).
  { intros q Q. apply I in Q. destruct Q as [<- |Q]; [split; [apply Ls|intros ->; exact (NL Ls)]|]. apply Hl. apply (Permutation_in _ (Permutation_sym Pl)) in Q. apply filter_In in Q. apply Q. }
  split; [intros q Q; apply K, Q|]. intros C. assert (px m < px m); [|lra]. apply (conv_left h (px m) m); [|exact C]. intros q Q. destruct (K q Q). apply Mx; assumption.
Qed.

(** ** A sort, to run examples *)
Section Insertion.
Context {A : Type}.
Fixpoint insert (f : A -> A -> bool) (x : A) (l : list A) : list A := match l with [] => [x] | y :: l' => if f y x then y :: insert f x l' else x :: l end.
Definition isort (f : A -> A -> bool) (l : list A) : list A := fold_right (insert f) [] l.
Lemma insert_perm f x l : Permutation (x :: l) (insert f x l).
Proof. induction l as [|y l IH]; [apply Permutation_refl|]. cbn [insert]. destruct (f y x); [|apply Permutation_refl]. eapply Permutation_trans; [apply perm_swap|]. constructor. exact IH. Qed.
Lemma isort_perm f l : Permutation l (isort f l).
Proof. induction l as [|x l IH]; [constructor|]. cbn. eapply Permutation_trans; [constructor; exact IH|apply insert_perm]. Qed.
Lemma strict_weak_incl (f : A -> A -> bool) (l k : list A) : incl k l -> strict_weak f l -> strict_weak f k.
Proof. intros I (H1 & H2 & H3). split; [intros a X; apply H1, I, X|]. split; [intros a b c X Y Z; apply H2; apply I; assumption|intros a b c X Y Z; apply H3; apply I; assumption]. Qed.
Lemma isort_sorts : sorts (A := A) isort.
Proof.
  intros f l W. split; [apply isort_perm|]. induction l as [|x l IH]; [constructor|]. cbn.
  assert (Wl : strict_weak f l) by (apply (strict_weak_incl f (x :: l)); [intros y Y; right; exact Y|exact W]). specialize (IH Wl).
  assert (Wm : strict_weak f (x :: isort f l)). { apply (strict_weak_incl f (x :: l)); [|exact W]. intros y [<- |Y]; [left; reflexivity|right; apply (Permutation_in _ (Permutation_sym (isort_perm f l)) Y)]. }
  clear W Wl. fold (isort f l). induction (isort f l) as [|y m IHm]; [constructor; constructor|]. inversion IH as [|? ? S F]; subst. cbn [insert]. destruct Wm as (H1 & H2 & H3). destruct (f y x) eqn:E.
  - constructor; [apply IHm; [exact S|apply (strict_weak_incl f (x :: y :: m)); [intros z [<- |Z]; [left; reflexivity|right; right; exact Z]|split; [|split]; assumption]]|].
    apply Forall_forall. intros z Z. apply (Permutation_in _ (Permutation_sym (insert_perm f x m))) in Z. destruct Z as [<- |Z]; [|rewrite Forall_forall in F; apply F, Z].
    destruct (f x y) eqn:E'; [|reflexivity]. rewrite <- (H1 x (or_introl eq_refl)). symmetry. apply (H2 x y x); cbn; auto.
  - constructor; [exact IH|]. constructor; [exact E|]. rewrite Forall_forall in F |- *. intros z Z. specialize (F z Z). destruct (f z x) eqn:E1; [|reflexivity]. exfalso.
    assert (E2 : f x y = false). { destruct (f x y) eqn:Q; [|reflexivity]. rewrite <- F. symmetry. apply (H2 z x y); cbn; auto. }
    assert (E3 : f y z = false). { destruct (f y z) eqn:Q; [|reflexivity]. rewrite <- E. symmetry. apply (H2 y z x); cbn; auto. }
    destruct (H3 x y z) as [_ Q]; cbn; auto. congruence.
Qed.
End Insertion.

(** ** Floats *)
Section Float.
Variable E : elem.
Notation F := (fnum E).
Definition fp (x y : Z) : vec F := @V F (fZ x) (fZ y).
Definition same (l k : list (vec F)) : bool := (length l =? length k)%nat && forallb (fun ab => veq (fst ab) (snd ab)) (combine l k).
(** Points straight above the lowest one count as equal in the sort; the hull of {(0,0), (0,2), (0,1)} comes out as {(0,0), (0,1)}. *)
Theorem C46_vertical_refuted : sorts (A := vec F) isort /\ same (convex_hull isort [fp 0 0; fp 0 2; fp 0 1]) [fp 0 0; fp 0 1] = true.
Proof. split; [apply isort_sorts|vm_compute; reflexivity]. Qed.
(** 501 points whose hull is a square: one point is returned. *)
Theorem C46_large_float_refuted : exists l : list (vec F), length l = 501%nat /\ In (fp 1 0) l /\ In (fp (-1) 0) l /\ In (fp 0 1) l /\ In (fp 0 (-1)) l /\
  same (convex_hull isort l) [fp 0 (-1)] = true.
Proof.
  exists ([fp 1 0; fp (-1) 0; fp 0 1; fp 0 (-1)] ++ repeat (fp 0 0) 497). split; [rewrite app_length, repeat_length; reflexivity|]. repeat (split; [cbn [app In]; tauto|]). vm_compute. reflexivity.
Qed.
(** The comparison of the sort is not an ordering in floats, so std::sort has no defined result: three points each before the next. *)
Theorem C46_order_refuted : exists s a b c : vec F, start_point s [a; b; c] = s /\ by_angle s a b = true /\ by_angle s b c = true /\ by_angle s c a = true.
Proof. exists (fp 0 0), (fp 1955 1954), (fp 5865 5862), (fp 7819 7815). repeat split; vm_compute; reflexivity. Qed.
(** Example: the interior point and the point on an edge are left out *)
Example C46_float_example : same (convex_hull isort [fp 2 2; fp 4 0; fp 1 3; fp 0 0; fp 4 4; fp 0 4; fp 4 2]) [fp 0 0; fp 4 0; fp 4 4; fp 0 4] = true.
Proof. vm_compute. reflexivity. Qed.
End Float.
(** Example: the hypotheses of C46_hull hold for a square with a point inside and one above its lowest corner *)
Example C46_example : let ps := [P 1 1; P 2 0; P 0 0; P 2 2; P 0 2] in
  forall s p q, lowest ps s -> In p ps -> In q ps -> px p = px s -> px q = px s -> p <> s -> q <> s -> p = q.
Proof.
  intros ps s p q (Is & Hs) Ip Iq. assert (s = P 0 0).
  { pose proof (Hs (P 0 0) ltac:(cbn; tauto)) as Q. cbn in Q. destruct Is as [<- |[<- |[<- |[<- |[<- |[]]]]]]; cbn in Q; try reflexivity; exfalso; lra. }
  subst s. intros Ep Eq Np Nq. cbn [px] in Ep, Eq. destruct Ip as [<- |[<- |[<- |[<- |[<- |[]]]]]]; cbn in Ep; try lra; try congruence; destruct Iq as [<- |[<- |[<- |[<- |[<- |[]]]]]]; cbn in Eq; try lra; try congruence; reflexivity.
Qed.

Print Assumptions C46_hull.
Print Assumptions C46_large_refuted.
Print Assumptions C46_vertical_refuted.
Print Assumptions C46_large_float_refuted.
Print Assumptions C46_order_refuted.
