(** C81: the outline of turns and caps. *)
From Coq Require Import ZArith Bool Reals Lra Lia List.
From Verif Require Import NumModel EasingExact BehaviorMeaning BehaviorExact GeomModel AlgorithmsModel AlgorithmsSpec AlgorithmsProps AffineModel GeomSpec GeomReal GeomExact AffineProofs CircleModel CircleSpec CircleProofs CircleProps TipShapeModel TipShapeProofs TipCapModel TipCapSpec TipCapProps RoundedModel RoundedSpec RoundedProofs RoundedHull RoundedProps JoinedModel JoinedSpec JoinedProofs JoinedProps TurnModel TurnSpec.
Import ListNotations.
Local Open Scope R_scope.
Notation N := xnum.

Definition tolc : R := 2748779 / 274877906944.
Lemma collinear_x : collinear (N := N) = Fin tolc.
Proof. unfold collinear. rewrite xdy. f_equal. unfold tolc. change (Flocq.Core.Raux.bpow Flocq.Core.Zaux.radix2 (-40)) with (/ 1099511627776). lra. Qed.
Lemma turn_big : 6 < turn < 7. Proof. unfold turn, pi32. lra. Qed.
Lemma same_refl a : same_angle a a. Proof. exists 0%Z. ring. Qed.
Lemma same_trans a b c : same_angle a b -> same_angle b c -> same_angle a c. Proof. intros (k & ->) (l & ->). exists (k + l)%Z. rewrite plus_IZR. ring. Qed.
Lemma snap_x a b : - (turn / 2) < a <= turn / 2 -> - (turn / 2) < b <= turn / 2 -> exists x, snap (N := N) (Fin a) (Fin b) = Fin x /\ - (turn / 2) < x <= turn / 2 /\ (x = a \/ x = b /\ nearly a b).
Proof.
  intros A B. unfold snap. rewrite collinear_x, x_full. cbv zeta. change (nabs N (nsub N (Fin a) (Fin b))) with (Fin (Rabs (a - b))). change (nadd N (Fin (Rabs (a - b))) (Fin tolc)) with (Fin (Rabs (a - b) + tolc)). destruct (nlt N (Fin (Rabs (a - b))) (Fin tolc)) eqn:E1; cbn [orb].
  - apply lt_x in E1. exists b. split; [reflexivity|]. split; [exact B|]. right. split; [reflexivity|]. exists 0%Z. rewrite Rmult_0_l, Rminus_0_r. unfold tolc in E1. lra.
  - destruct (nlt N (Fin turn) (Fin (Rabs (a - b) + tolc))) eqn:E2; [|exists a; auto]. apply lt_x in E2. exists b. split; [reflexivity|]. split; [exact B|]. right. split; [reflexivity|].
    unfold tolc in E2. destruct (Rcase_abs (a - b)) as [L|L]; [rewrite Rabs_left in E2 by lra; exists (-1)%Z|rewrite Rabs_pos_eq in E2 by lra; exists 1%Z].
    + rewrite Rabs_pos_eq; lra.
    + rewrite Rabs_left1; lra.
Qed.
Lemma base_x z a : - (turn / 2) < z <= turn / 2 -> - (turn / 2) < a <= turn / 2 -> exists x, from_base (N := N) (Fin z) (Fin a) = Fin x /\ z <= x < z + turn /\ same_angle x a.
Proof.
  intros Z A. unfold from_base. rewrite x_full. destruct (nlt N (Fin a) (Fin z)) eqn:E.
  - apply lt_x in E. exists (a + turn). split; [reflexivity|]. split; [lra|]. exists 1%Z. ring.
  - apply lt_xf in E. exists a. split; [reflexivity|]. split; [lra|apply same_refl].
Qed.
Lemma order_x ir ol or : order_case (N := N) (Fin ir) (Fin ol) (Fin or) =
  if Rle_dec ol ir then if Rle_dec ol or then if Rle_dec or ir then 3%nat else 2%nat else 5%nat
  else if Rle_dec or ir then 1%nat else if Rle_dec ol or then 6%nat else 4%nat.
Proof.
  unfold order_case. rewrite !min_x. assert (E : forall x y, neqb N (Fin x) (Fin y) = if Req_EM_T x y then true else false). { intros x y. destruct (Req_EM_T x y) as [D|D]; [apply eq_x; exact D|apply eq_xf; exact D]. }
  assert (L : forall x y, nle N (Fin x) (Fin y) = if Rle_dec x y then true else false). { intros x y. destruct (Rle_dec x y) as [D|D]; [apply le_x; exact D|apply le_xf; lra]. }
  rewrite !E, !L. unfold Rmin. destruct (Rle_dec ir ol), (Rle_dec ol ir), (Rle_dec or ir), (Rle_dec ol or), (Rle_dec ir or), (Rle_dec or ol); cbv iota; repeat match goal with |- context [Req_EM_T ?x ?y] => destruct (Req_EM_T x y) end; try reflexivity; exfalso; lra.
Qed.
Lemma point_top c r a : get_point (N := N) (circ c r) (Fin a) = pv (top (c, r) a). Proof. rewrite point_x. reflexivity. Qed.
Lemma centers_apart c r d s : 0 <= r -> 0 <= s -> ~ within (disc d s) (disc c r) -> ~ within (disc c r) (disc d s) -> 0 < len (minus d c).
Proof. intros R S A B. pose proof (apart_len c d r s R S B A) as L. pose proof (Rabs_pos (r - s)). lra. Qed.
Lemma between_x a b : 0 < len a -> 0 < len b -> exists t, signed_angle (N := N) xacos (pv a) (pv b) = Some (Fin t) /\ angle_between a b t.
Proof.
  intros A B. assert (NZ : forall v, 0 < len v -> v <> P 0 0). { intros v L ->. unfold len, inner in L. cbn in L. replace (0 * 0 + 0 * 0) with 0 in L by ring. rewrite sqrt_0 in L. lra. }
  destruct (unit_some a) as (u & U & UU & UF & _). destruct (unit_some b) as (v & V' & VV & VF & _). destruct (signed_units a b u v U V' UU VV) as (t & E & T & C & S0 & _). exists t. split; [exact E|]. split; [exact T|].
  destruct (UF (NZ a A)) as (m & M0 & _ & ->). destruct (VF (NZ b B)) as (n & N0 & _ & ->). exists (m * n). split; [nra|]. rewrite C, S0. unfold dot2, det2, inner, cross. cbn [px py]. split; field; lra.
Qed.
Definition cir (b : ball) : circle N := circ (fst b) (snd b).
Lemma ordered_x il ir ol or : (forall a, In a [il; ir; ol; or] -> - (turn / 2) < a <= turn / 2) -> exists il' ir' ol' or', ordered (N := N) (Fin il, Fin ir) (Fin ol, Fin or) = (Fin il', Fin ir', Fin ol', Fin or') /\
  about il' il ol /\ about ir' ir or /\ same_angle ol' ol /\ same_angle or' or /\ il' <= ir' < il' + turn /\ il' <= ol' < il' + turn /\ il' <= or' < il' + turn.
Proof.
  intros H. assert (Bil := H il ltac:(cbn; tauto)). assert (Bir := H ir ltac:(cbn; tauto)). assert (Bol := H ol ltac:(cbn; tauto)). assert (Bor := H or ltac:(cbn; tauto)).
  destruct (snap_x il ol Bil Bol) as (x & X & BX & KX). destruct (snap_x ir or Bir Bor) as (z & Z & BZ & KZ). destruct (base_x x z BX BZ) as (ir' & EI & II & SI). destruct (base_x x ol BX Bol) as (ol' & EO & IO & SO). destruct (base_x x or BX Bor) as (or' & ER & IR & SR).
  exists x, ir', ol', or'. unfold ordered. cbn [fst snd]. rewrite X, Z, EI, EO, ER. split; [reflexivity|]. split; [|split; [|auto]].
  - destruct KX as [->|[-> Q]]; [left|right; split; [|exact Q]]; apply same_refl.
  - destruct KZ as [->|[-> Q]]; [left|right; split; [|exact Q]]; exact SI.
Qed.
Lemma arc_x m x w h poly : 0 <= snd m -> 0 < h -> exists n, (1 <= n)%nat /\ append_arc (N := N) xacos (cir m) (Fin x) (Fin w) (Fin h) poly = Done (poly ++ map pv (map (fun i => top m (x + INR i / INR n * w)) (seq 0 (S n)))).
Proof.
  intros R H. destruct m as [c r]. unfold cir. cbn [fst snd] in *. destruct (Req_dec r 0) as [->|R0].
  - exists 1%nat. split; [lia|]. rewrite C76_arc_point by exact H. cbn [seq map]. unfold top. cbn [fst snd]. rewrite !Rmult_0_l, !Rplus_0_r. destruct c. reflexivity.
  - destruct (C76_arc c r x w h poly) as (n & B & E & _); [lra|exact H|]. exists n. split; [lia|]. rewrite E. f_equal. f_equal. rewrite map_map. reflexivity.
Qed.
Lemma crossing_x s m e x y : exists pts, crossing (N := N) (cir s) (cir m) (cir e) (Fin x) (Fin y) = map pv pts /\ turn_outline s m e x y false pts.
Proof.
  destruct s as [c r], m as [d q], e as [f z]. unfold crossing, cir. cbn [fst snd]. rewrite !point_top. pose proof (C64_intersection (top (c, r) x) (top (d, q) x) (top (d, q) y) (top (f, z) y)) as I. unfold sg in I.
  destruct (segment_intersection _ _) as [p|].
  - destruct I as (t & -> & B & M & _). exists [mix t (top (c, r) x) (top (d, q) x)]. split; [reflexivity|]. apply OutlineMeet; [exists t; auto|exact M].
  - exists [top (d, q) x; top (d, q) y]. split; [reflexivity|]. apply OutlineApart. exact I.
Qed.
Lemma sides_x b c : 0 <= snd b -> 0 <= snd c -> apart b c -> exists l r, tangent_angles (N := N) xacos (cir b) (cir c) = Some (Fin l, Fin r) /\
  (side_angle true b c l /\ side_angle false b c r) /\ - (turn / 2) < l <= turn / 2 /\ - (turn / 2) < r <= turn / 2.
Proof.
  intros B C A. destruct (C76_tangents (fst b) (snd b) (fst c) (snd c) B C) as (l & r & pl & pr & E & _ & T & CL & CR & KL & BL & KR & BR); [apply A..|].
  exists l, r. split; [exact E|]. split; [|auto]. assert (U : forall a, unit (toward a)) by (intros a; unfold unit, toward; cbn [px py]; pose proof (sin2_cos2 a) as Q; unfold Rsqr in Q; lra).
  assert (Q : forall x y, x = y - turn \/ x = y \/ x = y + turn -> same_angle x y) by (intros x y [->|[->| ->]]; [exists (-1)%Z|exists 0%Z|exists 1%Z]; ring).
  split; [exists pl|exists pr]; (split; [apply T; auto|]); auto.
Qed.
Section Circles.
Variables (s m e : ball) (h : R) (poly : list (vec N)).
Hypothesis (Rs : 0 <= snd s) (Rm : 0 <= snd m) (Re : 0 <= snd e) (H : 0 < h).
(** The points of a turn around a circle: none if one of two neighbours is within the other; otherwise, for the angles [il] ... [or] of the tangents, an outline from
    [x], where the incoming tangent is or, if that is nearly the same, the outgoing one, to [y], where the outgoing tangent is.  Arcs on the left are
    clockwise, arcs on the right counter-clockwise, and less than a turn *)
Theorem C81_fails left crossings : ~ (apart s m /\ apart m e) -> turn_points (N := N) xacos left crossings (cir s) (cir m) (cir e) (Fin h) poly = CheckFails.
Proof.
  intros NA. unfold turn_points. assert (G : forall b c : ball, 0 <= snd b -> 0 <= snd c -> ~ apart b c -> tangent_angles (N := N) xacos (cir b) (cir c) = None).
  { intros b c B C NP. apply (C76_none (fst b) (snd b) (fst c) (snd c) B C). unfold apart in NP. apply Classical_Prop.not_and_or in NP. destruct NP as [NP|NP]; apply Classical_Prop.NNPP in NP; auto. }
  apply Classical_Prop.not_and_or in NA. destruct NA as [NA|NA]; [rewrite (G s m Rs Rm NA)|rewrite (G m e Rm Re NA); destruct (tangent_angles _ _ _)]; reflexivity.
Qed.
Theorem C81_turn left crossings : apart s m -> apart m e -> exists il ir ol or il' ir' ol' or' t x y arc pts,
  (side_angle true s m il /\ side_angle false s m ir) /\ (side_angle true m e ol /\ side_angle false m e or) /\
  turn_points (N := N) xacos left crossings (cir s) (cir m) (cir e) (Fin h) poly = Done (poly ++ map pv pts) /\
  turn_outline s m e x y arc pts /\
  (if left then about x il ol /\ same_angle y ol else about x ir or /\ same_angle y or) /\
  (arc = true -> way left (y - x) /\ (left = true -> crossings = true -> - turn < y - x)) /\
  about il' il ol /\ about ir' ir or /\ same_angle ol' ol /\ same_angle or' or /\ il' <= ir' < il' + turn /\ il' <= ol' < il' + turn /\ il' <= or' < il' + turn /\
  angle_between (minus (fst m) (fst s)) (minus (fst e) (fst m)) t /\
  (arc = true <-> (crossings = true -> if left then left_arc ir' ol' or' t else right_arc ir' ol' or' t)).
Proof.
  intros A1 A2. destruct (sides_x s m Rs Rm A1) as (il & ir & E1 & S1 & B1 & B2). destruct (sides_x m e Rm Re A2) as (ol & or & E2 & S2 & B3 & B4).
  destruct (ordered_x il ir ol or) as (il' & ir' & ol' & or' & EO & K1 & K2 & K3 & K4 & O1 & O2 & O3); [intros a [<-|[<-|[<-|[<-|[]]]]]; assumption|].
  destruct (between_x (minus (fst m) (fst s)) (minus (fst e) (fst m))) as (t & ET & KT); [apply (centers_apart _ (snd s) _ (snd m)); try assumption; apply A1|apply (centers_apart _ (snd m) _ (snd e)); try assumption; apply A2|].
  assert (GA : exists arc, gets_arc (N := N) xacos left crossings (cir s) (cir m) (cir e) (Fin ir') (Fin ol') (Fin or') = Some arc /\ (arc = true <-> (crossings = true -> if left then left_arc ir' ol' or' t else right_arc ir' ol' or' t))).
  { unfold gets_arc. destruct crossings; cbn [negb]; [|exists true; split; [reflexivity|split; [discriminate 2|reflexivity]]]. cbn [cir circ center]. rewrite !minus_x, ET, order_x, x_full, xZ, x0. cbn [ndiv nabs N]. rewrite xdiv_fin by lra.
    assert (Q : forall b : bool, ((b = true <-> (true = true -> if left then left_arc ir' ol' or' t else right_arc ir' ol' or' t)) <-> (if b then if left then left_arc ir' ol' or' t else right_arc ir' ol' or' t else ~ if left then left_arc ir' ol' or' t else right_arc ir' ol' or' t))) by (intros [|]; intuition congruence).
    destruct (nle N (Fin (turn / 3)) (Fin (Rabs t))) eqn:L3; [apply le_x in L3|apply le_xf in L3]; (destruct (nlt N (Fin t) (Fin 0)) eqn:LT; [apply lt_x in LT|apply lt_xf in LT]);
    destruct (Rle_dec ol' ir'), (Rle_dec or' ir'), (Rle_dec ol' or'); eexists; (split; [reflexivity|]); apply Q; unfold left_arc, right_arc, open_case; destruct left; cbn [negb]; lra. }
  destruct GA as (arc & GA & KA). unfold turn_points.
  rewrite E1, E2, EO, GA.
  exists il, ir, ol, or, il', ir', ol', or', t. pose proof turn_big as TB. destruct arc, left.
  - destruct (arc_x m il' (ol' - il' - turn) h poly Rm H) as (n & N1 & EA). exists il', (ol' - turn), true. eexists. split; [exact S1|]. split; [exact S2|]. rewrite x_full. split; [exact EA|].
    split; [replace (ol' - il' - turn) with (ol' - turn - il') by ring; apply OutlineArc; exact N1|]. split; [split; [exact K1|apply same_trans with ol'; [exists (-1)%Z; ring|exact K3]]|].
    split; [|auto 12]. intros _. split; [unfold way; lra|]. intros _ C. destruct KA as [KA _]. specialize (KA eq_refl C). unfold left_arc, open_case in KA. lra.
  - destruct (normalized_spec (or' - ir')) as (w & EW & BW & SW). destruct (arc_x m ir' w h poly Rm H) as (n & N1 & EA). exists ir', (ir' + w), true. eexists. split; [exact S1|]. split; [exact S2|]. change (nsub N (Fin or') (Fin ir')) with (Fin (or' - ir')). rewrite EW. split; [exact EA|].
    split; [pose proof (OutlineArc s m e ir' (ir' + w) n N1) as OA; replace (ir' + w - ir') with w in OA by ring; exact OA|]. split; [split; [exact K2|]|].
    + destruct SW as (k & ->). apply same_trans with or'; [exists k; ring|exact K4].
    + split; [|auto 12]. intros _. split; [unfold way; lra|discriminate 1].
  - destruct (crossing_x s m e il' ol') as (pts & EP & OP). exists il', ol', false, pts. rewrite EP. split; [exact S1|]. split; [exact S2|]. split; [reflexivity|]. split; [exact OP|]. split; [auto|]. split; [discriminate 1|auto 12].
  - destruct (crossing_x s m e ir' or') as (pts & EP & OP). exists ir', or', false, pts. rewrite EP. split; [exact S1|]. split; [exact S2|]. split; [reflexivity|]. split; [exact OP|]. split; [auto|]. split; [discriminate 1|auto 12].
Qed.
End Circles.
(** Along a row of circles: the outline of one turn after the other, or a failing check *)
Theorem C81_row left crossings h l : (forall b : ball, In b l -> 0 <= snd b) -> 0 < h -> forall poly,
  (row l -> exists pts, around_circles (N := N) xacos left crossings (Fin h) poly (map cir l) = Done (poly ++ map pv pts) /\ row_outline left crossings l pts) /\
  (~ row l -> around_circles (N := N) xacos left crossings (Fin h) poly (map cir l) = CheckFails).
Proof.
  intros HR H. induction l as [|s l IH]; intros poly; [|destruct l as [|m [|e l]]].
  1-3: split; [|intros Q; destruct Q; exact I]; intros _; exists []; rewrite app_nil_r; split; [reflexivity|apply RowEnd; cbn; lia].
  specialize (IH (fun b I => HR b (or_intror I))). assert (Rs := HR s (or_introl eq_refl)). assert (Rm := HR m (or_intror (or_introl eq_refl))). assert (Re := HR e (or_intror (or_intror (or_introl eq_refl)))).
  change (around_circles (N := N) xacos left crossings (Fin h) poly (map cir (s :: m :: e :: l))) with
    (match (if neqb N (Fin (snd m)) n0 then Done (poly ++ [pv (fst m)]) else turn_points (N := N) xacos left crossings (cir s) (cir m) (cir e) (Fin h) poly) with
     | Done points => around_circles (N := N) xacos left crossings (Fin h) points (map cir (m :: e :: l)) | fails => fails end).
  change (row (s :: m :: e :: l)) with ((snd m = 0 \/ apart s m /\ apart m e) /\ row (m :: e :: l)). rewrite x0. destruct (Req_dec (snd m) 0) as [Z|Z].
  - rewrite (proj2 (eq_x (snd m) 0) Z). destruct (IH (poly ++ [pv (fst m)])) as [I1 I2]. split.
    + intros [_ K]. destruct (I1 K) as (pts & E & O). exists (fst m :: pts). rewrite E, <- app_assoc. split; [reflexivity|]. apply RowPoint; assumption.
    + intros NK. apply I2. tauto.
  - rewrite (proj2 (eq_xf (snd m) 0) Z). split.
    + intros [[K|[A1 A2]] K2]; [contradiction|]. destruct (C81_turn s m e h poly Rs Rm Re H left crossings A1 A2) as (il & ir & ol & or & il' & ir' & ol' & or' & t & x & y & arc & new & S1 & S2 & E & O & K & W & _ & _ & _ & _ & _ & _ & _ & _ & KA).
      rewrite E. destruct (IH (poly ++ map pv new)) as [I1 _]. destruct (I1 K2) as (pts & E' & O'). exists (new ++ pts). rewrite E', map_app, app_assoc. split; [reflexivity|].
      assert (SY : forall b c z z', side_angle left b c z -> same_angle z' z -> side_angle left b c z') by (intros b c z z' (phi & T1 & T2 & T3) Q; exists phi; split; [exact T1|]; split; [exact T2|]; apply same_trans with z; assumption).
      assert (AB : forall p q q', about p q q' -> same_angle y q' -> about p q y).
      { intros p q q' [Q|[Q (k & NE)]] SQ; [left; exact Q|right]. destruct SQ as (j & SJ). split; [destruct Q as (i & ->); exists (i - j)%Z; rewrite minus_IZR, SJ; ring|]. exists (k - j)%Z. rewrite minus_IZR, SJ. eapply Rle_lt_trans; [|exact NE]. right. f_equal. ring. }
      destruct left; destruct K as [KX KY]; [apply (RowTurn _ _ s m e l il x y arc)|apply (RowTurn _ _ s m e l ir x y arc)]; try assumption; try tauto; try (eapply SY; [apply S2|exact KY]); try (eapply AB; eassumption); try (intros Q; apply W; exact Q); intros Q; apply KA; rewrite Q; discriminate 1.
    + intros NK. destruct (Classical_Prop.classic (apart s m /\ apart m e)) as [[A1 A2]|A].
      * destruct (C81_turn s m e h poly Rs Rm Re H left crossings A1 A2) as (il & ir & ol & or & il' & ir' & ol' & or' & t & x & y & arc & new & S1 & S2 & E & _). rewrite E. apply IH. tauto.
      * rewrite C81_fails by assumption. reflexivity.
Qed.

(** ** Tips *)
Lemma seq_plus a k : seq a k = map (fun m => (a + m)%nat) (seq 0 k).
Proof. induction k as [|k IH]; [reflexivity|]. rewrite !seq_S, map_app, <- IH. reflexivity. Qed.
Lemma walk_back (s : shape N) i stop : (i < length (s_circles s))%nat -> (stop < length (s_circles s))%nat -> walk_cw s (length (s_circles s)) i stop = Some (rev (ccw (length (s_circles s)) stop i)).
Proof.
  set (n := length (s_circles s)). intros I S0. unfold ccw. pose proof (gap_eq s stop i S0 I) as GE. fold n in GE. rewrite GE. destruct (Nat.leb_spec stop i) as [L|L].
  - unfold n at 1. rewrite walk_down by (fold n; lia). f_equal. f_equal. rewrite seq_plus.
    apply map_ext_in. intros k K. apply in_seq in K. symmetry. apply Nat.mod_small. lia.
  - unfold n at 1. rewrite walk_zero by (fold n; lia). fold n. rewrite <- rev_app_distr. f_equal. f_equal. replace (S (i + n - stop)) with ((n - stop) + S i)%nat by lia. rewrite seq_app, map_app. f_equal.
    + rewrite seq_plus. apply map_ext_in. intros k K. apply in_seq in K. symmetry. apply Nat.mod_small. lia.
    + change (0 + (n - stop))%nat with (n - stop)%nat. rewrite (seq_plus (n - stop)), map_map. transitivity (map (fun m => m) (seq 0 (S i))); [symmetry; apply map_id|]. apply map_ext_in. intros k K. apply in_seq in K.
      replace (stop + (n - stop + k))%nat with (k + 1 * n)%nat by lia. rewrite Nat.mod_add, Nat.mod_small by lia. reflexivity.
Qed.
Lemma ccw_range n i j k : (0 < n)%nat -> In k (ccw n i j) -> (k < n)%nat.
Proof. intros P0 K. unfold ccw in K. apply in_map_iff in K. destruct K as (m & <- & _). apply Nat.mod_upper_bound. lia. Qed.
Lemma circle_at_tip o (bs : list ball) k : (k < length bs)%nat -> circle_at (tip o bs) k = Some (cir (at_ bs k)).
Proof. intros K. apply nth_circles. exact K. Qed.
Lemma all_tip o (bs : list ball) l : (forall k, In k l -> (k < length bs)%nat) -> all_of (map (circle_at (tip o bs)) l) = Some (map cir (map (at_ bs) l)).
Proof. induction l as [|k l IH]; intros K; [reflexivity|]. cbn [map all_of]. rewrite circle_at_tip by (apply K; left; reflexivity). rewrite IH by (intros j J; apply K; right; exact J). reflexivity. Qed.
Lemma route_x o (bs : list ball) l (a d : ball) : (forall k, In k l -> (k < length bs)%nat) -> route (Some (cir a)) (tip o bs) (Some l) (Some (cir d)) = Some (map cir (path a bs l d)).
Proof. intros K. unfold route, path. rewrite all_tip by exact K. rewrite <- (map_app cir _ [d]). reflexivity. Qed.
Lemma path_radius (a d : ball) (bs : list ball) l : 0 <= snd a -> 0 <= snd d -> (forall b : ball, In b bs -> 0 <= snd b) -> (forall k, In k l -> (k < length bs)%nat) -> forall b : ball, In b (path a bs l d) -> 0 <= snd b.
Proof. intros A D B K b [<-|I]; [exact A|]. apply in_app_or in I. destruct I as [I|[<-|[]]]; [|exact D]. apply in_map_iff in I. destruct I as (k & <- & I). apply B, nth_In, K, I. Qed.
Lemma forward_some o (bs : list ball) o' (bs' : list ball) : exists f, forward (N := N) (tip o bs) (tip o' bs') = Some (pv f).
Proof.
  unfold forward. cbn [tip s_center]. destruct (veq (pv o) (pv o')); [exists (P 1 0); rewrite x1e, x0; reflexivity|]. rewrite minus_x. destruct (unit_some (minus o' o)) as (u & E & _). exists u. exact E.
Qed.
(** A cap goes around the circles of its tip clockwise, with arcs only, between the two circles of the other tip that the tangents lead to; the points of this row are divided between the sides.
    Only the checks of the turns can fail. *)
Section Caps.
Variables (o o' : pt) (bs bs' : list ball) (h : R) (t : indices) (left right : list (vec N)).
Hypothesis (Bs : bs <> []) (Bs' : bs' <> []) (B0 : forall b : ball, In b bs -> 0 <= snd b) (B0' : forall b : ball, In b bs' -> 0 <= snd b) (H : 0 < h).
Hypothesis T : tangent_indices (N := N) xacos (tip o bs) (tip o' bs') = Some t.
Notation n := (length bs).
Notation n' := (length bs').
Lemma range : (fst (i_left t) < n /\ snd (i_left t) < n' /\ fst (i_right t) < n /\ snd (i_right t) < n')%nat.
Proof.
  clear B0 B0' H. apply C80_indices in T; unfold size; [|destruct bs; [congruence|cbn; lia]|destruct bs'; [congruence|cbn; lia]]. unfold in_range, size in T. unfold tip in T. cbn [s_circles] in T. rewrite !circles_length in T. exact T.
Qed.
Lemma at_radius (b : list ball) k : (forall x : ball, In x b -> 0 <= snd x) -> (k < length b)%nat -> 0 <= snd (at_ b k). Proof. intros X K. apply X, nth_In, K. Qed.
Theorem C81_startcap : let way := path (at_ bs' (snd (i_right t))) bs (rev (ccw n (fst (i_left t)) (fst (i_right t)))) (at_ bs' (snd (i_left t))) in
  (row way -> exists pts l r, startcap (N := N) xacos (tip o bs) (tip o' bs') (Fin h) left right = Sides (left ++ map pv l) (right ++ map pv r) /\ row_outline true false way pts /\ turned_round pts (l ++ rev r)) /\
  (~ row way -> startcap (N := N) xacos (tip o bs) (tip o' bs') (Fin h) left right = SidesFail).
Proof.
  intros way. destruct range as (R1 & R2 & R3 & R4). assert (K : forall k, In k (rev (ccw n (fst (i_left t)) (fst (i_right t)))) -> (k < n)%nat) by (intros k I; apply in_rev in I; apply ccw_range in I; lia).
  unfold startcap. rewrite T. assert (LS : length (s_circles (tip o bs)) = n) by apply circles_length. rewrite (walk_back (tip o bs)) by (rewrite LS; assumption). rewrite LS, !circle_at_tip, route_x by assumption. fold way.
  destruct (forward_some o bs o' bs') as (f & ->). destruct (C81_row true false h way) with (poly := left) as [A B]; [apply path_radius; try apply at_radius; assumption|exact H|]. split.
  - intros RW. destruct (A RW) as (pts & E & O). rewrite E. cbn [and_then]. rewrite app_length, Nat.add_comm, Nat.add_sub.
    destruct (C78_split (pv f) (s_center (tip o bs)) left (map pv pts) right) as (l & r & M & (a & b & E1 & E2) & _). rewrite M. apply map_eq_app in E1. destruct E1 as (a' & b' & -> & <- & <-). rewrite <- map_app in E2. symmetry in E2. apply map_eq_app in E2. destruct E2 as (l' & r' & E2 & <- & R).
    apply (f_equal (@rev _)) in R. rewrite rev_involutive, <- map_rev in R. subst r. exists (a' ++ b'), l', (rev r'). split; [reflexivity|]. split; [exact O|]. rewrite rev_involutive. exists a', b'. auto.
  - intros RW. rewrite (B RW). reflexivity.
Qed.
Theorem C81_endcap : let way := path (at_ bs (fst (i_left t))) bs' (rev (ccw n' (snd (i_right t)) (snd (i_left t)))) (at_ bs (fst (i_right t))) in
  (row way -> exists pts l r, endcap (N := N) xacos (tip o bs) (tip o' bs') (Fin h) left right = Sides (left ++ map pv l) (right ++ map pv r) /\ row_outline true false way pts /\ pts = l ++ rev r) /\
  (~ row way -> endcap (N := N) xacos (tip o bs) (tip o' bs') (Fin h) left right = SidesFail).
Proof.
  intros way. destruct range as (R1 & R2 & R3 & R4). assert (K : forall k, In k (rev (ccw n' (snd (i_right t)) (snd (i_left t)))) -> (k < n')%nat) by (intros k I; apply in_rev in I; apply ccw_range in I; lia).
  unfold endcap. rewrite T. assert (LS : length (s_circles (tip o' bs')) = n') by apply circles_length. rewrite (walk_back (tip o' bs')) by (rewrite LS; assumption). rewrite LS, !circle_at_tip, route_x by assumption. fold way.
  destruct (forward_some o bs o' bs') as (f & ->). destruct (C81_row true false h way) with (poly := left) as [A B]; [apply path_radius; try apply at_radius; assumption|exact H|]. split.
  - intros RW. destruct (A RW) as (pts & E & O). rewrite E. cbn [and_then]. rewrite app_length, Nat.add_comm, Nat.add_sub.
    destruct (C78_endcap (pv f) (s_center (tip o' bs')) left (map pv pts) right) as (l & r & M & E2 & _). rewrite M. apply map_eq_app in E2. destruct E2 as (l' & r' & -> & <- & R).
    apply (f_equal (@rev _)) in R. rewrite rev_involutive, <- map_rev in R. subst r. exists (l' ++ r'), l', (rev r'). split; [reflexivity|]. split; [exact O|]. rewrite rev_involutive. reflexivity.
  - intros RW. rewrite (B RW). reflexivity.
Qed.
End Caps.
(** The whole outline of a tip of several circles: all circles in a row, clockwise from the first, with their neighbours before and after *)
Lemma whole_list o (bs : list ball) : (2 <= length bs)%nat -> whole_circles (tip o bs) = 1%nat :: (0%nat :: rev (seq 1 (length bs - 1))) ++ [0%nat].
Proof.
  intros L. set (s := tip o bs). assert (LS : length (s_circles s) = length bs) by apply circles_length. unfold whole_circles. rewrite LS. assert (C : next_ccw s 0 = 1%nat) by (unfold next_ccw; rewrite LS; destruct (Nat.leb_spec (length bs) 1); [lia|reflexivity]). rewrite C.
  rewrite (Nat.add_comm (length bs) 2). change (2 + length bs)%nat with (S 1 + length bs)%nat. rewrite (rounds_down s 1 (length bs)), LS. assert (G : forall m, m = (S (length bs - 1) + 0)%nat -> rounds_cw s m (length bs - 1) = rev (seq 0 m)) by (intros m ->; rewrite rounds_down, Nat.add_0_r; cbn [rounds_cw]; apply app_nil_r).
  rewrite (G (length bs)) by lia. replace (seq 0 (length bs)) with (0%nat :: seq 1 (length bs - 1)) by (replace (length bs) with (S (length bs - 1)) at 2 by lia; reflexivity). reflexivity.
Qed.
Theorem C81_whole o (bs : list ball) h f left right : (2 <= length bs)%nat -> (forall b : ball, In b bs -> 0 <= snd b) -> 0 < h ->
  let way := path (at_ bs 1) bs (0%nat :: rev (seq 1 (length bs - 1))) (at_ bs 0) in
  (row way -> exists pts l r, whole_shape (N := N) xacos (tip o bs) (Fin h) (pv f) left right = Sides (left ++ map pv l) (right ++ map pv r) /\ row_outline true false way pts /\ turned_round pts (l ++ rev r)) /\
  (~ row way -> whole_shape (N := N) xacos (tip o bs) (Fin h) (pv f) left right = SidesFail).
Proof.
  intros L2 B0 H way. assert (W : whole_shape (N := N) xacos (tip o bs) (Fin h) (pv f) left right = match all_of (map (circle_at (tip o bs)) (whole_circles (tip o bs))) with
    | Some circles => and_then (around_circles (N := N) xacos true false (Fin h) left circles) (fun l => let (l, r) := move_new_right_points (pv f) (s_center (tip o bs)) (length l - length left) l right in Sides l r)
    | None => SidesFail end). { destruct bs as [|x [|y bs']]; [cbn in L2; lia|cbn in L2; lia|reflexivity]. }
  assert (K : forall k, In k (0%nat :: rev (seq 1 (length bs - 1))) -> (k < length bs)%nat) by (intros k [<-|I]; [lia|]; apply in_rev, in_seq in I; lia).
  rewrite W, whole_list, all_tip; [|intros k [<-|I]; [lia|]; apply in_app_or in I; destruct I as [I|[<-|[]]]; [apply K, I|lia]|exact L2].
  assert (EW : map (at_ bs) (1%nat :: (0%nat :: rev (seq 1 (length bs - 1))) ++ [0%nat]) = way) by (unfold way, path; change (at_ bs 1 :: map (at_ bs) ((0%nat :: rev (seq 1 (length bs - 1))) ++ [0%nat]) = at_ bs 1 :: map (at_ bs) (0%nat :: rev (seq 1 (length bs - 1))) ++ [at_ bs 0]); rewrite map_app; reflexivity). rewrite EW.
  destruct (C81_row true false h way) with (poly := left) as [A B]; [apply path_radius; try (apply at_radius; [exact B0|lia]); assumption|exact H|]. split.
  - intros RW. destruct (A RW) as (pts & E & O). rewrite E. cbn [and_then]. rewrite app_length, Nat.add_comm, Nat.add_sub.
    destruct (C78_split (pv f) (s_center (tip o bs)) left (map pv pts) right) as (l & r & M & (a & b & E1 & E2) & _). rewrite M. apply map_eq_app in E1. destruct E1 as (a' & b' & -> & <- & <-). rewrite <- map_app in E2. symmetry in E2. apply map_eq_app in E2. destruct E2 as (l' & r' & E2 & <- & R).
    apply (f_equal (@rev _)) in R. rewrite rev_involutive, <- map_rev in R. subst r. exists (a' ++ b'), l', (rev r'). split; [reflexivity|]. split; [exact O|]. rewrite rev_involutive. exists a', b'. auto.
  - intros RW. rewrite (B RW). reflexivity.
Qed.
(** A turn of a tip: along the circles between the tangents or, if those are on the wrong side, from one side directly to the other *)
Section TipTurn.
Variables (o1 o2 o3 : pt) (b1 b2 b3 : list ball) (h : R) (ti to : indices) (poly : list (vec N)).
Hypothesis (N1 : b1 <> []) (N2 : b2 <> []) (N3 : b3 <> []) (B1 : forall b : ball, In b b1 -> 0 <= snd b) (B2 : forall b : ball, In b b2 -> 0 <= snd b) (B3 : forall b : ball, In b b3 -> 0 <= snd b) (H : 0 < h).
Hypothesis (T1 : tangent_indices (N := N) xacos (tip o1 b1) (tip o2 b2) = Some ti) (T2 : tangent_indices (N := N) xacos (tip o2 b2) (tip o3 b3) = Some to).
(** the pairs of circles that the tangents join *)
Definition joined_apart : Prop :=
  (apart (at_ b1 (fst (i_left ti))) (at_ b2 (snd (i_left ti))) /\ apart (at_ b1 (fst (i_right ti))) (at_ b2 (snd (i_right ti)))) /\
  (apart (at_ b2 (fst (i_left to))) (at_ b3 (snd (i_left to))) /\ apart (at_ b2 (fst (i_right to))) (at_ b3 (snd (i_right to)))).
Lemma angles_x oa ob (a b : list ball) t : (forall x : ball, In x a -> 0 <= snd x) -> (forall x : ball, In x b -> 0 <= snd x) -> in_range (tip oa a) (tip ob b) t ->
  (apart (at_ a (fst (i_left t))) (at_ b (snd (i_left t))) /\ apart (at_ a (fst (i_right t))) (at_ b (snd (i_right t))) -> exists l r, tip_angles (N := N) xacos (tip oa a) (tip ob b) t = Some (Fin l, Fin r) /\
    side_angle true (at_ a (fst (i_left t))) (at_ b (snd (i_left t))) l /\ side_angle false (at_ a (fst (i_right t))) (at_ b (snd (i_right t))) r /\ - (turn / 2) < l <= turn / 2 /\ - (turn / 2) < r <= turn / 2) /\
  (~ (apart (at_ a (fst (i_left t))) (at_ b (snd (i_left t))) /\ apart (at_ a (fst (i_right t))) (at_ b (snd (i_right t)))) -> tip_angles (N := N) xacos (tip oa a) (tip ob b) t = None).
Proof.
  intros A B (R1 & R2 & R3 & R4). rewrite !tip_size in *. unfold tip_angles. rewrite !circle_at_tip by assumption.
  assert (RA := at_radius a _ A R1). assert (RB := at_radius b _ B R2). assert (RC := at_radius a _ A R3). assert (RD := at_radius b _ B R4). split.
  - intros [A1 A2]. destruct (sides_x _ _ RA RB A1) as (l & r' & -> & [S1 _] & C1 & _). destruct (sides_x _ _ RC RD A2) as (l' & r & -> & [_ S2] & _ & C2). exists l, r. auto.
  - assert (G : forall b c : ball, 0 <= snd b -> 0 <= snd c -> ~ apart b c -> tangent_angles (N := N) xacos (cir b) (cir c) = None).
    { intros x y X Y NP. apply (C76_none (fst x) (snd x) (fst y) (snd y) X Y). unfold apart in NP. apply Classical_Prop.not_and_or in NP. destruct NP as [NP|NP]; apply Classical_Prop.NNPP in NP; auto. }
    intros NA. apply Classical_Prop.not_and_or in NA. destruct NA as [NA|NA]; [rewrite (G _ _ RA RB NA); reflexivity|rewrite (G _ _ RC RD NA)]. destruct (tangent_angles _ _ _) as [[? ?]|]; reflexivity.
Qed.
Theorem C81_tip_fails left : ~ joined_apart -> tip_turn (N := N) xacos left (tip o1 b1) (tip o2 b2) (tip o3 b3) (Fin h) poly = CheckFails.
Proof.
  intros NA. pose proof (range o1 o2 b1 b2 ti N1 N2 T1) as G1. pose proof (range o2 o3 b2 b3 to N2 N3 T2) as G2. unfold tip_turn. rewrite T1, T2.
  destruct (angles_x o1 o2 b1 b2 ti B1 B2) as [P1 Q1]; [unfold in_range; rewrite !tip_size; exact G1|]. destruct (angles_x o2 o3 b2 b3 to B2 B3) as [P2 Q2]; [unfold in_range; rewrite !tip_size; exact G2|].
  apply Classical_Prop.not_and_or in NA. destruct NA as [NA|NA]; [rewrite (Q1 NA); reflexivity|rewrite (Q2 NA)]. destruct (tip_angles _ _ _ _) as [[? ?]|]; reflexivity.
Qed.
Theorem C81_tip (left : bool) : joined_apart -> exists il ir ol or ir' ol' or',
  side_angle true (at_ b1 (fst (i_left ti))) (at_ b2 (snd (i_left ti))) il /\ side_angle false (at_ b1 (fst (i_right ti))) (at_ b2 (snd (i_right ti))) ir /\
  side_angle true (at_ b2 (fst (i_left to))) (at_ b3 (snd (i_left to))) ol /\ side_angle false (at_ b2 (fst (i_right to))) (at_ b3 (snd (i_right to))) or /\
  same_angle ir' ir /\ same_angle ol' ol /\ same_angle or' or /\ il <= ir' < il + turn /\ il <= ol' < il + turn /\ il <= or' < il + turn /\
  let (i, j) := if left then i_left ti else i_right ti in let (k, m) := if left then i_left to else i_right to in
  let way := path (at_ b1 i) b2 (if left then rev (ccw (length b2) k j) else ccw (length b2) j k) (at_ b3 m) in
  let result := tip_turn (N := N) xacos left (tip o1 b1) (tip o2 b2) (tip o3 b3) (Fin h) poly in
  (j = k \/ follows left ir' ol' or' -> (row way -> exists pts, result = Done (poly ++ map pv pts) /\ row_outline left true way pts) /\ (~ row way -> result = CheckFails)) /\
  (~ (j = k \/ follows left ir' ol' or') -> exists pts, result = Done (poly ++ map pv pts) /\ corner_outline (at_ b1 i) (at_ b2 j) (at_ b2 k) (at_ b3 m) (if left then il else ir') (if left then ol' else or') pts).
Proof.
  intros [AP1 AP2]. pose proof (range o1 o2 b1 b2 ti N1 N2 T1) as G1. pose proof (range o2 o3 b2 b3 to N2 N3 T2) as G2. unfold tip_turn. rewrite T1, T2.
  destruct (angles_x o1 o2 b1 b2 ti B1 B2) as [P1 _]; [unfold in_range; rewrite !tip_size; exact G1|]. destruct (angles_x o2 o3 b2 b3 to B2 B3) as [P2 _]; [unfold in_range; rewrite !tip_size; exact G2|].
  destruct (P1 AP1) as (il & ir & -> & S1 & S2 & C1 & C2). destruct (P2 AP2) as (ol & or & -> & S3 & S4 & C3 & C4).
  destruct (base_x il ir C1 C2) as (ir' & -> & I1 & I2). destruct (base_x il ol C1 C3) as (ol' & -> & I3 & I4). destruct (base_x il or C1 C4) as (or' & -> & I5 & I6). cbv zeta.
  exists il, ir, ol, or, ir', ol', or'. do 10 (split; [assumption|]).
  assert (EI : exists i j, (if left then i_left ti else i_right ti) = (i, j) /\ (i < length b1)%nat /\ (j < length b2)%nat) by (destruct left; eexists _, _; (split; [apply surjective_pairing|tauto])).
  assert (EO : exists k m, (if left then i_left to else i_right to) = (k, m) /\ (k < length b2)%nat /\ (m < length b3)%nat) by (destruct left; eexists _, _; (split; [apply surjective_pairing|tauto])).
  destruct EI as (i & j & -> & RI & RJ). destruct EO as (k & m & -> & RK & RM). cbn [fst snd].
  set (l := if left then rev (ccw (length b2) k j) else ccw (length b2) j k). set (way := path (at_ b1 i) b2 l (at_ b3 m)).
  assert (KL : forall q, In q l -> (q < length b2)%nat) by (intros q Q; unfold l in Q; destruct left; [apply in_rev in Q|]; apply ccw_range in Q; lia).
  assert (LS : length (s_circles (tip o2 b2)) = length b2) by apply circles_length.
  assert (EL : (if left then walk_cw (tip o2 b2) (length (s_circles (tip o2 b2))) j k else used (tip o2 b2) j k) = Some l) by (unfold l; destruct left; [rewrite walk_back, LS by (rewrite LS; assumption)|rewrite used_eq, LS by (rewrite LS; assumption)]; reflexivity). rewrite EL.
  rewrite !circle_at_tip, route_x by assumption. fold way.
  assert (FO : (if left then nle N (nmin (N := N) (Fin ir') (Fin or')) (Fin ol') else nlt N (Fin ir') (Fin or') || nle N (Fin or') (Fin ol') && nle N (Fin ol') (Fin ir')) = true <-> follows left ir' ol' or').
  { unfold follows. destruct left.
    - rewrite min_x, le_x. unfold Rmin. destruct (Rle_dec ir' or'); lra.
    - rewrite orb_true_iff, andb_true_iff, lt_x, !le_x. lra. }
  destruct (Nat.eqb j k || _) eqn:D.
  - assert (D' : j = k \/ follows left ir' ol' or') by (apply orb_true_iff in D; destruct D as [D|D]; [left; apply Nat.eqb_eq, D|right; apply FO, D]). split; [intros _|contradiction]. apply C81_row; [|exact H]. apply path_radius; try apply at_radius; assumption.
  - assert (D' : ~ (j = k \/ follows left ir' ol' or')) by (apply orb_false_iff in D; destruct D as [D1 D2]; intros [Q|Q]; [apply Nat.eqb_neq in D1; contradiction|apply FO in Q; congruence]). split; [contradiction|]. intros _.
    assert (CO : forall x y, exists pts, (match segment_intersection (Seg (get_point (N := N) (cir (at_ b1 i)) (Fin x)) (get_point (cir (at_ b2 j)) (Fin x))) (Seg (get_point (cir (at_ b2 k)) (Fin y)) (get_point (cir (at_ b3 m)) (Fin y))) with
      | Some p => Done (poly ++ [p]) | None => Done (poly ++ [get_point (cir (at_ b2 j)) (Fin x); get_point (cir (at_ b2 k)) (Fin y)]) end) = Done (poly ++ map pv pts) /\ corner_outline (at_ b1 i) (at_ b2 j) (at_ b2 k) (at_ b3 m) x y pts).
    { intros x y. unfold cir. rewrite !point_top, <- !surjective_pairing. pose proof (C64_intersection (top (at_ b1 i) x) (top (at_ b2 j) x) (top (at_ b2 k) y) (top (at_ b3 m) y)) as IN. unfold sg in IN. destruct (segment_intersection _ _) as [p|].
      - destruct IN as (t & -> & B & M & _). exists [mix t (top (at_ b1 i) x) (top (at_ b2 j) x)]. split; [reflexivity|]. apply CornerMeet; [exists t; auto|exact M].
      - exists [top (at_ b2 j) x; top (at_ b2 k) y]. split; [reflexivity|]. apply CornerApart. exact IN. }
    destruct left; apply CO.
Qed.
End TipTurn.
(** The doc comment of the tolerance says that nearly collinear angles are snapped together "to prevent adding an unnecessary loop".  Without crossings the left side of a straight row of equal circles, where the
    angles are the same, is a full loop around the middle one; the right side is its tangent point twice. *)
Definition by_step (c d : pt) : pt := P (px c + px d) (py c + py d).
Lemma same_tangents c d r : tangent_angles (N := N) xacos (circ (by_step c d) r) (circ (by_step (by_step c d) d) r) = tangent_angles (N := N) xacos (circ c r) (circ (by_step c d) r).
Proof.
  assert (M : minus (by_step (by_step c d) d) (by_step c d) = minus (by_step c d) c) by (unfold minus, by_step; cbn [px py]; f_equal; ring).
  assert (Th : theta (by_step c d) (by_step (by_step c d) d) = theta c (by_step c d)) by (unfold theta, by_step; cbn [px py]; f_equal; ring).
  assert (Al : alpha (by_step c d) (by_step (by_step c d) d) r r = alpha c (by_step c d) r r) by (unfold alpha; rewrite M; reflexivity).
  rewrite !tangent_x, M, Th, Al. reflexivity.
Qed.
Theorem C81_loop_refuted c d r h poly : 0 < r -> 0 < len d -> 0 < h -> let s := (c, r) : ball in let m := (by_step c d, r) : ball in let e := (by_step (by_step c d) d, r) : ball in exists x y n,
  side_angle true s m x /\ side_angle true m e x /\ (1 <= n)%nat /\
  turn_points (N := N) xacos true false (cir s) (cir m) (cir e) (Fin h) poly = Done (poly ++ map pv (map (fun i => top m (x - INR i / INR n * turn)) (seq 0 (S n)))) /\
  exists k, turn_points (N := N) xacos false false (cir s) (cir m) (cir e) (Fin h) poly = Done (poly ++ map pv (map (fun _ => top m y) (seq 0 (S k)))).
Proof.
  intros R D H s m e. assert (M : minus (by_step c d) c = d) by (destruct d as [u v]; unfold minus, by_step; cbn [px py]; f_equal; ring).
  assert (M2 : minus (by_step (by_step c d) d) (by_step c d) = d) by (destruct d as [u v]; unfold minus, by_step; cbn [px py]; f_equal; ring).
  assert (LS : len (minus c (by_step c d)) = len d) by (rewrite len_sym, M; reflexivity). assert (LS2 : len (minus (by_step c d) (by_step (by_step c d) d)) = len d) by (rewrite len_sym, M2; reflexivity).
  assert (A : apart s m) by (unfold apart, s, m; cbn [fst snd]; rewrite !within_disc, M, LS by lra; lra).
  assert (A2 : apart m e) by (unfold apart, m, e; cbn [fst snd]; rewrite !within_disc, M2, LS2 by lra; lra).
  destruct (sides_x s m) as (x & y & E & [S1 _] & B1 & B2); [cbn; lra..|exact A|]. destruct (sides_x m e) as (x' & y' & E2 & [S2 _] & _); [cbn; lra..|exact A2|].
  assert (Q : tangent_angles (N := N) xacos (cir m) (cir e) = tangent_angles (N := N) xacos (cir s) (cir m)) by apply same_tangents. rewrite E, E2 in Q. injection Q as -> ->.
  assert (SN : forall z, snap (N := N) (Fin z) (Fin z) = Fin z) by (intros z; unfold snap; destruct (_ || _); reflexivity).
  destruct (base_x x y B1 B2) as (y1 & EB & B3 & SY). assert (EX : from_base (N := N) (Fin x) (Fin x) = Fin x) by (unfold from_base; rewrite (proj2 (lt_xf x x)) by lra; reflexivity).
  assert (W : ordered (N := N) (Fin x, Fin y) (Fin x, Fin y) = (Fin x, Fin y1, Fin x, Fin y1)) by (unfold ordered; cbn [fst snd]; rewrite !SN, EX, EB; reflexivity).
  destruct (arc_x m x (- turn) h poly) as (n & N1 & AE); [cbn; lra|exact H|]. destruct (arc_x m y1 0 h poly) as (k & K1 & AK); [cbn; lra|exact H|].
  exists x, y1, n. split; [exact S1|]. split; [exact S2|]. split; [exact N1|]. unfold turn_points. rewrite E, E2, W. cbn [gets_arc negb]. rewrite x_full. split.
  - change (nsub N (nsub N (Fin x) (Fin x)) (Fin turn)) with (Fin (x - x - turn)). replace (x - x - turn) with (- turn) by ring. rewrite AE. do 3 f_equal. apply map_ext. intros i. f_equal. ring.
  - exists k. change (nsub N (Fin y1) (Fin y1)) with (Fin (y1 - y1)). replace (y1 - y1) with 0 by ring. destruct (normalized_spec 0) as (w & EW & BW & (j & SW)). rewrite EW.
    assert (w = 0) as ->. { pose proof turn_big as TB. rewrite Rplus_0_l in SW. assert (0 <= IZR j < 1) as [J0 J1] by nra. apply (le_IZR 0) in J0. apply (lt_IZR j 1) in J1. replace j with 0%Z in SW by lia. lra. }
    rewrite AK. do 3 f_equal. apply map_ext. intros i. f_equal. ring.
Qed.
(** The whole outline of a round tip: two arcs of about half a turn each, left clockwise and right counter-clockwise from the rear, that leave out a chord at the rear and one at the front.  The chord has the maximum height
    unless that would be more than half the circle. *)
Theorem C81_round o (c : pt) r h f left right : 0 < r -> 0 < h -> 0 < len f -> exists rear chord n m, f = P (- (len f * cos rear)) (- (len f * sin rear)) /\ 0 < chord <= turn / 2 /\ (chord < turn / 2 -> sagitta c r (rear - chord / 2) (rear + chord / 2) = h) /\ (1 <= n)%nat /\ (1 <= m)%nat /\
  whole_shape (N := N) xacos (tip o [(c, r)]) (Fin h) (pv f) left right =
    Sides (left ++ map pv (map (fun i => top (c, r) (rear - chord / 2 - INR i / INR n * (turn / 2 - chord))) (seq 0 (S n))))
          (right ++ map pv (map (fun i => top (c, r) (rear + chord / 2 + INR i / INR m * (turn / 2 - chord))) (seq 0 (S m)))).
Proof.
  intros R H F. destruct (C76_chord c r h R) as (a & EA & BA & _ & SA & SB & _). assert (HT : half_turn (N := N) = Fin (turn / 2)) by (rewrite half_turn_x; f_equal; unfold turn, pi32; lra).
  pose proof PI_upper as PU. assert (TP : 2 * PI < turn) by (unfold turn, pi32; lra). pose proof PI_RGT_0 as P0.
  assert (A0 : 0 < a). { destruct (Rle_lt_dec (2 * r) h) as [L|L]; [rewrite SB by exact L; lra|]. destruct (Rle_lt_or_eq_dec 0 a (proj1 BA)) as [|Z]; [assumption|]. subst a. specialize (SA ltac:(lra) 0). rewrite Rplus_0_r in SA. exfalso. rewrite sagitta_eq in SA by lra. replace ((0 - 0) / 2) with 0 in SA by field. rewrite cos_0 in SA. lra. }
  set (chord := Rmin a (turn / 2)). assert (CB : 0 < chord <= turn / 2) by (unfold chord, Rmin; pose proof turn_big; destruct (Rle_dec a (turn / 2)); lra).
  destruct (atan2_x (- px f) (- py f)) as (TB & TX & TY). { intros [X Y]. unfold len, inner in F. replace (px f) with 0 in F by lra. replace (py f) with 0 in F by lra. replace (0 * 0 + 0 * 0) with 0 in F by ring. rewrite sqrt_0 in F. lra. }
  set (rear := atan2R (- py f) (- px f)) in *.
  destruct (arc_x (c, r) (rear - chord / 2) (chord - turn / 2) h left) as (n & N1 & EL); [cbn; lra|exact H|]. destruct (arc_x (c, r) (rear + chord / 2) (turn / 2 - chord) h right) as (m & M1 & ER); [cbn; lra|exact H|].
  exists rear, chord, n, m. assert (LF : sqrt (- px f * - px f + - py f * - py f) = len f) by (unfold len, inner; f_equal; ring). rewrite LF in TX, TY.
  split; [destruct f as [u v]; cbn [px py] in *; f_equal; lra|]. split; [exact CB|]. split.
  { intros CL. assert (chord = a) as -> by (unfold chord, Rmin in *; destruct (Rle_dec a (turn / 2)); [reflexivity|lra]). replace (rear + a / 2) with (rear - a / 2 + a) by field. apply SA. split; [lra|]. apply Rnot_lt_le. intros L. rewrite SB in CL by lra. pose proof turn_pi. pose proof turn_big. lra. }
  split; [exact N1|]. split; [exact M1|]. unfold whole_shape. change (s_circles (tip o [(c, r)])) with [circ c r]. cbv iota. rewrite EA, HT, min_x. fold chord.
  change (natan2 N (nopp N (vy (pv f))) (nopp N (vx (pv f)))) with (Fin rear). rewrite xZ. cbn [ndiv N]. rewrite xdiv_fin by lra.
  change (nsub N (Fin rear) (Fin (chord / 2))) with (Fin (rear - chord / 2)). change (nadd N (Fin rear) (Fin (chord / 2))) with (Fin (rear + chord / 2)). change (nsub N (Fin chord) (Fin (turn / 2))) with (Fin (chord - turn / 2)). change (nsub N (Fin (turn / 2)) (Fin chord)) with (Fin (turn / 2 - chord)).
  change (circ c r) with (cir (c, r)). rewrite EL. cbn [and_then]. rewrite ER. cbn [and_then]. do 3 f_equal. apply map_ext. intros i. f_equal. ring.
Qed.

(** ** Cases *)
Lemma apart_far a b c d r : 0 <= r -> (a <> c \/ b <> d) -> apart (P a b, r) (P c d, r).
Proof.
  intros R D. assert (NZ : 0 < len (minus (P c d) (P a b))). { apply sqrt_lt_R0. unfold inner, minus. cbn [px py]. destruct D as [D|D]; [pose proof (Rsqr_pos_lt (c - a)) as Q; pose proof (Rle_0_sqr (d - b))|pose proof (Rsqr_pos_lt (d - b)) as Q; pose proof (Rle_0_sqr (c - a))]; unfold Rsqr in *; specialize (Q ltac:(lra)); lra. }
  unfold apart. cbn [fst snd]. rewrite !within_disc, (len_sym (P c d)) by assumption. rewrite len_sym in NZ. split; lra.
Qed.
Lemma len_x a : 0 < a -> 0 < len (P a 0).
Proof. intros A. apply sqrt_lt_R0. unfold inner. cbn [px py]. nra. Qed.
(** a turn to the left between three circles, two of which are tips of their own *)
Example C81_turn_example : apart (P 0 0, 1) (P 4 0, 1) /\ apart (P 4 0, 1) (P 4 4, 1).
Proof. split; apply apart_far; lra. Qed.
Example C81_fails_example : ~ (apart (P 0 0, 1) (P 0 0, 1) /\ apart (P 0 0, 1) (P 4 4, 1)).
Proof. intros [[A _] _]. apply A. intros p I. exact I. Qed.
Example C81_row_example : row [(P 0 0, 1); (P 4 0, 1); (P 4 4, 1); (P 0 4, 0); (P 0 0, 1)] /\ ~ row [(P 0 0, 1); (P 0 0, 1); (P 4 4, 1)].
Proof.
  split.
  - cbn [row snd]. split; [right; split; apply apart_far; lra|]. split; [right; split; [apply apart_far; lra|]|split; [left; reflexivity|exact I]].
    unfold apart. cbn [fst snd]. rewrite !within_disc, (len_sym (P 0 4)) by lra. replace (minus (P 4 4) (P 0 4)) with (P 4 0) by (unfold minus; cbn; f_equal; ring).
    replace (len (P 4 0)) with 4 by (unfold len, inner; cbn [px py]; replace (4 * 4 + 0 * 0) with (4 * 4) by ring; symmetry; apply sqrt_square; lra). split; lra.
  - cbn [row snd]. intros [[Z|A] _]; [lra|]. exact (C81_fails_example A).
Qed.
Example C81_cap_example : tangent_indices (N := N) xacos (tip (P 0 0) [(P 0 0, 1)]) (tip (P 4 0) [(P 4 0, 1)]) = Some (Indices (0, 0) (0, 0))%nat /\
  row (path (P 4 0, 1) [(P 0 0, 1)] (rev (ccw 1 0 0)) (P 4 0, 1)) /\ row (path (P 0 0, 1) [(P 4 0, 1)] (rev (ccw 1 0 0)) (P 0 0, 1)).
Proof. split; [reflexivity|]. split; cbn; (split; [right; split; apply apart_far; lra|exact I]). Qed.
Example C81_whole_example : row (path (P 3 0, 1) [(P 0 0, 1); (P 3 0, 1)] (0 :: rev (seq 1 1))%nat (P 0 0, 1)).
Proof. cbn. split; [right; split; apply apart_far; lra|]. split; [right; split; apply apart_far; lra|exact I]. Qed.
Example C81_tip_example : joined_apart [(P 0 0, 1)] [(P 4 0, 1)] [(P 4 4, 1)] (Indices (0, 0) (0, 0))%nat (Indices (0, 0) (0, 0))%nat /\ row (path (P 0 0, 1) [(P 4 0, 1)] (ccw 1 0 0) (P 4 4, 1)).
Proof. split; [unfold joined_apart; cbn; repeat split; apply apart_far; lra|cbn; split; [right; split; apply apart_far; lra|exact I]]. Qed.
Example C81_loop_example : 0 < len (P 4 0). Proof. apply len_x. lra. Qed.

Print Assumptions C81_fails.
Print Assumptions C81_turn.
Print Assumptions C81_row.
Print Assumptions C81_startcap.
Print Assumptions C81_endcap.
Print Assumptions C81_whole.
Print Assumptions C81_tip_fails.
Print Assumptions C81_tip.
Print Assumptions C81_loop_refuted.
Print Assumptions C81_round.
