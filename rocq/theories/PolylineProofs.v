(** Closing and trimming a polyline: what holds however numbers are rounded. *)
From Coq Require Import ZArith Bool Arith Lia List.
From Verif Require Import NumModel GeomModel AlgorithmsModel DistanceModel RTreeModel PolylineModel.
Import ListNotations.

Lemma some_pair {X Y} (a c : X) (b d : Y) : Some (a, b) = Some (c, d) -> a = c /\ b = d.
Proof. intros E. split; congruence. Qed.
Lemma at_most_one {X} (c : bool) (x : X) : length (if c then [x] else []) <= 1.
Proof. destruct c; cbn; lia. Qed.
Lemma only_in {X} (c : bool) (x y : X) : In x (if c then [y] else []) -> x = y.
Proof. destruct c; cbn; intuition. Qed.
Lemma last_in_cons {X} (b : X) r : In (last r b) (b :: r).
Proof. destruct r as [|x r]; [left; reflexivity|]. right. rewrite (app_removelast_last b (l := x :: r)) at 2 by discriminate. apply in_or_app. right. left. reflexivity. Qed.
(** ** Two visits of a tree with visitors that behave alike *)
Section Rel.
Context {N : num} {A S1 S2 : Type}.
Variable bounds : A -> rect N.
Variable v1 : S1 -> A -> S1 * bool.
Variable v2 : S2 -> A -> S2 * bool.
Variable R : S1 -> S2 -> Prop.
Variable elements : list A.
Hypothesis Hv : forall a s1 s2, In a elements -> R s1 s2 -> R (fst (v1 s1 a)) (fst (v2 s2 a)) /\ snd (v1 s1 a) = snd (v2 s2 a).
Definition alike (o1 : option (S1 * bool)) (o2 : option (S2 * bool)) : Prop :=
  match o1, o2 with Some (s1, b1), Some (s2, b2) => R s1 s2 /\ b1 = b2 | None, None => True | _, _ => False end.
Lemma loop_alike f1 f2 l s1 s2 : (forall i s1 s2, R s1 s2 -> alike (f1 i s1) (f2 i s2)) -> R s1 s2 ->
  alike (visit_loop f1 l s1) (visit_loop f2 l s2).
Proof.
  intros F. revert s1 s2. induction l as [|i l IH]; intros s1 s2 H; [cbn; auto|]. cbn [visit_loop]. specialize (F i s1 s2 H) as G. unfold alike in G.
  destruct (f1 i s1) as [[t1 b1]|], (f2 i s2) as [[t2 b2]|]; try contradiction; [|exact I]. destruct G as [G <-]. destruct b1; [apply IH; exact G|]. cbn. auto.
Qed.
Lemma sub_alike nodes query fuel : forall root s1 s2, R s1 s2 -> alike (visit_sub bounds v1 fuel nodes elements query root s1) (visit_sub bounds v2 fuel nodes elements query root s2).
Proof.
  induction fuel as [|f IH]; intros root s1 s2 H; [exact I|]. cbn [visit_sub]. destruct (nth_error nodes root) as [nd|]; [|exact I]. destruct (n_leaf nd).
  - apply loop_alike; [|exact H]. intros i t1 t2 Ht. destruct (nth_error elements i) as [a|] eqn:Ea; [|exact I]. destruct (int_rects (bounds a) query); [|cbn; auto].
    apply nth_error_In in Ea. destruct (Hv a t1 t2 Ea Ht) as [G1 G2]. destruct (v1 t1 a), (v2 t2 a). cbn in *. auto.
  - apply loop_alike; [|exact H]. intros i t1 t2 Ht. destruct (nth_error nodes i) as [c|]; [|exact I]. destruct (int_rects (n_bounds c) query); [|cbn; auto]. apply IH, Ht.
Qed.
Lemma visit_alike nodes query s1 s2 : R s1 s2 ->
  match visit bounds v1 nodes elements query s1, visit bounds v2 nodes elements query s2 with Some t1, Some t2 => R t1 t2 | None, None => True | _, _ => False end.
Proof.
  intros H. destruct nodes as [|r nodes]; [exact I|]. unfold visit. destruct (int_rects (n_bounds r) query); [|exact H].
  pose proof (sub_alike (r :: nodes) query (length (r :: nodes)) 0 s1 s2 H) as G. unfold alike in G.
  destruct (visit_sub bounds v1 _ _ _ _ _ s1) as [[t1 b1]|], (visit_sub bounds v2 _ _ _ _ _ s2) as [[t2 b2]|]; try contradiction; cbn; tauto.
Qed.
End Rel.
(** what every call of the visitor preserves holds after a visit *)
Lemma visit_keeps {N : num} {A S} (bounds : A -> rect N) (v : S -> A -> S * bool) (Inv : S -> Prop) elements nodes query s s' :
  (forall a s, In a elements -> Inv s -> Inv (fst (v s a))) -> Inv s -> visit bounds v nodes elements query s = Some s' -> Inv s'.
Proof.
  intros Hv H E. pose proof (visit_alike bounds v v (fun a b => a = b /\ Inv a) elements) as G. 
  specialize (G ltac:(intros a s1 s2 Ha [-> Hi]; repeat split; auto) nodes query s s (conj eq_refl H)). rewrite E in G. tauto.
Qed.

Section Shape.
Context {N : num}.
Lemma bundles_nth (pts : list (vec N)) k i : nth_error (bundles k pts) i =
  match nth_error pts i, nth_error pts (S i) with Some p, Some q => Some (Bundle (Seg p q) (k + i) (dist_points p q)) | _, _ => None end.
Proof.
  revert k i. induction pts as [|p pts IH]; intros k i; [destruct i; reflexivity|]. destruct pts as [|q pts].
  - destruct i; [reflexivity|]. cbn. destruct i; reflexivity.
  - change (bundles k (p :: q :: pts)) with (Bundle (Seg p q) k (dist_points p q) :: bundles (S k) (q :: pts)). destruct i as [|i]; [cbn; rewrite Nat.add_0_r; reflexivity|].
    cbn [nth_error]. rewrite IH. cbn [nth_error]. destruct (nth_error (q :: pts) i), (nth_error pts i); try reflexivity. do 2 f_equal. lia.
Qed.
Lemma bundles_length (pts : list (vec N)) k : length (bundles k pts) = length pts - 1.
Proof.
  revert k. induction pts as [|p pts IH]; intros k; [reflexivity|]. destruct pts as [|q pts]; [reflexivity|].
  change (bundles k (p :: q :: pts)) with (Bundle (Seg p q) k (dist_points p q) :: bundles (S k) (q :: pts)). cbn [length]. rewrite IH. cbn [length]. lia.
Qed.
Lemma bundles_in (pts : list (vec N)) b : In b (bundles 0 pts) -> b_index b < length pts - 1 /\ nth_error (bundles 0 pts) (b_index b) = Some b.
Proof.
  intros H. apply In_nth_error in H. destruct H as [i Hi]. assert (L : i < length (bundles 0 pts)) by (apply nth_error_Some; congruence). rewrite bundles_length in L.
  assert (b_index b = i) as ->; [|auto]. rewrite bundles_nth in Hi. destruct (nth_error pts i), (nth_error pts (S i)); try discriminate. injection Hi as <-. reflexivity.
Qed.

(** ** Uninitialized memory *)
Hypothesis inf_far : nle N (nInf N) n1 = false.
Section Junk.
Variable J1 J2 : nat -> cross N.
Variable jb1 jb2 : bundle N.
Variable nodes : list (node N).

Definition st_alike (s1 s2 : bundle N * (T N * T N)) : Prop := snd s1 = snd s2 /\ (nle N (fst (snd s1)) n1 = true -> fst s1 = fst s2).
Lemma first_visitor_alike cur a s1 s2 : st_alike s1 s2 ->
  st_alike (fst (first_visitor cur s1 a)) (fst (first_visitor cur s2 a)) /\ snd (first_visitor cur s1 a) = snd (first_visitor cur s2 a).
Proof.
  intros [H1 H2]. split; [|reflexivity]. unfold first_visitor. cbn [fst]. destruct (Nat.ltb _ _); [|split; assumption]. destruct (segment_ratio _ _) as [r|]; [|split; assumption].
  rewrite <- H1. destruct (nlt N (fst r) (fst (snd s1))); split; try assumption; reflexivity.
Qed.
Lemma first_loop_alike segs is : forall s1 s2, st_alike s1 s2 -> first_loop nodes segs is s1 = first_loop nodes segs is s2.
Proof.
  induction is as [|i is IH]; intros s1 s2 H; [reflexivity|]. cbn [first_loop]. destruct (nth_error segs i) as [cur|]; [|reflexivity].
  pose proof (visit_alike seg_bounds (first_visitor cur) (first_visitor cur) st_alike segs (fun a x y _ Hx => first_visitor_alike cur a x y Hx) nodes (seg_bounds cur) s1 s2 H) as G.
  destruct (visit _ _ _ _ _ s1) as [t1|], (visit _ _ _ _ _ s2) as [t2|]; try contradiction; [|reflexivity]. pose proof G as [G1 G2].
  rewrite <- G1. destruct (nle N (fst (snd t1)) n1) eqn:L; [|apply IH; exact G].
  do 3 f_equal. specialize (G2 eq_refl). destruct t1, t2. cbn in *. congruence.
Qed.
Record d_alike (d1 d2 : pdata N) : Prop := {
  a_segs : d_segs d1 = d_segs d2; a_nf : d_new_first d1 = d_new_first d2; a_nl : d_new_last d1 = d_new_last d2;
  a_cf : d_connect_first d1 = d_connect_first d2; a_cl : d_connect_last d1 = d_connect_last d2; a_has : d_has d1 = d_has d2;
  a_cr : d_has d1 = true -> d_first d1 = d_first d2 /\ d_last d1 = d_last d2 }.
Definition both {X Y} (R : X -> Y -> Prop) (a : option X) (b : option Y) : Prop :=
  match a, b with Some x, Some y => R x y | None, None => True | _, _ => False end.
Lemma find_intersections_alike d1 d2 : d_alike d1 d2 -> both d_alike (find_intersections jb1 nodes d1) (find_intersections jb2 nodes d2).
Proof.
  intros H. unfold find_intersections. cbv zeta. rewrite <- (a_segs _ _ H).
  rewrite (first_loop_alike (d_segs d1) _ (jb1, (nInf N, n0)) (jb2, (nInf N, n0))) by (split; [reflexivity|cbn; congruence]).
  destruct (first_loop _ _ _ _) as [[[[i cur] [other [r1 r2]]]|]|]; [|exact H|exact I].
  destruct (walk_distance _ i r1 false); [|exact I]. destruct (walk_distance _ (b_index other) r2 true); [|exact I].
  destruct (last_loop _ _ _ _ _) as [[[[k cur'] r]|]|]; [| |exact I].
  - destruct (walk_distance _ k r true); [|exact I]. cbn. destruct H. split; cbn; auto.
  - cbn. destruct H. split; cbn; auto.
Qed.

Variable q : params N.
Hypothesis dist_fin : nle N (nInf N) (max_dist q) = false.
Lemma connectable_alike d1 d2 k f st b : d_alike d1 d2 -> is_connectable q d1 k f st b = is_connectable q d2 k f st b.
Proof.
  intros H. unfold is_connectable. rewrite <- (a_segs _ _ H). destruct (walk_distance _ _ _ _); [|reflexivity]. destruct (_ || _)%bool; [reflexivity|]. rewrite <- (a_has _ _ H).
  destruct (d_has d1) eqn:E; [|reflexivity]. destruct (a_cr _ _ H E) as [-> ->]. reflexivity.
Qed.
Definition same_place (c1 c2 : cross N) : Prop := c_index c1 = c_index c2 /\ c_frac c1 = c_frac c2.
Definition c_alike (s1 s2 : cross N * T N) : Prop := snd s1 = snd s2 /\ (nle N (snd s1) (max_dist q) = true -> same_place (fst s1) (fst s2)).
Lemma connect_visitor_alike d1 d2 p ok b a s1 s2 : d_alike d1 d2 -> both c_alike s1 s2 ->
  both c_alike (fst (connect_visitor q d1 p ok b s1 a)) (fst (connect_visitor q d2 p ok b s2 a)) /\ snd (connect_visitor q d1 p ok b s1 a) = snd (connect_visitor q d2 p ok b s2 a).
Proof.
  intros H G. split; [|reflexivity]. unfold connect_visitor. cbn [fst]. destruct s1 as [[c1 l1]|], s2 as [[c2 l2]|]; try contradiction; [|exact I]. destruct G as [G1 G2]. cbn in G1. subst l2.
  cbv zeta. destruct (_ && _ && _)%bool; [|split; [reflexivity|exact G2]]. destruct (seg_project _ _); [|exact I]. rewrite (connectable_alike d1 d2) by exact H.
  destruct (is_connectable q d2 _ _ _ _) as [[]|]; [|split; [reflexivity|exact G2]|exact I]. split; [reflexivity|]. intros _. split; reflexivity.
Qed.
Lemma find_connection_alike d1 d2 p ok b c1 c2 : d_alike d1 d2 -> both c_alike (find_connection nodes q d1 p ok b c1) (find_connection nodes q d2 p ok b c2).
Proof.
  intros H. unfold find_connection. destruct (rect_from_center _ _ _) as [box|]; [|exact I]. rewrite <- (a_segs _ _ H).
  assert (B0 : both c_alike (Some (c1, nInf N)) (Some (c2, nInf N))) by (split; [reflexivity|cbn; congruence]).
  pose proof (visit_alike seg_bounds (connect_visitor q d1 p ok b) (connect_visitor q d2 p ok b) (both c_alike) (d_segs d1) (fun a x y _ Hx => connect_visitor_alike d1 d2 p ok b a x y H Hx) nodes box _ _ B0) as G.
  destruct (visit _ _ _ _ _ (Some (c1, _))) as [[t1|]|], (visit _ _ _ _ _ (Some (c2, _))) as [[t2|]|]; try contradiction; try exact I. exact G.
Qed.
(** after looking for a connection: the places agree if they are used *)
Definition cd_alike (flag : pdata N -> bool) (s1 s2 : pdata N * cross N) : Prop := d_alike (fst s1) (fst s2) /\ (flag (fst s1) = true -> same_place (snd s1) (snd s2)).
Lemma connect_first_alike d1 d2 : d_alike d1 d2 -> d_connect_first d1 = false -> both (cd_alike d_connect_first) (connect_first_point J1 nodes q d1) (connect_first_point J2 nodes q d2).
Proof.
  intros H F. unfold connect_first_point. rewrite <- (a_segs _ _ H). destruct (d_segs d1) as [|b r] eqn:Es; [exact I|].
  pose proof (find_connection_alike d1 d2 (s_start (b_seg b)) (Nat.ltb 1) false (J1 2) (J2 2) H) as G. destruct (find_connection _ _ d1 _ _ _ _) as [[c1 l1]|], (find_connection _ _ d2 _ _ _ _) as [[c2 l2]|]; try contradiction; [|exact I].
  destruct G as [G1 G2]. cbn in G1, G2. subst l2. destruct (nle N l1 (max_dist q)).
  - specialize (G2 eq_refl). destruct G2 as [P1 P2]. unfold lerp_at. rewrite P1, P2. destruct (nth_error _ _); [|exact I]. split; [|intros _; split; assumption]. destruct H. split; cbn; auto; congruence.
  - split; [exact H|]. cbn. congruence.
Qed.
Lemma connect_last_alike d1 d2 : d_alike d1 d2 -> d_connect_last d1 = false -> both (cd_alike d_connect_last) (connect_last_point J1 nodes q d1) (connect_last_point J2 nodes q d2).
Proof.
  intros H F. unfold connect_last_point. rewrite <- (a_segs _ _ H). destruct (d_segs d1) as [|b r] eqn:Es; [exact I|].
  pose proof (find_connection_alike d1 d2 (s_end (b_seg (last r b))) (fun i => Nat.ltb (i + 2) (length (b :: r))) true (J1 3) (J2 3) H) as G. destruct (find_connection _ _ d1 _ _ _ _) as [[c1 l1]|], (find_connection _ _ d2 _ _ _ _) as [[c2 l2]|]; try contradiction; [|exact I].
  destruct G as [G1 G2]. cbn in G1, G2. subst l2. destruct (nle N l1 (max_dist q)).
  - specialize (G2 eq_refl). destruct G2 as [P1 P2]. unfold lerp_at. rewrite P1, P2. destruct (nth_error _ _); [|exact I]. split; [|intros _; split; assumption]. destruct H. split; cbn; auto; congruence.
  - split; [exact H|]. cbn. congruence.
Qed.
(** what the new polyline is made from *)
Record f_alike (d1 d2 : pdata N) : Prop := {
  f_nf : d_new_first d1 = d_new_first d2; f_nl : d_new_last d1 = d_new_last d2;
  f_cf : d_connect_first d1 = d_connect_first d2; f_cl : d_connect_last d1 = d_connect_last d2; f_has : d_has d1 = d_has d2;
  f_first : d_has d1 = true -> d_connect_first d1 = false -> c_index (d_first d1) = c_index (d_first d2);
  f_last : d_has d1 = true -> d_connect_last d1 = false -> c_index (d_last d1) = c_index (d_last d2) }.
Lemma connect_first_flag J d d' c : connect_first_point J nodes q d = Some (d', c) -> d_connect_last d' = d_connect_last d.
Proof.
  unfold connect_first_point. destruct (d_segs d); [discriminate|]. destruct (find_connection _ _ _ _ _ _ _) as [[c' l0]|]; [|discriminate]. destruct (nle N l0 (max_dist q)); [destruct (lerp_at _ _); [|discriminate]|]; intros E; apply some_pair in E; destruct E as [<- _]; reflexivity.
Qed.
Lemma find_connections_alike d1 d2 : d_alike d1 d2 -> d_connect_first d1 = false -> d_connect_last d1 = false ->
  both f_alike (find_connections J1 nodes q d1) (find_connections J2 nodes q d2).
Proof.
  intros H F L. unfold find_connections. pose proof (connect_first_alike d1 d2 H F) as G. pose proof (connect_first_flag J1 d1) as FL.
  destruct (connect_first_point J1 _ _ d1) as [[e1 c1]|], (connect_first_point J2 _ _ d2) as [[e2 c2]|]; try contradiction; [|exact I]. destruct G as [G1 G2]. cbn [fst snd] in G1, G2.
  specialize (FL e1 c1 eq_refl). pose proof (connect_last_alike e1 e2 G1 ltac:(congruence)) as K.
  assert (FF : forall J d d' c, connect_last_point J nodes q d = Some (d', c) -> d_connect_first d' = d_connect_first d).
  { intros J d d' c. unfold connect_last_point. destruct (d_segs d); [discriminate|]. destruct (find_connection _ _ _ _ _ _ _) as [[c' l0]|]; [|discriminate]. destruct (nle N l0 (max_dist q)); [destruct (lerp_at _ _); [|discriminate]|]; intros E; apply some_pair in E; destruct E as [<- _]; reflexivity. }
  specialize (FF J1 e1). destruct (connect_last_point J1 _ _ e1) as [[g1 k1]|], (connect_last_point J2 _ _ e2) as [[g2 k2]|]; try contradiction; [|exact I]. destruct K as [K1 K2]. cbn [fst snd] in K1, K2.
  specialize (FF g1 k1 eq_refl). rewrite <- FF in G2. clear e1 e2 G1 FL FF H F L d1 d2. destruct K1 as [A1 A2 A3 A4 A5 A6 A7].
  assert (BL : better_last g1 c1 = better_last g2 c2).
  { unfold better_last. rewrite <- A4, <- A5, <- A6. destruct (d_connect_first g1); [|reflexivity]. destruct (G2 eq_refl) as [-> ->]. destruct (d_connect_last g1); [reflexivity|]. destruct (d_has g1); [|reflexivity]. rewrite (proj2 (A7 eq_refl)). reflexivity. }
  assert (BF : better_first g1 k1 = better_first g2 k2).
  { unfold better_first. rewrite <- A4, <- A5, <- A6. destruct (d_connect_first g1); [reflexivity|]. destruct (d_connect_last g1); [|reflexivity]. destruct (K2 eq_refl) as [-> ->]. destruct (d_has g1); [|reflexivity]. rewrite (proj1 (A7 eq_refl)). reflexivity. }
  cbv zeta. rewrite <- BL, <- BF. destruct (better_last g1 c1) eqn:B1.
  { assert (C : d_connect_first g1 = true /\ d_connect_last g1 = false). { revert B1. unfold better_last. destruct (d_connect_first g1), (d_connect_last g1); cbn; auto; discriminate. }
    destruct C as [C1 C2]. destruct (G2 C1) as [P1 P2]. split; cbn; try congruence. }
  destruct (better_first g1 k1) eqn:B2.
  { assert (C : d_connect_first g1 = false /\ d_connect_last g1 = true). { revert B2. unfold better_first. destruct (d_connect_first g1), (d_connect_last g1); cbn; auto; discriminate. }
    destruct C as [C1 C2]. destruct (K2 C2) as [P1 P2]. split; cbn; try congruence. }
  assert (HH : d_has g1 = true \/ (d_has g1 || d_connect_first g1 || d_connect_last g1)%bool = false \/ (d_connect_first g1 = true /\ d_connect_last g1 = true)).
  { revert B1 B2. unfold better_last, better_first. destruct (d_has g1); [auto|]. destruct (d_connect_first g1), (d_connect_last g1); cbn; auto; discriminate. }
  split; cbn; try congruence; intros X Y; destruct HH as [HH|[HH|[HH1 HH2]]]; try congruence; destruct (A7 HH); congruence.
Qed.
Lemma new_polyline_alike d1 d2 points : f_alike d1 d2 -> new_polyline d1 points = new_polyline d2 points.
Proof.
  intros [A1 A2 A3 A4 A5 A6 A7]. unfold new_polyline. rewrite <- A5, <- A3, <- A4, <- A1, <- A2. destruct (d_has d1); [|reflexivity]. cbn [negb]. specialize (A6 eq_refl). specialize (A7 eq_refl).
  destruct (d_connect_first d1), (d_connect_last d1); try (rewrite (A6 eq_refl)); try (rewrite (A7 eq_refl)); reflexivity.
Qed.
End Junk.
(** what was in memory before does not show *)
Theorem junk_free J1 J2 jb1 jb2 sort points (q : params N) : nle N (nInf N) (max_dist q) = false ->
  process_polyline J1 jb1 sort points q = process_polyline J2 jb2 sort points q.
Proof.
  intros Hq. unfold process_polyline, create_data. destruct points as [|p pts]; [reflexivity|]. cbn [d_segs]. destruct (init_tree _ _ _ _) as [nodes|]; [|reflexivity].
  set (d1 := PData _ (J1 0) _ _ _ _ _ _). set (d2 := PData _ (J2 0) _ _ _ _ _ _). assert (H : d_alike d1 d2) by (split; try reflexivity; discriminate).
  pose proof (find_intersections_alike jb1 jb2 nodes d1 d2 H) as G.
  assert (FL : forall d, find_intersections jb1 nodes d1 = Some d -> d_connect_first d = false /\ d_connect_last d = false).
  { intros d. unfold find_intersections. cbv zeta. destruct (first_loop _ _ _ _) as [[[[i cur] [other [r1 r2]]]|]|]; [|intros E; injection E as <-; auto|discriminate].
    destruct (walk_distance _ i _ _); [|discriminate]. destruct (walk_distance _ _ r2 _); [|discriminate]. destruct (last_loop _ _ _ _ _) as [[[[k cur'] r]|]|]; [|intros E; injection E as <-; auto|discriminate].
    destruct (walk_distance _ _ r _); [|discriminate]. intros E; injection E as <-; auto. }
  destruct (find_intersections jb1 nodes d1) as [e1|], (find_intersections jb2 nodes d2) as [e2|]; try contradiction; [|reflexivity].
  destruct (FL e1 eq_refl) as [F1 F2]. pose proof (find_connections_alike J1 J2 nodes q Hq e1 e2 G F1 F2) as K. destruct (find_connections J1 _ _ e1), (find_connections J2 _ _ e2); try contradiction; [|reflexivity].
  apply new_polyline_alike. exact K.
Qed.

(** ** The parts of the result *)
Lemma first_loop_facts (nodes : list (node N)) segs is : forall s i cur o r, nle N (fst (snd s)) n1 = false -> first_loop nodes segs is s = Some (Some (i, cur, (o, r))) ->
  In i is /\ nth_error segs i = Some cur /\ In o segs /\ S (b_index cur) < b_index o.
Proof.
  induction is as [|k is IH]; intros s i cur o r Hs E; [discriminate|]. cbn [first_loop] in E. destruct (nth_error segs k) as [c|] eqn:Ek; [|discriminate].
  destruct (visit _ _ _ _ _ s) as [s'|] eqn:Ev; [|discriminate].
  assert (G : s' = s \/ In (fst s') segs /\ S (b_index c) < b_index (fst s')).
  { revert Ev. apply (visit_keeps _ _ (fun x => x = s \/ In (fst x) segs /\ S (b_index c) < b_index (fst x))); [|left; reflexivity]. intros a x Ha Hx. unfold first_visitor. cbn [fst].
    destruct (Nat.ltb_spec (S (b_index c)) (b_index a)); [|exact Hx]. destruct (segment_ratio _ _); [|exact Hx]. destruct (nlt N _ _); [|exact Hx]. right. cbn. auto. }
  destruct (nle N (fst (snd s')) n1) eqn:L.
  - assert (E' : k = i /\ c = cur /\ s' = (o, r)) by (split; [|split]; congruence). destruct E' as (-> & -> & ->). destruct G as [G|[G1 G2]]; [rewrite G in L; congruence|]. cbn [fst] in *. repeat split; auto. left. reflexivity.
  - destruct (IH s' i cur o r L E) as (A & B & C & D). split; [right; exact A|auto].
Qed.
Lemma last_loop_facts (nodes : list (node N)) f segs is : forall s i cur r, last_loop nodes f segs is s = Some (Some (i, cur, r)) -> In i is /\ nth_error segs i = Some cur.
Proof.
  induction is as [|k is IH]; intros s i cur r E; [discriminate|]. cbn [last_loop] in E. destruct (nth_error segs k) as [c|] eqn:Ek; [|discriminate].
  destruct (visit _ _ _ _ _ s) as [s'|] eqn:Ev; [|discriminate]. destruct (nle N n0 s') eqn:L.
  - assert (E' : k = i /\ c = cur) by (split; congruence). destruct E' as (-> & ->). split; [left; reflexivity|exact Ek].
  - destruct (IH s' i cur r E) as [A B]. split; [right; exact A|exact B].
Qed.
Section Parts.
Variable J : nat -> cross N.
Variable jb : bundle N.
Variable nodes : list (node N).
Variable points : list (vec N).
Notation segs := (bundles 0 points).
(** a point that is [Segment::Lerp] of some segment *)
Definition on_side (p : vec N) : Prop := exists b r, In b segs /\ p = seg_lerp (b_seg b) r.
Record found (d : pdata N) : Prop := {
  o_segs : d_segs d = segs; o_cf : d_connect_first d = false; o_cl : d_connect_last d = false;
  o_cross : d_has d = true -> S (c_index (d_first d)) < c_index (d_last d) /\ c_index (d_last d) < length segs /\ on_side (d_new_first d) /\ on_side (d_new_last d) }.
Lemma find_intersections_facts d d' : d_segs d = segs -> d_connect_first d = false -> d_connect_last d = false -> d_has d = false -> find_intersections jb nodes d = Some d' -> found d'.
Proof.
  intros Es Ef El Eh. unfold find_intersections. cbv zeta. rewrite Es. destruct (first_loop _ _ _ _) as [[[[i cur] [other [r1 r2]]]|]|] eqn:F; [|intros E; assert (d = d') as <- by congruence; split; auto; congruence|discriminate].
  apply first_loop_facts in F; [|exact inf_far]. destruct F as (F1 & F2 & F3 & F4). pose proof (nth_error_In _ _ F2) as Ic.
  assert (b_index cur = i) as Ei. { destruct (bundles_in _ _ Ic) as [_ Q]. rewrite bundles_nth in F2. destruct (nth_error points i), (nth_error points (S i)); try discriminate. injection F2 as <-. reflexivity. }
  destruct (bundles_in _ _ F3) as [Lo _]. rewrite <- (bundles_length points 0) in Lo. rewrite Ei in F4.
  destruct (walk_distance _ i _ _); [|discriminate]. destruct (walk_distance _ _ r2 _); [|discriminate]. destruct (last_loop _ _ _ _ _) as [[[[k cur'] r]|]|] eqn:G; [| |discriminate].
  - destruct (walk_distance _ _ r _); [|discriminate]. intros E. assert (X : forall a b : pdata N, Some a = Some b -> a = b) by congruence. apply X in E. subst d'. apply last_loop_facts in G. destruct G as [G1 G2]. apply in_rev, in_seq in G1.
    split; cbn; auto. intros _. split; [lia|]. split; [lia|]. split; [exists cur, r1; auto|exists cur', r]. split; [eapply nth_error_In; exact G2|reflexivity].
  - intros E. assert (X : forall a b : pdata N, Some a = Some b -> a = b) by congruence. apply X in E. subst d'. split; cbn; auto. intros _. split; [lia|]. split; [exact Lo|]. split; exists cur, r1; auto.
Qed.
Variable q : params N.
Hypothesis dist_fin : nle N (nInf N) (max_dist q) = false.
Lemma find_connection_facts d p ok b c0 c best : d_segs d = segs -> find_connection nodes q d p ok b c0 = Some (c, best) -> nle N best (max_dist q) = true ->
  c_index c < length segs /\ ok (c_index c) = true.
Proof.
  intros Es. unfold find_connection. rewrite Es. destruct (rect_from_center _ _ _) as [box|]; [|discriminate]. destruct (visit _ _ _ _ _ _) as [[s|]|] eqn:Ev; try discriminate. intros E L.
  assert (s = (c, best)) as -> by congruence. clear E.
  pose proof (visit_keeps seg_bounds (connect_visitor q d p ok b) (fun s => match s with None => True | Some (c, l) => nle N l (max_dist q) = true -> c_index c < length segs /\ ok (c_index c) = true end) segs nodes box (Some (c0, nInf N)) (Some (c, best))) as K.
  cbv beta iota in K. apply K; [|congruence|exact Ev|exact L]. intros a [[x l]|] Ha Hx; [|exact I]. unfold connect_visitor. cbn [fst]. cbv zeta.
  destruct (nlt N (dist_point_segment p (b_seg a)) (max_dist q) && nlt N (dist_point_segment p (b_seg a)) l && ok (b_index a))%bool eqn:C; [|exact Hx]. destruct (seg_project _ _); [|exact I]. destruct (is_connectable _ _ _ _ _ _) as [[]|]; [|exact Hx|exact I].
  intros _. apply andb_prop in C. destruct C as [_ C]. split; [|exact C]. rewrite bundles_length. apply bundles_in. exact Ha.
Qed.
Lemma lerp_on c p : lerp_at segs c = Some p -> on_side p.
Proof. unfold lerp_at. destruct (nth_error segs (c_index c)) as [b|] eqn:E; [|discriminate]. intros Q. exists b, (c_frac c). split; [eapply nth_error_In; exact E|congruence]. Qed.
(** what is known when the new polyline is made *)
Record ready (d : pdata N) : Prop := {
  y_range : d_has d = true -> (if d_connect_first d then 0 else S (c_index (d_first d))) < (if d_connect_last d then length points else S (c_index (d_last d)))
                              /\ (if d_connect_last d then length points else S (c_index (d_last d))) <= length points;
  y_first : d_has d = true -> on_side (d_new_first d);
  y_last : d_has d = true -> on_side (d_new_last d) }.
Lemma find_connections_facts d d' : found d -> find_connections J nodes q d = Some d' -> ready d'.
Proof.
  intros [Es Ef El Ec]. pose proof (bundles_length points 0) as BL. unfold find_connections, connect_first_point. rewrite Es. destruct segs as [|b r] eqn:Eb; [discriminate|]. rewrite <- Eb in *.
  assert (0 < length segs) by (rewrite Eb; cbn; lia).
  destruct (find_connection _ _ d _ _ _ _) as [[c1 l1]|] eqn:F1; [|discriminate]. pose proof (find_connection_facts _ _ _ _ _ _ _ Es F1) as G1. clear F1.
  assert (S1 : forall x, (if nle N l1 (max_dist q) then match lerp_at segs c1 with
     | Some p => Some (PData segs (d_first d) (d_last d) p (d_new_last d) true (d_connect_last d) (d_has d), c1) | None => None end else Some (d, c1)) = Some x ->
     snd x = c1 /\ d_segs (fst x) = segs /\ d_first (fst x) = d_first d /\ d_last (fst x) = d_last d /\ d_new_last (fst x) = d_new_last d /\ d_connect_last (fst x) = false /\ d_has (fst x) = d_has d /\
     (if d_connect_first (fst x) then on_side (d_new_first (fst x)) /\ 1 < c_index c1 < length segs else d_new_first (fst x) = d_new_first d)).
  { intros x. destruct (nle N l1 (max_dist q)).
    - destruct (lerp_at segs c1) as [p|] eqn:Lp; [|discriminate]. intros E. assert (Q : forall a b : pdata N * cross N, Some a = Some b -> a = b) by congruence. apply Q in E. subst x. cbn. apply lerp_on in Lp. destruct (G1 eq_refl) as [A B]. apply Nat.ltb_lt in B. tauto.
    - intros E. assert (Q : forall a b : pdata N * cross N, Some a = Some b -> a = b) by congruence. apply Q in E. subst x. cbn. rewrite Ef. repeat split; auto. }
  destruct (if nle N l1 (max_dist q) then _ else _) as [[e1 k1]|]; [|discriminate]. specialize (S1 _ eq_refl). cbn [fst snd] in S1. destruct S1 as (-> & Es1 & X1 & X2 & X3 & X4 & X5 & X6).
  unfold connect_last_point. rewrite Es1. rewrite Eb at 1. cbv iota.
  destruct (find_connection _ _ e1 _ _ _ _) as [[c2 l2]|] eqn:F2; [|discriminate]. pose proof (find_connection_facts _ _ _ _ _ _ _ Es1 F2) as G2. clear F2.
  assert (S2 : forall x, (if nle N l2 (max_dist q) then match lerp_at segs c2 with
     | Some p => Some (PData segs (d_first e1) (d_last e1) (d_new_first e1) p (d_connect_first e1) true (d_has e1), c2) | None => None end else Some (e1, c2)) = Some x ->
     snd x = c2 /\ d_first (fst x) = d_first d /\ d_last (fst x) = d_last d /\ d_has (fst x) = d_has d /\ d_connect_first (fst x) = d_connect_first e1 /\ d_new_first (fst x) = d_new_first e1 /\
     (if d_connect_last (fst x) then on_side (d_new_last (fst x)) /\ c_index c2 + 2 < length segs else d_new_last (fst x) = d_new_last d)).
  { intros x. destruct (nle N l2 (max_dist q)).
    - destruct (lerp_at segs c2) as [p|] eqn:Lp; [|discriminate]. intros E. assert (Q : forall a b : pdata N * cross N, Some a = Some b -> a = b) by congruence. apply Q in E. subst x. cbn. apply lerp_on in Lp. destruct (G2 eq_refl) as [A B]. apply Nat.ltb_lt in B. tauto.
    - intros E. assert (Q : forall a b : pdata N * cross N, Some a = Some b -> a = b) by congruence. apply Q in E. subst x. cbn. rewrite X4. repeat split; auto. }
  destruct (if nle N l2 (max_dist q) then _ else _) as [[g k2]|]; [|discriminate]. specialize (S2 _ eq_refl). cbn [fst snd] in S2. destruct S2 as (-> & Y1 & Y2 & Y3 & Y4 & Y5 & Y6).
  cbv zeta. intros E. assert (Q : forall a b : pdata N, Some a = Some b -> a = b) by congruence. apply Q in E. subst d'. clear Q.
  rewrite <- Y4, <- Y5 in X6. rewrite <- Y3, <- Y1, <- Y2 in Ec.
  assert (Ec' : d_has g = true -> (d_connect_first g = false -> on_side (d_new_first g)) /\ (d_connect_last g = false -> on_side (d_new_last g)) /\ S (c_index (d_first g)) < c_index (d_last g) /\ c_index (d_last g) < length segs).
  { intros Hh. destruct (Ec Hh) as (A & B & C & D). split; [|split; [|auto]]; intros Hc; rewrite Hc in *; congruence. }
  clear - Ec' X6 Y6 BL H. unfold better_last, better_first. destruct (d_connect_first g) eqn:C1, (d_connect_last g) eqn:C2, (d_has g) eqn:Hh; cbn [orb negb].
  all: try (destruct (Ec' eq_refl) as (E1 & E2 & E3 & E4)); clear Ec'.
  all: try destruct (Nat.ltb_spec (c_index (d_last g)) (c_index c1)); try destruct (Nat.ltb_spec (c_index c2) (c_index (d_first g))).
  all: try destruct ((c_index c1 =? c_index (d_last g)) && nlt N (c_frac (d_last g)) (c_frac c1))%bool eqn:D1; try destruct ((c_index c2 =? c_index (d_first g)) && nlt N (c_frac c2) (c_frac (d_first g)))%bool eqn:D2.
  all: try (apply andb_prop in D1; destruct D1 as [D1 _]; apply Nat.eqb_eq in D1); try (apply andb_prop in D2; destruct D2 as [D2 _]; apply Nat.eqb_eq in D2).
  all: split; cbn; rewrite ?C1, ?C2, ?Hh; try discriminate; intros _; try tauto; try lia.
Qed.
(** the new polyline: a run of the given points, with at most one point before and one after it *)
Definition run_with_ends (out : list (vec N)) : Prop :=
  exists a b pre post, a < b <= length points /\ out = pre ++ firstn (b - a) (skipn a points) ++ post /\
    length pre <= 1 /\ length post <= 1 /\ forall p, In p pre \/ In p post -> on_side p.
Lemma new_polyline_shape d : ready d -> exists out, new_polyline d points = Some out /\ (d_has d = false /\ out = points \/ d_has d = true /\ run_with_ends out).
Proof using.
  intros [R1 R2 R3]. unfold new_polyline. destruct (d_has d); cbn [negb]; [|exists points; auto]. specialize (R1 eq_refl). specialize (R2 eq_refl). specialize (R3 eq_refl).
  set (a := if d_connect_first d then 0 else S (c_index (d_first d))) in *. set (b := if d_connect_last d then length points else S (c_index (d_last d))) in *. clearbody a b. cbv zeta.
  destruct (Nat.ltb_spec (b + 2) a); [lia|]. destruct (nth_error points a) as [p|] eqn:Ep; [|apply nth_error_None in Ep; lia].
  unfold run_of. destruct (Nat.leb_spec b (length points)); [|lia]. cbv zeta.
  set (pre := if negb (veq (d_new_first d) p) then [d_new_first d] else []). set (run := firstn (b - a) (skipn a points)).
  assert (L : run <> []). { unfold run. intros Q. apply (f_equal (@length _)) in Q. rewrite firstn_length, skipn_length in Q. cbn in Q. lia. }
  destruct (pre ++ run) as [|h l] eqn:El; [apply app_eq_nil in El; elim (L (proj2 El))|]. rewrite <- El. eexists. split; [reflexivity|]. right. split; [reflexivity|].
  exists a, b, pre, (if negb (veq (d_new_last d) (last (pre ++ run) h)) then [d_new_last d] else []). split; [lia|]. split; [rewrite <- app_assoc; reflexivity|].
  split; [apply at_most_one|]. split; [apply at_most_one|]. intros x [Hx|Hx].
  - apply only_in in Hx. subst x. exact R2.
  - apply only_in in Hx. subst x. exact R3.
Qed.
End Parts.
Theorem process_shape J jb sort points (q : params N) out : nle N (nInf N) (max_dist q) = false -> process_polyline J jb sort points q = Some out -> out = points \/ run_with_ends points out.
Proof.
  intros Hq. unfold process_polyline, create_data. destruct points as [|p pts] eqn:Ep; [discriminate|]. rewrite <- Ep. cbn [d_segs]. destruct (init_tree _ _ _ _) as [nodes|]; [|discriminate].
  destruct (find_intersections _ _ _) as [d1|] eqn:F; [|discriminate]. apply (find_intersections_facts jb nodes points) in F; try reflexivity.
  destruct (find_connections _ _ _ _) as [d2|] eqn:C; [|discriminate]. apply (find_connections_facts J nodes points q Hq d1) in C; [|exact F]. destruct (new_polyline_shape points d2 C) as (o & -> & H).
  intros E. injection E as <-. tauto.
Qed.

(** ** Nothing goes wrong *)
Section Total.
Variable J : nat -> cross N.
Variable jb : bundle N.
Variable nodes : list (node N).
Variable points : list (vec N).
Notation segs := (bundles 0 points).
Variable okq : rect N -> Prop.
Hypothesis V : forall S (v : S -> bundle N -> S * bool) s query, okq query -> exists s', visit seg_bounds v nodes segs query s = Some s'.
Hypothesis okb : forall b, In b segs -> okq (seg_bounds b).
Variable q : params N.
Hypothesis dist_fin : nle N (nInf N) (max_dist q) = false.
Hypothesis ends_ok : forall p, In p points -> exists box, rect_from_center p (nmul N (max_dist q) n2) (nmul N (max_dist q) n2) = Some box /\ okq box.
Hypothesis fi : forall b, In b segs -> float_index (N := N) (b_index b) = b_index b.
Hypothesis proj : forall b p, In b segs -> In p points -> seg_project (b_seg b) p <> None.
Lemma first_loop_total is : forall s, (forall i, In i is -> i < length segs) -> first_loop nodes segs is s <> None.
Proof.
  induction is as [|i is IH]; intros s H; [discriminate|]. cbn [first_loop]. destruct (nth_error segs i) as [b|] eqn:E; [|apply nth_error_None in E; specialize (H i (or_introl eq_refl)); lia].
  destruct (V _ (first_visitor b) s (seg_bounds b)) as [s' ->]; [apply okb; eapply nth_error_In; exact E|]. match goal with |- context [if ?c then _ else _] => destruct c end; [discriminate|]. apply IH. intros; apply H; right; assumption.
Qed.
Lemma last_loop_total f is : forall s, (forall i, In i is -> i < length segs) -> last_loop nodes f segs is s <> None.
Proof.
  induction is as [|i is IH]; intros s H; [discriminate|]. cbn [last_loop]. destruct (nth_error segs i) as [b|] eqn:E; [|apply nth_error_None in E; specialize (H i (or_introl eq_refl)); lia].
  destruct (V _ (last_visitor f b) s (seg_bounds b)) as [s' ->]; [apply okb; eapply nth_error_In; exact E|]. match goal with |- context [if ?c then _ else _] => destruct c end; [discriminate|]. apply IH. intros; apply H; right; assumption.
Qed.
Lemma walk_total i f b : i < length segs -> exists w, walk_distance segs i f b = Some w.
Proof. intros H. unfold walk_distance. destruct (nth_error segs i) eqn:E; [eauto|]. apply nth_error_None in E. lia. Qed.
Lemma find_intersections_total d : d_segs d = segs -> exists d', find_intersections jb nodes d = Some d'.
Proof.
  intros Es. unfold find_intersections. cbv zeta. rewrite Es. destruct (first_loop nodes segs _ _) as [[[[i cur] [o [r1 r2]]]|]|] eqn:F; [|eauto|].
  2: { exfalso. revert F. apply first_loop_total. intros i Hi. apply in_seq in Hi. lia. }
  apply first_loop_facts in F; [|exact inf_far]. destruct F as (F1 & F2 & F3 & F4). apply bundles_in in F3. rewrite <- (bundles_length points 0) in F3. destruct F3 as [F3 _]. apply in_seq in F1.
  destruct (walk_total i r1 false) as [w1 ->]; [lia|]. destruct (walk_total (b_index o) r2 true) as [w2 ->]; [lia|].
  destruct (last_loop _ _ _ _ _) as [[[[k c] r]|]|] eqn:L; [| eauto|].
  - apply last_loop_facts in L. destruct L as [L _]. apply in_rev, in_seq in L. destruct (walk_total k r true) as [w ->]; [lia|]. eauto.
  - exfalso. revert L. apply last_loop_total. intros k Hk. apply in_rev, in_seq in Hk. lia.
Qed.
Lemma find_connection_total d p ok b c : d_segs d = segs -> In p points -> exists r, find_connection nodes q d p ok b c = Some r.
Proof.
  intros Es Hp. unfold find_connection. rewrite Es. destruct (ends_ok p Hp) as (box & -> & Hb). destruct (V _ (connect_visitor q d p ok b) (Some (c, nInf N)) box Hb) as [s' E]. rewrite E.
  assert (G : s' <> None); [|destruct s'; [eauto|congruence]]. revert E. apply (visit_keeps seg_bounds _ (fun s => s <> None)); [|discriminate]. intros a [[x l]|] Ha Hx; [|congruence].
  unfold connect_visitor. cbn [fst]. cbv zeta. destruct (_ && _ && _)%bool; [|discriminate]. destruct (seg_project (b_seg a) p) eqn:Epr; [|elim (proj a p Ha Hp); exact Epr].
  unfold is_connectable. rewrite Es, fi by exact Ha. destruct (walk_total (b_index a) (nclamp t n0 n1) b) as [w ->]; [rewrite bundles_length; apply bundles_in; exact Ha|].
  destruct (_ || _)%bool; [discriminate|]. destruct (d_has d); [|discriminate]. destruct (negb _); discriminate.
Qed.
Lemma seg_ends b : In b segs -> In (s_start (b_seg b)) points /\ In (s_end (b_seg b)) points.
Proof.
  intros H. apply bundles_in in H. destruct H as [_ H]. rewrite bundles_nth in H. destruct (nth_error points (b_index b)) eqn:E1, (nth_error points (S (b_index b))) eqn:E2; try discriminate. injection H as <-. cbn. split; eapply nth_error_In; eassumption.
Qed.
Lemma lerp_total c : c_index c < length segs -> exists p, lerp_at segs c = Some p.
Proof. intros H. unfold lerp_at. destruct (nth_error segs (c_index c)) eqn:E; [eauto|]. apply nth_error_None in E. lia. Qed.
Lemma find_connections_total d : segs <> [] -> d_segs d = segs -> exists d', find_connections J nodes q d = Some d'.
Proof.
  intros Ne Es. unfold find_connections.
  assert (A : exists d1 c1, connect_first_point J nodes q d = Some (d1, c1) /\ d_segs d1 = segs).
  { unfold connect_first_point. rewrite Es. destruct segs as [|b r] eqn:Eb; [congruence|]. rewrite <- Eb in *.
    destruct (find_connection_total d (s_start (b_seg b)) (Nat.ltb 1) false (J 2) Es) as [[c best] F]; [apply seg_ends; rewrite Eb; left; reflexivity|]. rewrite F. pose proof (find_connection_facts nodes points q dist_fin _ _ _ _ _ _ _ Es F) as G.
    destruct (nle N best (max_dist q)); [|eauto]. destruct (lerp_total c) as [p ->]; [apply G; reflexivity|]. eauto. }
  destruct A as (d1 & c1 & -> & Es1).
  assert (A : exists d2 c2, connect_last_point J nodes q d1 = Some (d2, c2)).
  { unfold connect_last_point. rewrite Es1. destruct segs as [|b r] eqn:Eb; [congruence|]. rewrite <- Eb in *.
    edestruct (find_connection_total d1 (s_end (b_seg (last r b)))) as [[c best] F]; [exact Es1|apply seg_ends; rewrite Eb; apply last_in_cons|]. rewrite F. pose proof (find_connection_facts nodes points q dist_fin _ _ _ _ _ _ _ Es1 F) as G.
    destruct (nle N best (max_dist q)); [|eauto]. destruct (lerp_total c) as [p ->]; [apply G; reflexivity|]. eauto. }
  destruct A as (d2 & c2 & ->). eauto.
Qed.
Theorem process_total sort : 2 <= length points -> init_tree 16 sort seg_bounds segs = Some nodes -> exists out, process_polyline J jb sort points q = Some out.
Proof.
  intros L Et. unfold process_polyline, create_data. destruct points as [|p pts] eqn:Ep; [cbn in L; lia|]. rewrite <- Ep in *. cbn [d_segs]. rewrite Et.
  set (d := PData _ _ _ _ _ _ _ _). assert (Ed : d_segs d = segs) by reflexivity.
  destruct (find_intersections_total d Ed) as [d1 E1]. rewrite E1. pose proof (find_intersections_facts jb nodes points d d1 Ed eq_refl eq_refl eq_refl E1) as F1.
  assert (Ne : segs <> []). { intros Q. apply (f_equal (@length _)) in Q. rewrite bundles_length in Q. cbn in Q. lia. }
  destruct (find_connections_total d1 Ne (o_segs _ _ F1)) as [d2 E2]. rewrite E2. pose proof (find_connections_facts J nodes points q dist_fin d1 d2 F1 E2) as F2.
  destruct (new_polyline_shape points d2 F2) as (o & -> & _). eauto.
Qed.
End Total.
End Shape.
