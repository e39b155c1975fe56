(** C80: joining two tips. *)
From Coq Require Import ZArith Bool Reals Lra Lia List.
From Verif Require BehaviorMeaning.
From Verif Require Import NumModel EasingExact GeomModel AffineModel GeomSpec GeomReal GeomExact AffineProofs CircleModel CircleSpec CircleProofs CircleProps TipShapeModel TipShapeProofs TipCapModel TipCapProps RoundedModel RoundedSpec RoundedProofs RoundedHull RoundedProps JoinedModel JoinedSpec JoinedProofs.
Import ListNotations.
Local Open Scope nat_scope.

(** ** Either reading of numbers *)
Section Any.
Context {M : num}.
Variable acos : T M -> T M.
Variable millionth : T M -> T M.
Definition size (s : shape M) : nat := length (s_circles s).
Definition in_range (first second : shape M) (t : indices) : Prop :=
  fst (i_left t) < size first /\ snd (i_left t) < size second /\ fst (i_right t) < size first /\ snd (i_right t) < size second.
Lemma turning_loop_range left start dir l : forall i best r, turning_loop acos left start dir i l best = Some r ->
  match r with None => best = None | Some (j, _, _) => i <= j < i + length l \/ exists a m, best = Some (j, a, m) end.
Proof.
  induction l as [|c l IH]; intros i best r; cbn [turning_loop length].
  - intros E. injection E as <-. destruct best as [[[j a] m]|]; [right; eauto|reflexivity].
  - assert (SK : turning_loop acos left start dir (S i) l best = Some r -> match r with None => best = None | Some (j, _, _) => i <= j < i + S (length l) \/ exists a m, best = Some (j, a, m) end).
    { intros E. apply IH in E. destruct r as [[[j a] m]|]; [|exact E]. destruct E as [E|E]; [left; lia|right; exact E]. }
    destruct (tangent_properties acos left start c dir) as [[[a m]|]|]; [|exact SK|discriminate 1]. destruct (backwards left a); [exact SK|]. intros E. apply IH in E.
    destruct r as [[[j b] k]|].
    + destruct E as [E|(a' & m' & E)]; [left; lia|]. destruct best as [[[j' b'] k']|]; [|injection E as <- <- <-; left; lia].
      destruct (farther left a b' || _); [injection E as <- <- <-; left; lia|]. right. eauto.
    + destruct best as [[[j' b'] k']|]; [|discriminate E]. destruct (farther left a b' || _); discriminate E.
Qed.
Lemma turning_range left start dir s limit j : turning_index acos left start dir s limit = Some (Some j) -> j < size s.
Proof.
  unfold turning_index. destruct (turning_loop acos left start dir 0 (s_circles s) None) as [r|] eqn:E; [|discriminate 1]. apply turning_loop_range in E. destruct r as [[[i a] m]|]; [|discriminate 1].
  destruct (reaches left a limit); [|discriminate 1]. intros Q. injection Q as <-. destruct E as [E|(? & ? & E)]; [unfold size; lia|discriminate E].
Qed.
Lemma rear_range (s : shape M) f l r : rear_indices s f = Some (l, r) -> l < size s /\ r < size s.
Proof.
  unfold rear_indices, size. destruct (s_circles s) as [|c rest]; [discriminate 1|]. set (o := s_center s).
  assert (G : forall k n i j d a b, i < n -> j < n -> let '(n', (i', j', _, _, _)) := fold_left (rear_step f o) k (n, (i, j, d, a, b)) in n' = n + length k /\ i' < n + length k /\ j' < n + length k).
  { induction k as [|x k IH]; intros n i j d a b I J; cbn [fold_left length]; [lia|]. unfold rear_step at 2.
    destruct (nlt M _ d); [|destruct (neqb M _ d); [destruct (nlt M a _); [|destruct (nlt M _ b)]|]];
      (match goal with |- context [fold_left _ k (S n, (?i', ?j', ?d', ?a', ?b'))] => specialize (IH (S n) i' j' d' a' b' ltac:(lia) ltac:(lia)) end;
       destruct (fold_left _ k _) as [n' [[[[i' j'] ?] ?] ?]]; lia). }
  match goal with |- context [fold_left _ rest (1, (0, 0, ?d', ?a', ?b'))] => specialize (G rest 1 0 0 d' a' b' ltac:(lia) ltac:(lia)) end.
  destruct (fold_left _ rest _) as [n' [[[[i' j'] ?] ?] ?]]. intros E. injection E as <- <-. cbn [length]. lia.
Qed.
Lemma next_range (left : bool) (s : shape M) i : i < size s -> (if left then next_cw s i else next_ccw s i) < size s.
Proof. intros I. unfold size in *. destruct left; [apply (next_cw_ccw s i I)|]. rewrite next_ccw_eq by exact I. apply Nat.mod_upper_bound. lia. Qed.
Lemma side_range left first second dir rear p : rear < size first -> 0 < size second -> side acos left first second dir rear = Some p -> fst p < size first /\ snd p < size second.
Proof.
  intros R S0. unfold side. assert (G : forall k i q, i < size first -> side_loop acos left first second dir k i = Some (Some q) -> fst q < size first /\ snd q < size second).
  { induction k as [|k IH]; intros i q I; cbn [side_loop]; [discriminate 1|]. destruct (nth_error _ i); [|discriminate 1]. destruct (nth_error _ _); [|discriminate 1].
    destruct (tangent_properties _ _ _ _ _) as [[[a m]|]|]; try discriminate 1. destruct (turning_index _ _ _ _ _ _) as [[j|]|] eqn:T; [|apply IH, next_range; exact I|discriminate 1].
    intros E. injection E as <-. cbn. apply turning_range in T. auto. }
  destruct (side_loop _ _ _ _ _ _ _) as [[q|]|] eqn:L; [|..|discriminate 1].
  - intros E. injection E as <-. apply G in L; assumption.
  - destruct (nth_error _ rear); [|discriminate 1]. destruct (turning_index _ _ _ _ _ _) as [o|] eqn:T; [|discriminate 1]. intros E. injection E as <-. cbn. split; [exact R|]. destruct o as [j|]; [apply turning_range in T; exact T|exact S0].
Qed.
(** the circles joined are circles of the two tips *)
Theorem C80_indices (first second : shape M) t : 0 < size first -> 0 < size second -> tangent_indices acos first second = Some t -> in_range first second t.
Proof.
  intros F S0. unfold tangent_indices, in_range. destruct (Nat.eqb (length (s_circles first)) 1 && Nat.eqb (length (s_circles second)) 1). { intros E. injection E as <-. cbn. auto. }
  destruct (forward first second) as [dir|]; [|discriminate 1].
  assert (G : match rear_indices first dir with None => None | Some (l, r) => match side acos true first second dir l, side acos false first second dir r with Some l, Some r => Some (Indices l r) | _, _ => None end end = Some t -> fst (i_left t) < size first /\ snd (i_left t) < size second /\ fst (i_right t) < size first /\ snd (i_right t) < size second).
  { destruct (rear_indices first dir) as [[l r]|] eqn:RI; [|discriminate 1]. apply rear_range in RI. destruct RI as [RL RR].
    destruct (side acos true first second dir l) as [p|] eqn:SL; [|discriminate 1]. destruct (side acos false first second dir r) as [q|] eqn:SR; [|discriminate 1]. intros E. injection E as <-. cbn.
    apply side_range in SL; try assumption. apply side_range in SR; try assumption. tauto. }
  destruct (s_circles first) as [|c [|d l]] eqn:SC; [exact G| |exact G].
  destruct (turning_index acos true c dir second _) as [o|] eqn:T1; [|discriminate 1]. destruct (turning_index acos false c dir second _) as [o'|] eqn:T2; [|discriminate 1]. intros E. injection E as <-. cbn. split; [exact F|]. split; [|split; [exact F|]].
  - destruct o as [j|]; [apply turning_range in T1; exact T1|exact S0].
  - destruct o' as [j|]; [apply turning_range in T2; exact T2|exact S0].
Qed.
(** circle [i] of the tip, its radius larger by [offset] *)
Definition larger (s : shape M) (offset : T M) (i : nat) (c : circle M) : Prop := exists d, nth_error (s_circles s) i = Some d /\ center c = center d /\ radius c = nadd M (radius d) offset.
Lemma enlarged_ok s offset l cs : enlarged s offset l = Some cs -> Forall2 (larger s offset) l cs.
Proof.
  unfold enlarged. revert cs. induction l as [|i l IH]; intros cs; cbn [map all_of]; [intros E; injection E as <-; constructor|].
  unfold circle_at at 1. destruct (nth_error (s_circles s) i) as [d|] eqn:D; [|discriminate 1]. destruct (make_circle _ _) as [c|] eqn:MC; [|discriminate 1].
  destruct (all_of _) as [r|]; [|discriminate 1]. intros E. injection E as <-. constructor; [|apply IH; reflexivity]. unfold make_circle in MC. destruct (nle M n0 _); [|discriminate MC]. injection MC as <-. exists d. auto.
Qed.
(** the circles of the polygon: those of the first tip counter-clockwise from the left to the right tangent, then those of the second from
    the right to the left tangent, all enlarged *)
Definition outline (first second : shape M) (t : indices) (offset : T M) (cs : list (circle M)) : Prop :=
  exists a b, cs = a ++ b /\ Forall2 (larger first offset) (ccw (size first) (fst (i_left t)) (fst (i_right t))) a /\
  Forall2 (larger second offset) (ccw (size second) (snd (i_right t)) (snd (i_left t))) b.
(** the circles that are not in the outline *)
Definition left_out (first second : shape M) (t : indices) (c : circle M) : Prop :=
  (exists k, ~ In k (ccw (size first) (fst (i_left t)) (fst (i_right t))) /\ nth_error (s_circles first) k = Some c) \/
  (exists k, ~ In k (ccw (size second) (snd (i_right t)) (snd (i_left t))) /\ nth_error (s_circles second) k = Some c).
Lemma rest_ok (s : shape M) arcs from to : from < size s -> to < size s -> exists b, rest_contained s arcs from to = Some b /\
  (b = true <-> forall k c, ~ In k (ccw (size s) to from) -> nth_error (s_circles s) k = Some c -> polygon_contains arcs c = true).
Proof.
  intros F T0. unfold rest_contained. destruct (rest_eq s to from T0 F) as (l & -> & L). eexists. split; [reflexivity|]. rewrite forallb_forall. unfold circle_at. split.
  - intros H k c K C. specialize (H k). rewrite C in H. apply H, L. split; [|exact K]. apply nth_error_Some. rewrite C. discriminate.
  - intros H k K. apply L in K. destruct K as [K Q]. destruct (nth_error (s_circles s) k) as [c|] eqn:C; [apply (H k c Q C)|]. apply nth_error_None in C. lia.
Qed.
Lemma outline_ok first second t offset cs : in_range first second t -> joined first second t offset = Some cs -> outline first second t offset cs.
Proof.
  intros (A & B & C & D). unfold joined. destruct (nle M n0 offset); [|discriminate 1]. cbn [negb]. rewrite !used_eq by assumption. fold (size first). fold (size second).
  destruct (enlarged first offset _) as [a|] eqn:EA; [|discriminate 1]. destruct (enlarged second offset _) as [b|] eqn:EB; [|discriminate 1]. intros E. injection E as <-. exists a, b. apply enlarged_ok in EA, EB. auto.
Qed.
(** The quality of the tangents: containment first; otherwise the tangents are good if and only if every circle that is left out of the outline is reported to be
    contained by the polygon of the outline.  Nothing is left out where the two shortcuts are taken *)
Theorem C80_quality (first second : shape M) : 0 < size first -> 0 < size second ->
  match tangent_quality acos millionth first second with
  | None => True
  | Some FirstContainsSecond => shape_contains acos first second = Some true
  | Some SecondContainsFirst => shape_contains acos first second = Some false /\ shape_contains acos second first = Some true
  | Some GoodTangents => shape_contains acos first second = Some false /\ shape_contains acos second first = Some false /\
      exists t, tangent_indices acos first second = Some t /\
      ((forall c, ~ left_out first second t c) \/
       exists offset cs arcs, enlargement millionth first second = Some offset /\ joined first second t offset = Some cs /\ outline first second t offset cs /\ make_polygon acos cs = Some arcs /\ forall c, left_out first second t c -> polygon_contains arcs c = true)
  | Some BadTangents => shape_contains acos first second = Some false /\ shape_contains acos second first = Some false /\
      exists t offset cs arcs c, tangent_indices acos first second = Some t /\ enlargement millionth first second = Some offset /\ joined first second t offset = Some cs /\ outline first second t offset cs /\ make_polygon acos cs = Some arcs /\
      left_out first second t c /\ polygon_contains arcs c = false
  end.
Proof.
  intros F S0. unfold tangent_quality. destruct (shape_contains acos first second) as [[|]|] eqn:C1; [reflexivity| |exact I]. destruct (shape_contains acos second first) as [[|]|] eqn:C2; [auto| |exact I].
  assert (NONE : forall t, in_range first second t -> next_cw first (fst (i_left t)) = fst (i_right t) -> next_cw second (snd (i_right t)) = snd (i_left t) -> forall c, ~ left_out first second t c).
  { intros t (R1 & R2 & R3 & R4) E1 E2 c [(k & K & X)|(k & K & X)]; apply K.
    - rewrite <- E1. apply all_used; [exact R1|]. apply nth_error_Some. rewrite X. discriminate.
    - rewrite <- E2. apply all_used; [exact R4|]. apply nth_error_Some. rewrite X. discriminate. }
  destruct (Nat.eqb (length (s_circles first)) 1 && Nat.eqb (length (s_circles second)) 1) eqn:ONE.
  - split; [reflexivity|]. split; [reflexivity|]. exists (Indices (0, 0) (0, 0)). unfold tangent_indices. rewrite ONE. split; [reflexivity|]. left. apply andb_true_iff in ONE. rewrite !Nat.eqb_eq in ONE.
    apply NONE; [unfold in_range; cbn; auto|cbn; rewrite (proj1 ONE); reflexivity|cbn; rewrite (proj2 ONE); reflexivity].
  - destruct (tangent_indices acos first second) as [t|] eqn:TI; [|exact I]. pose proof (C80_indices first second t F S0 TI) as R.
    destruct (Nat.eqb (next_cw first (fst (i_left t))) (fst (i_right t)) && Nat.eqb (next_cw second (snd (i_right t))) (snd (i_left t))) eqn:SH.
    + split; [reflexivity|]. split; [reflexivity|]. exists t. split; [reflexivity|]. left. apply andb_true_iff in SH. rewrite !Nat.eqb_eq in SH. apply NONE; tauto.
    + destruct (enlargement millionth first second) as [offset|] eqn:EN; [|exact I]. destruct (joined first second t offset) as [cs|] eqn:JE; [|exact I]. pose proof (outline_ok _ _ _ _ _ R JE) as J. destruct (make_polygon acos cs) as [arcs|] eqn:MP; [|exact I].
      destruct R as (R1 & R2 & R3 & R4). destruct (rest_ok first arcs _ _ R3 R1) as (b1 & -> & B1). destruct (rest_ok second arcs _ _ R2 R4) as (b2 & -> & B2).
      assert (NEG : forall (s : shape M) i j (b : bool), (b = true <-> forall k c, ~ In k (ccw (size s) i j) -> nth_error (s_circles s) k = Some c -> polygon_contains arcs c = true) -> b = false -> exists k c, ~ In k (ccw (size s) i j) /\ nth_error (s_circles s) k = Some c /\ polygon_contains arcs c = false).
      { intros s i j b B Q. rewrite Q in B.
        assert (D : forall l, (forall k c, In k l -> ~ In k (ccw (size s) i j) -> nth_error (s_circles s) k = Some c -> polygon_contains arcs c = true) \/ exists k c, ~ In k (ccw (size s) i j) /\ nth_error (s_circles s) k = Some c /\ polygon_contains arcs c = false).
        { induction l as [|k l [IH|IH]]; [left; intros k c []| |right; exact IH]. destruct (in_dec Nat.eq_dec k (ccw (size s) i j)) as [K|K]; [left; intros k' c [<-|I'] NI X; [contradiction|eauto]|].
          destruct (nth_error (s_circles s) k) as [c|] eqn:X; [|left; intros k' c [<-|I'] NI X'; [congruence|eauto]]. destruct (polygon_contains arcs c) eqn:PC; [|right; eauto].
          left. intros k' c' [<-|I'] NI X'; [congruence|eauto]. }
        destruct (D (seq 0 (size s))) as [H|H]; [|exact H]. exfalso. destruct B as [_ B]. discriminate B. intros k c K X. apply (H k c); try assumption. apply in_seq. split; [lia|]. apply nth_error_Some. rewrite X. discriminate. }
      destruct b1.
      * destruct b2.
        -- split; [reflexivity|]. split; [reflexivity|]. exists t. split; [reflexivity|]. right. exists offset, cs, arcs. split; [reflexivity|]. split; [exact JE|]. split; [exact J|]. split; [exact MP|]. intros c [(k & K & X)|(k & K & X)]; [apply (proj1 B1 eq_refl k c K X)|apply (proj1 B2 eq_refl k c K X)].
        -- destruct (NEG second _ _ false B2 eq_refl) as (k & c & K & X & PC). split; [reflexivity|]. split; [reflexivity|]. exists t, offset, cs, arcs, c. repeat (split; [assumption || reflexivity|]). split; [|exact PC]. right. eauto.
      * destruct (NEG first _ _ false B1 eq_refl) as (k & c & K & X & PC). split; [reflexivity|]. split; [reflexivity|]. exists t, offset, cs, arcs, c. repeat (split; [assumption || reflexivity|]). split; [|exact PC]. left. eauto.
Qed.
End Any.

(** ** Exact arithmetic *)
Local Open Scope R_scope.
Notation N := xnum.
Definition tip (o : pt) (bs : list ball) : shape N := Shape (pv o) (circles bs).
Lemma tip_size o bs : size (tip o bs) = length bs. Proof. apply circles_length. Qed.
Lemma props_x left c r d s f : 0 <= r -> 0 <= s ->
  (within (disc d s) (disc c r) \/ within (disc c r) (disc d s)) /\ tangent_properties (N := N) xacos left (circ c r) (circ d s) (pv f) = Some None \/
  ~ (within (disc d s) (disc c r) \/ within (disc c r) (disc d s)) /\ exists a l, tangent_properties (N := N) xacos left (circ c r) (circ d s) (pv f) = Some (Some (Fin a, Fin l)) /\ - PI < a <= PI.
Proof.
  intros R S. destruct (Classical_Prop.classic (within (disc d s) (disc c r) \/ within (disc c r) (disc d s))) as [W|W]; [left|right]; (split; [exact W|]).
  - unfold tangent_properties. rewrite (proj2 (C76_none c r d s R S) W). reflexivity.
  - destruct (C76_tangents c r d s R S) as (x & y & _ & _ & E & _); [tauto|tauto|]. unfold tangent_properties. rewrite E.
    assert (G : forall z, exists a l, (let offset := vsub (get_point (N := N) (circ d s) (Fin z)) (get_point (circ c r) (Fin z)) in if veq offset (V n0 n0) then Some (Some (n0, magnitude offset)) else match signed_angle (N := N) xacos (pv f) offset with Some angle => Some (Some (angle, magnitude offset)) | None => None end) = Some (Some (Fin a, Fin l)) /\ - PI < a <= PI).
    { intros z. rewrite !point_x, minus_x. cbv zeta. rewrite !magnitude_x, x0. set (o := minus _ _). destruct (veq (pv o) _); [pose proof PI_RGT_0; exists 0, (len o); split; [reflexivity|lra]|].
      destruct (unit_some f) as (u & U & UU & _). destruct (unit_some o) as (v & V' & VV & _). destruct (signed_units f o u v U V' UU VV) as (a & -> & B & _). eauto. }
    destruct left; apply G.
Qed.
Definition sigma (left : bool) : R := if left then 1 else -1.
Lemma farther_x left a b : farther (N := N) left (Fin a) (Fin b) = true <-> sigma left * b < sigma left * a.
Proof. unfold farther, sigma. destruct left; rewrite lt_x; lra. Qed.
Definition quarter : R := 13176795 / 8388608.
Lemma quarter_x : quarter_turn (N := N) = Fin quarter.
Proof. unfold quarter_turn. rewrite xdy. reflexivity. Qed.
Lemma backwards_x left a : backwards (N := N) left (Fin a) = true <-> quarter < sigma left * a.
Proof. unfold backwards, sigma. rewrite quarter_x. cbn [nopp N xopp]. destruct left; rewrite lt_x; lra. Qed.
Lemma reaches_x left a l : reaches (N := N) left (Fin a) (Fin l) = true <-> sigma left * l <= sigma left * a.
Proof. unfold reaches, sigma. destruct left; rewrite le_x; lra. Qed.
(** turning from [start], which is headed for [f], to circle [j] is by angle [a], no more than a quarter turn to that side, along a tangent of length [l] *)
Definition turns (left : bool) (start : ball) (f : pt) (bs : list ball) (j : nat) (a l : R) : Prop :=
  exists b : ball, nth_error bs j = Some b /\ tangent_properties (N := N) xacos left (circ (fst start) (snd start)) (circ (fst b) (snd b)) (pv f) = Some (Some (Fin a, Fin l)) /\ sigma left * a <= quarter.
(** [i] is turned to farther than [j]; the nearer and then the first if both are turned to as far *)
Definition before (left : bool) (i : nat) (a l : R) (j : nat) (b m : R) : Prop := sigma left * b < sigma left * a \/ a = b /\ (l < m \/ l = m /\ (i <= j)%nat).
Lemma loop_x left (start : ball) f (bs : list ball) : 0 <= snd start -> (forall b : ball, In b bs -> 0 <= snd b) -> forall (rest pre : list ball) (best : option (nat * T N * T N)), bs = pre ++ rest ->
  match best with None => forall j a l, (j < length pre)%nat -> ~ turns left start f bs j a l
  | Some (i, a, l) => exists a' l', a = Fin a' /\ l = Fin l' /\ turns left start f bs i a' l' /\ (i < length pre)%nat /\ forall j b m, (j < length pre)%nat -> turns left start f bs j b m -> before left i a' l' j b m end ->
  exists r, turning_loop (N := N) xacos left (circ (fst start) (snd start)) (pv f) (length pre) (circles rest) best = Some r /\
  match r with None => forall j a l, ~ turns left start f bs j a l
  | Some (i, a, l) => exists a' l', a = Fin a' /\ l = Fin l' /\ turns left start f bs i a' l' /\ forall j b m, turns left start f bs j b m -> before left i a' l' j b m end.
Proof.
  intros S0 B0. assert (LT : forall j a l, turns left start f bs j a l -> (j < length bs)%nat) by (intros j a l (b & X & _); apply (nth_error_Some bs); rewrite X; discriminate).
  induction rest as [|b rest IH]; intros pre best E H.
  - rewrite app_nil_r in E. subst pre. exists best. split; [reflexivity|]. destruct best as [[[i a] l]|]; [|intros j a l T; exact (H j a l (LT _ _ _ T) T)].
    destruct H as (a' & l' & -> & -> & T & _ & Q). exists a', l'. split; [reflexivity|]. split; [reflexivity|]. split; [exact T|]. intros j b m TJ. apply Q; [apply (LT _ _ _ TJ)|exact TJ].
  - cbn [circles map turning_loop]. assert (E' : bs = (pre ++ [b]) ++ rest) by (rewrite <- app_assoc; exact E).
    assert (NB : nth_error bs (length pre) = Some b) by (rewrite E, nth_error_app2, Nat.sub_diag by lia; reflexivity).
    assert (SPLIT : forall j, (j < length (pre ++ [b]))%nat -> (j < length pre)%nat \/ j = length pre) by (intros j; rewrite app_length; cbn; lia).
    assert (SKIP : (forall a l, ~ turns left start f bs (length pre) a l) -> match best with None => forall j a l, (j < length (pre ++ [b]))%nat -> ~ turns left start f bs j a l
      | Some (i, a, l) => exists a' l', a = Fin a' /\ l = Fin l' /\ turns left start f bs i a' l' /\ (i < length (pre ++ [b]))%nat /\ forall j b' m, (j < length (pre ++ [b]))%nat -> turns left start f bs j b' m -> before left i a' l' j b' m end).
    { intros NT. destruct best as [[[i a] l]|].
      - destruct H as (a' & l' & Ea & El & T & I & Q). exists a', l'. rewrite app_length. cbn [length]. split; [exact Ea|]. split; [exact El|]. split; [exact T|]. split; [lia|]. intros j b' m J TJ. destruct (Nat.eq_dec j (length pre)) as [-> |D]; [destruct (NT _ _ TJ)|apply Q; [lia|exact TJ]].
      - intros j a l J T. destruct (SPLIT j J) as [D| ->]; [exact (H j a l D T)|exact (NT _ _ T)]. }
    replace (S (length pre)) with (length (pre ++ [b])) by (rewrite app_length; cbn; lia).
    destruct (props_x left (fst start) (snd start) (fst b) (snd b) f S0 (B0 b (nth_error_In _ _ NB))) as [[_ P]|[_ (a & l & P & _)]]; rewrite P.
    + apply IH; [exact E'|]. apply SKIP. intros a l (b' & X & Q & _). rewrite NB in X. injection X as <-. rewrite P in Q. discriminate Q.
    + assert (U : forall a' l', turns left start f bs (length pre) a' l' -> a' = a /\ l' = l /\ sigma left * a <= quarter).
      { intros a' l' (b' & X & Q & B). rewrite NB in X. injection X as <-. rewrite P in Q. injection Q as -> ->. auto. }
      destruct (backwards (N := N) left (Fin a)) eqn:BW.
      * apply backwards_x in BW. apply IH; [exact E'|]. apply SKIP. intros a' l' T. destruct (U _ _ T) as (_ & _ & Q). lra.
      * assert (BQ : sigma left * a <= quarter). { apply Rnot_lt_le. intros Q. apply backwards_x in Q. congruence. }
        assert (T0 : turns left start f bs (length pre) a l) by (exists b; auto).
        apply IH; [exact E'|]. destruct best as [[[i a0] l0]|].
        -- destruct H as (a' & l' & -> & -> & T & I & Q). assert (SG : sigma left = 1 \/ sigma left = -1) by (destruct left; cbn; auto).
           destruct (farther (N := N) left (Fin a) (Fin a') || (neqb N (Fin a) (Fin a') && nlt N (Fin l) (Fin l'))) eqn:C.
           ++ assert (BF : sigma left * a' < sigma left * a \/ a = a' /\ l < l'). { apply orb_true_iff in C. rewrite farther_x, andb_true_iff, eq_x, lt_x in C. exact C. }
              exists a, l. rewrite app_length. cbn [length]. split; [reflexivity|]. split; [reflexivity|]. split; [exact T0|]. split; [lia|]. intros j b' m J TJ. destruct (Nat.eq_dec j (length pre)) as [-> |D].
              ** destruct (U _ _ TJ) as (-> & -> & _). right. auto.
              ** specialize (Q j b' m ltac:(lia) TJ). unfold before in *. destruct BF as [BF|(-> & BF)], Q as [Q|(-> & [Q|(-> & Q)])]; try (left; lra); right; (split; [reflexivity|]); left; lra.
           ++ assert (NBF : sigma left * a <= sigma left * a' /\ (a = a' -> l' <= l)). { apply orb_false_iff in C. destruct C as [C1 C2]. split; [apply Rnot_lt_le; intros K; apply farther_x in K; congruence|]. intros ->. rewrite (proj2 (eq_x a' a') eq_refl) in C2. apply lt_xf in C2. exact C2. }
              exists a', l'. rewrite app_length. cbn [length]. split; [reflexivity|]. split; [reflexivity|]. split; [exact T|]. split; [lia|]. intros j b' m J TJ. destruct (Nat.eq_dec j (length pre)) as [-> |D]; [|apply Q; [lia|exact TJ]].
              destruct (U _ _ TJ) as (-> & -> & _). destruct NBF as [L1 L2]. unfold before. destruct (Req_dec a a') as [<-|NE]; [|left; destruct SG as [SG|SG]; rewrite SG in *; lra]. specialize (L2 eq_refl). right. split; [reflexivity|]. destruct (Req_dec l' l) as [->|]; [right; split; [reflexivity|lia]|left; lra].
        -- exists a, l. rewrite app_length. cbn [length]. split; [reflexivity|]. split; [reflexivity|]. split; [exact T0|]. split; [lia|]. intros j b' m J TJ. destruct (Nat.eq_dec j (length pre)) as [-> |D].
           ++ destruct (U _ _ TJ) as (-> & -> & _). right. auto.
           ++ destruct (H j b' m ltac:(lia) TJ).
Qed.
(** the circle turned to is the one turned to farthest to that side but not by more than a quarter, the nearest and then the first of those, if it is turned to far enough *)
Theorem C80_turning left (start : ball) f o (bs : list ball) limit : 0 <= snd start -> (forall b : ball, In b bs -> 0 <= snd b) -> exists r,
  turning_index (N := N) xacos left (circ (fst start) (snd start)) (pv f) (tip o bs) (Fin limit) = Some r /\
  match r with
  | Some i => exists a l, turns left start f bs i a l /\ sigma left * limit <= sigma left * a /\ forall j b m, turns left start f bs j b m -> before left i a l j b m
  | None => forall j b m, turns left start f bs j b m -> sigma left * b < sigma left * limit
  end.
Proof.
  intros S0 B0. destruct (loop_x left start f bs S0 B0 bs [] None eq_refl) as (r & E & H); [cbn; lia|]. unfold turning_index. cbn [tip s_circles]. cbn [length] in E. rewrite E. destruct r as [[[i a] l]|].
  - destruct H as (a' & l' & -> & -> & T & Q). eexists. split; [reflexivity|]. destruct (reaches (N := N) left (Fin a') (Fin limit)) eqn:R.
    + apply reaches_x in R. exists a', l'. auto.
    + assert (NR : sigma left * a' < sigma left * limit) by (apply Rnot_le_lt; intros K; apply reaches_x in K; congruence). intros j b m TJ. destruct (Q j b m TJ) as [K|(<- & _)]; lra.
  - exists None. split; [reflexivity|]. intros j b m T. destruct (H j b m T).
Qed.
(** no check fails if neighbouring circles of the first tip are not within each other *)
Theorem C80_total o (bs : list ball) o' (bs' : list ball) : bs <> [] -> bs' <> [] -> (forall b : ball, In b bs \/ In b bs' -> 0 <= snd b) -> (length bs = 1%nat \/ apart bs) ->
  exists t, tangent_indices (N := N) xacos (tip o bs) (tip o' bs') = Some t /\ in_range (tip o bs) (tip o' bs') t.
Proof.
  intros NE NE' B0 AP. assert (F : (0 < length bs)%nat) by (destruct bs; [congruence|cbn; lia]). assert (F' : (0 < length bs')%nat) by (destruct bs'; [congruence|cbn; lia]).
  assert (G : exists t, tangent_indices (N := N) xacos (tip o bs) (tip o' bs') = Some t).
  2:{ destruct G as (t & E). exists t. split; [exact E|]. apply (C80_indices (M := N) xacos); [rewrite tip_size; exact F|rewrite tip_size; exact F'|exact E]. }
  unfold tangent_indices. cbn [tip s_circles]. fold (tip o bs) (tip o' bs'). rewrite !circles_length. destruct (_ && _) eqn:ONE; [eauto|].
  assert (exists f, forward (N := N) (tip o bs) (tip o' bs') = Some (pv f)) as (f & ->).
  { unfold forward. cbn [tip s_center]. destruct (veq (pv o) (pv o')); [exists (P 1 0); rewrite x0, x1e; reflexivity|]. rewrite minus_x. destruct (unit_some (minus o' o)) as (u & U & _). eauto. }
  assert (TT : forall left b l, In b bs -> exists r, turning_index (N := N) xacos left (circ (fst b) (snd b)) (pv f) (tip o' bs') (Fin l) = Some r).
  { intros left b l I. destruct (C80_turning left b f o' bs' l) as (r & E & _); [auto|auto|eauto]. }
  assert (AT : forall left, exists l, any_turn (N := N) left = Fin l). { intros left. unfold any_turn. rewrite half_turn_x. destruct left; cbn [nopp N xopp]; eauto. }
  assert (SIDE : apart bs -> forall left rear, (rear < length bs)%nat -> exists p, side (N := N) xacos left (tip o bs) (tip o' bs') (pv f) rear = Some p).
  { intros AP' left. assert (L : forall k i, (i < length bs)%nat -> exists r, side_loop (N := N) xacos left (tip o bs) (tip o' bs') (pv f) k i = Some r).
    { induction k as [|k IH]; intros i I; cbn [side_loop]; [eauto|]. assert (J : ((if left then next_cw (tip o bs) i else next_ccw (tip o bs) i) < length bs)%nat) by (rewrite <- (tip_size o bs); apply next_range; rewrite tip_size; exact I).
      set (j := if left then _ else _) in *. cbn [tip s_circles]. fold (tip o bs) (tip o' bs'). rewrite !nth_circles by assumption.
      assert (W : ~ within (disc (fst (at_ bs j)) (snd (at_ bs j))) (disc (fst (at_ bs i)) (snd (at_ bs i))) /\ ~ within (disc (fst (at_ bs i)) (snd (at_ bs i))) (disc (fst (at_ bs j)) (snd (at_ bs j)))).
      { unfold j in *. destruct left.
        - assert (N1 : next (length bs) (next_cw (tip o bs) i) = i). { pose proof (next_cw_ccw (tip o bs) i) as Q. fold (size (tip o bs)) in Q. rewrite tip_size in Q. specialize (Q I). destruct Q as [Q1 Q2]. rewrite next_ccw_eq in Q2 by (fold (size (tip o bs)); rewrite tip_size; exact Q1). fold (size (tip o bs)) in Q2. rewrite tip_size in Q2. rewrite <- Q2 at 2. unfold next. f_equal. lia. }
          destruct (AP' _ J) as [A B]. rewrite N1 in A, B. auto.
        - assert (N1 : next_ccw (tip o bs) i = next (length bs) i). { rewrite next_ccw_eq by (fold (size (tip o bs)); rewrite tip_size; exact I). fold (size (tip o bs)). rewrite tip_size. unfold next. f_equal. lia. }
          destruct (AP' _ I) as [A B]. rewrite <- N1 in A, B. auto. }
      assert (II : In (at_ bs i) bs) by (apply nth_In; exact I). assert (IJ : In (at_ bs j) bs) by (apply nth_In; exact J).
      destruct (props_x left (fst (at_ bs i)) (snd (at_ bs i)) (fst (at_ bs j)) (snd (at_ bs j)) f (B0 _ (or_introl II)) (B0 _ (or_introl IJ))) as [[Q _]|[_ (a & l & -> & _)]]; [tauto|].
      destruct (TT left (at_ bs i) a II) as ([x|] & ->); [eauto|]. apply IH. exact J. }
    intros rear R. unfold side. destruct (L (length (s_circles (tip o bs))) rear R) as ([p|] & ->); [eauto|]. cbn [tip s_circles]. fold (tip o' bs'). rewrite nth_circles by exact R. destruct (AT left) as (l & ->). destruct (TT left (at_ bs rear) l (nth_In _ _ R)) as (r & ->). eauto. }
  destruct bs as [|b [|c bs]]; [congruence| |].
  - cbn [circles map]. destruct (AT true) as (l & ->). destruct (AT false) as (l' & ->). destruct (TT true b l (or_introl eq_refl)) as (r & ->). destruct (TT false b l' (or_introl eq_refl)) as (r' & ->). eauto.
  - destruct AP as [AP|AP]; [discriminate AP|]. cbn [circles map].
    assert (exists i j, rear_indices (N := N) (tip o (b :: c :: bs)) (pv f) = Some (i, j)) as (i & j & RI). { unfold rear_indices. cbn [tip s_circles circles map]. destruct (fold_left _ _ _) as [n' [[[[i j] ?] ?] ?]]. eauto. }
    rewrite RI. apply rear_range in RI. rewrite tip_size in RI. destruct (SIDE AP true i (proj1 RI)) as (p & ->). destruct (SIDE AP false j (proj2 RI)) as (q & ->). eauto.
Qed.
Lemma circle_of (bs : list ball) k c : nth_error (circles bs) k = Some c -> exists b : ball, nth_error bs k = Some b /\ c = circ (fst b) (snd b).
Proof. revert k. induction bs as [|b bs IH]; intros [|k]; cbn; try discriminate 1; [intros E; injection E as <-; exists b; auto|apply IH]. Qed.
Lemma nth_circle (bs : list ball) k (b : ball) : nth_error bs k = Some b -> nth_error (circles bs) k = Some (circ (fst b) (snd b)).
Proof. intros E. unfold circles. apply (map_nth_error (fun b : ball => circ (fst b) (snd b)) k bs E). Qed.
Lemma Forall2_in {A B} (Q : A -> B -> Prop) l m : Forall2 Q l m -> forall x, In x l -> exists y, In y m /\ Q x y.
Proof. induction 1 as [|x y l m H F IH]; intros z [].
  - subst z. exists y. split; [left; reflexivity|exact H].
  - destruct (IH z H0) as (w & W & K). exists w. split; [right; exact W|exact K].
Qed.
(** a disc that was enlarged for the outline is in its hull *)
Lemma enlarged_within o (mine : list ball) (bs : list ball) off k (b : ball) c : 0 <= off -> 0 <= snd b -> nth_error mine k = Some b -> larger (tip o mine) (Fin off) k c -> In c (circles bs) -> within (disc (fst b) (snd b)) (hull bs).
Proof.
  intros O R E (d & D & CE & RE) I. cbn [tip s_circles] in D. apply circle_of in D. destruct D as (b' & D & ->). rewrite E in D. injection D as <-. unfold circles in I. apply in_map_iff in I. destruct I as (e & <- & I).
  cbn [center radius circ nadd N xadd] in CE, RE. injection CE as C1 C2. injection RE as RE. intros q Q u U. exists e. split; [exact I|]. apply disc_len in Q; [|exact R].
  pose proof (cauchy (minus q (fst b)) u) as C. assert (Lu : len u = 1) by (unfold len; unfold unit, inner in *; rewrite U; apply sqrt_1). rewrite Lu in C. unfold reach, inner, minus in *. cbn [px py] in C. rewrite RE, C1, C2. lra.
Qed.
(** Where neither tip contains the other, the tangents are good if and only if the hull of the outline covers every disc of both tips: for outlines
    that are convex, whose arcs end where they should and which are none of the arcs that are skipped *)
Theorem C80_hull millionth o mine o' others t off bs a arcs : mine <> [] -> others <> [] -> (forall b : ball, In b mine \/ In b others -> 0 <= snd b) ->
  shape_contains (N := N) xacos (tip o mine) (tip o' others) = Some false -> shape_contains (N := N) xacos (tip o' others) (tip o mine) = Some false ->
  tangent_indices (N := N) xacos (tip o mine) (tip o' others) = Some t -> enlargement (N := N) millionth (tip o mine) (tip o' others) = Some (Fin off) -> 0 <= off ->
  joined (tip o mine) (tip o' others) t (Fin off) = Some (circles bs) -> make_polygon (N := N) xacos (circles bs) = Some arcs -> convex bs a ->
  (forall i x, nth_error arcs i = Some x -> a_to x = pv (toward (a (S i)))) -> (forall i, (i < length bs)%nat -> 5 / 1000000 <= Rabs (sin (a (S i) - a i))) ->
  (tangent_quality (N := N) xacos millionth (tip o mine) (tip o' others) = Some GoodTangents <-> forall b : ball, In b mine \/ In b others -> within (disc (fst b) (snd b)) (hull bs)) /\
  (tangent_quality (N := N) xacos millionth (tip o mine) (tip o' others) = Some BadTangents <-> exists b : ball, (In b mine \/ In b others) /\ ~ within (disc (fst b) (snd b)) (hull bs)).
Proof.
  intros NE NE' B0 C1 C2 TI EN O0 J MP CV EX K.
  assert (F : (0 < size (tip o mine))%nat) by (rewrite tip_size; destruct mine; [congruence|cbn; lia]). assert (F' : (0 < size (tip o' others))%nat) by (rewrite tip_size; destruct others; [congruence|cbn; lia]).
  pose proof (C80_indices (M := N) xacos _ _ _ F F' TI) as R. pose proof (outline_ok (M := N) _ _ _ _ _ R J) as OUT.
  assert (USED : forall b : ball, In b mine \/ In b others -> within (disc (fst b) (snd b)) (hull bs) \/ left_out (M := N) (tip o mine) (tip o' others) t (circ (fst b) (snd b))).
  { destruct OUT as (x & y & E & X & Y). intros b [I|I]; pose proof I as I'; apply In_nth_error in I'; destruct I' as (k & KB).
    - destruct (in_dec Nat.eq_dec k (ccw (size (tip o mine)) (fst (i_left t)) (fst (i_right t)))) as [U|U]; [left|right; left; exists k; split; [exact U|apply nth_circle; exact KB]].
      destruct (Forall2_in _ _ _ X k U) as (c & IC & L). apply (enlarged_within o mine bs off k b c); auto. rewrite E. apply in_or_app. left. exact IC.
    - destruct (in_dec Nat.eq_dec k (ccw (size (tip o' others)) (snd (i_right t)) (snd (i_left t)))) as [U|U]; [left|right; right; exists k; split; [exact U|apply nth_circle; exact KB]].
      destruct (Forall2_in _ _ _ Y k U) as (c & IC & L). apply (enlarged_within o' others bs off k b c); auto. rewrite E. apply in_or_app. right. exact IC. }
  assert (OUTB : forall c, left_out (M := N) (tip o mine) (tip o' others) t c -> exists b : ball, (In b mine \/ In b others) /\ c = circ (fst b) (snd b)).
  { intros c [(k & _ & X)|(k & _ & X)]; cbn [tip s_circles] in X; apply circle_of in X; destruct X as (b & X & ->); exists b; apply nth_error_In in X; auto. }
  assert (DEC : forall b : ball, In b mine \/ In b others -> polygon_contains arcs (circ (fst b) (snd b)) = true <-> within (disc (fst b) (snd b)) (hull bs)).
  { intros b I. apply (C79_contains bs a); auto. }
  assert (G : (tangent_quality (N := N) xacos millionth (tip o mine) (tip o' others) = Some GoodTangents /\ forall b : ball, In b mine \/ In b others -> within (disc (fst b) (snd b)) (hull bs)) \/
              (tangent_quality (N := N) xacos millionth (tip o mine) (tip o' others) = Some BadTangents /\ exists b : ball, (In b mine \/ In b others) /\ ~ within (disc (fst b) (snd b)) (hull bs))).
  { pose proof (C80_quality (M := N) xacos millionth (tip o mine) (tip o' others) F F') as Q.
    destruct (tangent_quality (N := N) xacos millionth (tip o mine) (tip o' others)) as [[| | |]|] eqn:TQ.
    - congruence.
    - destruct Q. congruence.
    - right. split; [reflexivity|]. destruct Q as (_ & _ & t' & off' & cs & arcs' & c & T' & E' & J' & _ & M' & LO & PC). assert (t' = t) by congruence. subst t'. assert (off' = Fin off) by congruence. subst off'. assert (cs = circles bs) by congruence. subst cs. assert (arcs' = arcs) by congruence. subst arcs'.
      destruct (OUTB c LO) as (b & I & ->). exists b. split; [exact I|]. intros W. apply (DEC b I) in W. congruence.
    - left. split; [reflexivity|]. destruct Q as (_ & _ & t' & T' & H). assert (t' = t) by congruence. subst t'. intros b I. destruct (USED b I) as [W|LO]; [exact W|]. destruct H as [H|(off' & cs & arcs' & E' & J' & _ & M' & H)]; [destruct (H _ LO)|].
      assert (off' = Fin off) by congruence. subst off'. assert (cs = circles bs) by congruence. subst cs. assert (arcs' = arcs) by congruence. subst arcs'. apply (DEC b I). apply H. exact LO.
    - exfalso. revert TQ. unfold tangent_quality. rewrite C1, C2, TI, EN, J, MP. destruct (Nat.eqb (length (s_circles (tip o mine))) 1 && Nat.eqb (length (s_circles (tip o' others))) 1); [discriminate 1|].
      destruct (Nat.eqb _ _ && Nat.eqb _ _); [discriminate 1|]. destruct R as (R1 & R2 & R3 & R4). destruct (rest_ok (tip o mine) arcs _ _ R3 R1) as ([|] & -> & _); [|discriminate 1]. destruct (rest_ok (tip o' others) arcs _ _ R2 R4) as (b2 & -> & _). discriminate 1. }
  split; split.
  - intros E. destruct G as [[_ G]|[G _]]; [exact G|congruence].
  - intros W. destruct G as [[G _]|[_ (b & I & NW)]]; [exact G|destruct (NW (W b I))].
  - intros E. destruct G as [[G _]|[_ G]]; [congruence|exact G].
  - intros (b & I & NW). destruct G as [[_ G]|[G _]]; [destruct (NW (G b I))|exact G].
Qed.

(** the tangent that is measured is that on its side of the way from one circle to the other: the turn to it, and how long it is between the points where it touches *)
Theorem C80_tangent left c r d s f : 0 <= r -> 0 <= s -> ~ within (disc d s) (disc c r) -> ~ within (disc c r) (disc d s) ->
  exists phi z a, let o := minus (rim d s (toward z)) (rim c r (toward z)) in
  tangent_properties (N := N) xacos left (circ c r) (circ d s) (pv f) = Some (Some (Fin a, Fin (len o))) /\
  tangent (disc c r) (disc d s) (toward phi) /\ 0 < sigma left * cross (minus d c) (toward phi) /\ (z = phi - BehaviorMeaning.turn \/ z = phi \/ z = phi + BehaviorMeaning.turn) /\
  - PI < a <= PI /\ (f <> P 0 0 -> len o * len f * cos a = inner f o /\ len o * len f * sin a = cross f o).
Proof.
  intros R S W1 W2. destruct (C76_tangents c r d s R S W1 W2) as (x & y & pl & pr & E & _ & TT & CL & CR & KL & _ & KR & _).
  assert (UT : forall phi, unit (toward phi)) by (intros phi; unfold unit, toward; cbn; pose proof (sin2_cos2 phi) as Q; unfold Rsqr in Q; lra).
  exists (if left then pl else pr), (if left then x else y). set (z := if left then x else y). unfold tangent_properties. rewrite E. cbv zeta. assert (Z : (if left return T N then Fin x else Fin y) = Fin z) by (unfold z; destruct left; reflexivity). rewrite !Z.
  rewrite !point_x, minus_x. set (o := minus _ _). rewrite magnitude_x, x0.
  assert (Q : exists a, (if veq (pv o) (V (N := N) (Fin 0) (Fin 0)) then Some (Some (Fin 0, Fin (len o))) else match signed_angle (N := N) xacos (pv f) (pv o) with Some angle => Some (Some (angle, Fin (len o))) | None => None end) = Some (Some (Fin a, Fin (len o))) /\ - PI < a <= PI /\ (f <> P 0 0 -> len o * len f * cos a = inner f o /\ len o * len f * sin a = cross f o)).
  { change (V (N := N) (Fin 0) (Fin 0)) with (pv (P 0 0)). destruct (veq (pv o) (pv (P 0 0))) eqn:V0.
    - apply veq_x in V0. exists 0. split; [reflexivity|]. split; [pose proof PI_RGT_0; lra|]. intros _. rewrite V0. unfold len, inner, cross. cbn [px py]. replace (0 * 0 + 0 * 0) with 0 by ring. rewrite sqrt_0. lra.
    - apply veq_xf in V0. destruct (unit_some f) as (u & U & UU & FU & _). destruct (unit_some o) as (v & V' & VV & FV & _). destruct (signed_units f o u v U V' UU VV) as (a & -> & B & CA & SA & _). exists a. split; [reflexivity|]. split; [exact B|]. intros F0.
      destruct (FU F0) as (m & M0 & M1 & ->). destruct (FV V0) as (n & N0 & N1 & ->). assert (LM : len f = m) by (unfold len; change (inner f f) with (dot2 f f); rewrite <- M1; apply sqrt_square; lra). assert (LN : len o = n) by (unfold len; change (inner o o) with (dot2 o o); rewrite <- N1; apply sqrt_square; lra).
      rewrite LM, LN, CA, SA. unfold dot2, det2, inner, cross. cbn [px py]. split; field; lra. }
  destruct Q as (a & EQ & B & CS). exists a. cbv zeta. split; [exact EQ|]. split; [apply TT; [apply UT|destruct left; auto]|]. split; [unfold sigma; destruct left; lra|]. split; [destruct left; assumption|]. split; [exact B|exact CS].
Qed.
Example C80_tangent_case left : exists phi z a, tangent_properties (N := N) xacos left (circ (P 0 0) 1) (circ (P 5 0) 3) (pv (P 1 0)) = Some (Some (Fin a, Fin (len (minus (rim (P 5 0) 3 (toward z)) (rim (P 0 0) 1 (toward z)))))) /\ 0 < sigma left * sin phi.
Proof.
  assert (L : len (minus (P 5 0) (P 0 0)) = 5). { unfold len, inner, minus. cbn. replace ((5 - 0) * (5 - 0) + (0 - 0) * (0 - 0)) with (5 * 5) by ring. apply sqrt_square. lra. }
  destruct (C80_tangent left (P 0 0) 1 (P 5 0) 3 (P 1 0)) as (phi & z & a & E & _ & C & _); [lra|lra| | |].
  - rewrite within_disc, L by lra. lra.
  - rewrite within_disc, len_sym, L by lra. lra.
  - exists phi, z, a. split; [exact E|]. unfold cross, minus, toward, sigma in *. cbn in C. cbn. destruct left; lra.
Qed.
Lemma fold_max l : forall a, exists m, fold_left (fun x y => nmax (N := N) x y) (map (fun x => Fin x) l) (Fin a) = Fin m /\ In m (a :: l) /\ forall x, In x (a :: l) -> x <= m.
Proof.
  induction l as [|b l IH]; intros a; cbn [map fold_left].
  - exists a. split; [reflexivity|]. split; [left; reflexivity|]. intros x [<-|[]]. lra.
  - rewrite max_x. destruct (IH (Rmax a b)) as (m & E & I & U). exists m. split; [exact E|]. pose proof (U (Rmax a b) (or_introl eq_refl)) as Q. pose proof (Rmax_l a b). pose proof (Rmax_r a b). split.
    + destruct I as [I|I]; [|right; right; exact I]. unfold Rmax in I. destruct (Rle_dec a b); subst m; cbn; auto.
    + intros x [<-|[<-|I']]; [lra|lra|apply U; right; exact I'].
Qed.
Lemma tight_reach (bs : list ball) x0 y0 x1 y1 : (forall b : ball, In b bs -> 0 <= snd b) -> tight bs x0 y0 x1 y1 ->
  (forall (b : ball) q, In b bs -> disc (fst b) (snd b) q -> x0 <= px q <= x1 /\ y0 <= py q <= y1) /\
  forall m, In m [Rabs x0; Rabs x1; Rabs y0; Rabs y1] -> exists (b : ball) q, In b bs /\ disc (fst b) (snd b) q /\ (Rabs (px q) = m \/ Rabs (py q) = m).
Proof.
  intros R (A & (c0 & r0 & I0 & E0) & (c1 & r1 & I1 & E1) & (c2 & r2 & I2 & E2) & (c3 & r3 & I3 & E3)). split.
  - intros [c r] q I D. specialize (A _ _ I). specialize (R _ I). cbn [fst snd] in *. unfold disc, dist2 in D.
    assert (X : forall u v, u * u + v * v <= r * r -> - r <= u <= r) by (intros u v Q; split; nra). pose proof (X (px q - px c) (py q - py c) ltac:(lra)). pose proof (X (py q - py c) (px q - px c) ltac:(lra)). lra.
  - intros m I. destruct I as [<-|[<-|[<-|[<-|[]]]]];
      [exists (c0, r0), (P x0 (py c0))|exists (c2, r2), (P x1 (py c2))|exists (c1, r1), (P (px c1) y0)|exists (c3, r3), (P (px c3) y1)]; cbn [fst snd px py]; (split; [assumption|]); (split; [unfold disc, dist2; cbn [px py]; nra|auto]).
Qed.
(** the outline is enlarged by the given part of the largest distance from an axis that either tip reaches *)
Theorem C80_enlargement millionth o o' (mine others : list ball) : mine <> [] -> others <> [] -> (forall b : ball, In b mine \/ In b others -> 0 <= snd b) ->
  exists m, enlargement (N := N) millionth (tip o mine) (tip o' others) = Some (millionth (Fin m)) /\
  (forall (b : ball) q, In b mine \/ In b others -> disc (fst b) (snd b) q -> Rabs (px q) <= m /\ Rabs (py q) <= m) /\
  exists (b : ball) q, (In b mine \/ In b others) /\ disc (fst b) (snd b) q /\ (Rabs (px q) = m \/ Rabs (py q) = m).
Proof.
  intros N1 N2 R. assert (R1 : forall b : ball, In b mine -> 0 <= snd b) by auto. assert (R2 : forall b : ball, In b others -> 0 <= snd b) by auto.
  destruct (bounds_x (pv o) mine N1) as (x0 & y0 & x1 & y1 & E & T); [intros c r I; exact (R1 (c, r) I)|]. destruct (bounds_x (pv o') others N2) as (u0 & v0 & u1 & v1 & E' & T'); [intros c r I; exact (R2 (c, r) I)|].
  change (bounds (tip o mine) = Some (bx x0 y0 x1 y1)) in E. change (bounds (tip o' others) = Some (bx u0 v0 u1 v1)) in E'. unfold enlargement. rewrite E, E'. cbn [bx x_min x_max y_min y_max].
  destruct (fold_max [Rabs x1; Rabs y0; Rabs y1; Rabs u0; Rabs u1; Rabs v0; Rabs v1] (Rabs x0)) as (m & F & I & U). cbn [map] in F.
  exists m. split; [f_equal; f_equal; exact F|]. destruct (tight_reach _ _ _ _ _ R1 T) as [A B]. destruct (tight_reach _ _ _ _ _ R2 T') as [A' B'].
  assert (BD : forall x a b, a <= x <= b -> Rabs a <= m -> Rabs b <= m -> Rabs x <= m) by (intros x a b Q H1 H2; unfold Rabs in *; destruct (Rcase_abs a), (Rcase_abs b), (Rcase_abs x); lra).
  split.
  - intros b q [J|J] D; [destruct (A b q J D) as [X Y]|destruct (A' b q J D) as [X Y]]; split; (eapply BD; [eassumption| |]); apply U; cbn; tauto.
  - cbn in I. assert (In m [Rabs x0; Rabs x1; Rabs y0; Rabs y1] \/ In m [Rabs u0; Rabs u1; Rabs v0; Rabs v1]) as [J|J] by (cbn; tauto); [destruct (B m J) as (b & q & J1 & J2 & J3)|destruct (B' m J) as (b & q & J1 & J2 & J3)]; exists b, q; auto.
Qed.

(** ** Examples *)
Definition xmillionth (x : T N) : T N := nmul N (Fin (1 / 1000000)) x.
Lemma bounds_is o (bs : list ball) x0 y0 x1 y1 : bs <> [] -> (forall b : ball, In b bs -> 0 <= snd b) -> tight bs x0 y0 x1 y1 -> bounds (tip o bs) = Some (bx x0 y0 x1 y1).
Proof.
  intros NE R (A & (c0 & r0 & I0 & E0) & (c1 & r1 & I1 & E1) & (c2 & r2 & I2 & E2) & (c3 & r3 & I3 & E3)).
  destruct (bounds_x (pv o) bs NE) as (a0 & b0 & a1 & b1 & E & T); [intros c r I; exact (R (c, r) I)|]. destruct T as (A' & (d0 & s0 & J0 & F0) & (d1 & s1 & J1 & F1) & (d2 & s2 & J2 & F2) & (d3 & s3 & J3 & F3)).
  change (bounds (tip o bs) = Some (bx a0 b0 a1 b1)) in E. rewrite E. pose proof (A _ _ J0). pose proof (A _ _ J1). pose proof (A _ _ J2). pose proof (A _ _ J3). pose proof (A' _ _ I0). pose proof (A' _ _ I1). pose proof (A' _ _ I2). pose proof (A' _ _ I3).
  f_equal. f_equal; lra.
Qed.
Lemma turn_same left c d r f : 0 <= r -> 0 < len (minus d c) -> dot2 f f = 1 -> exists a, tangent_properties (N := N) xacos left (circ c r) (circ d r) (pv f) = Some (Some (Fin a, Fin (len (minus d c)))) /\
  - PI < a <= PI /\ cos a = dot2 f (minus d c) / len (minus d c) /\ sin a = det2 f (minus d c) / len (minus d c).
Proof.
  intros R L F. assert (NZ : minus d c <> P 0 0). { intros Q. rewrite Q in L. unfold len, inner in L. cbn in L. replace (0 * 0 + 0 * 0) with 0 in L by ring. rewrite sqrt_0 in L. lra. }
  destruct (C76_tangents c r d r R R) as (x & y & _ & _ & E & _); [rewrite within_disc by exact R; lra|rewrite within_disc, len_sym by exact R; lra|].
  unfold tangent_properties. rewrite E.
  assert (G : forall z, exists a, (let offset := vsub (get_point (N := N) (circ d r) (Fin z)) (get_point (circ c r) (Fin z)) in if veq offset (V n0 n0) then Some (Some (n0, magnitude offset)) else match signed_angle (N := N) xacos (pv f) offset with Some angle => Some (Some (angle, magnitude offset)) | None => None end) = Some (Some (Fin a, Fin (len (minus d c)))) /\
    - PI < a <= PI /\ cos a = dot2 f (minus d c) / len (minus d c) /\ sin a = det2 f (minus d c) / len (minus d c)).
  2:{ destruct left; apply G. }
  intros z. rewrite !point_x, minus_x. cbv zeta. replace (minus (rim d r (toward z)) (rim c r (toward z))) with (minus d c) by (unfold minus, rim; cbn; f_equal; ring). rewrite !magnitude_x, x0. change (V (N := N) (Fin 0) (Fin 0)) with (pv (P 0 0)). rewrite (proj2 (veq_xf _ _) NZ).
  destruct (unit_some f) as (u & U & UU & UF & _). destruct (unit_some (minus d c)) as (v & V' & VV & VF & _). destruct (signed_units f (minus d c) u v U V' UU VV) as (a & -> & B & C & S0 & _). exists a. split; [reflexivity|]. split; [exact B|].
  assert (u = f). { destruct UF as (m & M0 & M1 & ->); [intros ->; unfold dot2 in F; cbn in F; lra|]. rewrite F in M1. assert (m = 1) by nra. subst m. destruct f. cbn. f_equal; field. } subst u.
  destruct (VF NZ) as (m & M0 & M1 & ->). assert (m = len (minus d c)). { unfold len, inner. unfold dot2 in M1. rewrite <- M1. symmetry. apply sqrt_square. lra. } subst m. rewrite C, S0. unfold dot2, det2. cbn [px py]. split; field; lra.
Qed.
Lemma right_quarter a : - PI < a <= PI -> 0 < cos a -> - quarter <= a <= quarter.
Proof.
  intros B C. assert (Q : PI / 2 < quarter). { pose proof PI_upper as U. unfold quarter. lra. }
  destruct (Rle_dec a (PI / 2)) as [X|X]; [|pose proof (cos_le_0 a ltac:(lra) ltac:(lra)); lra]. destruct (Rle_dec (- (PI / 2)) a) as [Y|Y]; [lra|]. pose proof (cos_le_0 (- a) ltac:(lra) ltac:(lra)) as K. rewrite cos_neg in K. lra.
Qed.

Lemma forward_is o bs o' bs' f l : 0 < l -> minus o' o = P (l * px f) (l * py f) -> dot2 f f = 1 -> forward (N := N) (tip o bs) (tip o' bs') = Some (pv f).
Proof.
  intros L E F. unfold forward. cbn [tip s_center]. assert (D : dot2 (minus o' o) (minus o' o) = l * l) by (rewrite E; unfold dot2 in *; cbn; replace (l * px f * (l * px f) + l * py f * (l * py f)) with (l * l * (px f * px f + py f * py f)) by ring; rewrite F; ring).
  assert (NZ : minus o' o <> P 0 0) by (intros Q; rewrite Q in D; unfold dot2 in D; cbn in D; nra).
  rewrite (proj2 (veq_xf _ _)) by (intros <-; apply NZ; unfold minus; cbn; f_equal; ring). rewrite minus_x. destruct (unit_some (minus o' o)) as (u & -> & _ & U & _). destruct (U NZ) as (m & M0 & M1 & ->). rewrite D in M1. assert (m = l) by nra. subst m.
  f_equal. f_equal. rewrite E. cbn. destruct f. cbn. f_equal; field; lra.
Qed.
Lemma side_turn left start f o bs i : 0 <= snd start -> (forall b : ball, In b bs -> 0 <= snd b) ->
  (exists a l, turns left start f bs i a l /\ forall j b m, turns left start f bs j b m -> j <> i -> ~ before left j b m i a l) -> turning_index (N := N) xacos left (circ (fst start) (snd start)) (pv f) (tip o bs) (any_turn left) = Some (Some i).
Proof.
  intros S0 B0 (a & l & T & H). assert (AT : any_turn (N := N) left = Fin (- sigma left * (13176795 / 4194304))) by (unfold any_turn; rewrite half_turn_x; unfold sigma; destruct left; cbn [nopp N xopp]; f_equal; lra).
  rewrite AT. destruct (C80_turning left start f o bs (- sigma left * (13176795 / 4194304)) S0 B0) as (r & -> & K). destruct r as [j|].
  - destruct (Nat.eq_dec j i) as [-> |D]; [reflexivity|]. destruct K as (b & m & TJ & _ & K). destruct (H j b m TJ D). apply K. exact T.
  - exfalso. pose proof (K i a l T) as Q. destruct T as (b & Nb & P & _). assert (A : - PI < a <= PI).
    { destruct (props_x left (fst start) (snd start) (fst b) (snd b) f S0 (B0 b (nth_error_In _ _ Nb))) as [[_ P']|[_ (a' & l' & P' & A)]]; [congruence|]. rewrite P in P'. injection P' as <- <-. exact A. }
    pose proof PI_upper. pose proof PI_RGT_0. unfold sigma in Q. destruct left; lra.
Qed.
Lemma turns_same left r c f (bs : list ball) j (b : ball) : 0 <= r -> dot2 f f = 1 -> nth_error bs j = Some b -> snd b = r -> 0 < len (minus (fst b) c) -> 0 < dot2 f (minus (fst b) c) ->
  exists a, turns left (c, r) f bs j a (len (minus (fst b) c)) /\ - PI < a <= PI /\ cos a = dot2 f (minus (fst b) c) / len (minus (fst b) c) /\ sin a = det2 f (minus (fst b) c) / len (minus (fst b) c).
Proof.
  intros R F E S0 L D. destruct (turn_same left c (fst b) r f R L F) as (a & P & B & C & S1). exists a. split; [|auto]. exists b. cbn [fst snd]. rewrite S0. split; [exact E|]. split; [exact P|].
  assert (Q := right_quarter a B). rewrite C in Q. assert (0 < dot2 f (minus (fst b) c) / len (minus (fst b) c)) by (apply Rdiv_lt_0_compat; assumption). specialize (Q H). unfold sigma. destruct left; lra.
Qed.
Lemma turns_is left start f bs j a l a' l' : turns left start f bs j a l -> turns left start f bs j a' l' -> a = a' /\ l = l'.
Proof. intros (b & E & P & _) (b' & E' & P' & _). rewrite E in E'. injection E' as <-. rewrite P in P'. injection P' as -> ->. auto. Qed.
Lemma no_turn a : - PI < a <= PI -> cos a = 1 -> a = 0.
Proof. intros B C. assert (S0 : sin a = 0) by (pose proof (sin2_cos2 a) as Q; unfold Rsqr in Q; rewrite C in Q; nra). destruct (Rtotal_order a 0) as [H|[H|H]]; [pose proof (sin_lt_0_var a ltac:(lra) H); lra|exact H|]. destruct (Req_dec a PI) as [->|]; [rewrite cos_PI in C; lra|]. pose proof (sin_gt_0 a H ltac:(lra)). lra. Qed.
Lemma negative a : - PI < a <= PI -> sin a < 0 -> a < 0.
Proof. intros B S0. apply Rnot_le_lt. intros H. pose proof (sin_ge_0 a H (proj2 B)). lra. Qed.
Lemma more_negative a b : - PI < a < 0 -> - PI < b < 0 -> 0 < sin b * cos a - cos b * sin a -> a < b.
Proof. intros A B S0. rewrite <- sin_minus in S0. apply Rnot_le_lt. intros H. destruct (Req_dec a b) as [->|]; [replace (b - b) with 0 in S0 by ring; rewrite sin_0 in S0; lra|]. pose proof (sin_lt_0_var (b - a) ltac:(lra) ltac:(lra)). lra. Qed.
Ltac lenis l := apply (len_x l l); [lra|lra|cbn; lra].

(** a circle and a triangle with one corner between the other two and the circle *)
Definition corner : list ball := [(P 0 0, 1); (P 1 1, 1); (P 0 4, 1)].
Definition corner_f : pt := P (-1) 0.
Lemma corner_left : turning_index (N := N) xacos true (circ (P 4 0) 1) (pv corner_f) (tip (P 0 0) corner) (any_turn true) = Some (Some 0%nat).
Proof.
  apply (side_turn true (P 4 0, 1) corner_f (P 0 0) corner 0); [cbn; lra|intros b [<-|[<-|[<-|[]]]]; cbn; lra|].
  assert (F : dot2 corner_f corner_f = 1) by (unfold dot2; cbn; ring).
  assert (L0 : len (minus (P 0 0) (P 4 0)) = 4) by lenis 4. assert (L1 : 0 < len (minus (P 1 1) (P 4 0))) by (apply sqrt_lt_R0; unfold inner; cbn; lra). assert (L2 : 0 < len (minus (P 0 4) (P 4 0))) by (apply sqrt_lt_R0; unfold inner; cbn; lra).
  destruct (turns_same true 1 (P 4 0) corner_f corner 0 (P 0 0, 1)) as (a0 & T0 & B0 & C0 & _); [lra|exact F|reflexivity|reflexivity|cbn [fst]; lra|unfold dot2; cbn; lra|].
  destruct (turns_same true 1 (P 4 0) corner_f corner 1 (P 1 1, 1)) as (a1 & T1 & B1 & C1 & S1); [lra|exact F|reflexivity|reflexivity|exact L1|unfold dot2; cbn; lra|].
  destruct (turns_same true 1 (P 4 0) corner_f corner 2 (P 0 4, 1)) as (a2 & T2 & B2 & C2 & S2); [lra|exact F|reflexivity|reflexivity|exact L2|unfold dot2; cbn; lra|].
  cbn [fst] in *. assert (a0 = 0). { apply no_turn; [exact B0|]. rewrite C0, L0. unfold dot2. cbn. field. } subst a0.
  assert (a1 < 0). { apply negative; [exact B1|]. rewrite S1. replace (det2 _ _) with (-1) by (unfold det2; cbn; ring). unfold Rdiv. pose proof (Rinv_0_lt_compat _ L1). lra. }
  assert (a2 < 0). { apply negative; [exact B2|]. rewrite S2. replace (det2 _ _) with (-4) by (unfold det2; cbn; ring). unfold Rdiv. pose proof (Rinv_0_lt_compat _ L2). lra. }
  eexists. eexists. split; [exact T0|]. intros j b m TJ D BF. unfold before, sigma in BF. destruct j as [|[|[|j]]]; [congruence| | |destruct TJ as (x & X & _); destruct j; discriminate X].
  - destruct (turns_is _ _ _ _ _ _ _ _ _ TJ T1) as [-> ->]. destruct BF as [BF|(BF & _)]; lra.
  - destruct (turns_is _ _ _ _ _ _ _ _ _ TJ T2) as [-> ->]. destruct BF as [BF|(BF & _)]; lra.
Qed.
Lemma corner_right : turning_index (N := N) xacos false (circ (P 4 0) 1) (pv corner_f) (tip (P 0 0) corner) (any_turn false) = Some (Some 2%nat).
Proof.
  apply (side_turn false (P 4 0, 1) corner_f (P 0 0) corner 2); [cbn; lra|intros b [<-|[<-|[<-|[]]]]; cbn; lra|].
  assert (F : dot2 corner_f corner_f = 1) by (unfold dot2; cbn; ring).
  assert (L0 : len (minus (P 0 0) (P 4 0)) = 4) by lenis 4. assert (L1 : 0 < len (minus (P 1 1) (P 4 0))) by (apply sqrt_lt_R0; unfold inner; cbn; lra). assert (L2 : 0 < len (minus (P 0 4) (P 4 0))) by (apply sqrt_lt_R0; unfold inner; cbn; lra).
  destruct (turns_same false 1 (P 4 0) corner_f corner 0 (P 0 0, 1)) as (a0 & T0 & B0 & C0 & _); [lra|exact F|reflexivity|reflexivity|cbn [fst]; lra|unfold dot2; cbn; lra|].
  destruct (turns_same false 1 (P 4 0) corner_f corner 1 (P 1 1, 1)) as (a1 & T1 & B1 & C1 & S1); [lra|exact F|reflexivity|reflexivity|exact L1|unfold dot2; cbn; lra|].
  destruct (turns_same false 1 (P 4 0) corner_f corner 2 (P 0 4, 1)) as (a2 & T2 & B2 & C2 & S2); [lra|exact F|reflexivity|reflexivity|exact L2|unfold dot2; cbn; lra|].
  cbn [fst] in *. assert (a0 = 0). { apply no_turn; [exact B0|]. rewrite C0, L0. unfold dot2. cbn. field. } subst a0.
  pose proof (Rinv_0_lt_compat _ L1) as I1. pose proof (Rinv_0_lt_compat _ L2) as I2. unfold dot2, det2, Rdiv in C1, C2, S1, S2. cbn [px py corner_f minus] in C1, C2, S1, S2.
  assert (a1 < 0) by (apply negative; [exact B1|]; rewrite S1; cbn in *; nra). assert (a2 < 0) by (apply negative; [exact B2|]; rewrite S2; cbn in *; nra).
  assert (a2 < a1). { apply more_negative; [lra|lra|]. rewrite S1, S2, C1, C2. cbn in *. set (i := / len _) in *. set (k := / len (minus (P 0 4) _)) in *. pose proof (Rmult_lt_0_compat i k I1 I2). nra. }
  eexists. eexists. split; [exact T2|]. intros j b m TJ D BF. unfold before, sigma in BF. destruct j as [|[|[|j]]]; [| |congruence|destruct TJ as (x & X & _); destruct j; discriminate X].
  - destruct (turns_is _ _ _ _ _ _ _ _ _ TJ T0) as [-> ->]. destruct BF as [BF|(BF & _)]; lra.
  - destruct (turns_is _ _ _ _ _ _ _ _ _ TJ T1) as [-> ->]. destruct BF as [BF|(BF & _)]; lra.
Qed.
Lemma corner_indices : tangent_indices (N := N) xacos (tip (P 4 0) [(P 4 0, 1)]) (tip (P 0 0) corner) = Some (Indices (0, 0) (0, 2))%nat.
Proof.
  unfold tangent_indices. cbn [tip s_circles corner circles map length Nat.eqb andb]. fold corner. change (Shape (pv (P 4 0)) [circ (fst (P 4 0, 1)) (snd (P 4 0, 1))]) with (tip (P 4 0) [(P 4 0, 1)]). 
  change (Shape (pv (P 0 0)) _) with (tip (P 0 0) corner). rewrite (forward_is _ _ _ _ corner_f 4); [|lra|unfold minus; cbn; f_equal; lra|unfold dot2; cbn; ring]. cbn [fst snd]. rewrite corner_left, corner_right. reflexivity.
Qed.
Lemma corner_bounds : bounds (tip (P 4 0) [(P 4 0, 1)]) = Some (bx 3 (-1) 5 1) /\ bounds (tip (P 0 0) corner) = Some (bx (-1) (-1) 2 5).
Proof.
  split.
  - apply bounds_is; [discriminate|intros b [<-|[]]; cbn; lra|]. unfold tight. split; [intros c r [E|[]]; injection E as <- <-; cbn; lra|]. repeat split; exists (P 4 0), 1; cbn; (split; [tauto|lra]).
  - apply bounds_is; [discriminate|intros b [<-|[<-|[<-|[]]]]; cbn; lra|]. unfold tight. split; [intros c r [E|[E|[E|[]]]]; injection E as <- <-; cbn; lra|]. repeat split; [exists (P 0 0), 1|exists (P 0 0), 1|exists (P 1 1), 1|exists (P 0 4), 1]; cbn; (split; [tauto|lra]).
Qed.
Definition wide : R := 1 + 5 / 1000000.
Definition corner_outline : list ball := [(P 4 0, wide); (P 0 4, wide); (P 0 0, wide)].
Definition corner_cuts (i : nat) : R := match i with 0%nat => - (PI / 2) | 1%nat => PI / 4 | 2%nat => PI | _ => 3 * (PI / 2) end.
Definition corner_arcs : list (arc N) :=
  [Arc (circ (P 4 0) wide) (pv (P 0 (-1))) (pv (toward (PI / 4))); Arc (circ (P 0 4) wide) (pv (toward (PI / 4))) (pv (P (-1) 0)); Arc (circ (P 0 0) wide) (pv (P (-1) 0)) (pv (P 0 (-1)))].
Lemma max_is a b m : (a = m /\ b <= m \/ b = m /\ a <= m) -> Rmax a b = m.
Proof. intros [[-> H]|[-> H]]; [apply Rmax_left|apply Rmax_right]; lra. Qed.
Lemma corner_enlargement : enlargement (N := N) xmillionth (tip (P 4 0) [(P 4 0, 1)]) (tip (P 0 0) corner) = Some (Fin (5 / 1000000)).
Proof.
  unfold enlargement. rewrite (proj1 corner_bounds), (proj2 corner_bounds). cbn [bx x_min x_max y_min y_max fold_left nabs N]. rewrite !max_x. unfold xmillionth. cbn [nmul N xmul]. f_equal. f_equal.
  repeat (match goal with |- context [Rabs ?x] => first [rewrite (Rabs_pos_eq x) by lra|rewrite (Rabs_left x) by lra] end).
  rewrite (max_is 3 5 5), (max_is 5 _ 5), (max_is 5 _ 5), (max_is 5 _ 5), (max_is 5 _ 5), (max_is 5 _ 5), (max_is 5 _ 5) by lra. lra.
Qed.
Lemma corner_joined : joined (N := N) (tip (P 4 0) [(P 4 0, 1)]) (tip (P 0 0) corner) (Indices (0, 0) (0, 2))%nat (Fin (5 / 1000000)) = Some (circles corner_outline).
Proof.
  unfold joined. rewrite x0, (proj2 (le_x _ _)) by lra. cbn -[nle make_circle n0]. unfold make_circle. cbn [nadd N xadd circ radius center]. rewrite x0, !(proj2 (le_x _ _)) by lra. reflexivity.
Qed.
Lemma corner_convex : convex corner_outline corner_cuts.
Proof.
  pose proof PI_RGT_0 as PP. constructor.
  - cbn. lia.
  - intros b [<-|[<-|[<-|[]]]]; cbn; unfold wide; lra.
  - intros i I. cbn in I. destruct i as [|[|[|i]]]; cbn; try lra. lia.
  - cbn. lra.
  - intros i x b I X B. cbn in I. assert (D : sin (x - PI / 4) = (sin x - cos x) * sin (PI / 4)) by (rewrite sin_minus, sin_cos_PI4; ring). assert (P4 : 0 < sin (PI / 4)) by (apply sin_gt_0; lra).
    assert (Q : i = 0%nat /\ 0 <= cos x /\ sin x <= cos x \/ i = 1%nat /\ 0 <= sin x /\ cos x <= sin x \/ i = 2%nat /\ cos x <= 0 /\ sin x <= 0).
    { destruct i as [|[|[|i]]]; [left|right; left|right; right|lia]; cbn in X; (split; [reflexivity|]); split.
      - apply cos_ge_0; lra.
      - pose proof (sin_ge_0 (- (x - PI / 4)) ltac:(lra) ltac:(lra)) as K. rewrite sin_neg, D in K. nra.
      - apply sin_ge_0; lra.
      - pose proof (sin_ge_0 (x - PI / 4) ltac:(lra) ltac:(lra)) as K. rewrite D in K. nra.
      - apply cos_le_0; lra.
      - apply sin_le_0; lra. }
    unfold reach, inner, toward, at_, corner_outline. destruct Q as [(-> & A & C)|[(-> & A & C)|(-> & A & C)]]; destruct B as [<-|[<-|[<-|[]]]]; cbn; lra.
Qed.
Lemma corner_made : make_polygon (N := N) xacos (circles corner_outline) = Some corner_arcs.
Proof.
  pose proof PI_RGT_0 as PP. pose proof turn_pi as TP. unfold circles, corner_outline, make_polygon. cbn [map fst snd last arcs_from].
  assert (L : len (minus (P 0 4) (P 4 0)) = sqrt 32) by (unfold len, inner; f_equal; cbn; ring). assert (S32 : 0 < sqrt 32) by (apply sqrt_lt_R0; lra).
  assert (L' : len (minus (P 0 0) (P 0 4)) = 4) by lenis 4. assert (L'' : len (minus (P 4 0) (P 0 0)) = 4) by lenis 4.
  assert (LS : forall a b l, len (minus a b) = l -> len (minus b a) = l) by (intros a b l <-; apply len_sym).
  rewrite (step_contains (P 4 0) (P 0 4) (sqrt 32)), (step_contains (P 0 4) (P 4 0) (sqrt 32)), (step_contains (P 0 4) (P 0 0) 4), (step_contains (P 0 0) (P 0 4) 4), (step_contains (P 4 0) (P 0 0) 4), (step_contains (P 0 0) (P 4 0) 4) by (try lra; auto). cbn [orb].
  assert (Q : forall c d, 0 < len (minus d c) -> Rabs (wide - wide) < len (minus d c) /\ alpha c d wide wide = PI / 2). { intros c d K. split; [replace (wide - wide) with 0 by ring; rewrite Rabs_R0; lra|apply alpha_same; lra]. }
  rewrite (unwrapped (P 0 0) (P 4 0) wide wide 0); [|apply Q; lra|apply theta_right; cbn; lra|apply Q; lra|lra].
  rewrite (unwrapped (P 4 0) (P 0 4) wide wide (3 * (PI / 4))); [|apply Q; lra| |apply Q; lra|lra].
  2:{ unfold theta, atan2R. cbn [px py]. rewrite Flocq.Core.Raux.Rlt_bool_false, Flocq.Core.Raux.Rlt_bool_true by lra. rewrite Flocq.Core.Raux.Rle_bool_true by lra. replace ((4 - 0) / (0 - 4)) with (- (1)) by field. rewrite atan_opp, atan_1. field. }
  rewrite (unwrapped (P 0 4) (P 0 0) wide wide (- (PI / 2))); [|apply Q; lra|apply theta_down; cbn; lra|apply Q; lra|lra].
  rewrite !direction_unit. replace (- (PI / 2) - PI / 2) with (PI - 2 * PI) by field. replace (0 - PI / 2) with (- (PI / 2)) by ring. replace (3 * (PI / 4) - PI / 2) with (PI / 4) by field.
  rewrite toward_back, toward_left, toward_down. reflexivity.
Qed.
Lemma in_wide c r (bs : list ball) : 0 <= r -> (forall u, unit u -> exists b : ball, In b bs /\ inner c u + r <= reach b u) -> within (disc c r) (hull bs).
Proof.
  intros R H q Q u U. destruct (H u U) as (b & B & L). exists b. split; [exact B|]. apply disc_len in Q; [|exact R]. pose proof (cauchy (minus q c) u) as C. assert (Lu : len u = 1) by (unfold len; unfold unit, inner in *; rewrite U; apply sqrt_1). rewrite Lu in C. unfold inner, minus in *. cbn [px py] in C. lra.
Qed.
Lemma corner_apart : shape_contains (N := N) xacos (tip (P 4 0) [(P 4 0, 1)]) (tip (P 0 0) corner) = Some false /\ shape_contains (N := N) xacos (tip (P 0 0) corner) (tip (P 4 0) [(P 4 0, 1)]) = Some false.
Proof.
  unfold shape_contains. rewrite (proj1 corner_bounds), (proj2 corner_bounds). unfold rect_contains_rect. cbn [bx x_min x_max y_min y_max].
  rewrite (proj2 (le_xf 3 (-1))) by lra. rewrite (proj2 (le_xf 5 2)) by lra. rewrite andb_false_r. split; reflexivity.
Qed.
(** all hypotheses of C80_hull hold, and it says that the tangents are good *)
Example corner_good : tangent_quality (N := N) xacos xmillionth (tip (P 4 0) [(P 4 0, 1)]) (tip (P 0 0) corner) = Some GoodTangents.
Proof.
  pose proof PI_RGT_0 as PP. refine (proj2 (proj1 (C80_hull xmillionth (P 4 0) [(P 4 0, 1)] (P 0 0) corner (Indices (0, 0) (0, 2))%nat (5 / 1000000) corner_outline corner_cuts corner_arcs _ _ _ _ _ _ _ _ _ _ _ _ _)) _).
  - discriminate.
  - discriminate.
  - intros b [[<-|[]]|[<-|[<-|[<-|[]]]]]; cbn; lra.
  - apply corner_apart.
  - apply corner_apart.
  - apply corner_indices.
  - apply corner_enlargement.
  - lra.
  - apply corner_joined.
  - apply corner_made.
  - apply corner_convex.
  - intros i x. destruct i as [|[|[|i]]]; cbn [nth_error corner_arcs corner_cuts]; [intros E; injection E as <-; cbn [a_to]; f_equal..|destruct i; discriminate 1]; cbn [corner_cuts].
    + symmetry. apply toward_left.
    + rewrite <- toward_down, <- (toward_back (3 * _)). f_equal. field.
  - intros i I. cbn in I. assert (P4 : sin (PI / 4) = 1 / sqrt 2) by apply sin_PI4. assert (S2 : 0 < sqrt 2) by (apply sqrt_lt_R0; lra). assert (S2' : sqrt 2 < 2) by (rewrite <- (sqrt_square 2) at 2 by lra; apply sqrt_lt_1; lra).
    assert (K : 5 / 1000000 <= 1 / sqrt 2). { apply Rmult_le_reg_r with (sqrt 2); [exact S2|]. unfold Rdiv at 2. rewrite Rmult_assoc, Rinv_l by lra. lra. }
    destruct i as [|[|[|i]]]; cbn [corner_cuts].
    + replace (PI / 4 - - (PI / 2)) with (PI - PI / 4) by field. rewrite sin_PI_x, P4, Rabs_pos_eq; lra.
    + rewrite sin_PI_x, P4, Rabs_pos_eq; lra.
    + replace (3 * (PI / 2) - PI) with (PI / 2) by field. rewrite sin_PI2, Rabs_R1. lra.
    + lia.
  - intros b I. apply in_wide; [destruct I as [[<-|[]]|[<-|[<-|[<-|[]]]]]; cbn; lra|]. intros u U.
    assert (G : forall b : ball, In b corner_outline -> inner (fst b) u + 1 <= reach b u) by (intros e [<-|[<-|[<-|[]]]]; unfold reach, wide; cbn; lra).
    destruct I as [[<-|[]]|[<-|[<-|[<-|[]]]]]; cbn [fst snd].
    + exists (P 4 0, wide). split; [cbn; tauto|]. unfold reach, wide. cbn. lra.
    + exists (P 0 0, wide). split; [cbn; tauto|]. unfold reach, wide. cbn. lra.
    + destruct (Rle_dec (px u + py u) (4 * px u)) as [A|A]; [exists (P 4 0, wide); split; [cbn; tauto|]; unfold reach, wide, inner; cbn; lra|].
      destruct (Rle_dec (px u + py u) (4 * py u)) as [B|B]; [exists (P 0 4, wide); split; [cbn; tauto|]; unfold reach, wide, inner; cbn; lra|].
      exists (P 0 0, wide). split; [cbn; tauto|]. unfold reach, wide, inner. cbn. lra.
    + exists (P 0 4, wide). split; [cbn; tauto|]. unfold reach, wide. cbn. lra.
Qed.

(** a circle and, straight ahead, a pill that lies in the same direction *)
Definition pill : list ball := [(P 10 0, 1); (P 30 0, 1)].
Definition broad : R := 1 + 31 / 1000000.
Definition pill_outline : list ball := [(P 0 0, broad); (P 10 0, broad)].
Lemma pill_turn left : turning_index (N := N) xacos left (circ (P 0 0) 1) (pv (P 1 0)) (tip (P 20 0) pill) (any_turn left) = Some (Some 0%nat).
Proof.
  apply (side_turn left (P 0 0, 1) (P 1 0) (P 20 0) pill 0); [cbn; lra|intros b [<-|[<-|[]]]; cbn; lra|].
  assert (F : dot2 (P 1 0) (P 1 0) = 1) by (unfold dot2; cbn; ring). assert (L0 : len (minus (P 10 0) (P 0 0)) = 10) by lenis 10. assert (L1 : len (minus (P 30 0) (P 0 0)) = 30) by lenis 30.
  destruct (turns_same left 1 (P 0 0) (P 1 0) pill 0 (P 10 0, 1)) as (a0 & T0 & B0 & C0 & _); [lra|exact F|reflexivity|reflexivity|cbn [fst]; lra|unfold dot2; cbn; lra|].
  destruct (turns_same left 1 (P 0 0) (P 1 0) pill 1 (P 30 0, 1)) as (a1 & T1 & B1 & C1 & _); [lra|exact F|reflexivity|reflexivity|cbn [fst]; lra|unfold dot2; cbn; lra|].
  cbn [fst] in *. assert (a0 = 0). { apply no_turn; [exact B0|]. rewrite C0, L0. unfold dot2. cbn. field. } subst a0. assert (a1 = 0). { apply no_turn; [exact B1|]. rewrite C1, L1. unfold dot2. cbn. field. } subst a1. rewrite L0 in T0. rewrite L1 in T1.
  eexists. eexists. split; [exact T0|]. intros j b m TJ D BF. unfold before in BF. destruct j as [|[|j]]; [congruence| |destruct TJ as (x & X & _); destruct j; discriminate X].
  destruct (turns_is _ _ _ _ _ _ _ _ _ TJ T1) as [-> ->]. destruct BF as [BF|(_ & [BF|(BF & _)])]; lra.
Qed.
Lemma pill_indices : tangent_indices (N := N) xacos (tip (P 0 0) [(P 0 0, 1)]) (tip (P 20 0) pill) = Some (Indices (0, 0) (0, 0))%nat.
Proof.
  unfold tangent_indices. cbn [tip s_circles pill circles map length Nat.eqb andb]. fold pill. change (Shape (pv (P 0 0)) [circ (fst (P 0 0, 1)) (snd (P 0 0, 1))]) with (tip (P 0 0) [(P 0 0, 1)]).
  change (Shape (pv (P 20 0)) _) with (tip (P 20 0) pill). rewrite (forward_is _ _ _ _ (P 1 0) 20); [|lra|unfold minus; cbn; f_equal; lra|unfold dot2; cbn; ring]. cbn [fst snd]. rewrite !pill_turn. reflexivity.
Qed.
Lemma pill_bounds : bounds (tip (P 0 0) [(P 0 0, 1)]) = Some (bx (-1) (-1) 1 1) /\ bounds (tip (P 20 0) pill) = Some (bx 9 (-1) 31 1).
Proof.
  split.
  - apply bounds_is; [discriminate|intros b [<-|[]]; cbn; lra|]. unfold tight. split; [intros c r [E|[]]; injection E as <- <-; cbn; lra|]. repeat split; exists (P 0 0), 1; cbn; (split; [tauto|lra]).
  - apply bounds_is; [discriminate|intros b [<-|[<-|[]]]; cbn; lra|]. unfold tight. split; [intros c r [E|[E|[]]]; injection E as <- <-; cbn; lra|]. repeat split; [exists (P 10 0), 1|exists (P 10 0), 1|exists (P 30 0), 1|exists (P 10 0), 1]; cbn; (split; [tauto|lra]).
Qed.
Lemma pill_enlargement : enlargement (N := N) xmillionth (tip (P 0 0) [(P 0 0, 1)]) (tip (P 20 0) pill) = Some (Fin (31 / 1000000)).
Proof.
  unfold enlargement. rewrite (proj1 pill_bounds), (proj2 pill_bounds). cbn [bx x_min x_max y_min y_max fold_left nabs N]. rewrite !max_x. unfold xmillionth. cbn [nmul N xmul]. f_equal. f_equal.
  repeat (match goal with |- context [Rabs ?x] => first [rewrite (Rabs_pos_eq x) by lra|rewrite (Rabs_left x) by lra] end).
  replace (- -1) with 1 by ring. rewrite !(max_is 1 1 1), (max_is 1 9 9), (max_is 9 31 31), !(max_is 31 1 31) by lra. lra.
Qed.
Lemma pill_joined : joined (N := N) (tip (P 0 0) [(P 0 0, 1)]) (tip (P 20 0) pill) (Indices (0, 0) (0, 0))%nat (Fin (31 / 1000000)) = Some (circles pill_outline).
Proof.
  unfold joined. rewrite x0, (proj2 (le_x _ _)) by lra. cbn -[nle make_circle n0]. unfold make_circle. cbn [nadd N xadd circ radius center]. rewrite x0, !(proj2 (le_x _ _)) by lra. reflexivity.
Qed.
Definition pill_arcs : list (arc N) := [Arc (circ (P 0 0) broad) (pv (P 0 1)) (pv (P 0 (-1))); Arc (circ (P 10 0) broad) (pv (P 0 (-1))) (pv (P 0 1))].
Lemma pill_made : make_polygon (N := N) xacos (circles pill_outline) = Some pill_arcs.
Proof.
  pose proof PI_RGT_0 as PP. pose proof turn_pi as TP. unfold circles, pill_outline, make_polygon. cbn [map fst snd last arcs_from].
  rewrite !(step_contains _ _ 10) by (try lra; lenis 10). cbn [orb].
  assert (Q : forall c d, len (minus d c) = 10 -> Rabs (broad - broad) < len (minus d c) /\ alpha c d broad broad = PI / 2). { intros c d L. split; [rewrite L; replace (broad - broad) with 0 by ring; rewrite Rabs_R0; lra|apply alpha_same; rewrite L; lra]. }
  rewrite (unwrapped (P 10 0) (P 0 0) broad broad PI); [|apply Q; lenis 10|apply theta_left; cbn; lra|apply Q; lenis 10|lra].
  rewrite (unwrapped (P 0 0) (P 10 0) broad broad 0); [|apply Q; lenis 10|apply theta_right; cbn; lra|apply Q; lenis 10|lra].
  rewrite !direction_unit. replace (0 - PI / 2) with (- (PI / 2)) by ring. replace (PI - PI / 2) with (PI / 2) by field. rewrite toward_up, toward_down. reflexivity.
Qed.
Lemma pill_reported : polygon_contains pill_arcs (circ (P 30 0) 1) = true.
Proof.
  unfold polygon_contains. cbn [length pill_arcs seq forallb nth_error get_segment Nat.modulo Nat.divmod fst snd Nat.sub center radius circ].
  assert (AD : forall c u v, det2 u v = 0 -> arc_distance (Arc c (pv u) (pv v)) (pv (P 30 0)) = None).
  { intros c u v D. unfold arc_distance. cbn [a_from a_to a_circle]. rewrite det_x, D, no_arc_x. cbn [nabs N]. rewrite (proj2 (le_x _ _)); [reflexivity|]. rewrite Rabs_R0. unfold tol. lra. }
  assert (J : forall (p q : pt) x, p <> q -> dot2 (sub (P 30 0) p) (sub q p) / dot2 (sub q p) (sub q p) = x -> x < 0 \/ 1 < x -> segment_distance (sg p q) (pv (P 30 0)) = None).
  { intros p q x D E B. unfold segment_distance. rewrite (proj2 (project_x p q _ D)), E, x0, x1e. destruct B as [B|B]; [rewrite (proj2 (lt_x x 0)) by exact B|rewrite (proj2 (lt_x 1 x)), orb_true_r by exact B]; reflexivity. }
  assert (GS : forall b x y b' x' y', joining (Arc (circ (fst b) (snd b)) (pv x) (pv y)) (Arc (circ (fst b') (snd b')) (pv x') (pv y')) = sg (rim (fst b) (snd b) y) (rim (fst b') (snd b') x')).
  { intros. unfold joining, sg, rim, circ, padd, vscale, pv. cbn [a_circle a_to a_from center radius vx vy px py nadd nmul N xadd xmul]. f_equal; f_equal; f_equal; ring. }
  unfold get_segment. cbn [length pill_arcs nth_error Nat.modulo Nat.divmod fst snd Nat.sub].
  rewrite !AD by (unfold det2; cbn; ring). rewrite (GS (P 0 0, broad) _ _ (P 10 0, broad)), (GS (P 10 0, broad) _ _ (P 0 0, broad)). cbn [fst snd].
  rewrite (J _ _ 3), (J _ _ (-2)); [reflexivity|..].
  - intros E. apply (f_equal px) in E. cbn in E. lra.
  - unfold dot2, sub, rim. cbn. field. replace (broad - broad) with 0 by ring. lra.
  - lra.
  - intros E. apply (f_equal px) in E. cbn in E. lra.
  - unfold dot2, sub, rim. cbn. field. replace (broad - broad) with 0 by ring. lra.
  - lra.
Qed.
(** "We can construct tangents, and the joined shape covers `first` and `second`": not for a circle and a pill straight ahead, whose far end is left out and whose arcs
    are half circles; the tangents are said to be good although no point of that end is covered *)
Theorem C80_cover_refuted : exists o mine o' others t off bs, (forall b : ball, In b mine \/ In b others -> 0 <= snd b) /\
  tangent_indices (N := N) xacos (tip o mine) (tip o' others) = Some t /\ enlargement (N := N) xmillionth (tip o mine) (tip o' others) = Some (Fin off) /\
  joined (tip o mine) (tip o' others) t (Fin off) = Some (circles bs) /\ tangent_quality (N := N) xacos xmillionth (tip o mine) (tip o' others) = Some GoodTangents /\
  exists b : ball, In b others /\ 0 < snd b /\ forall q, disc (fst b) (snd b) q -> ~ hull bs q.
Proof.
  exists (P 0 0), [(P 0 0, 1)], (P 20 0), pill, (Indices (0, 0) (0, 0))%nat, (31 / 1000000), pill_outline. split; [intros b [[<-|[]]|[<-|[<-|[]]]]; cbn; lra|]. split; [apply pill_indices|]. split; [apply pill_enlargement|]. split; [apply pill_joined|]. split.
  - assert (C1 : shape_contains (N := N) xacos (tip (P 0 0) [(P 0 0, 1)]) (tip (P 20 0) pill) = Some false /\ shape_contains (N := N) xacos (tip (P 20 0) pill) (tip (P 0 0) [(P 0 0, 1)]) = Some false).
    { unfold shape_contains. rewrite (proj1 pill_bounds), (proj2 pill_bounds). unfold rect_contains_rect. cbn [bx x_min x_max y_min y_max]. rewrite (proj2 (le_xf 31 1)) by lra. rewrite andb_false_r. rewrite (proj2 (le_xf 9 (-1))) by lra. split; reflexivity. }
    unfold tangent_quality. rewrite (proj1 C1), (proj2 C1), pill_indices, pill_enlargement, pill_joined, pill_made.
    cbn -[polygon_contains pill_arcs]. rewrite pill_reported. reflexivity.
  - exists (P 30 0, 1). split; [cbn; tauto|]. split; [cbn; lra|]. cbn [fst snd]. intros q D K. apply disc_len in D; [|lra]. pose proof (cauchy (minus (P 30 0) q) (P 1 0)) as C. rewrite (len_sym (P 30 0) q) in C. rewrite (len_x 1 1 ltac:(lra) ltac:(lra) (P 1 0) ltac:(cbn; lra)) in C.
    destruct (K (P 1 0)) as (b & B & L); [unfold unit; cbn; lra|]. destruct B as [<-|[<-|[]]]; unfold reach, inner, minus, broad in *; cbn in *; lra.
Qed.

Print Assumptions C80_indices.
Print Assumptions C80_quality.
Print Assumptions C80_tangent.
Print Assumptions C80_turning.
Print Assumptions C80_enlargement.
Print Assumptions C80_total.
Print Assumptions C80_hull.
Print Assumptions C80_cover_refuted.
