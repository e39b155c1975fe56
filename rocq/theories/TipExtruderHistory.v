(** Lemmas for C69: two extruders that differ in shading only do the same. *)
From Coq Require Import Arith Bool Lia Permutation List.
From Verif Require Import ExtruderGeometryModel ExtruderGeometrySpec ExtruderGeometryLists ExtruderGeometryProofs TipExtruderModel TipExtruderSpec TipExtruderGeometry TipExtruderProofs.
From Verif Require StrokeOutlineModel StrokeOutlineSpec StrokeOutlineProps.
Import ListNotations.

(** both succeed with related results or neither can go on *)
Definition both {A B} (Q : A -> B -> Prop) (a : option A) (b : option B) : Prop := match a, b with Some x, Some y => Q x y | None, None => True | _, _ => False end.
Definition pair {A B} (Q : A -> B -> Prop) (a : result A) (b : result B) : Prop := match a, b with Done x, Done y => Q x y | Stuck, Stuck => True | _, _ => False end.
Lemma pair_bind {A B C D} (Q : A -> B -> Prop) (Q' : C -> D -> Prop) a b f h : pair Q a b -> (forall x y, Q x y -> pair Q' (f x) (h y)) -> pair Q' (bind a f) (bind b h).
Proof. destruct a, b; cbn; intros H K; try contradiction; auto. Qed.
Lemma pair_imp {A B} (Q Q' : A -> B -> Prop) a b : pair Q a b -> (forall x y, Q x y -> Q' x y) -> pair Q' a b.
Proof. destruct a, b; cbn; intros H K; try contradiction; auto. Qed.

Section Geometry.
Variables (core shade T J R : Type) (zero_vertex : core * shade) (zero_triangle : T) (fresh : nat -> nat -> R) (empty_disc : J).
Notation geometry := (geometry core shade T J R).
Notation step := (step zero_vertex zero_triangle fresh empty_disc).
Notation cores l := (map (@fst core shade) l).
Notation keys m := (map (fun p : nat * (core * shade) => (fst p, fst (snd p))) m).

Definition shown (s : save_point core shade T J R) :=
  (contains_all s, n_mesh_vertices s, n_mesh_triangles s, saved_ids s, saved_offsets s, keys (saved_vertices s), saved_triangles s, saved_opposites s, left_state s, right_state s, saved_break s).
Definition save_like (s s' : save_point core shade T J R) : Prop := is_active s = is_active s' /\ (is_active s = true -> shown s = shown s').
Definition like (g g' : geometry) : Prop := same_stroke g g' /\ save_like (save g) (save g').

Lemma write_map {A B} (f : A -> B) i x l : option_map (map f) (write i x l) = write i (f x) (map f l).
Proof. unfold write. rewrite map_length. destruct (i <? length l); [|reflexivity]. cbn [option_map]. rewrite map_app, firstn_map. cbn [map]. rewrite skipn_map. reflexivity. Qed.
Lemma lookup_keys k m : lookup k (keys m) = option_map fst (lookup k m).
Proof. induction m as [|[j [c d]] m IH]; cbn; [reflexivity|]. destruct (j =? k); [reflexivity|exact IH]. Qed.
Lemma emplace_keys k v m m' : keys m = keys m' -> forall v', fst v = fst v' -> keys (emplace k v m) = keys (emplace k v' m').
Proof.
  intros E v' F. unfold emplace. pose proof (lookup_keys k m) as L. rewrite E, lookup_keys in L. destruct (lookup k m), (lookup k m'); cbn in L; try discriminate; [exact E|]. cbn. rewrite F, E. reflexivity.
Qed.
Lemma emplace_from_keys n : forall i l l' m m', cores l = cores l' -> keys m = keys m' -> both (fun a b => keys a = keys b) (emplace_from i n l m) (emplace_from i n l' m').
Proof.
  induction n as [|n IH]; intros i l l' m m' E F; cbn [emplace_from]; [exact F|]. pose proof (f_equal (fun l => nth_error l i) E) as N. cbn in N. rewrite !nth_error_map in N.
  destruct (nth_error l i) as [v|], (nth_error l' i) as [v'|]; cbn in N; try discriminate; [|exact I]. injection N as N. apply IH; [exact E|]. apply emplace_keys; assumption.
Qed.
Ltac like_tac := repeat match goal with |- like _ _ => split | |- same_stroke _ _ => split | |- save_like _ _ => split end; cbn in *; try congruence; try reflexivity; auto.

Lemma both_refl {A} (Q : A -> A -> Prop) (a : option A) : (forall x, Q x x) -> both Q a a. Proof. intros H. destruct a; cbn; auto. Qed.
Lemma save_triangle_like s s' j t : save_like s s' -> save_like (save_triangle s j t) (save_triangle s' j t).
Proof.
  intros (A & Z). unfold save_triangle. rewrite <- A. destruct (is_active s) eqn:EA; cbn [andb].
  - specialize (Z eq_refl). unfold shown in Z. injection Z as Z1 Z2 Z3 Z4 Z5 Z6 Z7 Z8 Z9 Z10 Z11. rewrite <- Z3. destruct (j <? n_mesh_triangles s).
    + split; cbn; [congruence|]. intros _. unfold shown. cbn. congruence.
    + split; [congruence|]. intros _. unfold shown. congruence.
  - split; congruence.
Qed.
Lemma set_triangle_like (g g' : geometry) j t b : like g g' -> both like (set_triangle g j t b) (set_triangle g' j t b).
Proof.
  intros ([S1 S2 S3 S4 S5 S6 S7 S8] & SV). unfold set_triangle. rewrite <- S2. destruct (nth_error (triangles g) j) as [old|]; [|exact I]. destruct (write j t (triangles g)); [|exact I]. cbn. split; [split; cbn; congruence|]. cbn. destruct b; [apply save_triangle_like, SV|exact SV].
Qed.
Lemma retriangulate_from_like k change n : forall (g g' : geometry), like g g' -> both like (retriangulate_from g k n change) (retriangulate_from g' k n change).
Proof.
  induction n as [|n IH]; intros g g' L; cbn [retriangulate_from]; [exact L|]. pose proof L as ([S1 S2 S3 S4 S5 S6 S7 S8] & SV). rewrite <- S2. destruct (nth_error (triangles g) (k + n)) as [old|]; [|exact I].
  assert (L' : like (with_save g (save_triangle (save g) (k + n) old)) (with_save g' (save_triangle (save g') (k + n) old))) by (split; [split; cbn; congruence|cbn; apply save_triangle_like, SV]).
  pose proof (set_triangle_like _ _ (k + n) (change (k + n) old) false L') as B. destruct (set_triangle _ _ _ _) as [a|], (set_triangle _ _ _ _) as [b|]; cbn in B; try contradiction; [|exact I]. apply IH, B.
Qed.
Lemma capture_like (g g' : geometry) : like g g' -> is_active (save g) = true -> both save_like (capture g) (capture g').
Proof.
  intros ([S1 S2 S3 S4 S5 S6 S7 S8] & (A & Z)) ACT. specialize (Z ACT). unfold shown in Z. injection Z as Z1 Z2 Z3 Z4 Z5 Z6 Z7 Z8 Z9 Z10 Z11. unfold capture. rewrite <- S8, <- Z2, <- Z3, <- S2, <- S3, <- S4, <- S5, <- S6, <- S7, <- Z7, <- Z8, <- Z9, <- Z10.
  destruct ((vertex_count (last_break g) <=? n_mesh_vertices (save g)) && (triangle_count (last_break g) <=? n_mesh_triangles (save g))); [|exact I].
  destruct (slice _ _ (ids g)); [|exact I]. destruct (slice _ _ (offsets g)); [|exact I]. destruct (emplace_from _ _ (triangles g) _); [|exact I].
  pose proof (emplace_from_keys (n_mesh_vertices (save g) - vertex_count (last_break g)) (vertex_count (last_break g)) (vertices g) (vertices g') (saved_vertices (save g)) (saved_vertices (save g')) S1 Z6) as EK.
  destruct (emplace_from _ _ (vertices g) _) as [m|], (emplace_from _ _ (vertices g') _) as [m'|]; cbn in EK; try contradiction; [|exact I].
  destruct (emplace_from _ _ (opposites g) _); [|exact I]. destruct (capture_side (left g) _ _); [|exact I]. destruct (capture_side (right g) _ _); [|exact I]. cbn. split; cbn; [exact A|]. intros _. unfold shown. cbn. congruence.
Qed.
Lemma step_like (g g' : geometry) o : o <> ResetTracking -> like g g' -> both like (step g o) (step g' o).
Proof.
  intros NR L. pose proof L as ([S1 S2 S3 S4 S5 S6 S7 S8] & SV). assert (LV : length (vertices g) = length (vertices g')) by (rewrite <- (map_length fst (vertices g)), S1; apply map_length).
  destruct o as [tl v|t|i v|j t|k f t|i n|tl d|tl a n b x r|i d| | |]; cbn [ExtruderGeometryModel.step].
  - unfold append_vertex. rewrite <- LV, S6, S7. cbn. split; [split|]; cbn; rewrite ?S2, ?S3, ?S4, ?S5, ?S6, ?S7, ?S8, ?map_app, ?S1; try reflexivity. exact SV.
  - cbn. split; [split; cbn; congruence|exact SV].
  - unfold set_vertex. pose proof (f_equal (fun l => nth_error l i) S1) as N. cbn in N. rewrite !nth_error_map in N. destruct (nth_error (vertices g) i) as [w|], (nth_error (vertices g') i) as [w'|]; cbn in N; try discriminate; [|exact I]. injection N as N.
    pose proof (write_map fst i v (vertices g)) as W1. pose proof (write_map fst i v (vertices g')) as W2. rewrite <- S1, <- W1 in W2. destruct (write i v (vertices g)) as [vs|], (write i v (vertices g')) as [vs'|]; cbn in W2; try discriminate; [|exact I]. injection W2 as W2.
    rewrite <- S3. destruct (nth_error (ids g) i); [|exact I]. cbn [both]. split; [split; cbn; congruence|]. cbn [save with_save andb]. destruct SV as (A & Z). rewrite <- A. destruct (is_active (save g)) eqn:EA; cbn [andb]; [|split; congruence].
    specialize (Z eq_refl). unfold shown in Z. injection Z as Z1 Z2 Z3 Z4 Z5 Z6 Z7 Z8 Z9 Z10 Z11. rewrite <- Z2. destruct (i <? n_mesh_vertices (save g)).
    + split; cbn; [congruence|]. intros _. unfold shown. cbn. rewrite (emplace_keys i w _ _ Z6 w' N). congruence.
    + split; [congruence|]. intros _. unfold shown. congruence.
  - apply set_triangle_like, L.
  - unfold retriangulate. rewrite <- S2. pose proof (retriangulate_from_like k f (length (triangles g) - k) g g' L) as B. destruct (retriangulate_from g _ _ _) as [a|], (retriangulate_from g' _ _ _) as [b|]; cbn in B; try contradiction; [|exact I].
    destruct B as ([Q1 Q2 Q3 Q4 Q5 Q6 Q7 Q8] & QV). rewrite <- Q2. destruct (k <=? length (triangles a)); [|exact I]. cbn. split; [split; cbn; congruence|exact QV].
  - unfold set_opposite. rewrite <- S5. destruct (nth_error (opposites g) i) as [old|]; [|exact I]. destruct (write i n (opposites g)) as [os|]; [|exact I]. destruct (old =? n); [exact L|]. cbn [both]. split; [split; cbn; congruence|]. cbn [save andb].
    destruct SV as (A & Z). rewrite <- A. destruct (is_active (save g)) eqn:EA; cbn [andb]; [|split; congruence]. specialize (Z eq_refl). unfold shown in Z. injection Z as Z1 Z2 Z3 Z4 Z5 Z6 Z7 Z8 Z9 Z10 Z11. rewrite <- Z2. destruct (i <? n_mesh_vertices (save g)).
    + split; cbn; [congruence|]. intros _. unfold shown. cbn. congruence.
    + split; [congruence|]. intros _. unfold shown. congruence.
  - rewrite S6, S7. destruct tl; (split; [split; cbn; congruence|exact SV]).
  - rewrite S6, S7. destruct tl; (split; [split; cbn; congruence|exact SV]).
  - unfold reshade. pose proof (f_equal (fun l => nth_error l i) S1) as N. cbn in N. rewrite !nth_error_map in N. destruct (nth_error (vertices g) i) as [[c w]|], (nth_error (vertices g') i) as [[c' w']|]; cbn in N; try discriminate; [|exact I]. injection N as N. subst c'.
    pose proof (write_map fst i (c, d) (vertices g)) as W1. pose proof (write_map fst i (c, d) (vertices g')) as W2. rewrite <- S1, <- W1 in W2. destruct (write i (c, d) (vertices g)) as [vs|], (write i (c, d) (vertices g')) as [vs'|]; cbn in W2; try discriminate; [|exact I]. injection W2 as W2.
    cbn. split; [split; cbn; congruence|exact SV].
  - unfold add_break. cbn. rewrite <- LV, S2, S6, S7, S8. split; [split; cbn; rewrite ?S3, ?S4, ?S5; try reflexivity; exact S1|exact SV].
  - unfold clear. rewrite <- S8, <- LV. destruct (length (vertices g) =? vertex_count (last_break g)); [exact L|].
    assert (CL : both save_like (if is_active (save g) && negb (contains_all (save g)) && (triangle_count (last_break g) <=? n_mesh_triangles (save g)) then capture g else Some (save g)) (if is_active (save g') && negb (contains_all (save g')) && (triangle_count (last_break g) <=? n_mesh_triangles (save g')) then capture g' else Some (save g'))).
    { pose proof SV as (A & Z). rewrite <- A. destruct (is_active (save g)) eqn:EA; cbn [andb]; [|exact SV]. specialize (Z eq_refl). pose proof Z as Z'. unfold shown in Z'. injection Z' as Z1 Z2 Z3 _ _ _ _ _ _ _ _. rewrite <- Z1, <- Z3.
      destruct (negb (contains_all (save g)) && (triangle_count (last_break g) <=? n_mesh_triangles (save g))); [apply capture_like; assumption|exact SV]. }
    destruct (if is_active (save g) && _ && _ then _ else _) as [s|], (if is_active (save g') && _ && _ then _ else _) as [s'|]; cbn in CL; try contradiction; [|exact I].
    cbn. split; [split|exact CL]; cbn; rewrite ?S2, ?S3, ?S4, ?S5, ?S6, ?S7; try reflexivity. unfold resize. rewrite !map_app, <- !firstn_map, S1, <- LV. reflexivity.
  - congruence.
Qed.
Lemma run_like os : forall g g' : geometry, forallb drawing os = true -> like g g' -> both like (run zero_vertex zero_triangle fresh empty_disc g os) (run zero_vertex zero_triangle fresh empty_disc g' os).
Proof.
  induction os as [|o os IH]; intros g g' D L; cbn [run]; [exact L|]. cbn [forallb] in D. apply andb_true_iff in D. destruct D as (D1 & D2).
  assert (NR : o <> ResetTracking) by (intros ->; discriminate D1). pose proof (step_like g g' o NR L) as B. destruct (step g o) as [a|], (step g' o) as [b|]; cbn in B; try contradiction; [|exact I]. apply IH; assumption.
Qed.
Lemma draw_like (allowed : op core shade T J R -> bool) os (g g' : geometry) : (forall o, allowed o = true -> drawing o = true) -> like g g' -> pair like (draw zero_vertex zero_triangle fresh empty_disc allowed g os) (draw zero_vertex zero_triangle fresh empty_disc allowed g' os).
Proof.
  intros AD L. unfold draw. destruct (forallb allowed os) eqn:E; [|exact I]. assert (D : forallb drawing os = true) by (rewrite forallb_forall in *; intros o H; apply AD, E, H).
  pose proof (run_like os g g' D L) as B. destruct (run _ _ _ _ g os), (run _ _ _ _ g' os); cbn in *; try contradiction; auto.
Qed.
Lemma save_like_save (g g' : geometry) : same_stroke g g' -> like (set_save_point zero_vertex g) (set_save_point zero_vertex g').
Proof.
  intros [S1 S2 S3 S4 S5 S6 S7 S8]. assert (LV : length (vertices g) = length (vertices g')) by (rewrite <- (map_length fst (vertices g)), S1; apply map_length).
  unfold set_save_point. rewrite S2, S6, S7, S8, LV. split; [split; cbn; assumption || reflexivity|]. split; reflexivity.
Qed.
End Geometry.

Section Extruder.
Variables (core shade T J R P X : Type) (zero_vertex : core * shade) (zero_triangle : T) (fresh : nat -> nat -> R) (empty_disc : J) (position : core -> P) (default : option X).
Notation geometry := (geometry core shade T J R).
Notation extruder := (extruder core shade T J R P X).
Notation li g := (indices (left g)).
Notation ri g := (indices (right g)).
Notation lc g := (index_count (left_info (last_break g))).
Notation rc g := (index_count (right_info (last_break g))).
Notation good := (good core shade T J R P X).
Notation since := (since core shade T J R P X).
Notation like := (like core shade T J R).
Notation lefts ps := (concat (map fst ps)).
Notation rights ps := (concat (map snd ps)).
Notation draw := (draw zero_vertex zero_triangle fresh empty_disc).

Lemma pieces_unique (ps more more' : list (list nat * list nat)) (l r tl tr tl' tr' : list nat) (c d : nat) : length more <= 1 -> length more = length more' ->
  l = lefts (ps ++ more) ++ tl -> l = lefts (ps ++ more') ++ tl' -> c = length (lefts (ps ++ more)) -> c = length (lefts (ps ++ more')) ->
  r = rights (ps ++ more) ++ tr -> r = rights (ps ++ more') ++ tr' -> d = length (rights (ps ++ more)) -> d = length (rights (ps ++ more')) -> more = more' /\ tl = tl' /\ tr = tr'.
Proof.
  intros L E L1 L2 L3 L4 R1 R2 R3 R4. rewrite L1 in L2. rewrite R1 in R2. subst c d. clear L1 R1.
  assert (A : forall a a' b b' : list nat, length a = length a' -> a ++ b = a' ++ b' -> a = a' /\ b = b').
  { induction a as [|x a IH]; intros [|y a'] b b' Q W; cbn in *; try discriminate; [auto|]. injection W as -> W. destruct (IH a' b b' ltac:(lia) W) as (-> & ->). auto. }
  destruct (A _ _ _ _ L4 L2) as (AL & ->). destruct (A _ _ _ _ R4 R2) as (AR & ->). rewrite !map_app, !concat_app in AL, AR. apply app_inv_head in AL. apply app_inv_head in AR.
  destruct more as [|[a b] [|? ?]], more' as [|[a' b'] [|? ?]]; cbn in *; try discriminate; try lia; [auto|]. rewrite !app_nil_r in *. subst. auto.
Qed.

(** what a break does to the geometry and the extrusions *)
Definition break_core (g : geometry) (xs : list (option X)) caps closing derivatives : result (geometry * list (option X)) :=
  if ends_in_break xs then Done (g, xs)
  else
    let! g := draw drawing g caps in
    if (length (li g) <=? lc g) && (length (ri g) <=? rc g) then Done (g, xs)
    else let! g := draw moving g closing in let! g := draw shading (add_break fresh g) derivatives in Done (g, xs ++ [None]).
Definition core_of (r : result extruder) : result (geometry * list (option X)) := match r with Done e => Done (geo e, extrusions e) | Stuck => Stuck | Broken => Broken end.
Lemma break_is_core (e : extruder) caps closing derivatives : extrude_break zero_vertex zero_triangle fresh empty_disc e caps closing derivatives <> Broken ->
  core_of (extrude_break zero_vertex zero_triangle fresh empty_disc e caps closing derivatives) = break_core (geo e) (extrusions e) caps closing derivatives.
Proof.
  unfold extrude_break, break_core. destruct (ends_in_break (extrusions e)); [reflexivity|]. destruct (draw drawing (geo e) caps) as [g| |]; cbn [bind]; try reflexivity. cbv zeta.
  destruct ((length (li g) <=? lc g) && (length (ri g) <=? rc g)); [reflexivity|]. set (os := if length (outlines e) =? _ then _ else _). clearbody os. destruct (draw moving g closing) as [g1| |]; cbn [bind]; try reflexivity.
  destruct (draw shading (add_break fresh g1) derivatives) as [g2| |]; cbn [bind]; try reflexivity. unfold check. destruct (break_count (last_break g2) =? length os); [|congruence]. destruct (rev os) as [|o before]; [congruence|].
  destruct (StrokeOutlineModel.get_counts o) as (ol & or). destruct ((lc g + ol <=? length (li g2)) && (rc g + or <=? length (ri g2))); [|congruence]. destruct (StrokeOutlineModel.append _ _ _); cbn; [reflexivity|congruence].
Qed.
Lemma break_core_like (g g' : geometry) xs caps closing derivatives : like g g' ->
  pair (fun p p' => like (fst p) (fst p') /\ snd p = snd p') (break_core g xs caps closing derivatives) (break_core g' xs caps closing derivatives).
Proof.
  intros L. unfold break_core. destruct (ends_in_break xs); [cbn; auto|]. eapply pair_bind; [apply (draw_like _ _ _ _ _ _ _ _ _ drawing caps g g' (fun o H => H) L)|]. intros a a' LA. pose proof LA as ([S1 S2 S3 S4 S5 S6 S7 S8] & _). rewrite <- S6, <- S7, <- S8.
  destruct ((length (li a) <=? lc a) && (length (ri a) <=? rc a)); [cbn; auto|]. eapply pair_bind; [apply (draw_like _ _ _ _ _ _ _ _ _ moving closing a a' (moving_drawing _ _ _ _ _) LA)|]. intros b b' LB.
  assert (NR : @AddBreak core shade T J R <> ResetTracking) by discriminate. pose proof (step_like _ _ _ _ _ zero_vertex zero_triangle fresh empty_disc b b' AddBreak NR LB) as LK. cbn in LK.
  eapply pair_bind; [apply (draw_like _ _ _ _ _ _ _ _ _ shading derivatives _ _ (shading_drawing _ _ _ _ _) LK)|]. cbn. auto.
Qed.

Definition clear_core (g : geometry) (xs : list (option X)) : result (geometry * list (option X)) :=
  let! g := ask (clear zero_vertex zero_triangle fresh empty_disc g) in Done (g, firstn (after_break xs) xs).
Lemma truncate_is_core (e : extruder) : truncate_outlines e <> Broken -> exists e', truncate_outlines e = Done e' /\ geo e' = geo e /\ extrusions e' = extrusions e.
Proof.
  unfold truncate_outlines, check. cbv zeta. destruct (_ <=? length (outlines e)); [|congruence]. destruct (S _ <=? length (outlines e)); [|eauto]. destruct (_ && _); [|congruence]. destruct (nth_error _ _); [|congruence]. intros _. eexists. split; [reflexivity|]. auto.
Qed.
Lemma clear_is_core (e : extruder) v : clear_extruder zero_vertex zero_triangle fresh empty_disc e v <> Broken -> core_of (clear_extruder zero_vertex zero_triangle fresh empty_disc e v) = clear_core (geo e) (extrusions e).
Proof.
  unfold clear_extruder, clear_core, check. cbv zeta. destruct (_ <? length (extrusions e)); [|congruence].
  assert (D : forall b (o : option (list (option X))) x, (exists d, (if b : bool then need o else Done x) = Done d) \/ (if b then need o else Done x) = Broken) by (intros [] [a|] x; cbn; eauto).
  match goal with |- context [if ?b then need ?o else Done ?x] => destruct (D b o x) as [(d & ->)| ->] end; cbn [bind]; [|congruence].
  destruct (clear _ _ _ _ (geo e)) as [g|]; cbn [ask bind]; [|reflexivity].
  match goal with |- context [truncate_outlines ?e1] => destruct (truncate_outlines e1) as [e2| |] eqn:TE; cbn [bind] end; [|exfalso|congruence].
  - intros _. destruct (truncate_is_core _ (fun Z => eq_ind (Done e2) (fun r => match r with Done _ => True | _ => False end) I Broken (eq_trans (eq_sym TE) Z))) as (e3 & TE3 & G3 & X3). rewrite TE in TE3. injection TE3 as <-. cbn. rewrite G3, X3. reflexivity.
  - edestruct truncate_is_core as (e3 & TE3 & _); [rewrite TE; discriminate|]. rewrite TE in TE3. discriminate.
Qed.
Lemma clear_core_like (g g' : geometry) xs : like g g' -> pair (fun p p' => like (fst p) (fst p') /\ snd p = snd p') (clear_core g xs) (clear_core g' xs).
Proof.
  intros L. unfold clear_core. assert (NR : @Clear core shade T J R <> ResetTracking) by discriminate. pose proof (step_like _ _ _ _ _ zero_vertex zero_triangle fresh empty_disc g g' Clear NR L) as LK. cbn [step] in LK.
  destruct (clear _ _ _ _ g), (clear _ _ _ _ g'); cbn in *; try contradiction; auto.
Qed.

Record twin (e e' : extruder) : Prop := {
  tw_extrusions : extrusions e = extrusions e';
  tw_like : like (geo e) (geo e');
  tw_good : exists ps tl tr, good e ps tl tr /\ good e' ps tl tr }.
Lemma twin_of (e e' : extruder) ps more more' tl tr tl' tr' : extrusions e = extrusions e' -> like (geo e) (geo e') -> good e (ps ++ more) tl tr -> good e' (ps ++ more') tl' tr' -> length more <= 1 -> twin e e'.
Proof.
  intros EX L G G' LM. split; [exact EX|exact L|]. destruct L as ([S1 S2 S3 S4 S5 S6 S7 S8] & _).
  assert (LE : length more = length more') by (pose proof (gd_count _ _ _ _ _ _ _ _ _ _ _ G) as C; pose proof (gd_count _ _ _ _ _ _ _ _ _ _ _ G') as C'; rewrite <- S8, C in C'; rewrite !app_length in C'; lia).
  destruct G as [W N GL GR LC RC CT SM OU MU CA EN] eqn:Q. pose proof G' as [W' N' GL' GR' LC' RC' CT' SM' OU' MU' CA' EN']. rewrite <- S6 in GL'. rewrite <- S7 in GR'. rewrite <- S8 in LC', RC'.
  destruct (pieces_unique ps more more' (li (geo e)) (ri (geo e)) tl tr tl' tr' (lc (geo e)) (rc (geo e)) LM LE GL GL' LC LC' GR GR' RC RC') as (-> & -> & ->). eauto.
Qed.
Lemma pair_of (r r' : result extruder) (Q Q' : extruder -> Prop) : outcome r Q -> outcome r' Q' -> pair (fun p p' => like (fst p) (fst p') /\ snd p = snd p') (core_of r) (core_of r') ->
  pair (fun e e' => (like (geo e) (geo e') /\ extrusions e = extrusions e') /\ Q e /\ Q' e') r r'.
Proof. destruct r, r'; cbn; tauto. Qed.

Lemma handle_twin v v' ys ys' (e e' : extruder) ev : twin e e' -> (v = true -> recalls _ (extrusions e) (saved_count e) (deleted e) ys) -> (v' = true -> recalls _ (extrusions e') (saved_count e') (deleted e') ys') ->
  pair (fun a b => twin a b /\ (v = true -> recalls _ (extrusions a) (saved_count a) (deleted a) ys) /\ (v' = true -> recalls _ (extrusions b) (saved_count b) (deleted b) ys'))
    (handle zero_vertex zero_triangle fresh empty_disc v e ev) (handle zero_vertex zero_triangle fresh empty_disc v' e' ev).
Proof.
  intros [EX L (ps & tl & tr & G & G')] V V'.
  pose proof (handle_good _ _ _ _ _ _ _ zero_vertex zero_triangle fresh empty_disc e ps tl tr v ys ev G V) as H1. pose proof (handle_good _ _ _ _ _ _ _ zero_vertex zero_triangle fresh empty_disc e' ps tl tr v' ys' ev G' V') as H2.
  assert (PC : pair (fun p p' => like (fst p) (fst p') /\ snd p = snd p') (core_of (handle zero_vertex zero_triangle fresh empty_disc v e ev)) (core_of (handle zero_vertex zero_triangle fresh empty_disc v' e' ev))).
  { destruct ev as [caps closing derivatives| |x work]; cbn [handle] in *.
    - rewrite !break_is_core; [rewrite <- EX; apply break_core_like, L|intros Z; rewrite Z in H2; exact H2|intros Z; rewrite Z in H1; exact H1].
    - rewrite <- EX in *. destruct (ends_in_break (extrusions e)); [cbn; auto|]. rewrite !clear_is_core; [rewrite <- EX; apply clear_core_like, L|intros Z; rewrite Z in H2; exact H2|intros Z; rewrite Z in H1; exact H1].
    - rewrite <- EX. pose proof (draw_like _ _ _ _ _ zero_vertex zero_triangle fresh empty_disc drawing work _ _ (fun o H => H) L) as DL. destruct (draw drawing (geo e) work), (draw drawing (geo e') work); cbn in *; try contradiction; auto. }
  pose proof (pair_of _ _ _ _ H1 H2 PC) as Q. eapply pair_imp; [exact Q|]. cbn. intros a b ((LA & EA) & ((more & tl1 & tr1 & GA & LM) & _ & RA & _) & ((more' & tl1' & tr1' & GB & _) & _ & RB & _)). split; [|auto]. eapply twin_of; eassumption.
Qed.
Lemma handle_all_twin v v' ys ys' evs : forall (e e' : extruder), twin e e' -> (v = true -> recalls _ (extrusions e) (saved_count e) (deleted e) ys) -> (v' = true -> recalls _ (extrusions e') (saved_count e') (deleted e') ys') ->
  pair twin (handle_all zero_vertex zero_triangle fresh empty_disc v e evs) (handle_all zero_vertex zero_triangle fresh empty_disc v' e' evs).
Proof.
  induction evs as [|ev evs IH]; intros e e' TW V V'; cbn [handle_all]; [exact TW|]. eapply pair_bind; [apply (handle_twin v v' ys ys' e e' ev TW V V')|]. intros a b (TA & VA & VB). apply IH; assumption.
Qed.
Lemma break_twin (e e' : extruder) caps closing derivatives : twin e e' -> pair (fun a b => twin a b /\ exists ps, good a ps [] [] /\ good b ps [] []) (extrude_break zero_vertex zero_triangle fresh empty_disc e caps closing derivatives) (extrude_break zero_vertex zero_triangle fresh empty_disc e' caps closing derivatives).
Proof.
  intros [EX L (ps & tl & tr & G & G')].
  pose proof (break_good _ _ _ _ _ _ _ zero_vertex zero_triangle fresh empty_disc e ps tl tr caps closing derivatives G) as H1. pose proof (break_good _ _ _ _ _ _ _ zero_vertex zero_triangle fresh empty_disc e' ps tl tr caps closing derivatives G') as H2.
  assert (PC : pair (fun p p' => like (fst p) (fst p') /\ snd p = snd p') (core_of (extrude_break zero_vertex zero_triangle fresh empty_disc e caps closing derivatives)) (core_of (extrude_break zero_vertex zero_triangle fresh empty_disc e' caps closing derivatives))).
  { rewrite !break_is_core; [rewrite <- EX; apply break_core_like, L|intros Z; rewrite Z in H2; exact H2|intros Z; rewrite Z in H1; exact H1]. }
  pose proof (pair_of _ _ _ _ H1 H2 PC) as Q. eapply pair_imp; [exact Q|]. cbn. intros a b ((LA & EA) & (more & tl1 & tr1 & GA & _ & _ & _ & _ & _ & _ & -> & -> & LM) & (more' & tl1' & tr1' & GB & _ & _ & _ & _ & _ & _ & -> & -> & _)).
  destruct (twin_of a b ps more more' [] [] [] [] EA LA GA GB LM) as [T1 T2 (qs & x & y & Q1 & Q2)]. split; [split; eauto|].
  assert (XY : x = [] /\ y = []).
  { pose proof (gd_left _ _ _ _ _ _ _ _ _ _ _ GA) as A1. pose proof (gd_left _ _ _ _ _ _ _ _ _ _ _ Q1) as A2. pose proof (gd_lc _ _ _ _ _ _ _ _ _ _ _ GA) as A3. pose proof (gd_lc _ _ _ _ _ _ _ _ _ _ _ Q1) as A4.
    pose proof (gd_right _ _ _ _ _ _ _ _ _ _ _ GA) as B1. pose proof (gd_right _ _ _ _ _ _ _ _ _ _ _ Q1) as B2. pose proof (gd_rc _ _ _ _ _ _ _ _ _ _ _ GA) as B3. pose proof (gd_rc _ _ _ _ _ _ _ _ _ _ _ Q1) as B4.
    rewrite app_nil_r in A1, B1. rewrite A1 in A2. rewrite B1 in B2. apply (f_equal (@length nat)) in A2. apply (f_equal (@length nat)) in B2. rewrite app_length in A2, B2. split; apply length_zero_iff_nil; lia. }
  destruct XY as (-> & ->). eauto.
Qed.
Lemma like_of (g g' : geometry) a b : same_stroke g a -> same_stroke g' b -> like a b -> is_active (save g) = false -> is_active (save g') = false -> like g g'.
Proof.
  intros [A1 A2 A3 A4 A5 A6 A7 A8] [B1 B2 B3 B4 B5 B6 B7 B8] ([S1 S2 S3 S4 S5 S6 S7 S8] & _) IA IB. split; [split; congruence|]. split; congruence.
Qed.

(** two extruders before Restore *)
Inductive twins : extruder -> extruder -> Prop :=
  | twins_new r o L R' o' L2 R2 : StrokeOutlineProps.holds nat o L R' -> StrokeOutlineProps.holds nat o' L2 R2 -> twins (start_stroke r o) (start_stroke r o')
  | twins_since e0 e0' ps0 tl0 tr0 e ps tl tr e' ps' tl' tr' : twin e0 e0' -> since e0 ps0 tl0 tr0 e ps tl tr -> since e0' ps0 tl0 tr0 e' ps' tl' tr' -> twins e e'.
Lemma restore_twins (e e' : extruder) sv st so sv' st' so' : twins e e' -> walks e sv st so -> walks e' sv' st' so' ->
  pair twin (restore zero_vertex zero_triangle empty_disc default (with_geometry e (reset_tracking (geo e))) sv st so) (restore zero_vertex zero_triangle empty_disc default (with_geometry e' (reset_tracking (geo e'))) sv' st' so').
Proof.
  intros [r o L R' o' L2 R2 O O'|e0 e0' ps0 tl0 tr0 e1 ps tl tr e1' ps' tl' tr' [EX LK _] SI SI'] PW PW'.
  - destruct (restore_start _ _ _ _ _ P X zero_vertex zero_triangle empty_disc default r o sv st so) as (o1 & -> & ->). destruct (restore_start _ _ _ _ _ P X zero_vertex zero_triangle empty_disc default r o' sv' st' so') as (o2 & -> & ->). cbn. split; cbn.
    + reflexivity.
    + split; [split; reflexivity|split; reflexivity].
    + exists [], [], []. split; eapply start_good, StrokeOutlineProps.holds_truncate; eassumption.
  - destruct (restore_good _ _ _ _ _ _ _ zero_vertex zero_triangle empty_disc default _ _ _ _ _ _ _ _ sv st so SI PW) as (a & -> & GA & XA & SA & IA). destruct (restore_good _ _ _ _ _ _ _ zero_vertex zero_triangle empty_disc default _ _ _ _ _ _ _ _ sv' st' so' SI' PW') as (b & -> & GB & XB & SB & IB). cbn.
    split; [congruence|apply (like_of _ _ _ _ SA SB LK IA IB)|eauto].
Qed.
Lemma before_volatile_twins (e e' : extruder) sv st so sv' st' so' fixed : twins e e' -> walks e sv st so -> walks e' sv' st' so' ->
  pair (fun a b => exists e0 e0', twin e0 e0' /\ a = save_extruder zero_vertex e0 /\ b = save_extruder zero_vertex e0')
    (before_volatile zero_vertex zero_triangle fresh empty_disc position default e sv st so fixed) (before_volatile zero_vertex zero_triangle fresh empty_disc position default e' sv' st' so' fixed).
Proof.
  intros TW PW PW'. unfold before_volatile. eapply pair_bind; [apply (restore_twins e e' sv st so sv' st' so' TW PW PW')|]. intros a b T1. eapply pair_bind; [apply (handle_all_twin false false [] [] fixed a b T1); discriminate|]. intros c d [EX LK (ps & tl & tr & GC & GD)].
  destruct (update_cached_ok _ _ _ _ _ _ _ zero_vertex position c _ _ _ GC) as (c' & -> & GC' & (C1 & C2 & C3 & C4 & C5)). destruct (update_cached_ok _ _ _ _ _ _ _ zero_vertex position d _ _ _ GD) as (d' & -> & GD' & (D1 & D2 & D3 & D4 & D5)). cbn. exists c', d'. split; [|auto].
  split; [congruence|rewrite C4, D4; exact LK|eauto].
Qed.
Lemma extend_twins (e e' e1 e1' : extruder) sv st so sv' st' so' fixed volatile caps closing derivatives volatile' caps' closing' derivatives' : twins e e' -> walks e sv st so -> walks e' sv' st' so' ->
  extend zero_vertex zero_triangle fresh empty_disc position default e sv st so fixed volatile caps closing derivatives = Done e1 ->
  extend zero_vertex zero_triangle fresh empty_disc position default e' sv' st' so' fixed volatile' caps' closing' derivatives' = Done e1' -> twins e1 e1'.
Proof.
  intros TW PW PW' E E'. unfold extend in *. pose proof (before_volatile_twins e e' sv st so sv' st' so' fixed TW PW PW') as B.
  destruct (before_volatile _ _ _ _ _ _ e _ _ _ _) as [a| |]; cbn [bind] in E; try discriminate. destruct (before_volatile _ _ _ _ _ _ e' _ _ _ _) as [b| |]; cbn [bind] in E'; try discriminate. destruct B as (e0 & e0' & T0 & -> & ->). pose proof T0 as [EX LK (ps & tl & tr & G & G')].
  pose proof (volatile_good _ _ _ _ _ _ _ zero_vertex zero_triangle fresh empty_disc position e0 ps tl tr volatile caps closing derivatives G) as V. rewrite E in V. destruct V as (qs & V). pose proof (volatile_good _ _ _ _ _ _ _ zero_vertex zero_triangle fresh empty_disc position e0' ps tl tr volatile' caps' closing' derivatives' G') as V'. rewrite E' in V'. destruct V' as (qs' & V').
  apply (twins_since e0 e0' _ _ _ _ _ _ _ _ _ _ _ T0 V V').
Qed.
Lemma extend_same (e e' : extruder) sv st so sv' st' so' fixed volatile caps closing derivatives : twins e e' -> walks e sv st so -> walks e' sv' st' so' ->
  pair (fun a b => twin a b /\ exists ps, good a ps [] [] /\ good b ps [] [])
    (extend zero_vertex zero_triangle fresh empty_disc position default e sv st so fixed volatile caps closing derivatives) (extend zero_vertex zero_triangle fresh empty_disc position default e' sv' st' so' fixed volatile caps closing derivatives).
Proof.
  intros TW PW PW'. unfold extend. eapply pair_bind; [apply (before_volatile_twins e e' sv st so sv' st' so' fixed TW PW PW')|]. intros a b (e0 & e0' & [EX LK (ps & tl & tr & G & G')] & -> & ->).
  destruct (save_good _ _ _ _ _ _ _ zero_vertex e0 ps tl tr G) as [_ G1 _ _ RE _]. destruct (save_good _ _ _ _ _ _ _ zero_vertex e0' ps tl tr G') as [_ G1' _ _ RE' _].
  eapply pair_bind; [apply (handle_all_twin true true (extrusions e0) (extrusions e0') volatile); [|auto|auto]|].
  - split; [exact EX|apply save_like_save, LK|eauto].
  - intros c d T1. eapply pair_bind; [apply (break_twin c d caps closing derivatives T1)|]. intros f h ([EX2 LK2 _] & (qs & GF & GH)).
    destruct (update_current_ok _ _ _ _ _ _ _ position f _ _ _ GF) as (f' & -> & GF' & (C1 & C2 & C3 & C4 & C5) & _). destruct (update_current_ok _ _ _ _ _ _ _ position h _ _ _ GH) as (h' & -> & GH' & (D1 & D2 & D3 & D4 & D5) & _). cbn.
    split; [|eauto]. split; [congruence|rewrite C4, D4; exact LK2|eauto].
Qed.
Lemma fixed_twins (e e' : extruder) : same_fixed zero_vertex zero_triangle fresh empty_disc position default e e' -> twins e e'.
Proof.
  induction 1 as [r qs o qs' o' E E'|a b sv st so sv' st' so' fixed volatile volatile' caps closing derivatives caps' closing' derivatives' a' b' H IH PW PW' E E'].
  - destruct (StrokeOutlineProps.holds_run nat StrokeOutlineModel.fresh (@StrokeOutlineSpec.none nat) qs (StrokeOutlineProps.holds_fresh nat)) as (o1 & E1 & H1). rewrite E in E1. injection E1 as <-.
    destruct (StrokeOutlineProps.holds_run nat StrokeOutlineModel.fresh (@StrokeOutlineSpec.none nat) qs' (StrokeOutlineProps.holds_fresh nat)) as (o2 & E2 & H2). rewrite E' in E2. injection E2 as <-. eapply twins_new; eassumption.
  - eapply extend_twins; eassumption.
Qed.
End Extruder.
