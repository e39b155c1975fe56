(** C73: simplifying the outline of a stroke *)
From Coq Require Import ZArith Reals Lra Lia Psatz Bool Arith List.
From Flocq Require Import Core IEEE754.BinarySingleNaN.
From Verif Require Import F32 F32Lemmas F32Round NumModel EasingExact GeomModel GeomSpec GeomReal GeomExact GeomOps DistanceModel DistanceSpec DistanceProofs SimplifyModel SimplifySpec SimplifyProofs SimplifyExact.
Import ListNotations.
Local Open Scope R_scope.

(** ** For any ordered numbers *)
Section Any.
Context {N : num} {A : Type}.
Variable pos : A -> vec N.
Variable ok : T N -> Prop.
Hypothesis O : ordered N ok.
Notation D a b v := (dist_point_segment (pos v) (Seg (pos a) (pos b))).
Notation far eps a b v := (nlt N eps (D a b v) = true).
Lemma ends (l : list A) : (2 <= length l)%nat -> exists a mid b, l = a :: mid ++ [b].
Proof using. intros H. destruct l as [|a l]; [cbn in H; lia|]. destruct (exists_last (l := l) ltac:(intros ->; cbn in H; lia)) as (mid & b & ->). exists a, mid, b. reflexivity. Qed.
Lemma simplify_eq a mid b eps output : simplify pos (a :: mid ++ [b]) eps output = output ++ a :: interior pos eps (length mid) (Seg (pos a) (pos b)) mid ++ [b].
Proof using.
  destruct mid as [|v mid]; [reflexivity|]. unfold simplify. cbn [app]. destruct (mid ++ [b]) as [|w r] eqn:E; [destruct mid; discriminate|]. rewrite <- E. cbn zeta.
  change (v :: mid ++ [b]) with ((v :: mid) ++ [b]). rewrite last_last, removelast_last. replace (length (a :: (v :: mid) ++ [b]) - 2)%nat with (length (v :: mid)); [reflexivity|]. cbn [length]. rewrite app_length. cbn [length]. lia.
Qed.
Lemma simplify_short l eps output : (length l < 3)%nat -> simplify pos l eps output = output ++ l.
Proof using. intros H. destruct l as [|a [|b [|c l]]]; try reflexivity. cbn in H. lia. Qed.
Lemma kept l eps output : exists s, simplify pos l eps output = output ++ s /\ (l = [] /\ s = [] \/ drops (fun a b v => ~ far eps a b v) l s) /\ ((length l < 3)%nat -> s = l).
Proof using O.
  destruct (le_lt_dec 2 (length l)) as [H|H].
  - destruct (ends l H) as (a & mid & b & ->). rewrite simplify_eq. eexists. split; [reflexivity|]. split; [right; apply (I_drops pos ok O)|]. intros L. destruct mid; [reflexivity|]. cbn [length] in L. rewrite app_length in L. cbn in L. lia.
  - exists l. rewrite simplify_short by lia. split; [reflexivity|]. split; [|reflexivity]. destruct l as [|a [|]]; [left; auto|right; constructor|cbn in H; lia].
Qed.
Lemma same l eps : simplify pos (simplify pos l eps []) eps [] = simplify pos l eps [].
Proof using O.
  destruct (le_lt_dec 2 (length l)) as [H|H].
  - destruct (ends l H) as (a & mid & b & ->). rewrite simplify_eq. cbn [app]. rewrite simplify_eq. cbn [app]. rewrite (I_idem pos ok O). reflexivity.
  - rewrite (simplify_short l) by lia. cbn [app]. apply simplify_short. lia.
Qed.
Lemma negative l eps output : nlt N eps n0 = true -> simplify pos l eps output = output ++ l.
Proof using O.
  intros E. destruct (le_lt_dec 2 (length l)) as [H|H]; [|apply simplify_short; lia]. destruct (ends l H) as (a & mid & b & ->). rewrite simplify_eq. do 2 f_equal.
  assert (Q := I_ind pos ok O eps (fun _ l k => k = l)). cbv beta in Q. rewrite Q; [reflexivity| |reflexivity|intros; congruence].
  intros seg m i d F L. exfalso. destruct F as [(_ & -> & _)|(_ & _ & _ & _ & _ & _ & F & _)]; [congruence|]. rewrite (o_trans _ _ O _ _ _ E F) in L. discriminate.
Qed.
Lemma buffered_shape eps limit second simplified buffer s : buffered pos eps limit second simplified buffer = Some s ->
  nle N eps n0 = false /\ exists a b c r, buffer = a :: b :: c :: r /\
    drops (fun a b v => ~ far eps a b v) buffer s /\
    (second = false -> s = simplify pos buffer eps []) /\
    (second = true -> nlt N limit (dist_points (pos a) (pos c)) = true \/ (exists p, In p simplified /\ nlt N eps (dist_point_segment p (Seg (pos a) (pos c))) = true) -> s = a :: simplify pos (b :: c :: r) eps []) /\
    (second = true -> nlt N limit (dist_points (pos a) (pos c)) = false -> (forall p, In p simplified -> nlt N eps (dist_point_segment p (Seg (pos a) (pos c))) = false) -> s = simplify pos buffer eps []).
Proof using O.
  unfold buffered. destruct (nle N eps n0); [discriminate|]. destruct buffer as [|a [|b [|c r]]]; try discriminate. set (skip := if nlt N limit _ then _ else _). intros E. apply (f_equal (fun o => match o with Some x => x | None => [] end)) in E. subst s. split; [reflexivity|]. exists a, b, c, r. split; [reflexivity|].
  assert (S1 : simplify pos (b :: c :: r) eps [a] = a :: simplify pos (b :: c :: r) eps []). { destruct (ends (b :: c :: r) ltac:(cbn; lia)) as (x & m & y & ->). rewrite !simplify_eq. reflexivity. }
  assert (S2 : drops (fun a b v => ~ far eps a b v) (a :: b :: c :: r) (simplify pos (a :: b :: c :: r) eps [])). { destruct (kept (a :: b :: c :: r) eps []) as (s & -> & [[Q _]|Q] & _); [discriminate|exact Q]. }
  assert (S3 : drops (fun a b v => ~ far eps a b v) (a :: b :: c :: r) (a :: simplify pos (b :: c :: r) eps [])).
  { destruct (kept (b :: c :: r) eps []) as (s & -> & [[Q _]|Q] & _); [discriminate|]. cbn [app]. destruct s as [|y s]; [inversion Q|]. assert (y = b) as -> by (inversion Q; reflexivity). apply (drop_run _ a []); [intros v []|exact Q]. }
  split; [destruct (second && skip); [rewrite S1; exact S3|exact S2]|]. split; [intros ->; reflexivity|]. split.
  - intros -> H. replace (true && skip) with true; [exact S1|]. unfold skip. destruct (nlt N limit _) eqn:L; [reflexivity|]. destruct H as [H|(p & Hp & F)]; [discriminate|]. symmetry. apply existsb_exists. exists p. auto.
  - intros -> L H. replace (true && skip) with false; [reflexivity|]. unfold skip. rewrite L. symmetry. apply not_true_iff_false. intros Q. apply existsb_exists in Q. destruct Q as (p & Hp & F). rewrite (H p Hp) in F. discriminate.
Qed.
End Any.

(** ** In floats *)
Section Floats.
Variable E : elem.
Context {A : Type}.
Variable pos : A -> vec (fnum E).
Notation D a b v := (dist_point_segment (N := fnum E) (pos v) (Seg (pos a) (pos b))).
Notation far eps a b v := (flt eps (D a b v) = true).
(** Whatever the vertices (also with positions that are not finite) and the tolerance, vertices
    are only added to the output; fewer than three are copied; or else the first and the last are
    kept, the rest are kept in order and unchanged, and one that is left out is not farther than
    the tolerance from the segment between the two kept vertices around it. *)
Theorem C73_kept l eps output : exists s, simplify (N := fnum E) pos l eps output = output ++ s /\
  (l = [] /\ s = [] \/ drops (fun a b v => ~ far eps a b v) l s) /\ ((length l < 3)%nat -> s = l).
Proof. exact (kept (N := fnum E) pos _ (ordered_f E) l eps output). Qed.
(** They are the vertices that Ramer's, Douglas's and Peucker's algorithm keeps. *)
Theorem C73_peucker a mid b eps output : flt eps f0 = false -> exists k, simplify (N := fnum E) pos (a :: mid ++ [b]) eps output = output ++ a :: k ++ [b] /\
  peucker (fun a b v => far eps a b v) (fun a b x v => fle (D a b v) (D a b x) = true) (fun a b x v => flt (D a b v) (D a b x) = true) a b mid k.
Proof. intros H. rewrite simplify_eq. eexists. split; [reflexivity|]. exact (I_peucker (N := fnum E) pos _ (ordered_f E) eps a b mid H). Qed.
(** A second pass changes nothing. *)
Theorem C73_same l eps : simplify (N := fnum E) pos (simplify (N := fnum E) pos l eps []) eps [] = simplify (N := fnum E) pos l eps [].
Proof. exact (same (N := fnum E) pos _ (ordered_f E) l eps). Qed.
(** A negative tolerance keeps everything; one that is not a number only keeps the ends. *)
Theorem C73_negative l eps output : flt eps f0 = true -> simplify (N := fnum E) pos l eps output = output ++ l.
Proof. exact (negative (N := fnum E) pos _ (ordered_f E) l eps output). Qed.
Theorem C73_nan a mid b output : simplify (N := fnum E) pos (a :: mid ++ [b]) fnan output = output ++ [a; b].
Proof. rewrite simplify_eq. do 2 f_equal. destruct mid as [|v mid]; [reflexivity|]. cbn [length interior]. destruct (farthest _ _ _) as [i d]. cbn [fnum nlt]. rewrite flt_nan_l by reflexivity. reflexivity. Qed.

(** Which of the vertices of a new extrusion are considered.  With the first of them the last vertex
    of the extrusion before: it stays if without it there were a gap longer than the limit, or if a
    vertex that was removed before it were too far from the segment that replaces it. *)
Theorem C73_buffered eps limit second simplified buffer s : buffered (N := fnum E) pos eps limit second simplified buffer = Some s ->
  fle eps f0 = false /\ exists a b c r, buffer = a :: b :: c :: r /\
    drops (fun a b v => ~ far eps a b v) buffer s /\
    (second = false -> s = simplify (N := fnum E) pos buffer eps []) /\
    (second = true -> flt limit (dist_points (N := fnum E) (pos a) (pos c)) = true \/ (exists p, In p simplified /\ flt eps (dist_point_segment (N := fnum E) p (Seg (pos a) (pos c))) = true) -> s = a :: simplify (N := fnum E) pos (b :: c :: r) eps []) /\
    (second = true -> flt limit (dist_points (N := fnum E) (pos a) (pos c)) = false -> (forall p, In p simplified -> flt eps (dist_point_segment (N := fnum E) p (Seg (pos a) (pos c))) = false) -> s = simplify (N := fnum E) pos buffer eps []).
Proof. exact (buffered_shape (N := fnum E) pos _ (ordered_f E) eps limit second simplified buffer s). Qed.
End Floats.
Print Assumptions C73_kept.
Print Assumptions C73_peucker.
Print Assumptions C73_same.
Print Assumptions C73_negative.
Print Assumptions C73_nan.
Print Assumptions C73_buffered.

(** ** Without rounding *)
Section Exact.
Context {A : Type}.
Variable at_ : A -> pt.
Notation pos := (fun v => pv (at_ v)).
(** No point of the polyline is moved by more than the tolerance: for each there is one of the
    result that near, and for each of the result one of the polyline. *)
Theorem C73_near l e output : 0 <= e -> exists s, simplify (N := xnum) pos l (Fin e) output = output ++ s /\
  (forall p, on_line (map at_ l) p -> exists q, on_line (map at_ s) q /\ within e p q) /\
  (forall q, on_line (map at_ s) q -> exists p, on_line (map at_ l) p /\ within e q p).
Proof.
  intros H. destruct (kept (N := xnum) pos _ ordered_x l (Fin e) output) as (s & E & Q & _). exists s. split; [exact E|]. destruct Q as [[-> ->]|Q].
  - split; intros p ([|? [|]] & ? & ? & ? & F & _); discriminate.
  - apply drops_near; [exact H|]. refine (drops_map at_ _ _ _ _ _ Q). intros a b v. apply not_far_x. exact H.
Qed.
(** Positions that were removed before are near the result as well, though only within twice
    the tolerance; unless the last vertex of the extrusion before stays. *)
Theorem C73_before e limit removed buffer s : buffered (N := xnum) pos (Fin e) limit true (map pv removed) buffer = Some s ->
  0 < e /\ ((exists a b r k, buffer = a :: b :: r /\ s = a :: b :: k) \/ forall p, In p removed -> exists q, on_line (map at_ s) q /\ within (2 * e) p q).
Proof.
  intros Q. destruct (buffered_shape (N := xnum) pos _ ordered_x _ _ _ _ _ _ Q) as (L & a & b & c & r & -> & Dr & _ & H1 & H2).
  assert (E0 : 0 < e). { destruct (Rlt_le_dec 0 e) as [X|X]; [exact X|]. exfalso. rewrite x0, le_xf in L. lra. } split; [exact E0|].
  assert (K : a :: simplify (N := xnum) pos (b :: c :: r) (Fin e) [] = s -> exists a0 b0 r0 k, a :: b :: c :: r = a0 :: b0 :: r0 /\ s = a0 :: b0 :: k).
  { intros <-. destruct (ends (b :: c :: r) ltac:(cbn; lia)) as (x & m & y & F). rewrite F, simplify_eq. assert (x = b) as -> by (cbn in F; injection F; auto). eexists a, b, _, _. split; [reflexivity|]. cbn [app]. reflexivity. }
  destruct (nlt xnum limit (dist_points (N := xnum) (pv (at_ a)) (pv (at_ c)))) eqn:Lm; [left; apply K; symmetry; apply H1; auto|].
  destruct (existsb (fun p => nlt xnum (Fin e) (dist_point_segment (N := xnum) p (Seg (pv (at_ a)) (pv (at_ c))))) (map pv removed)) eqn:Ex.
  { left. apply K. symmetry. apply H1; [reflexivity|]. right. apply existsb_exists in Ex. destruct Ex as (p & Hp & F). exists p. auto. }
  assert (Np : forall p, In p removed -> near_seg e (at_ a) (at_ c) p).
  { intros p Hp. apply not_far_x; [lra|]. intros F. apply not_true_iff_false in Ex. apply Ex. apply existsb_exists. exists (pv p). split; [apply in_map; exact Hp|exact F]. }
  assert (Inv : exists mid x l k, s = a :: x :: k /\ b :: c :: r = mid ++ x :: l /\ forall v, In v mid -> near_seg e (at_ a) (at_ x) (at_ v)).
  { inversion Dr as [|a' mid x l k Hn D' Ea Es]; subst. exists mid, x, l, k. split; [reflexivity|]. split; [auto|]. intros v Hv. apply not_far_x; [lra|]. apply Hn. exact Hv. }
  destruct Inv as (mid & x & l & k & -> & F & Hn). destruct mid as [|b' mid]; cbn in F; injection F; intros F2 F1.
  - left. subst. exists a, x, (c :: r), k. auto.
  - right. intros p Hp. destruct (Np p Hp) as (q & (t & Ht & ->) & W). subst b'. destruct mid as [|c' mid]; cbn in F2; injection F2; intros; subst.
    + exists (mix t (at_ a) (at_ x)). split; [cbn [map]; rewrite on_cons; left; exists t; auto|]. unfold within in *. lra.
    + destruct (Hn c' (or_intror (or_introl eq_refl))) as (q & Hq & W2). exists (mix t (at_ a) q). split.
      * cbn [map]. rewrite on_cons. left. apply seg_conv; [exact Ht|exists 0; split; [lra|symmetry; apply mix_0]|exact Hq].
      * replace (2 * e) with (e + e) by ring. apply (within_trans e e p (mix t (at_ a) (at_ c'))); try lra; [exact W|]. apply within_mix; try lra; [apply within_refl; lra|exact W2].
Qed.
End Exact.
Print Assumptions C73_near.
Print Assumptions C73_before.

(** *** What they do not do *)
Lemma all_near {A} (at_ : A -> pt) a mid b e output : 0 <= e -> (forall v, In v mid -> near_seg e (at_ a) (at_ b) (at_ v)) ->
  simplify (N := xnum) (fun v => pv (at_ v)) (a :: mid ++ [b]) (Fin e) output = output ++ [a; b].
Proof.
  intros He H. rewrite simplify_eq. do 2 f_equal. pose proof (scan (N := xnum) (fun v => pv (at_ v)) _ ordered_x (Seg (pv (at_ a)) (pv (at_ b))) mid) as F.
  rewrite (step_stop _ _ ordered_x (Fin e) _ _ _ _ _ F); [reflexivity|]. destruct F as [(_ & F & _)|(l1 & v & l2 & El & _ & F & _)]; rewrite F.
  - rewrite x0, lt_xf. exact He.
  - apply not_true_iff_false. rewrite far_x by exact He. intros Q. apply Q. apply H. rewrite El. apply in_or_app. right. left. reflexivity.
Qed.
(** Points are near the result, but not in their order: when the polyline goes back and forth, the
    result need not. *)
Theorem C73_order_refuted : let a := P 0 0 in let b := P 12 0 in
  simplify (N := xnum) pv [a; P 10 0; P 2 0; b] (Fin 1) [] = [a; b] /\
  ~ exists s t, 0 <= s <= t /\ t <= 1 /\ within 1 (P 10 0) (mix s a b) /\ within 1 (P 2 0) (mix t a b).
Proof.
  cbv zeta. split.
  - apply (all_near (fun v => v) (P 0 0) [P 10 0; P 2 0] (P 12 0) 1 []); [lra|]. intros v [<-|[<-|[]]]; [exists (P 10 0)|exists (P 2 0)]; (split; [|apply within_refl; lra]); [exists (10/12)|exists (2/12)]; (split; [lra|]); unfold mix; cbn; f_equal; lra.
  - intros (s & t & H1 & H2 & H3 & H4). rewrite within_sq in H3, H4 by lra. unfold dist2, mix in H3, H4. cbn [px py] in H3, H4. nra.
Qed.
Print Assumptions C73_order_refuted.
(** The check that a removal before stays valid looks at the segment to the next vertex, also when
    that is removed as well: then positions removed before can be too far from the result. *)
Theorem C73_before_refuted : let a := P 0 0 in let d := P 16 0 in
  buffered (N := xnum) pv (Fin 1) (Fin 100) true [pv (P 4 (17/16))] [a; P 4 (1/2); P 8 1; d] = Some [a; d] /\
  ~ exists q, on_line [a; d] q /\ within 1 (P 4 (17/16)) q.
Proof.
  cbv zeta. split.
  - unfold buffered. rewrite x0. replace (nle xnum (Fin 1) (Fin 0)) with false by (symmetry; apply le_xf; lra).
    replace (nlt xnum (Fin 100) (dist_points (N := xnum) (pv (P 0 0)) (pv (P 8 1)))) with false.
    2:{ symmetry. rewrite points_x. apply lt_xf. rewrite <- (sqrt_square 100) by lra. apply sqrt_le_1_alt. unfold dist2. cbn. lra. }
    cbn [existsb]. replace (nlt xnum (Fin 1) _) with false.
    2:{ symmetry. apply not_true_iff_false. rewrite far_x by lra. intros Q. apply Q. exists (mix (1/2) (P 0 0) (P 8 1)). split; [exists (1/2); split; [lra|reflexivity]|]. apply within_sq; [lra|]. unfold dist2, mix. cbn. lra. }
    cbn [orb andb]. f_equal. apply (all_near (fun v => v) (P 0 0) [P 4 (1/2); P 8 1] (P 16 0) 1 []); [lra|].
    intros v [<-|[<-|[]]]; [exists (mix (4/16) (P 0 0) (P 16 0))|exists (mix (8/16) (P 0 0) (P 16 0))]; (split; [eexists; split; [|reflexivity]; lra|]); apply within_sq; try lra; unfold dist2, mix; cbn; lra.
  - intros (q & Hq & W). rewrite on_cons in Hq. destruct Hq as [(t & Ht & ->)|Hq]; [|destruct (on_one _ _ Hq)]. rewrite within_sq in W by lra. unfold dist2, mix in W. cbn [px py] in W. pose proof (Rle_0_sqr (4 - ((1 - t) * 0 + t * 16))) as Z. unfold Rsqr in Z. lra.
Qed.
Print Assumptions C73_before_refuted.

(** ** Examples *)
Section Example_.
Variable E : elem.
(** with this [hypot] distances can be computed *)
Definition sqrt_elem : elem := {| e_exp := e_exp E; e_sin := e_sin E; e_cos := e_cos E; e_tan := e_tan E; e_atan := e_atan E; e_atan2 := e_atan2 E; e_hypot := fun x y => fsqrt (fadd (fmul x x) (fmul y y)); e_fmod := e_fmod E |}.
Notation F := (fnum sqrt_elem).
Definition vertex : Type := nat * Z * Z.
Definition at_f (v : vertex) : vec F := V (fZ (snd (fst v)) : T F) (fZ (snd v) : T F).
(** three of six vertices go; with a wide tolerance, only the ends stay *)
Definition bend : list vertex := [(0%nat, 0, 0); (1%nat, 4, 1); (2%nat, 8, 0); (3%nat, 8, 8); (4%nat, 7, 12); (5%nat, 8, 16)]%Z.
Example C73_bend : map (fun v => fst (fst v)) (simplify (N := F) at_f bend (fZ 2) []) = [0; 2; 5]%nat.
Proof. vm_compute. reflexivity. Qed.
Example C73_bend_tight : map (fun v => fst (fst v)) (simplify (N := F) at_f bend f0 []) = [0; 1; 2; 3; 4; 5]%nat.
Proof. vm_compute. reflexivity. Qed.
Example C73_bend_wide : map (fun v => fst (fst v)) (simplify (N := F) at_f bend (fZ 20) []) = [0; 5]%nat.
Proof. vm_compute. reflexivity. Qed.
Example C73_bend_drops : flt (fZ 2) f0 = false /\ flt (dist_point_segment (N := F) (at_f (1%nat, 4, 1)%Z) (Seg (at_f (0%nat, 0, 0)%Z) (at_f (2%nat, 8, 0)%Z))) (fZ 2) = true.
Proof. vm_compute. split; reflexivity. Qed.
(** the last vertex before stays because of the limit, because of one removed before it, or goes *)
Example C73_buffered_limit : match buffered (N := F) at_f (fZ 2) (fZ 5) true [] bend with Some s => map (fun v => fst (fst v)) s | None => [] end = [0; 1; 2; 5]%nat.
Proof. vm_compute. reflexivity. Qed.
Example C73_buffered_before : match buffered (N := F) at_f (fZ 2) (fZ 50) true [V (fZ 4 : T F) (fZ 3 : T F)] bend with Some s => map (fun v => fst (fst v)) s | None => [] end = [0; 1; 2; 5]%nat.
Proof. vm_compute. reflexivity. Qed.
Example C73_buffered_goes : match buffered (N := F) at_f (fZ 2) (fZ 50) true [V (fZ 4 : T F) (fZ 1 : T F)] bend with Some s => map (fun v => fst (fst v)) s | None => [] end = [0; 2; 5]%nat.
Proof. vm_compute. reflexivity. Qed.
Example C73_buffered_off : (match buffered (N := F) at_f f0 (fZ 50) true [] bend with None => true | _ => false end) = true /\ fle (fZ 2) f0 = false.
Proof. vm_compute. split; reflexivity. Qed.
End Example_.
(** [C73_before] has a case where the vertex goes and something was removed before *)
Example C73_before_case : exists s, buffered (N := xnum) pv (Fin 1) (Fin 100) true (map pv [P 4 (17/16)]) [P 0 0; P 4 (1/2); P 8 1; P 16 0] = Some s.
Proof. eexists. exact (proj1 C73_before_refuted). Qed.
Example C73_near_case : 0 <= 1 /\ simplify (N := xnum) pv [P 0 0; P 10 0; P 2 0; P 12 0] (Fin 1) [] = [P 0 0; P 12 0].
Proof. split; [lra|exact (proj1 C73_order_refuted)]. Qed.
