(** C85: margins and averages of derivatives. *)
From Coq Require Import ZArith Bool Reals Lra Lia Psatz Permutation Arith List.
From Flocq Require Import Core.
From Verif Require BehaviorExact.
From Verif Require Import NumModel EasingExact GeomModel GeomSpec GeomReal GeomExact AlgorithmsModel AlgorithmsSpec AlgorithmsProofs AlgorithmsProps CircleModel MarginModel MarginSpec.
Import ListNotations.
Local Open Scope nat_scope.

(** ** Either reading of numbers *)
Section Any.
Context {M : num}.
Definition below (least : nat) (t : nat * nat * nat) : Prop := let '(i, j, k) := t in i < least /\ j < least /\ k < least.
Lemma below_b least i j k : (i <? least) && (j <? least) && (k <? least) = true <-> below least (i, j, k).
Proof. unfold below. rewrite !andb_true_iff, !Nat.ltb_lt. tauto. Qed.
(** triangles are handed on from the last down to the first whose corners are all before the tracked ones *)
Theorem C85_handed least l : exists rest, l = handed least l ++ rest /\ (forall t, In t (handed least l) -> ~ below least t) /\ match rest with [] => True | t :: _ => below least t end.
Proof.
  induction l as [|[[i j] k] l (rest & E & A & B)]; [exists []; cbn; tauto|]. cbn [handed]. destruct ((i <? least) && (j <? least) && (k <? least)) eqn:Q.
  - apply below_b in Q. exists ((i, j, k) :: l). cbn [app]. split; [reflexivity|]. split; [intros t []|exact Q].
  - exists rest. cbn [app]. split; [congruence|]. split; [|exact B]. intros t [<-|I]; [|exact (A t I)]. intros X. apply below_b in X. congruence.
Qed.
(** so none that has a tracked corner is missed if these are all at the end *)
Theorem C85_none_missed least l t : (forall before x after, l = before ++ x :: after -> below least x -> forall y, In y after -> below least y) -> In t l -> ~ below least t -> In t (handed least l).
Proof.
  intros S I NB. destruct (C85_handed least l) as (rest & E & _ & B). rewrite E in I. apply in_app_iff in I. destruct I as [I|I]; [exact I|]. destruct rest as [|x rest]; [destruct I|]. elim NB. destruct I as [<-|I]; [exact B|]. exact (S _ _ _ E B t I).
Qed.
Lemma change_length {A} (f : A -> A) n l : length (change_at f n l) = length l.
Proof. revert n. induction l as [|x l IH]; intros [|n]; cbn; congruence. Qed.
Lemma change_nth {A} (f : A -> A) n l k d : nth k (change_at f n l) d = if Nat.eqb k n then (if k <? length l then f (nth k l d) else d) else nth k l d.
Proof.
  revert n k. induction l as [|x l IH]; intros [|n] [|k]; cbn [change_at nth length]; try reflexivity; try (destruct (Nat.eqb _ _); reflexivity).
  rewrite IH. change (S k =? S n) with (k =? n). change (S k <? S (length l)) with (k <? length l). reflexivity.
Qed.
(** what is kept for a vertex is the least of the bounds saved for it *)
Definition saved_for (i : nat) (saves : list (nat * T M)) : list (T M) := map snd (filter (fun s => Nat.eqb (fst s) i) saves).
Theorem C85_tracked least saves : forall tracked i, least <= i < least + length tracked ->
  nth (i - least) (fold_left (save (N := M) least) saves tracked) most = fold_left nmin (saved_for i saves) (nth (i - least) tracked most).
Proof.
  induction saves as [|[j b] saves IH]; intros tracked i I; [reflexivity|]. cbn [fold_left].
  assert (L : length (save least tracked (j, b)) = length tracked) by (unfold save; destruct (_ <? _); [reflexivity|apply change_length]).
  rewrite IH by lia. unfold saved_for at 2. cbn [filter fst]. destruct (Nat.eqb_spec j i) as [->|NE].
  - cbn [map fold_left snd]. f_equal. unfold save. cbn [fst snd]. destruct (Nat.ltb_spec i least); [lia|]. rewrite change_nth, Nat.eqb_refl. destruct (Nat.ltb_spec (i - least) (length tracked)); [reflexivity|lia].
  - fold (saved_for i saves). f_equal. unfold save. cbn [fst snd]. destruct (Nat.ltb_spec j least); [reflexivity|]. rewrite change_nth. destruct (Nat.eqb_spec (i - least) (j - least)); [lia|reflexivity].
Qed.
(** one vertex after another in the same place, none of them behind a partition that ends there *)
Inductive run (m : view M) (first : vec M) : nat -> list nat -> Prop :=
| run_one i : run m first i []
| run_next i j l : veq (place m j) first = true -> ~ (back m i = true /\ back m j = false) -> run m first j l -> run m first i (j :: l).
Definition ends (m : view M) (i : nat) (group rest : list nat) : Prop :=
  match rest with [] => True | j :: _ => veq (place m j) (place m i) = false \/ back m (last group i) = true /\ back m j = false end.
Lemma connected_run m first : forall l i, run m first i (firstn (connected m first i l) l) /\
  match skipn (connected m first i l) l with [] => True | j :: _ => veq (place m j) first = false \/ back m (last (firstn (connected m first i l) l) i) = true /\ back m j = false end.
Proof.
  induction l as [|j l IH]; intros i; cbn [connected firstn skipn]; [split; [constructor|exact I]|]. destruct (veq (place m j) first) eqn:V; cbn [negb].
  - destruct (back m i && negb (back m j)) eqn:B.
    + apply andb_true_iff in B. rewrite negb_true_iff in B. cbn [firstn skipn last]. split; [constructor|]. right. exact B.
    + cbn [firstn skipn]. destruct (IH j) as [R E]. split; [constructor; [exact V| |exact R]; intros [X Y]; rewrite X, Y in B; discriminate B|].
      destruct (skipn (connected m first j l) l) as [|x rest]; [exact I|]. destruct E as [E|E]; [left; exact E|right].
      replace (last (j :: firstn (connected m first j l) l) i) with (last (firstn (connected m first j l) l) j); [exact E|]. destruct (firstn (connected m first j l) l) as [|y k] eqn:F; [reflexivity|]. clear. cbn [last]. revert y. induction k as [|z k IH]; intros y; [reflexivity|]. cbn [last] in *. apply IH.
  - cbn [firstn skipn]. split; [constructor|]. left. exact V.
Qed.
(** every index is written once and in order; the vertices of each run that cannot be continued get the least margin of the run *)
Theorem C85_groups least tracked (m : view M) : forall fuel indices, length indices <= fuel -> exists groups,
  concat (map (fun g => fst g :: snd g) groups) = indices /\
  update_margins fuel least tracked m indices = flat_map (fun g => map (fun x => (x, side_margin least tracked (fst g :: snd g))) (fst g :: snd g)) groups /\
  forall before g after, groups = before ++ g :: after -> run m (place m (fst g)) (fst g) (snd g) /\ ends m (fst g) (snd g) (concat (map (fun g => fst g :: snd g) after)).
Proof.
  induction fuel as [|fuel IH]; intros indices L.
  - destruct indices; [|cbn in L; lia]. exists []. split; [reflexivity|]. split; [reflexivity|]. intros [|? ?] ? ? E; discriminate E.
  - destruct indices as [|i rest]; [exists []; split; [reflexivity|]; split; [reflexivity|]; intros [|? ?] ? ? E; discriminate E|]. cbn [update_margins]. destruct (connected_run m (place m i) rest i) as [R E]. set (n := connected m (place m i) i rest) in *.
    destruct (IH (skipn n rest)) as (gs & C & U & G); [rewrite skipn_length; cbn in L; lia|]. exists ((i, firstn n rest) :: gs). cbn [map concat flat_map fst snd]. split; [|split].
    + rewrite C. cbn [app]. f_equal. apply firstn_skipn.
    + rewrite U. reflexivity.
    + intros [|b before] g after Q; injection Q as <- Q; [|exact (G before g after Q)]. cbn [fst snd]. subst gs. split; [exact R|]. unfold ends. rewrite C. exact E.
Qed.
End Any.

(** ** Exact arithmetic *)
Local Open Scope R_scope.
Notation N := xnum.
Lemma most_x : most (N := N) = Fin 4. Proof. unfold most. rewrite xZ. reflexivity. Qed.
Lemma aside_mix a b v e t : aside a b (mix t v e) = aside a b v - t * (px (sub e v) * py (sub b a) - py (sub e v) * px (sub b a)).
Proof. unfold aside, sub, mix. cbn. ring. Qed.
(** a vertex on its way along a segment crosses the line of another one only after the bound, and reaches it there unless it never does *)
Theorem C85_bound v e a b : exists m, margin_bound (N := N) (sg v e) (sg a b) = Fin m /\ 0 <= m /\ (forall t, 0 <= t <= m -> keeps a b v (mix t v e)) /\
  (aside a b (mix m v e) = 0 \/ m = 4 /\ forall t, 0 <= t -> keeps a b v (mix t v e)).
Proof.
  unfold margin_bound, line_ratio, seg_vector. cbn [sg s_start s_end]. rewrite !sub_x, !det_x, x0, most_x. set (d := det2 (sub e v) (sub b a)).
  assert (AS : forall t, aside a b (mix t v e) = aside a b v - t * d) by (intros t; rewrite aside_mix; unfold d, det2; ring). unfold keeps.
  destruct (neqb N (Fin d) (Fin 0)) eqn:D.
  - apply eq_x in D. exists 4. split; [reflexivity|]. split; [lra|]. split; [intros t _; rewrite AS, D; nra|]. right. split; [reflexivity|]. intros t _. rewrite AS, D. nra.
  - apply eq_xf in D. rewrite !div_x by exact D. replace (det2 (sub a v) (sub b a)) with (aside a b v) by (unfold aside, det2, sub; cbn; ring). set (s := aside a b v) in *. set (r := s / d). assert (RD : s = r * d) by (unfold r; field; exact D).
    destruct (nle N (Fin 0) (Fin r)) eqn:Q; [apply le_x in Q|apply le_xf in Q].
    + exists r. split; [reflexivity|]. split; [exact Q|]. split; [|left; rewrite AS, RD; ring]. intros t T. rewrite AS, RD. replace (r * d * (r * d - t * d)) with (r * (r - t) * (d * d)) by ring. apply Rmult_le_pos; [|nra]. apply Rmult_le_pos; lra.
    + assert (G : forall t, 0 <= t -> 0 <= s * aside a b (mix t v e)). { intros t T. rewrite AS, RD. replace (r * d * (r * d - t * d)) with (- r * (t - r) * (d * d)) by ring. apply Rmult_le_pos; [|nra]. apply Rmult_le_pos; lra. }
      exists 4. split; [reflexivity|]. split; [lra|]. split; [intros t T; apply G; lra|]. right. split; [reflexivity|exact G].
Qed.
Lemma mid_order : tenth <= nine_tenths /\ 0 < tenth /\ nine_tenths < 1. Proof. unfold tenth, nine_tenths. lra. Qed.
(** the line of a vertex goes through the point nearest to it in the middle part of the opposite side *)
Theorem C85_gate v c d : c <> d -> exists g, bounding_segment (N := N) (pv v) (sg c d) = sg v g /\ gate v c d g.
Proof.
  intros NE. destruct (project_x c d v NE) as [L E]. unfold bounding_segment. rewrite E. set (f := dot2 (sub v c) (sub d c) / dot2 (sub d c) (sub d c)).
  assert (B1 : ndy N 13421773 (-27) = Fin tenth) by (rewrite xdy; f_equal; unfold tenth; cbn; lra). assert (B2 : ndy N 15099494 (-24) = Fin nine_tenths) by (rewrite xdy; f_equal; unfold nine_tenths; cbn; lra). rewrite B1, B2. pose proof mid_order as (MO & _ & _).
  assert (DS : forall r, dist2 v (mix r c d) = dist2 v (mix f c d) + (r - f) * (r - f) * dot2 (sub d c) (sub d c)).
  { intros r. assert (F : f * dot2 (sub d c) (sub d c) = dot2 (sub v c) (sub d c)) by (unfold f; field; lra). apply Rminus_diag_uniq. transitivity (2 * (r - f) * (f * dot2 (sub d c) (sub d c) - dot2 (sub v c) (sub d c))); [unfold dist2, mix, dot2, sub; cbn; ring|rewrite F; ring]. }
  assert (C : exists r, nclamp (N := N) (Fin f) (Fin tenth) (Fin nine_tenths) = Fin r /\ tenth <= r <= nine_tenths /\ forall r', tenth <= r' <= nine_tenths -> (r - f) * (r - f) <= (r' - f) * (r' - f)).
  { unfold nclamp. destruct (nlt N (Fin f) (Fin tenth)) eqn:Q1; [apply lt_x in Q1; exists tenth; split; [reflexivity|]; split; [lra|]; intros r' R; nra|]. apply lt_xf in Q1.
    destruct (nlt N (Fin nine_tenths) (Fin f)) eqn:Q2; [apply lt_x in Q2; exists nine_tenths; split; [reflexivity|]; split; [lra|]; intros r' R; nra|]. apply lt_xf in Q2. exists f. split; [reflexivity|]. split; [lra|]. intros r' R. replace ((f - f) * (f - f)) with 0 by ring. apply Rle_0_sqr. }
  destruct C as (r & -> & R & RM). exists (mix r c d). split.
  - rewrite lerp_x. unfold sg. f_equal. f_equal. apply pt_eq; cbn; ring.
  - exists r. split; [exact R|]. split; [reflexivity|]. intros r' R'. rewrite (DS r), (DS r'). specialize (RM r' R'). nra.
Qed.
Definition area2 (a b c : pt) : R := aside a b c.
Lemma gate_splits c d v g : area2 v c d <> 0 -> gate c d v g -> aside c g v * aside c g d < 0.
Proof.
  intros A (r & R & -> & _). pose proof mid_order as (_ & M1 & M2). replace (aside c (mix r d v) v) with ((1 - r) * area2 v c d) by (unfold area2, aside, mix; cbn; ring). replace (aside c (mix r d v) d) with (- r * area2 v c d) by (unfold area2, aside, mix; cbn; ring).
  assert (0 < area2 v c d * area2 v c d) by nra. assert (0 < r * (1 - r)) by nra. nra.
Qed.
(** ** Meshes *)
Definition xview (pos : nat -> pt) (sgn : nat -> Z) (slp : nat -> pt) (bk : nat -> bool) ts : view N := View (fun i => pv (pos i)) sgn (fun i => pv (slp i)) bk ts.
Definition way (sgn : nat -> Z) (slp : nat -> pt) (i : nat) : pt := P (IZR (sgn i) * px (slp i)) (IZR (sgn i) * py (slp i)).
Lemma moved_mix v dir t : mix t v (moved v 1 dir) = moved v t dir. Proof. apply pt_eq; cbn; ring. Qed.
Lemma aside_0 v t dir : dir = P 0 0 -> moved v t dir = v. Proof. intros ->. apply pt_eq; cbn; ring. Qed.
Definition good (pos : nat -> pt) sgn slp (i j k : nat) (x : R) : Prop :=
  0 <= x /\ free (pos i) (pos j) (pos k) (way sgn slp i) x /\ (sgn i = 0%Z /\ x = 0 \/ sgn i <> 0%Z /\ farthest (pos i) (pos j) (pos k) (way sgn slp i) x).
Lemma vertex_ok pos sgn slp bk ts i j k g h : area2 (pos i) (pos j) (pos k) <> 0 -> gate (pos j) (pos k) (pos i) g -> gate (pos k) (pos i) (pos j) h ->
  exists x, vertex_bound (N := N) (xview pos sgn slp bk ts) i (sg (pos j) g) (sg (pos k) h) = Fin x /\ good pos sgn slp i j k x.
Proof.
  intros A G H. pose proof (gate_splits _ _ _ _ A G) as S1. assert (S2 : aside (pos k) h (pos i) * aside (pos k) h (pos j) < 0).
  { rewrite Rmult_comm. apply gate_splits; [|destruct H as (r & R & E & M)]; [intros Q; apply A; rewrite <- Q; unfold area2, aside; ring|].
    exists r. auto. }
  unfold vertex_bound. cbn [xview outset place slope]. destruct (Z.eqb_spec (sgn i) 0) as [Z|Z].
  - rewrite x0. exists 0. split; [reflexivity|]. split; [lra|]. split; [|left; auto]. exists g, h. do 4 (split; [assumption|]). intros t T. rewrite aside_0 by (unfold way; rewrite Z; apply pt_eq; cbn; ring). unfold keeps. split; nra.
  - replace (outset_segment (N := N) (pv (pos i)) (nZ (sgn i)) (pv (slp i))) with (sg (pos i) (moved (pos i) 1 (way sgn slp i))).
    2:{ unfold outset_segment, sg, moved, way. rewrite xZ. f_equal. unfold pv. cbn. f_equal; f_equal; ring. }
    destruct (C85_bound (pos i) (moved (pos i) 1 (way sgn slp i)) (pos j) g) as (x & -> & X0 & XK & XF). destruct (C85_bound (pos i) (moved (pos i) 1 (way sgn slp i)) (pos k) h) as (y & -> & Y0 & YK & YF).
    rewrite min_x. exists (Rmin x y). split; [reflexivity|]. pose proof (Rmin_l x y). pose proof (Rmin_r x y). split; [apply Rmin_glb; assumption|]. split.
    + exists g, h. do 4 (split; [assumption|]). intros t T. rewrite <- moved_mix. split; [apply XK|apply YK]; lra.
    + right. split; [exact Z|]. unfold farthest. rewrite moved_mix in XF, YF. unfold Rmin. destruct (Rle_dec x y).
      * destruct XF as [XF|[XF _]]; [right; exists g, h; auto|left; exact XF].
      * destruct YF as [YF|[YF _]]; [right; exists g, h; auto|left; exact YF].
Qed.
Lemma area_x a b c : neqb N (signed_area (Tri (pv a) (pv b) (pv c))) n0 = true <-> area2 a b c = 0.
Proof.
  unfold signed_area. cbn [p0 p1 p2]. rewrite !sub_x, det_x, half_x, x0. cbn [nmul N xmul]. rewrite eq_x. replace (det2 (sub b a) (sub c b)) with (area2 a b c) by (unfold area2, aside, det2, sub; cbn; ring). lra.
Qed.
(** the bounds that a triangle sets for its corners *)
Theorem C85_triangle pos sgn slp bk ts i j k : area2 (pos i) (pos j) (pos k) <> 0 -> exists x y z,
  triangle_bounds (N := N) (xview pos sgn slp bk ts) (i, j, k) = [(i, Fin x); (j, Fin y); (k, Fin z)] /\ good pos sgn slp i j k x /\ good pos sgn slp j k i y /\ good pos sgn slp k i j z.
Proof.
  intros A. assert (A2 : area2 (pos j) (pos k) (pos i) <> 0) by (intros Q; apply A; rewrite <- Q; unfold area2, aside; ring). assert (A3 : area2 (pos k) (pos i) (pos j) <> 0) by (intros Q; apply A; rewrite <- Q; unfold area2, aside; ring).
  assert (N1 : pos j <> pos k) by (intros Q; apply A; rewrite Q; unfold area2, aside; ring). assert (N2 : pos k <> pos i) by (intros Q; apply A; rewrite Q; unfold area2, aside; ring). assert (N3 : pos i <> pos j) by (intros Q; apply A; rewrite Q; unfold area2, aside; ring).
  unfold triangle_bounds. change (place (xview pos sgn slp bk ts)) with (fun i => pv (pos i)). cbv beta zeta. destruct (neqb N (signed_area _) n0) eqn:Z; [apply area_x in Z; contradiction|].
  change (Seg (pv (pos j)) (pv (pos k))) with (sg (pos j) (pos k)). change (Seg (pv (pos k)) (pv (pos i))) with (sg (pos k) (pos i)). change (Seg (pv (pos i)) (pv (pos j))) with (sg (pos i) (pos j)).
  destruct (C85_gate (pos i) _ _ N1) as (ga & -> & GA). destruct (C85_gate (pos j) _ _ N2) as (gb & -> & GB). destruct (C85_gate (pos k) _ _ N3) as (gc & -> & GC).
  destruct (vertex_ok pos sgn slp bk ts i j k gb gc A GB GC) as (x & -> & X). destruct (vertex_ok pos sgn slp bk ts j k i gc ga A2 GC GA) as (y & -> & Y). destruct (vertex_ok pos sgn slp bk ts k i j ga gb A3 GA GB) as (z & -> & Z').
  exists x, y, z. auto.
Qed.
(** one whose corners are on a line holds them there if they are apart, and sets no bound if two of them are in the same place *)
Theorem C85_flat pos sgn slp bk ts i j k : area2 (pos i) (pos j) (pos k) = 0 ->
  (pos i <> pos j -> pos i <> pos k -> pos j <> pos k -> triangle_bounds (N := N) (xview pos sgn slp bk ts) (i, j, k) = [(i, Fin 0); (j, Fin 0); (k, Fin 0)]) /\
  (pos i = pos j \/ pos i = pos k \/ pos j = pos k -> triangle_bounds (N := N) (xview pos sgn slp bk ts) (i, j, k) = []).
Proof.
  intros A. unfold triangle_bounds. change (place (xview pos sgn slp bk ts)) with (fun i => pv (pos i)). cbv beta zeta. rewrite (proj2 (area_x _ _ _) A). split.
  - intros H1 H2 H3. rewrite (proj2 (veq_xf _ _) H1), (proj2 (veq_xf _ _) H2), (proj2 (veq_xf _ _) H3), x0. reflexivity.
  - intros [H|[H|H]]; rewrite (proj2 (veq_x _ _) H); cbn [negb andb]; rewrite ?andb_false_r; reflexivity.
Qed.
Lemma fold_least l : forall a, 0 <= a -> (forall y, In y l -> exists x, y = Fin x /\ 0 <= x) -> exists m, fold_left (nmin (N := N)) l (Fin a) = Fin m /\ 0 <= m <= a /\ (forall x, In (Fin x) l -> m <= x) /\ (m = a \/ In (Fin m) l).
Proof.
  induction l as [|y l IH]; intros a A H; [exists a; cbn; repeat split; try lra; tauto|]. cbn [fold_left]. destruct (H y (or_introl eq_refl)) as (x & -> & X). rewrite min_x.
  destruct (IH (Rmin a x)) as (m & E & B & C & D); [apply Rmin_glb; assumption|intros z Z; apply H; right; exact Z|]. pose proof (Rmin_l a x). pose proof (Rmin_r a x). exists m. split; [exact E|]. split; [lra|]. split.
  - intros z [Z|Z]; [injection Z as ->; lra|exact (C z Z)].
  - destruct D as [D|D]; [|right; right; exact D]. unfold Rmin in D. destruct (Rle_dec a x); [left; exact D|right; left; congruence].
Qed.
Lemma pt_dec' (a b : pt) : a = b \/ a <> b. Proof. destruct a as [x y], b as [u v]. destruct (Req_dec x u) as [X|X]; [|right; congruence]. destruct (Req_dec y v) as [Y|Y]; [left|right]; congruence. Qed.
Lemma bounds_fin pos sgn slp bk ts t s : In s (triangle_bounds (N := N) (xview pos sgn slp bk ts) t) -> exists x, snd s = Fin x /\ 0 <= x.
Proof.
  destruct t as [[i j] k]. destruct (Req_dec (area2 (pos i) (pos j) (pos k)) 0) as [Z|Z].
  - destruct (C85_flat pos sgn slp bk ts i j k Z) as [A B]. destruct (pt_dec' (pos i) (pos j)) as [E|E]; [rewrite B by auto; intros []|]. destruct (pt_dec' (pos i) (pos k)) as [E'|E']; [rewrite B by auto; intros []|]. destruct (pt_dec' (pos j) (pos k)) as [E2|E2]; [rewrite B by auto; intros []|].
    rewrite A by assumption. intros [<-|[<-|[<-|[]]]]; exists 0; (split; [reflexivity|lra]).
  - destruct (C85_triangle pos sgn slp bk ts i j k Z) as (x & y & z & -> & (X & _) & (Y & _) & (Z' & _)). intros [<-|[<-|[<-|[]]]]; eexists; (split; [reflexivity|assumption]).
Qed.
Lemma free_less v c d dir m w : w <= m -> free v c d dir m -> free v c d dir w.
Proof. intros L (g & h & G & H & S1 & S2 & K). exists g, h. do 4 (split; [assumption|]). intros t T. apply K. lra. Qed.
(** the margin that is written for a vertex lets it move without crossing any of the lines of the triangles it is a corner of *)
Theorem C85_written pos sgn slp bk ts least count indices x mm : (forall i, In i indices -> (least <= i < count)%nat) ->
  In (x, mm) (update_margins (N := N) (length indices) least (accumulate least count (xview pos sgn slp bk ts)) (xview pos sgn slp bk ts) indices) ->
  exists w, mm = Fin w /\ 0 <= w <= 4 /\ forall i j k, In (i, j, k) (handed least (rev ts)) ->
  (area2 (pos i) (pos j) (pos k) <> 0 -> (x = i -> free (pos i) (pos j) (pos k) (way sgn slp i) w) /\ (x = j -> free (pos j) (pos k) (pos i) (way sgn slp j) w) /\ (x = k -> free (pos k) (pos i) (pos j) (way sgn slp k) w)) /\
  (area2 (pos i) (pos j) (pos k) = 0 -> pos i <> pos j -> pos i <> pos k -> pos j <> pos k -> x = i \/ x = j \/ x = k -> w = 0).
Proof.
  intros R I. set (m := xview pos sgn slp bk ts) in *. set (tracked := accumulate (N := N) least count m) in *. set (saves := flat_map (triangle_bounds m) (handed least (rev ts))).
  assert (SF : forall s, In s saves -> exists y, snd s = Fin y /\ 0 <= y). { intros s Q. apply in_flat_map in Q. destruct Q as (t & _ & Q). exact (bounds_fin _ _ _ _ _ _ _ Q). }
  assert (TR : forall i, (least <= i < count)%nat -> exists y, nth (i - least) tracked most = Fin y /\ 0 <= y <= 4 /\ forall b, In (i, Fin b) saves -> y <= b).
  { intros i B. unfold tracked, accumulate. change (triangles m) with ts. fold saves. rewrite C85_tracked by (rewrite repeat_length; lia). rewrite nth_repeat, most_x. destruct (fold_least (saved_for i saves) 4) as (y & -> & Y & L & _); [lra| |].
    - intros y Y. unfold saved_for in Y. apply in_map_iff in Y. destruct Y as (s & <- & Y). apply filter_In in Y. apply SF, Y.
    - exists y. split; [reflexivity|]. split; [exact Y|]. intros b Q. apply L. unfold saved_for. apply in_map_iff. exists (i, Fin b). split; [reflexivity|]. apply filter_In. split; [exact Q|apply Nat.eqb_refl]. }
  destruct (C85_groups least tracked m (length indices) indices (le_n _)) as (groups & C & U & _). rewrite U in I. apply in_flat_map in I. destruct I as (g & G & I). apply in_map_iff in I. destruct I as (x' & E & I). injection E as -> <-.
  assert (RG : forall i, In i (fst g :: snd g) -> (least <= i < count)%nat). { intros i Q. apply R. rewrite <- C. apply in_concat. exists (fst g :: snd g). split; [|exact Q]. apply (in_map (fun g => fst g :: snd g)). exact G. }
  assert (SM : forall l a, fold_left (fun current i => nmin (N := N) current (nth (i - least) tracked most)) l a = fold_left (nmin (N := N)) (map (fun i => nth (i - least) tracked most) l) a) by (induction l as [|y l IH]; intros a; [reflexivity|cbn [fold_left map]; apply IH]).
  unfold side_margin. rewrite SM. set (vals := map (fun i => nth (i - least) tracked most) (fst g :: snd g)). rewrite most_x. destruct (fold_least vals 4) as (w & -> & W & L & _); [lra| |].
  { intros y Y. unfold vals in Y. apply in_map_iff in Y. destruct Y as (i & <- & Y). destruct (TR i (RG i Y)) as (y & E & B & _). exists y. split; [exact E|lra]. }
  exists w. split; [reflexivity|]. split; [exact W|].
  assert (BD : forall b, In (x, Fin b) saves -> w <= b). { intros b Q. destruct (TR x (RG x I)) as (y & E & _ & B). apply Rle_trans with y; [|exact (B b Q)]. apply L. unfold vals. apply in_map_iff. exists x. split; [exact E|exact I]. }
  intros i j k H. assert (SV : forall s, In s (triangle_bounds m (i, j, k)) -> In s saves) by (intros s Q; apply in_flat_map; eauto). split.
  - intros A. destruct (C85_triangle pos sgn slp bk ts i j k A) as (b0 & b1 & b2 & E & (_ & F0 & _) & (_ & F1 & _) & (_ & F2 & _)). fold m in E. rewrite E in SV.
    repeat split; intros ->; (eapply free_less; [|eassumption]); apply BD, SV; cbn; auto.
  - intros A N1 N2 N3 X. destruct (C85_flat pos sgn slp bk ts i j k A) as [E _]. specialize (E N1 N2 N3). fold m in E. rewrite E in SV. apply Rle_antisym; [|lra]. apply BD, SV. destruct X as [->|[->| ->]]; cbn; auto.
Qed.

(** ** Averages *)
Definition norm2 (v : pt) : R := sqrt (px v * px v + py v * py v).
Lemma magnitude_x v : magnitude (N := N) (pv v) = Fin (norm2 v). Proof. reflexivity. Qed.
Lemma norm2_zero v : norm2 v = 0 <-> v = P 0 0.
Proof.
  unfold norm2. split; [|intros ->; cbn; replace (0 * 0 + 0 * 0) with 0 by ring; apply sqrt_0]. intros H. apply sqrt_eq_0 in H; [|nra]. apply pt_eq; cbn; nra.
Qed.
Definition total (f : pt -> R) (vs : list pt) : R := fold_right Rplus 0 (map f vs).
Definition nonzero (vs : list pt) : list pt := filter (fun v => if Req_EM_T (norm2 v) 0 then false else true) vs.
Definition avg (l : R) (u : pt) (n : nat) : average N := Average (N := N) (Fin l) (pv u) n.
Lemma add_vec_x l u n v : add_vec (N := N) (avg l u n) (pv v) = if Req_EM_T (norm2 v) 0 then avg l u n else avg (l + norm2 v) (P (px u + px v / norm2 v) (py u + py v / norm2 v)) (S n).
Proof.
  unfold add_vec. rewrite magnitude_x, x0. destruct (neqb N (Fin (norm2 v)) (Fin 0)) eqn:E; [apply eq_x in E|apply eq_xf in E]; destruct (Req_EM_T (norm2 v) 0) as [Q|Q]; try contradiction; [reflexivity|].
  cbn [avg lengths units entries pv vx vy]. rewrite !div_x by exact Q. reflexivity.
Qed.
(** vectors are added up, lengths and directions apart, without those that have no length *)
Theorem C85_sums vs : forall l u n, fold_left (fun a v => add_vec (N := N) a (pv v)) vs (avg l u n) =
  avg (l + total norm2 (nonzero vs)) (P (px u + total (fun v => px v / norm2 v) (nonzero vs)) (py u + total (fun v => py v / norm2 v) (nonzero vs))) (n + length (nonzero vs)).
Proof.
  induction vs as [|v vs IH]; intros l u n; cbn [fold_left nonzero filter].
  - unfold total. cbn. rewrite !Rplus_0_r, Nat.add_0_r. destruct u. reflexivity.
  - rewrite add_vec_x. fold (nonzero vs). destruct (Req_EM_T (norm2 v) 0) as [Q|Q]; rewrite IH; [reflexivity|]. unfold total. cbn [map fold_right length px py]. unfold avg. f_equal; [f_equal; ring|f_equal; f_equal; ring|lia].
Qed.
Definition averaged (vs : list pt) : average N := fold_left (fun a v => add_vec (N := N) a (pv v)) vs no_average.
Lemma averaged_x vs : averaged vs = avg (total norm2 (nonzero vs)) (P (total (fun v => px v / norm2 v) (nonzero vs)) (total (fun v => py v / norm2 v) (nonzero vs))) (length (nonzero vs)).
Proof. unfold averaged, no_average. rewrite x0. change (Average (N := N) (Fin 0) (V (N := N) (Fin 0) (Fin 0)) 0) with (avg 0 (P 0 0) 0). rewrite C85_sums. cbn [px py]. rewrite !Rplus_0_l. reflexivity. Qed.
(** adding an average is adding what it is an average of *)
Theorem C85_merge vs ws : add_average (N := N) (averaged vs) (averaged ws) = averaged (vs ++ ws).
Proof.
  assert (NA : nonzero (vs ++ ws) = nonzero vs ++ nonzero ws) by apply filter_app. assert (TA : forall f a b, total f (a ++ b) = total f a + total f b). { intros f a b. unfold total. rewrite map_app, fold_right_app. induction (map f a) as [|y l IH]; cbn; [ring|rewrite IH; ring]. }
  rewrite !averaged_x, NA, !TA, app_length. reflexivity.
Qed.
(** in any order *)
Theorem C85_any_order vs ws : Permutation vs ws -> averaged vs = averaged ws.
Proof.
  intros H. assert (PN : Permutation (nonzero vs) (nonzero ws)). { unfold nonzero. induction H as [|v l l' H IH|v w l|l l' l'' H1 IH1 H2 IH2]; cbn [filter]; [constructor|destruct (Req_EM_T (norm2 v) 0); [exact IH|constructor; exact IH]| |eapply Permutation_trans; eassumption].
    destruct (Req_EM_T (norm2 v) 0), (Req_EM_T (norm2 w) 0); try apply Permutation_refl. apply perm_swap. }
  assert (TP : forall f l l', Permutation l l' -> total f l = total f l'). { intros f l l' Q. unfold total. induction Q; cbn in *; lra. }
  rewrite !averaged_x. rewrite (TP norm2 _ _ PN), (TP (fun v => px v / norm2 v) _ _ PN), (TP (fun v => py v / norm2 v) _ _ PN), (Permutation_length PN). reflexivity.
Qed.
Lemma total_pos f l : (forall v, In v l -> 0 < f v) -> l <> [] -> 0 < total f l.
Proof.
  intros H NE. assert (G : 0 <= total f l /\ (l <> [] -> 0 < total f l)); [|apply G, NE]. clear NE. induction l as [|v l IH]; [unfold total; cbn; split; [lra|congruence]|].
  destruct IH as [IH _]; [intros w W; apply H; right; exact W|]. specialize (H v (or_introl eq_refl)). unfold total in *. cbn. split; [|intros _]; lra.
Qed.
(** the average has the mean length of the vectors that have one, so that it is none only if there are none; its direction is that of the sum of theirs, and that of the x axis
    if they cancel out *)
Theorem C85_value vs : exists w, value (N := N) (averaged vs) = pv w /\ (nonzero vs = [] -> w = P 0 0) /\
  (nonzero vs <> [] -> norm2 w = total norm2 (nonzero vs) / INR (length (nonzero vs)) /\ 0 < norm2 w /\
   let u := P (total (fun v => px v / norm2 v) (nonzero vs)) (total (fun v => py v / norm2 v) (nonzero vs)) in
   (u <> P 0 0 -> px u * norm2 w = norm2 u * px w /\ py u * norm2 w = norm2 u * py w) /\ (u = P 0 0 -> w = P (norm2 w) 0)).
Proof.
  rewrite averaged_x. set (ns := nonzero vs). set (u := P _ _). unfold value, avg. cbn [lengths units entries]. destruct (Nat.eqb_spec (length ns) 0) as [Z|Z].
  - exists (P 0 0). rewrite x0. split; [reflexivity|]. split; [reflexivity|]. intros Q. destruct ns; [congruence|discriminate Z].
  - assert (NE : ns <> []) by (intros ->; apply Z; reflexivity). rewrite xZ, <- INR_IZR_INZ. assert (C : 0 < INR (length ns)) by (apply lt_0_INR; lia). rewrite div_x by lra. set (l := total norm2 ns / INR (length ns)).
    assert (L : 0 < l). { apply Rdiv_lt_0_compat; [|exact C]. apply total_pos; [|exact NE]. intros v V. unfold ns, nonzero in V. apply filter_In in V. destruct V as [_ V]. destruct (Req_EM_T (norm2 v) 0); [discriminate|]. pose proof (sqrt_pos (px v * px v + py v * py v)) as Q. fold (norm2 v) in Q. lra. }
    set (a := atan2R (py u) (px u)). exists (P (l * cos a) (l * sin a)). split; [reflexivity|]. split; [contradiction|]. intros _.
    assert (LN : norm2 (P (l * cos a) (l * sin a)) = l). { unfold norm2. cbn [px py]. pose proof (sin2_cos2 a) as SC. unfold Rsqr in SC. replace (l * cos a * (l * cos a) + l * sin a * (l * sin a)) with (l * l) by (transitivity (l * l * (sin a * sin a + cos a * cos a)); [rewrite SC|]; ring). apply sqrt_square. lra. }
    rewrite LN. split; [reflexivity|]. split; [exact L|]. cbv zeta. cbn [px py]. split.
    + intros U. destruct (BehaviorExact.atan2_x (px u) (py u)) as (_ & X & Y); [intros [A B]; apply U; apply pt_eq; assumption|]. fold a in X, Y. change (sqrt (px u * px u + py u * py u)) with (norm2 u) in X, Y. rewrite X, Y at 1. split; ring.
    + intros U. unfold a. rewrite U. cbn [px py]. unfold atan2R. rewrite !Rlt_bool_false by lra. rewrite cos_0, sin_0. apply pt_eq; cbn; ring.
Qed.
(** every index asked for is written once *)
Theorem C85_each {M : num} least tracked (m : view M) indices : map fst (update_margins (length indices) least tracked m indices) = indices.
Proof.
  destruct (C85_groups least tracked m (length indices) indices (le_n _)) as (gs & C & U & _). rewrite U, <- C. clear.
  set (f := fun g : nat * list nat => map (fun x => (x, side_margin least tracked (fst g :: snd g))) (fst g :: snd g)). assert (F : forall g, map fst (f g) = fst g :: snd g) by (intros g; unfold f; rewrite map_map; cbn [fst]; apply map_id).
  clearbody f. induction gs as [|g gs IH]; [reflexivity|]. cbn [flat_map map concat]. rewrite map_app, IH, F. reflexivity.
Qed.
(** ** Examples *)
Definition corner (i : nat) : pt := match i with 0%nat => P 0 0 | 1%nat => P 4 0 | _ => P 0 4 end.
Definition ways (i : nat) : pt := match i with 0%nat => P 1 3 | 1%nat => P 1 0 | _ => P 1 (-1) end.
Definition ones (i : nat) : Z := match i with 0%nat => 1%Z | 1%nat => (-1)%Z | _ => 0%Z end.
Example C85_free : exists w, In (0%nat, Fin w : T N) (update_margins (N := N) 3 0 (accumulate 0 3 (xview corner ones ways (fun _ => false) [(0, 1, 2)%nat])) (xview corner ones ways (fun _ => false) [(0, 1, 2)%nat]) [0; 1; 2]%nat) /\
  0 <= w <= 4 /\ free (P 0 0) (P 4 0) (P 0 4) (P 1 3) w.
Proof.
  set (m := xview corner ones ways (fun _ => false) [(0, 1, 2)%nat]). set (ws := update_margins _ _ _ _ _). assert (E : map fst ws = [0; 1; 2]%nat) by apply (C85_each (M := N) 0 (accumulate 0 3 m) m [0; 1; 2]%nat).
  assert (I : In 0%nat (map fst ws)) by (rewrite E; cbn; auto). apply in_map_iff in I. destruct I as ([x mm] & X & I). cbn in X. subst x.
  destruct (C85_written corner ones ways (fun _ => false) [(0, 1, 2)%nat] 0 3 [0; 1; 2]%nat 0%nat mm) as (w & -> & W & F); [intros i [<-|[<-|[<-|[]]]]; lia|exact I|].
  exists w. split; [exact I|]. split; [exact W|]. destruct (F 0%nat 1%nat 2%nat) as [F' _]; [cbn; auto|]. destruct F' as (F' & _); [unfold area2, aside; cbn; lra|]. specialize (F' eq_refl). unfold way in F'. cbn in F'. rewrite !Rmult_1_l in F'. exact F'.
Qed.
(** along a side of the triangle the bound is where the line through the other gate is met *)
Example C85_meets : margin_bound (N := N) (sg (P 0 0) (P 1 0)) (sg (P 3 (-2)) (P 3 2)) = Fin 3 /\ margin_bound (N := N) (sg (P 0 0) (P (-1) 0)) (sg (P 3 (-2)) (P 3 2)) = Fin 4.
Proof.
  unfold margin_bound, line_ratio, seg_vector. cbn [sg s_start s_end]. rewrite !sub_x, !det_x, x0, most_x. unfold det2, sub. cbn [px py]. split.
  - rewrite (proj2 (eq_xf _ _)) by lra. rewrite !div_x by lra. rewrite (proj2 (le_x _ _)) by lra. f_equal. lra.
  - rewrite (proj2 (eq_xf _ _)) by lra. rewrite !div_x by lra. rewrite (proj2 (le_xf _ _)) by lra. reflexivity.
Qed.
Lemma norm_axis x : 0 <= x -> norm2 (P x 0) = x /\ norm2 (P 0 x) = x /\ norm2 (P (- x) 0) = x.
Proof. intros X. unfold norm2. cbn [px py]. replace (x * x + 0 * 0) with (x * x) by ring. replace (0 * 0 + x * x) with (x * x) by ring. replace (- x * - x + 0 * 0) with (x * x) by ring. rewrite sqrt_square by exact X. auto. Qed.
Example C85_mean : exists w, value (N := N) (averaged [P 3 0; P 0 0; P 0 4]) = pv w /\ norm2 w = 7 / 2 /\ px w = py w.
Proof.
  destruct (norm_axis 3 ltac:(lra)) as (A & _). destruct (norm_axis 4 ltac:(lra)) as (_ & B & _). destruct (norm_axis 0 ltac:(lra)) as (C & _).
  destruct (C85_value [P 3 0; P 0 0; P 0 4]) as (w & E & _ & H). assert (NZ : nonzero [P 3 0; P 0 0; P 0 4] = [P 3 0; P 0 4]). { unfold nonzero. cbn [filter]. rewrite A, B, C. destruct (Req_EM_T 3 0), (Req_EM_T 0 0), (Req_EM_T 4 0); try lra. reflexivity. }
  rewrite NZ in H. destruct H as (L & P0 & D & _); [discriminate|]. exists w. split; [exact E|]. unfold total in L, D. cbn [map fold_right length px py] in L, D. rewrite A, B in L, D. split; [rewrite L; cbn; lra|].
  destruct D as [D1 D2]; [intros Q; injection Q; intros; lra|]. set (u := norm2 {| px := 3 / 3 + (0 / 4 + 0); py := 0 / 3 + (4 / 4 + 0) |}) in D1, D2. assert (U0 : u <> 0). { unfold u. intros Q. apply norm2_zero in Q. injection Q; intros; lra. } apply Rmult_eq_reg_l with u; [|exact U0]. lra.
Qed.

Print Assumptions C85_handed.
Print Assumptions C85_none_missed.
Print Assumptions C85_tracked.
Print Assumptions C85_groups.
Print Assumptions C85_each.
Print Assumptions C85_bound.
Print Assumptions C85_gate.
Print Assumptions C85_triangle.
Print Assumptions C85_flat.
Print Assumptions C85_written.
Print Assumptions C85_sums.
Print Assumptions C85_merge.
Print Assumptions C85_any_order.
Print Assumptions C85_value.
