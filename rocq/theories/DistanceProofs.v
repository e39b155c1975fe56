(** The smallest distance between two point sets, and where the code looks for it. *)
From Coq Require Import ZArith Reals Lra Psatz Bool List.
From Flocq Require Import Core.
From Verif Require Import NumModel EasingExact GeomModel GeomSpec GeomReal GeomExact GeomMeet GeomOps DistanceModel DistanceSpec.
Import ListNotations.
Local Open Scope R_scope.

Lemma dist2_sym a b : dist2 a b = dist2 b a. Proof. unfold dist2. ring. Qed.
Lemma dist2_pos a b : 0 <= dist2 a b. Proof. unfold dist2. pose proof (Rle_0_sqr (px a - px b)). pose proof (Rle_0_sqr (py a - py b)). unfold Rsqr in *. lra. Qed.
Lemma dist2_zero a : dist2 a a = 0. Proof. unfold dist2. ring. Qed.
Lemma dist2_same a b : dist2 a b = 0 -> a = b.
Proof. intros H. apply sub_zero, dot_zero. rewrite <- H. unfold dot2, sub, dist2. cbn. ring. Qed.
Lemma dist2_mix p q t : 0 <= t <= 1 -> dist2 p (mix t p q) <= dist2 p q.
Proof.
  intros [T0 T1]. replace (dist2 p (mix t p q)) with (t * t * dist2 p q) by (unfold dist2, mix; cbn; ring). pose proof (dist2_pos p q). assert (t * t <= 1) by nra. nra.
Qed.
Lemma apart_sym (S U : shape) d : apart S U d -> apart U S d.
Proof. intros (H0 & (p & q & Hp & Hq & E) & H). split; [exact H0|]. split; [exists q, p; rewrite dist2_sym; auto|]. intros q' p' Hq' Hp'. rewrite dist2_sym. auto. Qed.
Lemma apart_ext (S S' U U' : shape) d : (forall p, S p <-> S' p) -> (forall p, U p <-> U' p) -> apart S U d -> apart S' U' d.
Proof. intros E F (H0 & (p & q & Hp & Hq & Q) & H). split; [exact H0|]. split; [exists p, q; rewrite <- E, <- F; auto|]. intros p' q' Hp' Hq'. apply H; [apply E, Hp'|apply F, Hq']. Qed.
Lemma apart_meet (S U : shape) : meet S U -> apart S U 0.
Proof. intros (p & A & B). split; [lra|]. split; [exists p, p; rewrite dist2_zero; split; [exact A|]; split; [exact B|ring]|]. intros a b _ _. pose proof (dist2_pos a b). lra. Qed.
Lemma apart_unique (S U : shape) d e : apart S U d -> apart S U e -> d = e.
Proof. intros (D0 & (p & q & Hp & Hq & Ed) & D) (E0 & (p' & q' & Hp' & Hq' & Ee) & E). specialize (D p' q' Hp' Hq'). specialize (E p q Hp Hq). nra. Qed.

(** ** Points and segments *)
Lemma points_x a b : dist_points (pv a) (pv b) = Fin (sqrt (dist2 a b)). Proof. reflexivity. Qed.
Lemma sqrt_at (S U : shape) p q : S p -> U q -> (forall p' q', S p' -> U q' -> dist2 p q <= dist2 p' q') -> apart S U (sqrt (dist2 p q)).
Proof.
  intros A B H. pose proof (dist2_pos p q) as D. split; [apply sqrt_pos|]. rewrite sqrt_sqrt by exact D. split; [exists p, q; auto|exact H].
Qed.
Lemma points_apart a b : apart (point_set a) (point_set b) (sqrt (dist2 a b)).
Proof. apply sqrt_at; [reflexivity|reflexivity|]. intros p q -> ->. lra. Qed.
Lemma along p a b t : a <> b -> let D := dot2 (sub b a) (sub b a) in let k := dot2 (sub p a) (sub b a) / D in
  dist2 p (mix t a b) = D * ((t - k) * (t - k)) + (dist2 p a - D * (k * k)).
Proof.
  intros H D k. destruct (project_x a b p H) as [Q _]. fold D in Q. assert (E : k * D = dot2 (sub p a) (sub b a)) by (unfold k; field; lra).
  transitivity (t * t * D - 2 * t * (k * D) + dist2 p a); [rewrite E; unfold D, dot2, sub, dist2, mix; cbn; ring|ring].
Qed.
Theorem point_segment_apart p a b : exists d, dist_point_segment (pv p) (sg a b) = Fin d /\ apart (point_set p) (seg_set a b) d.
Proof.
  unfold dist_point_segment. cbn [sg s_start s_end]. destruct (veq (pv a) (pv b)) eqn:E1.
  { apply veq_x in E1. subst b. rewrite points_x, dist2_sym. eexists. split; [reflexivity|]. apply (apart_ext (point_set p) _ (point_set a)); [reflexivity|intros q; symmetry; apply seg_point|apply points_apart]. }
  apply veq_xf in E1. destruct (project_x a b p E1) as [Q EP]. change (Seg (pv a) (pv b)) with (sg a b). rewrite EP, x1e, x0. pose proof (fun t => along p a b t E1) as AL. cbv zeta in AL.
  set (D := dot2 (sub b a) (sub b a)) in *. set (k := dot2 (sub p a) (sub b a) / D) in *. clearbody k. clear EP.
  destruct (nle N (Fin 1) (Fin k)) eqn:L1; [apply le_x in L1|apply le_xf in L1; destruct (nle N (Fin k) (Fin 0)) eqn:L0; [apply le_x in L0|apply le_xf in L0]].
  - rewrite points_x. eexists. split; [reflexivity|]. apply sqrt_at; [reflexivity|apply seg_end|]. intros p' q -> (t & T & ->). rewrite <- (mix_1 a b) at 1. rewrite !AL. assert ((1 - k) * (1 - k) <= (t - k) * (t - k)) by nra. nra.
  - rewrite points_x. eexists. split; [reflexivity|]. apply sqrt_at; [reflexivity|apply seg_start|]. intros p' q -> (t & T & ->). rewrite <- (mix_0 a b) at 1. rewrite !AL. assert ((0 - k) * (0 - k) <= (t - k) * (t - k)) by nra. nra.
  - rewrite lerp_x, points_x. replace (P (px a * (1 - k) + px b * k) (py a * (1 - k) + py b * k)) with (mix k a b) by (apply pt_eq; cbn; ring). eexists. split; [reflexivity|]. apply sqrt_at; [reflexivity|exists k; split; [lra|reflexivity]|]. intros p' q -> (t & T & ->). rewrite !AL. assert (0 <= (t - k) * (t - k)) by apply Rle_0_sqr. replace ((k - k) * (k - k)) with 0 by ring. nra.
Qed.

(** ** The smallest of several *)
Lemma least_x d0 l : exists d, least (Fin d0 : T N) (map (fun d => Fin d : T N) l) = Fin d /\ In d (d0 :: l) /\ forall d', In d' (d0 :: l) -> d <= d'.
Proof.
  revert d0. induction l as [|d1 l IH]; intros d0; [exists d0; cbn; split; [reflexivity|]; split; [auto|intros d' [<- |[]]; lra]|].
  unfold least. cbn [map fold_left]. rewrite min_x. destruct (IH (Rmin d0 d1)) as (d & E & I & H). exists d. split; [exact E|]. pose proof (H _ (or_introl eq_refl)) as M. pose proof (Rmin_l d0 d1). pose proof (Rmin_r d0 d1). split.
  - destruct I as [I|I]; [|right; right; exact I]. subst d. unfold Rmin. destruct (Rle_dec d0 d1); [left; reflexivity|right; left; reflexivity].
  - intros d' [<- |[<- |I']]; [lra|lra|apply H; right; exact I'].
Qed.
(** if the distance of every edge of [A] from [U] is known and they do not meet, the smallest of them is that of [A] *)
Lemma edges_apart (A U : shape) (e0 : edge) es (f : segment N -> T N) : solid A (e0 :: es) -> ~ meet A U ->
  (forall e, In e (e0 :: es) -> exists d, f (sg (fst e) (snd e)) = Fin d /\ apart (on e) U d) ->
  exists d, least_of f (sgs (e0 :: es)) = Fin d /\ apart A U d.
Proof.
  intros SO NM F.
  assert (G : forall l, (forall e, In e l -> exists d, f (sg (fst e) (snd e)) = Fin d /\ apart (on e) U d) ->
     exists ds, map f (sgs l) = map (fun d => Fin d : T N) ds /\ (forall d, In d ds -> exists e, In e l /\ apart (on e) U d) /\ forall e, In e l -> exists d, In d ds /\ apart (on e) U d).
  { induction l as [|e l IH]; intros H; [exists []; cbn; split; [reflexivity|]; split; intros ? []|].
    destruct (IH (fun e' I' => H e' (or_intror I'))) as (ds & E & H1 & H2). destruct (H e (or_introl eq_refl)) as (d & Ed & Hd). exists (d :: ds). cbn [map sgs]. split; [unfold sgs in E; rewrite Ed; f_equal; exact E|]. split.
    - intros d' [<- |I']; [exists e; split; [left; reflexivity|exact Hd]|]. destruct (H1 d' I') as (e' & I1 & H'). exists e'. split; [right; exact I1|exact H'].
    - intros e' [<- |I']; [exists d; split; [left; reflexivity|exact Hd]|]. destruct (H2 e' I') as (d' & I1 & H'). exists d'. split; [right; exact I1|exact H']. }
  destruct (G (e0 :: es) F) as (ds & E & H1 & H2). cbn [sgs map] in E. destruct ds as [|d0 ds]; [discriminate|]. cbn [map] in E. injection E as E0 E.
  destruct (least_x d0 ds) as (d & L & I & M). exists d. unfold sgs. cbn [least_of map]. rewrite E0. split; [etransitivity; [|exact L]; f_equal; exact E|].
  destruct (H1 d I) as (e & Ie & D0 & (p & q & Hp & Hq & Q) & _). split; [exact D0|]. split; [exists p, q; split; [apply (so_edges _ _ SO e); assumption|auto]|].
  intros a u Ha Hu. destruct (so_exit _ _ SO a u Ha) as (w & W & e' & Ie' & On); [intros X; apply NM; exists u; auto|].
  destruct (H2 e' Ie') as (d' & I' & D' & _ & B'). specialize (M d' I'). specialize (B' w u On Hu).
  destruct W as (t & T & ->). assert (X : dist2 (mix t a u) u <= dist2 a u). { rewrite (dist2_sym _ u), (dist2_sym a u), mix_swap. apply dist2_mix. lra. } nra.
Qed.

(** ** Two segments *)
(** from a point of the unit square, a step either stays inside or reaches the boundary on the way *)
Lemma leave s t x y : 0 <= s <= 1 -> 0 <= t <= 1 -> (0 <= s + x <= 1 /\ 0 <= t + y <= 1) \/
  exists k, 0 <= k <= 1 /\ 0 <= s + k * x <= 1 /\ 0 <= t + k * y <= 1 /\ (s + k * x = 0 \/ s + k * x = 1 \/ t + k * y = 0 \/ t + k * y = 1).
Proof.
  intros Hs Ht. destruct (Rlt_dec (s + x) 0) as [A|A]; [|destruct (Rlt_dec 1 (s + x)) as [B|B]; [|destruct (Rlt_dec (t + y) 0) as [C|C]; [|destruct (Rlt_dec 1 (t + y)) as [D|D]; [|left; lra]]]]; right.
  all: destruct (exit_walls [(s, s + x); (1 - s, 1 - (s + x)); (t, t + y); (1 - t, 1 - (t + y))]) as (k & K & W & (f & If & Zf)).
  all: try (intros f [<- |[<- |[<- |[<- |[]]]]]; cbn; lra).
  1: exists (s, s + x); cbn; split; [auto|lra].
  2: exists (1 - s, 1 - (s + x)); cbn; split; [auto|lra].
  3: exists (t, t + y); cbn; split; [auto|lra].
  4: exists (1 - t, 1 - (t + y)); cbn; split; [auto|lra].
  all: exists k; split; [exact K|]; pose proof (W _ (or_introl eq_refl)) as W1; pose proof (W _ (or_intror (or_introl eq_refl))) as W2; pose proof (W _ (or_intror (or_intror (or_introl eq_refl)))) as W3; pose proof (W _ (or_intror (or_intror (or_intror (or_introl eq_refl))))) as W4; cbn [fst snd] in *.
  all: split; [lra|]; split; [lra|]; destruct If as [<- |[<- |[<- |[<- |[]]]]]; cbn [fst snd] in Zf; [left; lra|right; left; lra|right; right; left; lra|right; right; right; lra].
Qed.
(** two points of two segments that do not meet are no closer than some end of one is to some point of the other *)
Lemma ends a b c d p q : ~ meet (seg_set a b) (seg_set c d) -> a <> b -> c <> d -> seg_set a b p -> seg_set c d q ->
  exists p' q', seg_set a b p' /\ seg_set c d q' /\ dist2 p' q' <= dist2 p q /\ (p' = a \/ p' = b \/ q' = c \/ q' = d).
Proof.
  intros NM AB CD (s & Hs & ->) (t & Ht & ->).
  assert (FIN : forall x y k, (s + k * x = 0 \/ s + k * x = 1 \/ t + k * y = 0 \/ t + k * y = 1) -> 0 <= s + k * x <= 1 -> 0 <= t + k * y <= 1 -> dist2 (mix (s + k * x) a b) (mix (t + k * y) c d) <= dist2 (mix s a b) (mix t c d) ->
     exists p' q', seg_set a b p' /\ seg_set c d q' /\ dist2 p' q' <= dist2 (mix s a b) (mix t c d) /\ (p' = a \/ p' = b \/ q' = c \/ q' = d)).
  { intros x y k C S' T' L. exists (mix (s + k * x) a b), (mix (t + k * y) c d). split; [exists (s + k * x); auto|]. split; [exists (t + k * y); auto|]. split; [exact L|]. destruct C as [-> |[-> |[-> | ->]]]; rewrite ?mix_0, ?mix_1; auto. }
  set (u := sub b a). set (v := sub d c). destruct (Req_dec (det2 u v) 0) as [Z|Z].
  - (* parallel: slide both along their common direction *)
    assert (NZ : 0 < dot2 v v) by (apply (project_x c d c CD)).
    assert (NU : 0 < dot2 u u) by (apply (project_x a b a AB)).
    set (y := dot2 u v / dot2 v v). assert (Y : forall z, y * (dot2 v v * z) = dot2 u v * z) by (intros z; unfold y; field; lra).
    (* u = y v *)
    assert (UX : px u = y * px v). { unfold y. apply Rmult_eq_reg_r with (dot2 v v); [|lra]. replace (dot2 u v / dot2 v v * px v * dot2 v v) with (dot2 u v * px v) by (field; lra). transitivity (dot2 u v * px v + det2 u v * py v); [unfold dot2, det2; ring|rewrite Z; ring]. }
    assert (UY : py u = y * py v). { unfold y. apply Rmult_eq_reg_r with (dot2 v v); [|lra]. replace (dot2 u v / dot2 v v * py v * dot2 v v) with (dot2 u v * py v) by (field; lra). transitivity (dot2 u v * py v - det2 u v * px v); [unfold dot2, det2; ring|rewrite Z; ring]. }
    assert (MV : forall k, dist2 (mix (s + k * 2) a b) (mix (t + k * (2 * y)) c d) = dist2 (mix s a b) (mix t c d)).
    { intros k. assert (X1 : px (mix (s + k * 2) a b) - px (mix (t + k * (2 * y)) c d) = px (mix s a b) - px (mix t c d)).
      { unfold mix. cbn [px]. unfold u, v, sub in UX. cbn [px] in UX. transitivity ((1 - s) * px a + s * px b - ((1 - t) * px c + t * px d) + 2 * k * ((px b - px a) - y * (px d - px c))); [ring|]. rewrite UX. ring. }
      assert (X2 : py (mix (s + k * 2) a b) - py (mix (t + k * (2 * y)) c d) = py (mix s a b) - py (mix t c d)).
      { unfold mix. cbn [py]. unfold u, v, sub in UY. cbn [py] in UY. transitivity ((1 - s) * py a + s * py b - ((1 - t) * py c + t * py d) + 2 * k * ((py b - py a) - y * (py d - py c))); [ring|]. rewrite UY. ring. }
      unfold dist2. rewrite X1, X2. reflexivity. }
    destruct (leave s t 2 (2 * y) Hs Ht) as [X|(k & K & S' & T' & C)]; [lra|]. apply (FIN 2 (2 * y) k C S' T'). rewrite MV. lra.
  - (* move both toward where the lines cross *)
    set (w := sub (mix s a b) (mix t c d)). set (x := - (det2 w v / det2 u v)). set (y := det2 u w / det2 u v).
    assert (MV : forall k, dist2 (mix (s + k * x) a b) (mix (t + k * y) c d) = (1 - k) * (1 - k) * dist2 (mix s a b) (mix t c d)).
    { intros k. assert (E1 : px (mix (s + k * x) a b) - px (mix (t + k * y) c d) = (1 - k) * (px (mix s a b) - px (mix t c d))).
      { transitivity (px (mix s a b) - px (mix t c d) + k * (x * px u - y * px v)); [unfold mix, u, v, sub; cbn [px]; ring|]. assert (Q : x * px u - y * px v = - px w) by (unfold x, y; unfold det2 in *; field; exact Z). rewrite Q. unfold w, sub. cbn [px]. ring. }
      assert (E2 : py (mix (s + k * x) a b) - py (mix (t + k * y) c d) = (1 - k) * (py (mix s a b) - py (mix t c d))).
      { transitivity (py (mix s a b) - py (mix t c d) + k * (x * py u - y * py v)); [unfold mix, u, v, sub; cbn [py]; ring|]. assert (Q : x * py u - y * py v = - py w) by (unfold x, y; unfold det2 in *; field; exact Z). rewrite Q. unfold w, sub. cbn [py]. ring. }
      unfold dist2. rewrite E1, E2. ring. }
    destruct (leave s t x y Hs Ht) as [[X Y]|(k & K & S' & T' & C)].
    + exfalso. apply NM. exists (mix (s + x) a b). split; [exists (s + x); auto|]. exists (t + y). split; [exact Y|].
      pose proof (MV 1) as M1. rewrite !Rmult_1_l in M1. replace ((1 - 1) * (1 - 1) * dist2 (mix s a b) (mix t c d)) with 0 in M1 by ring. apply dist2_same, M1.
    + apply (FIN x y k C S' T'). rewrite MV. pose proof (dist2_pos (mix s a b) (mix t c d)). assert ((1 - k) * (1 - k) <= 1) by nra. nra.
Qed.
Theorem segments_apart a b c d : exists e, dist_segments (sg a b) (sg c d) = Fin e /\ apart (seg_set a b) (seg_set c d) e.
Proof.
  unfold dist_segments. cbn [sg s_start s_end]. change (Seg (pv a) (pv b)) with (sg a b). change (Seg (pv c) (pv d)) with (sg c d). destruct (veq (pv a) (pv b)) eqn:E1; [|destruct (veq (pv c) (pv d)) eqn:E2; [|destruct (int_segments (sg a b) (sg c d)) eqn:E3]].
  - apply veq_x in E1. subst b. destruct (point_segment_apart a c d) as (e & E & H). exists e. split; [exact E|]. apply (apart_ext (point_set a) _ (seg_set c d)); [intros p; symmetry; apply seg_point|reflexivity|exact H].
  - apply veq_x in E2. subst d. destruct (point_segment_apart c a b) as (e & E & H). exists e. split; [exact E|]. apply apart_sym. apply (apart_ext (point_set c) _ (seg_set a b)); [intros p; symmetry; apply seg_point|reflexivity|exact H].
  - apply segments in E3. exists 0. split; [apply x0|apply apart_meet, E3].
  - apply veq_xf in E1. apply veq_xf in E2. assert (NM : ~ meet (seg_set a b) (seg_set c d)) by (intros X; apply segments in X; congruence). clear E3.
    destruct (point_segment_apart a c d) as (d1 & -> & H1). destruct (point_segment_apart b c d) as (d2 & -> & H2). destruct (point_segment_apart c a b) as (d3 & -> & H3). destruct (point_segment_apart d a b) as (d4 & -> & H4).
    destruct (least_x d1 [d2; d3; d4]) as (e & L & I & M). exists e. split; [exact L|].
    assert (M1 := M d1 ltac:(cbn; auto)). assert (M2 := M d2 ltac:(cbn; auto)). assert (M3 := M d3 ltac:(cbn; auto)). assert (M4 := M d4 ltac:(cbn; auto)).
    assert (E0 : 0 <= e) by (destruct I as [<- |[<- |[<- |[<- |[]]]]]; [apply H1|apply H2|apply H3|apply H4]).
    split; [exact E0|]. split.
    + destruct I as [<- |[<- |[<- |[<- |[]]]]].
      * destruct H1 as (_ & (p & q & -> & Hq & Q) & _). exists a, q. split; [apply seg_start|auto].
      * destruct H2 as (_ & (p & q & -> & Hq & Q) & _). exists b, q. split; [apply seg_end|auto].
      * destruct H3 as (_ & (p & q & -> & Hq & Q) & _). exists q, c. split; [exact Hq|]. split; [apply seg_start|rewrite dist2_sym; exact Q].
      * destruct H4 as (_ & (p & q & -> & Hq & Q) & _). exists q, d. split; [exact Hq|]. split; [apply seg_end|rewrite dist2_sym; exact Q].
    + intros p q Hp Hq. destruct (ends a b c d p q NM E1 E2 Hp Hq) as (p' & q' & Hp' & Hq' & L' & C). apply Rle_trans with (dist2 p' q'); [|exact L'].
      destruct C as [-> |[-> |[-> | ->]]].
      * destruct H1 as (D0 & _ & H). specialize (H a q' eq_refl Hq'). nra.
      * destruct H2 as (D0 & _ & H). specialize (H b q' eq_refl Hq'). nra.
      * destruct H3 as (D0 & _ & H). specialize (H c p' eq_refl Hp'). rewrite dist2_sym in H. nra.
      * destruct H4 as (D0 & _ & H). specialize (H d p' eq_refl Hp'). rewrite dist2_sym in H. nra.
Qed.

(** ** Triangles, rects and quads *)
Lemma by_edges (A U : shape) e0 es f hit : solid A (e0 :: es) -> (hit = true <-> meet A U) ->
  (forall e, In e (e0 :: es) -> exists d, f (sg (fst e) (snd e)) = Fin d /\ apart (on e) U d) ->
  exists d, (if hit then n0 else least_of f (sgs (e0 :: es))) = Fin d /\ apart A U d.
Proof.
  intros SO H F. destruct hit.
  - exists 0. split; [apply x0|apply apart_meet, H; reflexivity].
  - apply (edges_apart A U e0 es f SO); [intros X; apply H in X; discriminate|exact F].
Qed.
Lemma at_point (A A' U : shape) p f : (forall q, A q <-> q = p) -> (exists d, f = Fin d /\ apart (point_set p) U d) -> exists d, f = Fin d /\ apart A U d.
Proof. intros E (d & D & H). exists d. split; [exact D|]. apply (apart_ext (point_set p) _ U); [intros q; symmetry; apply E|reflexivity|exact H]. Qed.
Lemma swap (A U : shape) (f : T N) : (exists d, f = Fin d /\ apart A U d) -> exists d, f = Fin d /\ apart U A d.
Proof. intros (d & D & H). exists d. split; [exact D|apply apart_sym, H]. Qed.
Lemma points_at (a b : pt) : exists d, dist_points (pv a) (pv b) = Fin d /\ apart (point_set b) (point_set a) d.
Proof. exists (sqrt (dist2 a b)). split; [apply points_x|]. apply apart_sym, points_apart. Qed.
Lemma one_point_x a b c : tri_one_point (tr a b c) = true <-> a = b /\ a = c.
Proof. unfold tri_one_point. cbn [tr p0 p1 p2]. rewrite andb_true_iff, !veq_x. split; intros [-> ->]; auto. Qed.
Lemma point_meets p S : meet S (point_set p) <-> S p. Proof. rewrite meet_sym. apply meet_point. Qed.

Theorem point_triangle_apart p a b c : exists d, dist_point_triangle (pv p) (tr a b c) = Fin d /\ apart (point_set p) (tri_set a b c) d.
Proof.
  unfold dist_point_triangle. apply swap. destruct (tri_one_point (tr a b c)) eqn:E1.
  - apply one_point_x in E1. destruct E1; subst. apply (at_point _ (point_set p) _ c); [intros q; apply tri_point|]. apply swap, points_at.
  - rewrite tri_edges_x. apply by_edges; [apply tri_solid|rewrite point_meets; apply triangle_contains|]. intros e _. apply swap, point_segment_apart.
Qed.
Theorem point_box_apart p x0 y0 x1 y1 : x0 <= x1 -> y0 <= y1 -> exists d, dist_point_rect (pv p) (bx x0 y0 x1 y1) = Fin d /\ apart (point_set p) (box_set x0 y0 x1 y1) d.
Proof.
  intros X Y. unfold dist_point_rect. apply swap. destruct (rect_point_like (bx x0 y0 x1 y1)) eqn:E1.
  - apply box_point_like in E1. destruct E1; subst. rewrite center_x. replace (P ((x1 + x1) / 2) ((y1 + y1) / 2)) with (P x1 y1) by (apply pt_eq; cbn; field). apply (at_point _ (point_set p) _ (P x1 y1)); [intros q; apply box_point|]. apply swap, points_at.
  - rewrite box_edges_x. apply by_edges; [apply box_solid; assumption|rewrite point_meets; apply box_contains|]. intros e _. apply swap, point_segment_apart.
Qed.
Theorem point_quad_apart p c w h r s : 0 <= w -> exists d, dist_point_quad (pv p) (qd c w h r s) = Fin d /\ apart (point_set p) (quad_set c w h r s) d.
Proof.
  intros W. unfold dist_point_quad. apply swap. destruct (quad_point_like (qd c w h r s)) eqn:E1.
  - apply quad_point_like_x in E1. destruct E1; subst. apply (at_point _ (point_set p) _ c); [intros q; apply quad_point|]. apply swap, points_at.
  - rewrite quad_edges_x. apply by_edges; [apply quad_solid; assumption|rewrite point_meets; apply quad_contains_x; exact W|]. intros e _. apply swap, point_segment_apart.
Qed.
Theorem segment_triangle_apart a b c d e : exists k, dist_segment_triangle (sg a b) (tr c d e) = Fin k /\ apart (seg_set a b) (tri_set c d e) k.
Proof.
  unfold dist_segment_triangle. cbn [sg s_start s_end]. change (Seg (pv a) (pv b)) with (sg a b). destruct (veq (pv a) (pv b)) eqn:E1; [|destruct (tri_one_point (tr c d e)) eqn:E2].
  - apply veq_x in E1. subst b. apply (at_point _ (point_set a) _ a); [intros q; apply seg_point|apply point_triangle_apart].
  - apply one_point_x in E2. destruct E2; subst. apply swap, (at_point _ (point_set a) _ e); [intros q; apply tri_point|apply point_segment_apart].
  - apply swap. rewrite tri_edges_x. apply by_edges; [apply tri_solid|rewrite meet_sym; apply segment_triangle|]. intros f _. apply swap, segments_apart.
Qed.
Theorem segment_box_apart a b x0 y0 x1 y1 : x0 <= x1 -> y0 <= y1 -> exists k, dist_segment_rect (sg a b) (bx x0 y0 x1 y1) = Fin k /\ apart (seg_set a b) (box_set x0 y0 x1 y1) k.
Proof.
  intros X Y. unfold dist_segment_rect. cbn [sg s_start s_end]. change (Seg (pv a) (pv b)) with (sg a b). destruct (veq (pv a) (pv b)) eqn:E1; [|destruct (rect_point_like (bx x0 y0 x1 y1)) eqn:E2].
  - apply veq_x in E1. subst b. apply (at_point _ (point_set a) _ a); [intros q; apply seg_point|apply point_box_apart; assumption].
  - apply box_point_like in E2. destruct E2; subst. rewrite center_x. replace (P ((x1 + x1) / 2) ((y1 + y1) / 2)) with (P x1 y1) by (apply pt_eq; cbn; field). apply swap, (at_point _ (point_set a) _ (P x1 y1)); [intros q; apply box_point|apply point_segment_apart].
  - apply swap. rewrite box_edges_x. apply by_edges; [apply box_solid; assumption|rewrite meet_sym; apply segment_box; assumption|]. intros f _. apply swap, segments_apart.
Qed.
Theorem segment_quad_apart a b c w h r s : 0 <= w -> exists k, dist_segment_quad (sg a b) (qd c w h r s) = Fin k /\ apart (seg_set a b) (quad_set c w h r s) k.
Proof.
  intros W. unfold dist_segment_quad. cbn [sg s_start s_end]. change (Seg (pv a) (pv b)) with (sg a b). destruct (veq (pv a) (pv b)) eqn:E1; [|destruct (quad_point_like (qd c w h r s)) eqn:E2].
  - apply veq_x in E1. subst b. apply (at_point _ (point_set a) _ a); [intros q; apply seg_point|apply point_quad_apart; assumption].
  - apply quad_point_like_x in E2. destruct E2; subst. apply swap, (at_point _ (point_set a) _ c); [intros q; apply quad_point|apply point_segment_apart].
  - apply swap. rewrite quad_edges_x. apply by_edges; [apply quad_solid; assumption|rewrite meet_sym; apply segment_quad; assumption|]. intros f _. apply swap, segments_apart.
Qed.
Theorem triangles_apart a b c d e f : exists k, dist_triangles (tr a b c) (tr d e f) = Fin k /\ apart (tri_set a b c) (tri_set d e f) k.
Proof.
  unfold dist_triangles. destruct (tri_one_point (tr a b c)) eqn:E1; [|destruct (tri_one_point (tr d e f)) eqn:E2].
  - apply one_point_x in E1. destruct E1; subst. apply (at_point _ (point_set c) _ c); [intros q; apply tri_point|apply point_triangle_apart].
  - apply one_point_x in E2. destruct E2; subst. apply swap, (at_point _ (point_set f) _ f); [intros q; apply tri_point|apply point_triangle_apart].
  - apply swap. rewrite tri_edges_x. apply by_edges; [apply tri_solid|rewrite meet_sym; apply triangles|]. intros g _. apply segment_triangle_apart.
Qed.
Theorem triangle_box_apart a b c x0 y0 x1 y1 : x0 <= x1 -> y0 <= y1 -> exists k, dist_triangle_rect (tr a b c) (bx x0 y0 x1 y1) = Fin k /\ apart (tri_set a b c) (box_set x0 y0 x1 y1) k.
Proof.
  intros X Y. unfold dist_triangle_rect. destruct (tri_one_point (tr a b c)) eqn:E1; [|destruct (rect_point_like (bx x0 y0 x1 y1)) eqn:E2].
  - apply one_point_x in E1. destruct E1; subst. apply (at_point _ (point_set c) _ c); [intros q; apply tri_point|apply point_box_apart; assumption].
  - apply box_point_like in E2. destruct E2; subst. rewrite center_x. replace (P ((x1 + x1) / 2) ((y1 + y1) / 2)) with (P x1 y1) by (apply pt_eq; cbn; field). apply swap, (at_point _ (point_set a) _ (P x1 y1)); [intros q; apply box_point|apply point_triangle_apart].
  - rewrite tri_edges_x. apply by_edges; [apply tri_solid|apply triangle_box; assumption|]. intros g _. apply segment_box_apart; assumption.
Qed.
Theorem triangle_quad_apart a b c m w h r s : 0 <= w -> exists k, dist_triangle_quad (tr a b c) (qd m w h r s) = Fin k /\ apart (tri_set a b c) (quad_set m w h r s) k.
Proof.
  intros W. unfold dist_triangle_quad. destruct (tri_one_point (tr a b c)) eqn:E1; [|destruct (quad_point_like (qd m w h r s)) eqn:E2].
  - apply one_point_x in E1. destruct E1; subst. apply (at_point _ (point_set c) _ c); [intros q; apply tri_point|apply point_quad_apart; assumption].
  - apply quad_point_like_x in E2. destruct E2; subst. apply swap, (at_point _ (point_set a) _ m); [intros q; apply quad_point|apply point_triangle_apart].
  - rewrite tri_edges_x. apply by_edges; [apply tri_solid|apply triangle_quad; assumption|]. intros g _. apply segment_quad_apart; assumption.
Qed.
Theorem boxes_apart x0 y0 x1 y1 x2 y2 x3 y3 : x0 <= x1 -> y0 <= y1 -> x2 <= x3 -> y2 <= y3 -> exists k, dist_rects (bx x0 y0 x1 y1) (bx x2 y2 x3 y3) = Fin k /\ apart (box_set x0 y0 x1 y1) (box_set x2 y2 x3 y3) k.
Proof.
  intros X Y X' Y'. unfold dist_rects. destruct (rect_point_like (bx x0 y0 x1 y1)) eqn:E1; [|destruct (rect_point_like (bx x2 y2 x3 y3)) eqn:E2].
  - apply box_point_like in E1. destruct E1; subst. rewrite center_x. replace (P ((x1 + x1) / 2) ((y1 + y1) / 2)) with (P x1 y1) by (apply pt_eq; cbn; field). apply (at_point _ (point_set (P x1 y1)) _ (P x1 y1)); [intros q; apply box_point|apply point_box_apart; assumption].
  - apply box_point_like in E2. destruct E2; subst. rewrite center_x. replace (P ((x3 + x3) / 2) ((y3 + y3) / 2)) with (P x3 y3) by (apply pt_eq; cbn; field). apply swap, (at_point _ (point_set (P x3 y3)) _ (P x3 y3)); [intros q; apply box_point|apply point_box_apart; assumption].
  - rewrite box_edges_x. apply by_edges; [apply box_solid; assumption|apply boxes; assumption|]. intros g _. apply segment_box_apart; assumption.
Qed.
Theorem box_quad_apart x0 y0 x1 y1 m w h r s : x0 <= x1 -> y0 <= y1 -> 0 <= w -> exists k, dist_rect_quad (bx x0 y0 x1 y1) (qd m w h r s) = Fin k /\ apart (box_set x0 y0 x1 y1) (quad_set m w h r s) k.
Proof.
  intros X Y W. unfold dist_rect_quad. destruct (rect_point_like (bx x0 y0 x1 y1)) eqn:E1; [|destruct (quad_point_like (qd m w h r s)) eqn:E2].
  - apply box_point_like in E1. destruct E1; subst. rewrite center_x. replace (P ((x1 + x1) / 2) ((y1 + y1) / 2)) with (P x1 y1) by (apply pt_eq; cbn; field). apply (at_point _ (point_set (P x1 y1)) _ (P x1 y1)); [intros q; apply box_point|apply point_quad_apart; assumption].
  - apply quad_point_like_x in E2. destruct E2; subst. apply swap, (at_point _ (point_set m) _ m); [intros q; apply quad_point|apply point_box_apart; assumption].
  - rewrite box_edges_x. apply by_edges; [apply box_solid; assumption|apply box_quad; assumption|]. intros g _. apply segment_quad_apart; assumption.
Qed.
Theorem quads_apart m w h r s m' w' h' r' s' : 0 <= w -> 0 <= w' -> exists k, dist_quads (qd m w h r s) (qd m' w' h' r' s') = Fin k /\ apart (quad_set m w h r s) (quad_set m' w' h' r' s') k.
Proof.
  intros W W'. unfold dist_quads. destruct (quad_point_like (qd m w h r s)) eqn:E1; [|destruct (quad_point_like (qd m' w' h' r' s')) eqn:E2].
  - apply quad_point_like_x in E1. destruct E1; subst. apply (at_point _ (point_set m) _ m); [intros q; apply quad_point|apply point_quad_apart; assumption].
  - apply quad_point_like_x in E2. destruct E2; subst. apply swap, (at_point _ (point_set m') _ m'); [intros q; apply quad_point|apply point_quad_apart; assumption].
  - rewrite quad_edges_x. apply by_edges; [apply quad_solid; assumption|apply quads; assumption|]. intros g _. apply segment_quad_apart; assumption.
Qed.
Theorem distance_x a b : thing_ok a -> thing_ok b -> exists d, distance (thing_object a) (thing_object b) = Some (Fin d : T N) /\ apart (thing_set a) (thing_set b) d.
Proof.
  intros A B. assert (G : forall (f : T N) S U, (exists d, f = Fin d /\ apart S U d) -> exists d, Some f = Some (Fin d : T N) /\ apart S U d) by (intros f S U (d & -> & H); exists d; auto).
  destruct a, b; cbn [thing_ok thing_object thing_set distance] in *; apply G.
  - apply swap, points_at.
  - apply point_segment_apart.
  - apply point_triangle_apart.
  - apply point_box_apart; apply B.
  - apply point_quad_apart; exact B.
  - apply swap, point_segment_apart.
  - apply segments_apart.
  - apply segment_triangle_apart.
  - apply segment_box_apart; apply B.
  - apply segment_quad_apart; exact B.
  - apply swap, point_triangle_apart.
  - apply swap, segment_triangle_apart.
  - apply triangles_apart.
  - apply triangle_box_apart; apply B.
  - apply triangle_quad_apart; exact B.
  - apply swap, point_box_apart; apply A.
  - apply swap, segment_box_apart; apply A.
  - apply swap, triangle_box_apart; apply A.
  - apply boxes_apart; (apply A || apply B).
  - apply box_quad_apart; (apply A || exact B).
  - apply swap, point_quad_apart; exact A.
  - apply swap, segment_quad_apart; exact A.
  - apply swap, triangle_quad_apart; exact A.
  - apply swap, box_quad_apart; (apply B || exact A).
  - apply quads_apart; assumption.
Qed.
