(** Simplification in exact arithmetic: nothing moves by more than is allowed. *)
From Coq Require Import Reals Lra Lia Psatz Bool Arith List.
From Flocq Require Import Core.
From Verif Require Import NumModel GeomModel GeomSpec GeomReal GeomExact GeomOps DistanceModel DistanceSpec DistanceProofs SimplifyModel SimplifySpec SimplifyProofs.
Import ListNotations.
Local Open Scope R_scope.

Lemma within_sq d p q : 0 <= d -> (within d p q <-> dist2 p q <= d * d).
Proof.
  intros H. unfold within. pose proof (dist2_pos p q) as P. pose proof (sqrt_pos (dist2 p q)) as S. pose proof (sqrt_sqrt _ P) as Q. split; intros L; nra.
Qed.
(** points on two segments are no farther apart than the farther of the ends *)
Lemma within_mix d t u v u' v' : 0 <= d -> 0 <= t <= 1 -> within d u u' -> within d v v' -> within d (mix t u v) (mix t u' v').
Proof.
  intros D H U V. rewrite within_sq in * by exact D. unfold dist2, mix in *. cbn [px py] in *.
  set (a := px u - px u') in *. set (b := py u - py u') in *. set (c := px v - px v') in *. set (e := py v - py v') in *.
  replace ((1 - t) * px u + t * px v - ((1 - t) * px u' + t * px v')) with ((1 - t) * a + t * c) by (unfold a, c; ring).
  replace ((1 - t) * py u + t * py v - ((1 - t) * py u' + t * py v')) with ((1 - t) * b + t * e) by (unfold b, e; ring).
  assert (K : 2 * (a * c + b * e) <= d * d + d * d). { pose proof (Rle_0_sqr (a - c)). pose proof (Rle_0_sqr (b - e)). unfold Rsqr in *. nra. }
  assert (T : 0 <= t * (1 - t)) by nra.
  replace (((1 - t) * a + t * c) * ((1 - t) * a + t * c) + ((1 - t) * b + t * e) * ((1 - t) * b + t * e)) with ((1 - t) * (1 - t) * (a * a + b * b) + t * t * (c * c + e * e) + t * (1 - t) * (2 * (a * c + b * e))) by ring.
  replace (d * d) with ((1 - t) * (1 - t) * (d * d) + t * t * (d * d) + t * (1 - t) * (d * d + d * d)) by ring.
  repeat apply Rplus_le_compat; apply Rmult_le_compat_l; try assumption; nra.
Qed.
Lemma within_trans d e p q r : 0 <= d -> 0 <= e -> within d p q -> within e q r -> within (d + e) p r.
Proof.
  intros D E H1 H2. rewrite within_sq in * by lra. unfold dist2 in *. set (a := px p - px q) in *. set (b := py p - py q) in *. set (c := px q - px r) in *. set (f := py q - py r) in *.
  replace (px p - px r) with (a + c) by (unfold a, c; ring). replace (py p - py r) with (b + f) by (unfold b, f; ring).
  assert (K : a * c + b * f <= d * e).
  { assert (C : (a * c + b * f) * (a * c + b * f) <= (d * e) * (d * e)).
    { assert (C1 : (a * c + b * f) * (a * c + b * f) <= (a * a + b * b) * (c * c + f * f)) by (pose proof (Rle_0_sqr (a * f - b * c)); unfold Rsqr in *; nra).
      assert (C2 : (a * a + b * b) * (c * c + f * f) <= (d * d) * (e * e)). { apply Rmult_le_compat; try assumption; nra. } lra. }
    assert (0 <= d * e) by nra. nra. }
  nra.
Qed.
Lemma within_refl d p : 0 <= d -> within d p p. Proof. intros H. apply within_sq; [exact H|]. rewrite dist2_zero. nra. Qed.
Lemma mix_0 a b : mix 0 a b = a. Proof. destruct a, b. unfold mix. cbn. f_equal; ring. Qed.
Lemma mix_1 a b : mix 1 a b = b. Proof. destruct a, b. unfold mix. cbn. f_equal; ring. Qed.

(** ** Points of polylines *)
Lemma on_cons a b l p : on_line (a :: b :: l) p <-> seg_set a b p \/ on_line (b :: l) p.
Proof.
  split.
  - intros ([|c l1] & x & y & l2 & E & H); cbn in E; injection E; intros; subst; [left; exact H|]. right. exists l1, x, y, l2. split; assumption.
  - intros [H|(l1 & x & y & l2 & E & H)]; [exists [], a, b, l; auto|]. exists (a :: l1), x, y, l2. split; [cbn; rewrite E; reflexivity|exact H].
Qed.
Lemma on_one a p : ~ on_line [a] p.
Proof. intros ([|c [|]] & x & y & l2 & E & _); discriminate. Qed.
Lemma on_app l1 b l2 p : on_line (l1 ++ b :: l2) p <-> on_line (l1 ++ [b]) p \/ on_line (b :: l2) p.
Proof.
  induction l1 as [|a l1 IH]; cbn [app].
  - split; [auto|]. intros [H|H]; [destruct (on_one _ _ H)|exact H].
  - destruct l1 as [|c l1]; cbn [app] in *.
    + rewrite !on_cons. pose proof (on_one b p). tauto.
    + rewrite (on_cons a c (l1 ++ b :: l2)), (on_cons a c (l1 ++ [b])), IH. tauto.
Qed.
(** near a segment *)
Definition near_seg (e : R) (a b v : pt) : Prop := exists q, seg_set a b q /\ within e v q.
Lemma seg_conv a b u v t : 0 <= t <= 1 -> seg_set a b u -> seg_set a b v -> seg_set a b (mix t u v).
Proof.
  intros H (s & Hs & ->) (r & Hr & ->). exists (s + t * (r - s)). split; [nra|]. unfold mix. cbn. f_equal; ring.
Qed.
Lemma run_near e a b l p : 0 <= e -> (forall v, In v l -> near_seg e a b v) -> on_line l p -> near_seg e a b p.
Proof.
  intros E H (l1 & x & y & l2 & -> & t & Ht & ->). destruct (H x) as (u & Hu & Wu); [apply in_or_app; right; left; reflexivity|]. destruct (H y) as (v & Hv & Wv); [apply in_or_app; right; right; left; reflexivity|].
  exists (mix t u v). split; [apply seg_conv; assumption|]. apply within_mix; assumption.
Qed.
Lemma run_reach e a b s : 0 <= e -> 0 <= s <= 1 -> forall mid x sx, 0 <= sx <= s -> within e x (mix sx a b) -> (forall v, In v mid -> near_seg e a b v) ->
  exists p, on_line (x :: mid ++ [b]) p /\ within e (mix s a b) p.
Proof.
  intros E Hs. assert (Sym : forall p q, within e p q -> within e q p) by (intros p q; unfold within; rewrite dist2_sym; auto).
  assert (K : forall x y sx sy, 0 <= sx <= s -> s <= sy -> within e x (mix sx a b) -> within e y (mix sy a b) -> exists p, seg_set x y p /\ within e (mix s a b) p).
  { intros x y sx sy H1 H2 Wx Wy. destruct (Req_dec sx sy) as [Q|Q].
    - exists x. split; [exists 0; split; [lra|symmetry; apply mix_0]|]. apply Sym. replace s with sx by lra. exact Wx.
    - set (t := (s - sx) / (sy - sx)). assert (Ht : 0 <= t <= 1). { unfold t. split; [apply Rmult_le_pos; [lra|left; apply Rinv_0_lt_compat; lra]|]. apply (Rmult_le_reg_r (sy - sx)); [lra|]. unfold Rdiv. rewrite Rmult_assoc, Rinv_l by lra. lra. }
      exists (mix t x y). split; [exists t; auto|]. apply Sym. replace (mix s a b) with (mix t (mix sx a b) (mix sy a b)); [apply within_mix; assumption|].
      unfold mix. cbn. assert (Z : sx + t * (sy - sx) = s) by (unfold t; field; lra). f_equal; rewrite <- Z; ring. }
  induction mid as [|y mid IH]; intros x sx Hx Wx Hm.
  - destruct (K x b sx 1 Hx ltac:(lra) Wx ltac:(rewrite mix_1; apply within_refl; exact E)) as (p & Hp & Wp). exists p. split; [|exact Wp]. cbn [app]. rewrite on_cons. left. exact Hp.
  - destruct (Hm y (or_introl eq_refl)) as (q & (sy & Hy & ->) & Wy). cbn [app]. destruct (Rle_lt_dec s sy) as [L|L].
    + destruct (K x y sx sy Hx L Wx Wy) as (p & Hp & Wp). exists p. split; [|exact Wp]. rewrite on_cons. left. exact Hp.
    + destruct (IH y sy ltac:(lra) Wy (fun v Hv => Hm v (or_intror Hv))) as (p & Hp & Wp). exists p. split; [|exact Wp]. rewrite on_cons. right. exact Hp.
Qed.
Lemma drops_map {A} (rp : A -> pt) (near : A -> A -> A -> Prop) (near' : pt -> pt -> pt -> Prop) l k : (forall a b v, near a b v -> near' (rp a) (rp b) (rp v)) -> drops near l k -> drops near' (map rp l) (map rp k).
Proof.
  intros H. induction 1 as [a|a mid b l k Hn D IH]; [constructor|]. cbn [map]. rewrite map_app. cbn [map]. apply drop_run; [|exact IH].
  intros v Hv. apply in_map_iff in Hv. destruct Hv as (w & <- & Hw). apply H, Hn, Hw.
Qed.
(** the two polylines are near one another *)
Lemma drops_near e l k : 0 <= e -> drops (near_seg e) l k -> (forall p, on_line l p -> exists q, on_line k q /\ within e p q) /\ (forall q, on_line k q -> exists p, on_line l p /\ within e q p).
Proof.
  intros E. induction 1 as [a|a mid b l k Hn D [IH1 IH2]]; [split; intros p Hp; destruct (on_one _ _ Hp)|]. split.
  - intros p Hp. change (a :: mid ++ b :: l) with ((a :: mid) ++ b :: l) in Hp. rewrite on_app in Hp. destruct Hp as [Hp|Hp].
    + assert (N : near_seg e a b p).
      { apply (run_near e a b ((a :: mid) ++ [b])); [exact E| |exact Hp]. intros v Hv. apply in_app_or in Hv. destruct Hv as [[<-|Hv]|[<-|[]]].
        - exists a. split; [exists 0; split; [lra|symmetry; apply mix_0]|apply within_refl; exact E].
        - exact (Hn v Hv).
        - exists b. split; [exists 1; split; [lra|symmetry; apply mix_1]|apply within_refl; exact E]. }
      destruct N as (q & Hq & W). exists q. split; [|exact W]. rewrite on_cons. left. exact Hq.
    + destruct (IH1 p Hp) as (q & Hq & W). exists q. split; [|exact W]. rewrite on_cons. right. exact Hq.
  - intros q Hq. rewrite on_cons in Hq. destruct Hq as [(s & Hs & ->)|Hq].
    + destruct (run_reach e a b s E Hs mid a 0 ltac:(lra) ltac:(rewrite mix_0; apply within_refl; exact E) Hn) as (p & Hp & W). exists p. split; [|exact W].
      change (a :: mid ++ b :: l) with ((a :: mid) ++ b :: l). rewrite on_app. left. exact Hp.
    + destruct (IH2 q Hq) as (p & Hp & W). exists p. split; [|exact W]. change (a :: mid ++ b :: l) with ((a :: mid) ++ b :: l). rewrite on_app. right. exact Hp.
Qed.
(** ** Distances *)
Lemma far_x e a b v : 0 <= e -> (nlt xnum (Fin e) (dist_point_segment (pv v) (Seg (pv a) (pv b))) = true <-> ~ near_seg e a b v).
Proof.
  intros E. destruct (point_segment_apart v a b) as (d & Q & D0 & (p & q & Hp & Hq & Dq) & Hm). unfold sg in Q. rewrite Q. rewrite lt_x. unfold point_set in Hp. subst p. split.
  - intros L (x & Hx & W). rewrite within_sq in W by exact E. pose proof (Hm v x eq_refl Hx). nra.
  - intros H. destruct (Rlt_le_dec e d) as [L|L]; [exact L|]. exfalso. apply H. exists q. split; [exact Hq|]. rewrite within_sq by exact E. nra.
Qed.
Lemma not_far_x e a b v : 0 <= e -> ~ (nlt xnum (Fin e) (dist_point_segment (pv v) (Seg (pv a) (pv b))) = true) -> near_seg e a b v.
Proof.
  intros E H. destruct (point_segment_apart v a b) as (d & Q & D0 & (p & q & Hp & Hq & Dq) & Hm). unfold sg in Q. rewrite Q, lt_x in H. unfold point_set in Hp. subst p. exists q. split; [exact Hq|]. rewrite within_sq by exact E. nra.
Qed.
