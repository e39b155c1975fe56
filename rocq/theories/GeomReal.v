(** Convex point sets with an edge cycle: two of them share a point exactly when one contains a
    chosen point of the other or two edges share a point. *)
From Coq Require Import Reals Lra Psatz List.
From Verif Require Import GeomSpec.
Import ListNotations.
Local Open Scope R_scope.

(** leaving through a wall: of several affine functions that start at or above zero, and of
    which one ends below zero, one reaches zero while all are still at or above it *)
Lemma exit_walls (fs : list (R * R)) : (forall f, In f fs -> 0 <= fst f) -> (exists f, In f fs /\ snd f < 0) ->
  exists t, 0 <= t <= 1 /\ (forall f, In f fs -> 0 <= fst f + t * (snd f - fst f)) /\ exists f, In f fs /\ fst f + t * (snd f - fst f) = 0.
Proof.
  induction fs as [|f fs IH]; intros H0 (g & Hg & Hn); [destruct Hg|].
  assert (F0 : 0 <= fst f) by (apply H0; left; reflexivity).
  assert (D : (exists g, In g fs /\ snd g < 0) \/ forall g, In g fs -> 0 <= snd g).
  { clear. induction fs as [|a l IH]; [right; intros ? []|]. destruct (Rlt_le_dec (snd a) 0); [left; exists a; split; [left; reflexivity|assumption]|].
    destruct IH as [(g & G1 & G2)|G]; [left; exists g; split; [right|]; assumption|right; intros g [<-|Hg]; auto]. }
  assert (Key : forall u, 0 <= u <= 1 -> (forall g, In g fs -> 0 <= fst g + u * (snd g - fst g)) -> fst f + u * (snd f - fst f) < 0 ->
     exists t, 0 <= t <= 1 /\ (forall g, In g (f :: fs) -> 0 <= fst g + t * (snd g - fst g)) /\ exists g, In g (f :: fs) /\ fst g + t * (snd g - fst g) = 0).
  { intros u Hu Hall Hneg. set (d := fst f - snd f). assert (Pd : 0 < d) by (unfold d; nra). set (t := fst f / d).
    assert (Td : t * d = fst f) by (unfold t; field; lra). assert (T0 : 0 <= t) by nra. assert (Tu : t < u) by (unfold d in *; nra).
    exists t. split; [lra|]. assert (Z : fst f + t * (snd f - fst f) = 0) by (unfold d in *; nra). split.
    - intros g' [<-|Hg']; [lra|]. assert (Gp := Hall g' Hg'). assert (G0 : 0 <= fst g') by (apply H0; right; exact Hg'). nra.
    - exists f. split; [left; reflexivity|exact Z]. }
  destruct D as [D|D].
  - destruct (IH (fun f' H => H0 f' (or_intror H)) D) as (t & T1 & T2 & (k & K1 & K2)).
    destruct (Rlt_le_dec (fst f + t * (snd f - fst f)) 0) as [L|L]; [exact (Key t T1 T2 L)|].
    exists t. split; [exact T1|]. split; [intros g' [<-|Hg']; auto|]. exists k. split; [right; exact K1|exact K2].
  - destruct Hg as [<-|Hg]; [|specialize (D g Hg); lra]. apply (Key 1); [lra| |lra]. intros g' Hg'. specialize (D g' Hg'). lra.
Qed.

Lemma pt_eq a b : px a = px b -> py a = py b -> a = b.
Proof. destruct a, b; cbn; intros -> ->; reflexivity. Qed.
Definition convex (S : shape) : Prop := forall a b t, S a -> S b -> 0 <= t <= 1 -> S (mix t a b).
Definition edge := (pt * pt)%type.
Definition on (e : edge) : shape := seg_set (fst e) (snd e).
Definition rim (es : list edge) : shape := fun p => exists e, In e es /\ on e p.
Record solid (S : shape) (es : list edge) : Prop := {
  so_convex : convex S;
  so_edges : forall e p, In e es -> on e p -> S p;
  so_exit : forall z a, S z -> ~ S a -> exists w, seg_set z a w /\ rim es w;
  so_hull : forall U, convex U -> (forall e, In e es -> U (fst e) /\ U (snd e)) -> forall p, S p -> U p;
  so_cycle : forall Q : pt -> Prop, (forall e, In e es -> Q (fst e) -> Q (snd e)) -> forall e e', In e es -> In e' es -> Q (fst e) -> Q (fst e');
}.
Lemma mix_mix s t u a b : mix s (mix t a b) (mix u a b) = mix ((1 - s) * t + s * u) a b.
Proof. apply pt_eq; cbn; ring. Qed.
Lemma mix_0 a b : mix 0 a b = a. Proof. apply pt_eq; cbn; ring. Qed.
Lemma mix_1 a b : mix 1 a b = b. Proof. apply pt_eq; cbn; ring. Qed.
Lemma mix_swap t a b : mix t a b = mix (1 - t) b a. Proof. apply pt_eq; cbn; ring. Qed.
Lemma seg_convex a b : convex (seg_set a b).
Proof. intros p q s (t & Ht & ->) (u & Hu & ->) Hs. exists ((1 - s) * t + s * u). split; [nra|]. apply mix_mix. Qed.
Lemma seg_start a b : seg_set a b a. Proof. exists 0. split; [lra|]. symmetry. apply mix_0. Qed.
Lemma seg_end a b : seg_set a b b. Proof. exists 1. split; [lra|]. symmetry. apply mix_1. Qed.
Lemma seg_sym a b p : seg_set a b p -> seg_set b a p.
Proof. intros (t & Ht & ->). exists (1 - t). split; [lra|]. apply mix_swap. Qed.
Lemma seg_in (S : shape) a b p : convex S -> S a -> S b -> seg_set a b p -> S p.
Proof. intros C Ha Hb (t & Ht & ->). apply C; assumption. Qed.
Lemma seg_set_solid a b : solid (seg_set a b) [(a, b)].
Proof.
  constructor.
  - apply seg_convex.
  - intros e p [<-|[]]. exact (fun H => H).
  - intros z c Hz _. exists z. split; [apply seg_start|]. exists (a, b). split; [left; reflexivity|exact Hz].
  - intros U C H p Hp. destruct (H _ (or_introl eq_refl)) as [H1 H2]. exact (seg_in U a b p C H1 H2 Hp).
  - intros Q _ e e' [<-|[]] [<-|[]]. exact (fun H => H).
Qed.
(** edges of [A] meet edges of [B] *)
Definition cross (ea eb : list edge) : Prop := exists e f, In e ea /\ In f eb /\ meet (on e) (on f).
Section Meet.
Variables (A B : shape) (ea eb : list edge).
Hypothesis HA : solid A ea.
Hypothesis HB : solid B eb.
Lemma cross_meet : cross ea eb -> meet A B.
Proof. intros (e & f & He & Hf & (p & P1 & P2)). exists p. split; [apply (so_edges _ _ HA e)|apply (so_edges _ _ HB f)]; assumption. Qed.
(** without crossing edges an edge lies inside [B] or outside *)
Lemma edge_stays e : ~ cross ea eb -> In e ea -> forall p q, on e p -> on e q -> B p -> B q.
Proof.
  intros Nc He p q Hp Hq Bp. destruct (Classical_Prop.classic (B q)) as [Bq|Bq]; [exact Bq|exfalso]. apply Nc.
  destruct (so_exit _ _ HB p q Bp Bq) as (w & Hw & (f & Hf & Hwf)). exists e, f. split; [exact He|]. split; [exact Hf|]. exists w. split; [|exact Hwf].
  eapply seg_in; [apply seg_convex|exact Hp|exact Hq|exact Hw].
Qed.
Lemma rim_stays : ~ cross ea eb -> (exists p, rim ea p /\ B p) -> forall p, A p -> B p.
Proof.
  intros Nc (p & (e & He & Hp) & Bp). apply (so_hull _ _ HA B (so_convex _ _ HB)). intros e' He'.
  assert (B1 : B (fst e)) by (apply (edge_stays e Nc He p); [exact Hp|apply seg_start|exact Bp]).
  assert (B2 : B (fst e')).
  { apply (so_cycle _ _ HA B) with e; auto. intros f Hf Bf. apply (edge_stays f Nc Hf (fst f)); [apply seg_start|apply seg_end|exact Bf]. }
  split; [exact B2|]. apply (edge_stays e' Nc He' (fst e')); [apply seg_start|apply seg_end|exact B2].
Qed.
End Meet.
Theorem solids_meet A B ea eb a b : solid A ea -> solid B eb -> A a -> B b ->
  (meet A B <-> B a \/ A b \/ cross ea eb).
Proof.
  intros HA HB Aa Bb. split.
  - intros (z & Az & Bz). destruct (Classical_Prop.classic (B a)) as [|Na]; [tauto|]. right. destruct (Classical_Prop.classic (A b)) as [|Nb]; [tauto|]. right.
    destruct (Classical_Prop.classic (cross ea eb)) as [|Nc]; [assumption|exfalso].
    destruct (so_exit _ _ HB z a Bz Na) as (w & Hw & Rw). assert (Aw : A w) by (eapply seg_in; [exact (so_convex _ _ HA)|exact Az|exact Aa|exact Hw]).
    assert (Nc' : ~ cross eb ea) by (intros (e & f & He & Hf & (p & P1 & P2)); apply Nc; exists f, e; split; [|split]; auto; exists p; auto).
    apply Nb. apply (rim_stays B A eb ea HB HA Nc'); [exists w; auto|exact Bb].
  - intros [H|[H|H]]; [exists a; auto|exists b; auto|eapply cross_meet; eauto].
Qed.
Theorem seg_meets B eb a b : solid B eb -> (meet (seg_set a b) B <-> B a \/ cross [(a, b)] eb).
Proof.
  intros HB. split.
  - intros (z & Az & Bz). destruct (Classical_Prop.classic (B a)) as [|Na]; [tauto|]. right. destruct (so_exit _ _ HB z a Bz Na) as (w & Hw & (f & Hf & Wf)).
    exists (a, b), f. split; [left; reflexivity|]. split; [exact Hf|]. exists w. split; [|exact Wf]. eapply seg_in; [apply seg_convex|exact Az|apply seg_start|exact Hw].
  - intros [H|H]; [exists a; split; [apply seg_start|exact H]|eapply cross_meet; [apply seg_set_solid|exact HB|exact H]].
Qed.

Lemma solid_ext (S U : shape) es : (forall p, S p <-> U p) -> solid S es -> solid U es.
Proof.
  intros H [C1 C2 C3 C4 C5]. constructor.
  - intros a b t Ha Hb Ht. apply H. apply C1; [apply H|apply H|]; assumption.
  - intros e p He Hp. apply H. eapply C2; eauto.
  - intros z a Hz Ha. apply C3; [apply H; exact Hz|intros Q; apply Ha, H, Q].
  - intros V CV HV p Hp. apply (C4 V CV HV). apply H, Hp.
  - exact C5.
Qed.
(** ** Triangles *)
Definition det3 (a b c : pt) : R := (px b - px a) * (py c - py a) - (py b - py a) * (px c - px a).
Definition tri_rim (a b c : pt) : list edge := [(a, b); (b, c); (c, a)].
Lemma tri_convex a b c : convex (tri_set a b c).
Proof.
  intros p q t (u & v & w & U1 & V1 & W1 & S1 & ->) (u' & v' & w' & U2 & V2 & W2 & S2 & ->) Ht.
  exists ((1 - t) * u + t * u'), ((1 - t) * v + t * v'), ((1 - t) * w + t * w').
  split; [nra|]. split; [nra|]. split; [nra|]. split; [nra|]. apply pt_eq; cbn; ring.
Qed.
Lemma tri_0 a b c : tri_set a b c a. Proof. exists 1, 0, 0. do 4 (split; [lra|]). apply pt_eq; cbn; ring. Qed.
Lemma tri_1 a b c : tri_set a b c b. Proof. exists 0, 1, 0. do 4 (split; [lra|]). apply pt_eq; cbn; ring. Qed.
Lemma tri_2 a b c : tri_set a b c c. Proof. exists 0, 0, 1. do 4 (split; [lra|]). apply pt_eq; cbn; ring. Qed.
(** a third point on the line through two different points *)
Lemma on_line a b c : a <> b -> det3 a b c = 0 -> exists k, c = mix k a b.
Proof.
  intros Hab H. set (dx := px b - px a). set (dy := py b - py a). set (m := dx * dx + dy * dy).
  assert (Hm : m <> 0). { intros Q. apply Hab. assert (dx = 0 /\ dy = 0) as [A B] by (unfold m in Q; split; nra). apply pt_eq; unfold dx, dy in *; lra. }
  unfold det3 in H. fold dx dy in H. set (X := px c - px a) in *. set (Y := py c - py a) in *. set (k := (X * dx + Y * dy) / m). assert (K : k * m = X * dx + Y * dy) by (unfold k; field; exact Hm).
  assert (E1 : (X - k * dx) * m = 0). { replace ((X - k * dx) * m) with (X * m - (k * m) * dx) by ring. rewrite K. unfold m. replace (X * (dx * dx + dy * dy) - (X * dx + Y * dy) * dx) with (- dy * (dx * Y - dy * X)) by ring. rewrite H. ring. }
  assert (E2 : (Y - k * dy) * m = 0). { replace ((Y - k * dy) * m) with (Y * m - (k * m) * dy) by ring. rewrite K. unfold m. replace (Y * (dx * dx + dy * dy) - (X * dx + Y * dy) * dy) with (dx * (dx * Y - dy * X)) by ring. rewrite H. ring. }
  apply Rmult_integral in E1, E2. exists k. apply pt_eq; cbn; unfold X, Y, dx, dy in *; destruct E1 as [E1|E1]; try contradiction; destruct E2 as [E2|E2]; try contradiction; lra.
Qed.
Lemma tri_flat a b c p : det3 a b c = 0 -> tri_set a b c p -> rim (tri_rim a b c) p.
Proof.
  intros H (u & v & w & U1 & V1 & W1 & S1 & ->). unfold rim, tri_rim.
  destruct (Classical_Prop.classic (a = b)) as [<-|N].
  - exists (c, a). split; [right; right; left; reflexivity|]. exists (u + v). split; [lra|]. apply pt_eq; cbn; nra.
  - destruct (on_line a b c N H) as (k & ->). destruct (Rle_dec k 0) as [K|K]; [|destruct (Rle_dec k 1) as [K'|K']].
    + exists (b, mix k a b). split; [right; left; reflexivity|]. exists ((1 - (v + w * k)) / (1 - k)). split.
      * split; [apply Rmult_le_pos; [nra|left; apply Rinv_0_lt_compat; lra]|apply Rmult_le_reg_r with (1 - k); [lra|]; unfold Rdiv; rewrite Rmult_assoc, Rinv_l by lra; nra].
      * assert (u = 1 - v - w) as -> by lra. apply pt_eq; cbn; field; lra.
    + exists (a, b). split; [left; reflexivity|]. exists (v + w * k). split; [nra|]. assert (u = 1 - v - w) as -> by lra. apply pt_eq; cbn; ring.
    + exists (mix k a b, a). split; [right; right; left; reflexivity|]. exists (1 - (v + w * k) / k). split.
      * assert (0 <= (v + w * k) / k <= 1); [|lra]. split; [apply Rmult_le_pos; [nra|left; apply Rinv_0_lt_compat; lra]|apply Rmult_le_reg_r with k; [lra|]; unfold Rdiv; rewrite Rmult_assoc, Rinv_l by lra; nra].
      * assert (u = 1 - v - w) as -> by lra. apply pt_eq; cbn; field; lra.
Qed.
(** barycentric coordinates *)
Lemma bary a b c p : det3 a b c <> 0 -> p = P (det3 p b c / det3 a b c * px a + det3 a p c / det3 a b c * px b + det3 a b p / det3 a b c * px c)
   (det3 p b c / det3 a b c * py a + det3 a p c / det3 a b c * py b + det3 a b p / det3 a b c * py c) /\
   det3 p b c / det3 a b c + det3 a p c / det3 a b c + det3 a b p / det3 a b c = 1.
Proof. intros H. unfold det3 in *. split; [apply pt_eq; cbn|]; field; exact H. Qed.
Lemma bary_unique a b c u v w : u + v + w = 1 -> let p := P (u * px a + v * px b + w * px c) (u * py a + v * py b + w * py c) in
  det3 p b c = u * det3 a b c /\ det3 a p c = v * det3 a b c /\ det3 a b p = w * det3 a b c.
Proof. intros H. assert (u = 1 - v - w) as -> by lra. unfold det3. cbn. split; [ring|split; ring]. Qed.
Lemma tri_iff a b c p : det3 a b c <> 0 -> (tri_set a b c p <-> 0 <= det3 p b c / det3 a b c /\ 0 <= det3 a p c / det3 a b c /\ 0 <= det3 a b p / det3 a b c).
Proof.
  intros H. split.
  - intros (u & v & w & U1 & V1 & W1 & S1 & ->). destruct (bary_unique a b c u v w S1) as (-> & -> & ->). unfold Rdiv. rewrite !Rmult_assoc, !Rinv_r by exact H. lra.
  - intros (H1 & H2 & H3). destruct (bary a b c p H) as [Q1 Q2]. do 3 eexists. split; [exact H1|]. split; [exact H2|]. split; [exact H3|]. split; [exact Q2|exact Q1].
Qed.
Lemma tri_solid a b c : solid (tri_set a b c) (tri_rim a b c).
Proof.
  constructor.
  - apply tri_convex.
  - intros e p He Hp. destruct He as [<-|[<-|[<-|[]]]]; eapply seg_in; try exact Hp; try apply tri_convex; cbn; auto using tri_0, tri_1, tri_2.
  - intros z q Hz Hq. destruct (Req_dec (det3 a b c) 0) as [D|D].
    + exists z. split; [apply seg_start|]. apply tri_flat; assumption.
    + rewrite tri_iff in Hz, Hq by exact D. destruct Hz as (Z1 & Z2 & Z3).
      destruct (exit_walls [(det3 z b c / det3 a b c, det3 q b c / det3 a b c); (det3 a z c / det3 a b c, det3 a q c / det3 a b c); (det3 a b z / det3 a b c, det3 a b q / det3 a b c)]) as (t & Ht & T1 & T2).
      { intros f [<-|[<-|[<-|[]]]]; assumption. }
      { apply Classical_Prop.NNPP. intros Nx. apply Hq. split; [|split]; apply Rnot_lt_le; intros L; apply Nx; eexists (_, _); (split; [|cbn; exact L]); cbn; eauto. }
      exists (mix t z q). split; [exists t; auto|]. destruct (bary a b c (mix t z q) D) as [W1 W2].
      assert (A1 : det3 (mix t z q) b c / det3 a b c = det3 z b c / det3 a b c + t * (det3 q b c / det3 a b c - det3 z b c / det3 a b c)) by (unfold det3 at 1; cbn; unfold det3 in *; field; exact D).
      assert (A2 : det3 a (mix t z q) c / det3 a b c = det3 a z c / det3 a b c + t * (det3 a q c / det3 a b c - det3 a z c / det3 a b c)) by (unfold det3 at 1; cbn; unfold det3 in *; field; exact D).
      assert (A3 : det3 a b (mix t z q) / det3 a b c = det3 a b z / det3 a b c + t * (det3 a b q / det3 a b c - det3 a b z / det3 a b c)) by (unfold det3 at 1; cbn; unfold det3 in *; field; exact D).
      assert (B1 := T1 _ (or_introl eq_refl)). assert (B2 := T1 _ (or_intror (or_introl eq_refl))). assert (B3 := T1 _ (or_intror (or_intror (or_introl eq_refl)))). cbn [fst snd] in B1, B2, B3. rewrite <- A1 in B1. rewrite <- A2 in B2. rewrite <- A3 in B3.
      set (u := det3 (mix t z q) b c / det3 a b c) in *. set (v := det3 a (mix t z q) c / det3 a b c) in *. set (w := det3 a b (mix t z q) / det3 a b c) in *. rewrite W1. clearbody u v w.
      destruct T2 as (f & [<-|[<-|[<-|[]]]] & F); cbn [fst snd] in F.
      * rewrite <- A1 in F. exists (b, c). split; [right; left; reflexivity|]. exists w. split; [lra|]. rewrite F. assert (v = 1 - w) as -> by lra. apply pt_eq; cbn; ring.
      * rewrite <- A2 in F. exists (c, a). split; [right; right; left; reflexivity|]. exists u. split; [lra|]. rewrite F. assert (w = 1 - u) as -> by lra. apply pt_eq; cbn; ring.
      * rewrite <- A3 in F. exists (a, b). split; [left; reflexivity|]. exists v. split; [lra|]. rewrite F. assert (u = 1 - v) as -> by lra. apply pt_eq; cbn; ring.
  - intros U CU HU p (u & v & w & U1 & V1 & W1 & S1 & ->). destruct (HU _ (or_introl eq_refl)) as [Ua Ub], (HU _ (or_intror (or_introl eq_refl))) as [_ Uc]. cbn in Ua, Ub, Uc.
    destruct (Req_dec (v + w) 0) as [Q|Q].
    + assert (v = 0) as -> by lra. assert (w = 0) as -> by lra. assert (u = 1) as -> by lra. replace (P _ _) with a by (apply pt_eq; cbn; ring). exact Ua.
    + replace (P _ _) with (mix (v + w) a (mix (w / (v + w)) b c)) by (apply pt_eq; cbn; assert (u = 1 - v - w) as -> by lra; field; lra).
      apply CU; [exact Ua| |lra]. apply CU; [exact Ub|exact Uc|]. split; [apply Rmult_le_pos; [lra|left; apply Rinv_0_lt_compat; lra]|apply Rmult_le_reg_r with (v + w); [lra|]; unfold Rdiv; rewrite Rmult_assoc, Rinv_l by lra; lra].
  - intros Q HQ e e' He He' Qe. assert (H1 := HQ _ (or_introl eq_refl)). assert (H2 := HQ _ (or_intror (or_introl eq_refl))). assert (H3 := HQ _ (or_intror (or_intror (or_introl eq_refl)))). cbn in *.
    destruct He as [<-|[<-|[<-|[]]]], He' as [<-|[<-|[<-|[]]]]; cbn in *; auto.
Qed.
(** ** Parallelograms *)
Definition corner (c u v : pt) (s t : R) : pt := P (px c + s * px u + t * px v) (py c + s * py u + t * py v).
Definition par_rim (c u v : pt) : list edge :=
  let a := corner c u v (-1) (-1) in let b := corner c u v 1 (-1) in let d := corner c u v 1 1 in let e := corner c u v (-1) 1 in
  [(a, b); (b, d); (d, e); (e, a)].
Definition det2 (u v : pt) : R := px u * py v - py u * px v.
Lemma par_convex c u v : convex (par_set c u v).
Proof.
  intros p q k (s & t & S1 & T1 & ->) (s' & t' & S2 & T2 & ->) Hk. exists ((1 - k) * s + k * s'), ((1 - k) * t + k * t'). split; [nra|]. split; [nra|]. apply pt_eq; cbn; ring.
Qed.
Lemma par_corner c u v s t : -1 <= s <= 1 -> -1 <= t <= 1 -> par_set c u v (corner c u v s t).
Proof. intros Hs Ht. exists s, t. auto. Qed.
Lemma par_coords c u v p : det2 u v <> 0 -> p = corner c u v (det2 (P (px p - px c) (py p - py c)) v / det2 u v) (det2 u (P (px p - px c) (py p - py c)) / det2 u v).
Proof. intros H. unfold det2 in *. apply pt_eq; cbn; field; exact H. Qed.
Lemma par_unique c u v s t : let p := corner c u v s t in det2 (P (px p - px c) (py p - py c)) v = s * det2 u v /\ det2 u (P (px p - px c) (py p - py c)) = t * det2 u v.
Proof. unfold det2; cbn. split; ring. Qed.
Lemma par_iff c u v p : det2 u v <> 0 -> (par_set c u v p <-> -1 <= det2 (P (px p - px c) (py p - py c)) v / det2 u v <= 1 /\ -1 <= det2 u (P (px p - px c) (py p - py c)) / det2 u v <= 1).
Proof.
  intros H. split.
  - intros (s & t & S1 & T1 & ->). destruct (par_unique c u v s t) as [A B]. unfold corner in A, B. rewrite A, B. unfold Rdiv. rewrite !Rmult_assoc, !Rinv_r by exact H. lra.
  - intros [A B]. do 2 eexists. split; [exact A|]. split; [exact B|]. apply par_coords. exact H.
Qed.
Lemma side c u v s t s' t' k : mix k (corner c u v s t) (corner c u v s' t') = corner c u v ((1 - k) * s + k * s') ((1 - k) * t + k * t').
Proof. apply pt_eq; cbn; ring. Qed.
Lemma par_side c u v s t : -1 <= s <= 1 -> -1 <= t <= 1 -> (s = 1 \/ s = -1 \/ t = 1 \/ t = -1) -> rim (par_rim c u v) (corner c u v s t).
Proof.
  intros Hs Ht [-> | [-> | [-> | ->]]]; unfold rim, par_rim.
  - exists (corner c u v 1 (-1), corner c u v 1 1). split; [right; left; reflexivity|]. exists ((1 + t) / 2). split; [lra|]. cbn [fst snd]. rewrite side. f_equal; lra.
  - exists (corner c u v (-1) 1, corner c u v (-1) (-1)). split; [right; right; right; left; reflexivity|]. exists ((1 - t) / 2). split; [lra|]. cbn [fst snd]. rewrite side. f_equal; lra.
  - exists (corner c u v 1 1, corner c u v (-1) 1). split; [right; right; left; reflexivity|]. exists ((1 - s) / 2). split; [lra|]. cbn [fst snd]. rewrite side. f_equal; lra.
  - exists (corner c u v (-1) (-1), corner c u v 1 (-1)). split; [left; reflexivity|]. exists ((1 + s) / 2). split; [lra|]. cbn [fst snd]. rewrite side. f_equal; lra.
Qed.
Lemma par_flat c u v p : u = P 0 0 \/ v = P 0 0 -> par_set c u v p -> rim (par_rim c u v) p.
Proof.
  intros [-> | ->] (s & t & S1 & T1 & ->).
  - match goal with |- rim _ ?p => replace p with (corner c (P 0 0) v 1 t) by (apply pt_eq; cbn; ring) end. apply par_side; auto; lra.
  - match goal with |- rim _ ?p => replace p with (corner c u (P 0 0) s 1) by (apply pt_eq; cbn; ring) end. apply par_side; auto; lra.
Qed.
Lemma par_solid c u v : (det2 u v <> 0 \/ u = P 0 0 \/ v = P 0 0) -> solid (par_set c u v) (par_rim c u v).
Proof.
  intros Hd. constructor.
  - apply par_convex.
  - intros e p He Hp. destruct He as [<-|[<-|[<-|[<-|[]]]]]; eapply seg_in; try exact Hp; try apply par_convex; cbn [fst snd]; apply par_corner; lra.
  - intros z q Hz Hq. destruct Hd as [D|D]; [|exists z; split; [apply seg_start|apply par_flat; assumption]].
    rewrite par_iff in Hz, Hq by exact D. set (S := fun p => det2 (P (px p - px c) (py p - py c)) v / det2 u v). set (U := fun p => det2 u (P (px p - px c) (py p - py c)) / det2 u v). fold (S z) (U z) in Hz. fold (S q) (U q) in Hq.
    destruct (exit_walls [(1 - S z, 1 - S q); (1 + S z, 1 + S q); (1 - U z, 1 - U q); (1 + U z, 1 + U q)]) as (t & Ht & T1 & T2).
    { intros f [<-|[<-|[<-|[<-|[]]]]]; cbn; lra. }
    { apply Classical_Prop.NNPP. intros Nx. assert (G : forall x y, In (x, y) [(1 - S z, 1 - S q); (1 + S z, 1 + S q); (1 - U z, 1 - U q); (1 + U z, 1 + U q)] -> 0 <= y) by (intros x y Hin; apply Rnot_lt_le; intros L; apply Nx; exists (x, y); auto).
      apply Hq. assert (G1 := G _ _ (or_introl eq_refl)). assert (G2 := G _ _ (or_intror (or_introl eq_refl))). assert (G3 := G _ _ (or_intror (or_intror (or_introl eq_refl)))). assert (G4 := G _ _ (or_intror (or_intror (or_intror (or_introl eq_refl))))). lra. }
    exists (mix t z q). split; [exists t; auto|].
    assert (A1 : S (mix t z q) = S z + t * (S q - S z)) by (unfold S, det2 in *; cbn; field; exact D). assert (A2 : U (mix t z q) = U z + t * (U q - U z)) by (unfold U, det2 in *; cbn; field; exact D).
    assert (B1 := T1 _ (or_introl eq_refl)). assert (B2 := T1 _ (or_intror (or_introl eq_refl))). assert (B3 := T1 _ (or_intror (or_intror (or_introl eq_refl)))). assert (B4 := T1 _ (or_intror (or_intror (or_intror (or_introl eq_refl))))). cbn [fst snd] in B1, B2, B3, B4.
    rewrite (par_coords c u v (mix t z q) D). fold (S (mix t z q)) (U (mix t z q)). apply par_side; [lra|lra|].
    destruct T2 as (f & [<-|[<-|[<-|[<-|[]]]]] & F); cbn [fst snd] in F; [left|right; left|right; right; left|right; right; right]; lra.
  - intros V CV HV p (s & t & S1 & T1 & ->). destruct (HV _ (or_introl eq_refl)) as [Va Vb], (HV _ (or_intror (or_intror (or_introl eq_refl)))) as [Vd Ve]. cbn [fst snd] in Va, Vb, Vd, Ve.
    change (V (corner c u v s t)). replace (corner c u v s t) with (mix ((1 + t) / 2) (mix ((1 + s) / 2) (corner c u v (-1) (-1)) (corner c u v 1 (-1))) (mix ((1 + s) / 2) (corner c u v (-1) 1) (corner c u v 1 1))) by (rewrite !side; f_equal; field).
    apply CV; [apply CV; auto; lra|apply CV; auto; lra|lra].
  - intros Q HQ e e' He He' Qe. assert (H1 := HQ _ (or_introl eq_refl)). assert (H2 := HQ _ (or_intror (or_introl eq_refl))). assert (H3 := HQ _ (or_intror (or_intror (or_introl eq_refl)))). assert (H4 := HQ _ (or_intror (or_intror (or_intror (or_introl eq_refl))))). cbn [fst snd] in *.
    destruct He as [<-|[<-|[<-|[<-|[]]]]], He' as [<-|[<-|[<-|[<-|[]]]]]; cbn [fst snd] in *; auto.
Qed.
(** ** Boxes *)
Definition box_rim (x0 y0 x1 y1 : R) : list edge :=
  [(P x0 y0, P x1 y0); (P x1 y0, P x1 y1); (P x1 y1, P x0 y1); (P x0 y1, P x0 y0)].
Lemma box_par x0 y0 x1 y1 p : x0 <= x1 -> y0 <= y1 -> (par_set (P ((x0 + x1) / 2) ((y0 + y1) / 2)) (P ((x1 - x0) / 2) 0) (P 0 ((y1 - y0) / 2)) p <-> box_set x0 y0 x1 y1 p).
Proof.
  intros Hx Hy. split.
  - intros (s & t & S1 & T1 & ->). unfold box_set. cbn. nra.
  - intros [H1 H2]. assert (forall a b z, a <= b -> a <= z <= b -> exists s, -1 <= s <= 1 /\ z = (a + b) / 2 + s * ((b - a) / 2)) as G.
    { clear. intros a b z Hab Hz. destruct (Req_dec a b) as [<-|N]; [exists 0; split; lra|]. exists ((2 * z - a - b) / (b - a)). split; [|field; lra].
      assert (((2 * z - a - b) / (b - a)) * (b - a) = 2 * z - a - b) by (field; lra). nra. }
    destruct (G _ _ _ Hx H1) as (s & S1 & S2), (G _ _ _ Hy H2) as (t & T1 & T2). exists s, t. split; [exact S1|]. split; [exact T1|]. apply pt_eq; cbn; [rewrite S2|rewrite T2]; ring.
Qed.
Lemma box_solid x0 y0 x1 y1 : x0 <= x1 -> y0 <= y1 -> solid (box_set x0 y0 x1 y1) (box_rim x0 y0 x1 y1).
Proof.
  intros Hx Hy. apply solid_ext with (par_set (P ((x0 + x1) / 2) ((y0 + y1) / 2)) (P ((x1 - x0) / 2) 0) (P 0 ((y1 - y0) / 2))); [intros p; apply box_par; assumption|].
  replace (box_rim x0 y0 x1 y1) with (par_rim (P ((x0 + x1) / 2) ((y0 + y1) / 2)) (P ((x1 - x0) / 2) 0) (P 0 ((y1 - y0) / 2))).
  - apply par_solid. destruct (Req_dec x0 x1) as [<-|N]; [right; left; f_equal; lra|]. destruct (Req_dec y0 y1) as [<-|N']; [right; right; f_equal; lra|]. left. unfold det2. cbn. nra.
  - unfold par_rim, box_rim, corner. cbn. repeat f_equal; lra.
Qed.
