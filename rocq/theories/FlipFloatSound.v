(** The flip correction in floats *)
From Coq Require Import ZArith Bool Arith Reals Lra Lia List.
From Flocq Require Import Core IEEE754.BinarySingleNaN.
From Verif Require Import F32 F32Lemmas NumModel GeomModel GeomSpec GeomReal GeomBox GeomProps MeshFormatModel PackModel PackProps PackQuantProps PartitionModel FlipModel FlipProofs FlipSound FlipFloat.
Import ListNotations.
Local Open Scope R_scope.

(** ** Equal up to the sign of zero *)
Definition zeq (a b : f32) : Prop := a = b \/ (exists s t, a = B754_zero s /\ b = B754_zero t).
Lemma zeq_refl a : zeq a a. Proof. left. reflexivity. Qed.
Lemma zeq_R (a b : f32) : is_finite a = true -> is_finite b = true -> fR a = fR b -> zeq a b.
Proof.
  intros Fa Fb E. destruct (Req_dec (fR a) 0) as [Z|Z].
  - right. destruct a as [s|s| |s m e h]; try discriminate Fa; [|exfalso; revert Z; cbn; intros Z; apply eq_0_F2R in Z; destruct s; discriminate Z].
    rewrite Z in E. symmetry in E. destruct b as [s'|s'| |s' m e h]; try discriminate Fb; [|exfalso; revert E; cbn; intros E; apply eq_0_F2R in E; destruct s'; discriminate E]. exists s, s'. split; reflexivity.
  - left. apply B2R_inj; [apply is_finite_strict_B2R, Z|apply is_finite_strict_B2R; change (B2R b) with (fR b); rewrite <- E; exact Z|exact E].
Qed.
Lemma zeq_sub a a' b b' : zeq a a' -> zeq b b' -> zeq (fsub a b) (fsub a' b').
Proof.
  intros [-> |(s & t & -> & ->)] [-> |(s' & t' & -> & ->)]; try (left; reflexivity).
  - destruct a' as [u|u| |u m e h]; try (left; reflexivity). right. destruct u, s', t'; (eexists _, _; split; reflexivity).
  - destruct b' as [u|u| |u m e h]; try (left; reflexivity). right. destruct u, s, t; (eexists _, _; split; reflexivity).
  - right. destruct s, t, s', t'; (eexists _, _; split; reflexivity).
Qed.
Lemma zeq_mul a a' b b' : zeq a a' -> zeq b b' -> zeq (fmul a b) (fmul a' b').
Proof.
  intros [-> |(s & t & -> & ->)] [-> |(s' & t' & -> & ->)]; try (left; reflexivity).
  - destruct a' as [u|u| |u m e h]; try (left; reflexivity); right; (eexists _, _; split; reflexivity).
  - destruct b' as [u|u| |u m e h]; try (left; reflexivity); right; (eexists _, _; split; reflexivity).
  - right; (eexists _, _; split; reflexivity).
Qed.
Lemma zeq_neg a a' : zeq a a' -> flt a f0 = flt a' f0.
Proof. intros [-> |(s & t & -> & ->)]; [reflexivity|]. destruct s, t; reflexivity. Qed.

Section Mesh.
Variable E : elem.
Notation N := (fnum E).
Variables (bx by_ : Z) (px_ py_ : params).
Notation Mx := (max_value bx).
Notation My := (max_value by_).
Hypothesis (Bx : (1 <= bx <= 20)%Z) (By : (1 <= by_ <= 20)%Z).
Hypothesis (Hx : moderate px_ Mx) (Hy : moderate py_ My).
(** What the code uses: the parameters and the largest integers, as floats *)
Definition fcomp (p : params) (bits : Z) : comp N := Comp (offset p : T N) (scale p : T N) (to_float (max_value bits) : T N).
Definition fcode : coding N := Coding (fcomp px_ bx) (fcomp py_ by_).
Definition veq (a b : vec N) : Prop := zeq (vx a : f32) (vx b : f32) /\ zeq (vy a : f32) (vy b : f32).
Lemma veq_refl a : veq a a. Proof. split; apply zeq_refl. Qed.
Lemma area_veq (a b c a' b' c' : vec N) : veq a a' -> veq b b' -> veq c c' -> negative (Tri a b c) = negative (Tri a' b' c').
Proof.
  intros [A1 A2] [B1 B2] [C1 C2]. unfold negative, signed_area, det, vsub. cbn [p0 p1 p2 vx vy]. apply zeq_neg. apply zeq_mul; [apply zeq_refl|]. apply zeq_sub; apply zeq_mul; apply zeq_sub; assumption.
Qed.
Definition good (q : vec N) : Prop := exists j k, (0 <= j <= Mx)%Z /\ (0 <= k <= My)%Z /\ atG px_ (vx q : f32) j /\ atG py_ (vy q : f32) k.
Lemma quantize_f p b (v : f32) : quantize (fcomp p b) (v : T N) = quant p v. Proof. reflexivity. Qed.
Lemma quot_atG p M (v : f32) k : moderate p M -> (-1 <= k <= M + 1)%Z -> let q := fdiv (fsub v (offset p)) (scale p) in is_finite q = true -> ZnearestA (fR q) = k -> atG p (quant p v) k.
Proof. intros H K q F Z. exact (quant_at p M H v k F Z (small_k p M H k K)). Qed.
Lemma atG_zeq p (a b : f32) k : atG p a k -> atG p b k -> zeq a b.
Proof. intros [A1 A2] [B1 B2]. apply zeq_R; congruence. Qed.
Lemma atG_add0 p M (v : f32) k : moderate p M -> (0 <= k <= M)%Z -> atG p v k -> atG p (quant p (fadd f0 v)) k.
Proof.
  intros H K G. destruct (add_step p M H v f0 k K G (or_introl eq_refl)) as (j & J & _ & J0 & F & Z). rewrite (J0 eq_refl) in *. apply (quot_atG p M); try assumption; lia.
Qed.
Lemma stable q : good q -> veq q (quantize_point fcode (padd q (V n0 n0))).
Proof.
  intros (j & k & J & K & A & B). unfold veq, quantize_point, fcode, padd. cbn [vx vy cx cy]. rewrite !quantize_f. split; [apply (atG_zeq px_ _ _ j A)|apply (atG_zeq py_ _ _ k B)]; [apply (atG_add0 px_ Mx)|apply (atG_add0 py_ My)]; assumption.
Qed.
Lemma settled q : good q -> veq (quantize_point fcode q) q.
Proof.
  intros (j & k & J & K & A & B). unfold veq, quantize_point, fcode. cbn [vx vy cx cy]. rewrite !quantize_f. split.
  - apply (atG_zeq px_ _ _ j); [|exact A]. destruct (stable_near px_ Mx Hx (vx q) j (small_k px_ Mx Hx j ltac:(lia)) A) as [F Z]. apply (quot_atG px_ Mx); try assumption; lia.
  - apply (atG_zeq py_ _ _ k); [|exact B]. destruct (stable_near py_ My Hy (vy q) k (small_k py_ My Hy k ltac:(lia)) B) as [F Z]. apply (quot_atG py_ My); try assumption; lia.
Qed.
Lemma start_comp p M (v : f32) k : moderate p M -> (0 <= k <= M)%Z -> is_finite v = true -> pack_single p v = Some k -> atG p (quant p v) k.
Proof.
  intros H K F P. pose proof (t_pos p M H) as Tp. destruct (pack_inv p v k) as (Fq & _ & Eq & _); [split; [apply H|split; [apply H|exact Tp]]|exact F|exact P|]. apply (quot_atG p M); [exact H|lia|exact Fq|symmetry; exact Eq].
Qed.
Lemma nudge_step p b (s : f32) : is_step p (copysign (N := N) (nmul N n1 (c_scale (fcomp p b))) s).
Proof. unfold copysign, is_step. destruct (nsign N s); right; [right|left]; reflexivity. Qed.
Lemma bound_comp p bits : (1 <= bits <= 20)%Z -> moderate p (max_value bits) ->
  is_finite (fadd (offset p) (fmul (to_float (max_value bits)) (scale p))) = true /\ fR (fadd (offset p) (fmul (to_float (max_value bits)) (scale p))) = gridR p (max_value bits).
Proof.
  intros B H. pose proof H as (Fo & _ & _ & MM & _). pose proof (unpack_at p (max_value bits) H (max_value bits) ltac:(lia)) as [F R].
  unfold unpack_single in F, R. assert (Fm : is_finite (fmul (to_float (max_value bits)) (scale p)) = true). { destruct (fmul (to_float (max_value bits)) (scale p)) as [| | |]; try reflexivity; exfalso; revert F; destruct (offset p) as [[]|[]| |[]]; try discriminate Fo; try discriminate. }
  destruct (fadd_finite _ (offset p) Fm Fo) as [(B1 & V1 & _)|[(_ & X)|(_ & X)]]; [|rewrite X in F; discriminate F|rewrite X in F; discriminate F].
  rewrite Rplus_comm in B1, V1. destruct (fadd_finite (offset p) _ Fo Fm) as [(_ & V2 & F2)|[(X & _)|(X & _)]]; [|exfalso; apply Rabs_lt_inv in B1; lra|exfalso; apply Rabs_lt_inv in B1; lra].
  split; [exact F2|]. rewrite V2, <- V1. exact R.
Qed.
Lemma bounds_ok : rect_ok E (bounds fcode) /\ (forall p, fb E (bounds fcode) p -> box_set (gridR px_ 0) (gridR py_ 0) (gridR px_ Mx) (gridR py_ My) p).
Proof.
  destruct (bound_comp px_ bx Bx Hx) as [Fx Rx]. destruct (bound_comp py_ by_ By Hy) as [Fy Ry]. pose proof Hx as (Ox & _ & _ & MX & _). pose proof Hy as (Oy & _ & _ & MY & _).
  set (a := V (N := N) (offset px_) (offset py_)). set (b := V (N := N) (fadd (offset px_) (fmul (to_float Mx) (scale px_))) (fadd (offset py_) (fmul (to_float My) (scale py_)))).
  destruct (two_ok E a b) as [R H]; [split; [exact Ox|exact Oy]|split; [exact Fx|exact Fy]|]. change (bounds fcode) with (rect_from_two a b). split; [exact R|]. apply H.
  assert (Lx : gridR px_ 0 <= gridR px_ Mx). { destruct (Z.eq_dec Mx 0) as [->|]; [lra|]. apply Rlt_le, (grid_lt px_ Mx Hx); [lia|apply (small_k px_ Mx Hx); lia|apply (small_k px_ Mx Hx); lia]. }
  assert (Ly : gridR py_ 0 <= gridR py_ My). { destruct (Z.eq_dec My 0) as [->|]; [lra|]. apply Rlt_le, (grid_lt py_ My Hy); [lia|apply (small_k py_ My Hy); lia|apply (small_k py_ My Hy); lia]. }
  intros p [-> | ->]; unfold box_set, fp, a, b; cbn [GeomSpec.px GeomSpec.py vx vy]; rewrite ?Rx, ?Ry; rewrite <- ?(grid_0 px_), <- ?(grid_0 py_); lra.
Qed.
Lemma in_range p M j : moderate p M -> (-1 <= j <= M + 1)%Z -> gridR p 0 <= gridR p j <= gridR p M -> (0 <= j <= M)%Z.
Proof.
  intros H J [L U]. pose proof H as (_ & _ & _ & MM & _). split.
  - destruct (Z_lt_le_dec j 0) as [X|]; [|lia]. pose proof (grid_lt p M H j 0 X (small_k p M H j J) (small_k p M H 0 ltac:(lia))). lra.
  - destruct (Z_lt_le_dec M j) as [X|]; [|lia]. pose proof (grid_lt p M H M j X (small_k p M H M ltac:(lia)) (small_k p M H j J)). lra.
Qed.
Lemma nudged_f q v mx my m : good q -> is_nudge fcode v -> exists j k, (-1 <= j <= Mx + 1)%Z /\ (-1 <= k <= My + 1)%Z /\
  atG px_ (vx (nudged fcode q v mx my m) : f32) j /\ atG py_ (vy (nudged fcode q v mx my m) : f32) k.
Proof.
  intros (j & k & J & K & A & B) (s & t & ->). unfold nudged, quantize_point, padd, fcode. cbn [vx vy cx cy]. rewrite !quantize_f.
  destruct (add_step px_ Mx Hx (vx q) (if hits mx m then copysign (N := N) (nmul N n1 (c_scale (fcomp px_ bx))) s else f0) j J A) as (j' & J' & _ & _ & F & Z); [destruct (hits mx m); [apply nudge_step|left; reflexivity]|].
  destruct (add_step py_ My Hy (vy q) (if hits my m then copysign (N := N) (nmul N n1 (c_scale (fcomp py_ by_))) t else f0) k K B) as (k' & K' & _ & _ & F' & Z'); [destruct (hits my m); [apply nudge_step|left; reflexivity]|].
  exists j', k'. split; [exact J'|]. split; [exact K'|]. split; [exact (quot_atG px_ Mx _ j' Hx J' F Z)|exact (quot_atG py_ My _ k' Hy K' F' Z')].
Qed.
Lemma good_step : forall qa qb qc va vb vc m r, good qa -> good qb -> good qc -> is_nudge fcode va -> is_nudge fcode vb -> is_nudge fcode vc ->
  let n := nudged_triangle fcode (Tri qa qb qc) va vb vc m in
  env_add None (OTriangle n) = Some r -> rect_contains_rect (bounds fcode) r = true -> good (p0 n) /\ good (p1 n) /\ good (p2 n).
Proof.
  intros qa qb qc va vb vc m r Ga Gb Gc Na Nb Nc n He Hc.
  destruct (nudged_f qa va 32 16 m Ga Na) as (ja & ka & Ja & Ka & Aa & Ba). destruct (nudged_f qb vb 8 4 m Gb Nb) as (jb & kb & Jb & Kb & Ab & Bb). destruct (nudged_f qc vc 2 1 m Gc Nc) as (jc & kc & Jc & Kc & Ac & Bc).
  change (nudged fcode qa va 32 16 m) with (p0 n) in Aa, Ba. change (nudged fcode qb vb 8 4 m) with (p1 n) in Ab, Bb. change (nudged fcode qc vc 2 1 m) with (p2 n) in Ac, Bc.
  assert (OK : object_ok E (OTriangle n)) by (split; [|split]; split; [apply Aa|apply Ba|apply Ab|apply Bb|apply Ac|apply Bc]).
  pose proof (add_encloses E None (OTriangle n) (nothing) ltac:(intros ? []) OK) as En. rewrite He in En. destruct En as [Rr [Hu _]]. destruct bounds_ok as [Rb Bb0].
  assert (T : forall q, tri_set (fp E (p0 n)) (fp E (p1 n)) (fp E (p2 n)) q -> box_set (gridR px_ 0) (gridR py_ 0) (gridR px_ Mx) (gridR py_ My) q) by (intros q Q; apply Bb0; apply (C43_contains_rect E _ _ Rb Rr); [exact Hc|]; apply Hu; right; exact Q).
  assert (G : forall (q : vec N) j k, (-1 <= j <= Mx + 1)%Z -> (-1 <= k <= My + 1)%Z -> atG px_ (vx q : f32) j -> atG py_ (vy q : f32) k -> box_set (gridR px_ 0) (gridR py_ 0) (gridR px_ Mx) (gridR py_ My) (fp E q) -> good q).
  { intros q j k J K A B [[B1 B2] [B3 B4]]. exists j, k. unfold fp in *. cbn [GeomSpec.px GeomSpec.py] in *. destruct A as [A0 A], B as [B0 B]. rewrite A in B1, B2. rewrite B in B3, B4. split; [apply (in_range px_ Mx); auto|]. split; [apply (in_range py_ My); auto|]. split; split; assumption. }
  split; [|split].
  - apply (G _ ja ka); try assumption. apply T. exists 1, 0, 0. repeat split; try lra; destruct (fp E (p0 n)), (fp E (p1 n)), (fp E (p2 n)); cbn; f_equal; ring.
  - apply (G _ jb kb); try assumption. apply T. exists 0, 1, 0. repeat split; try lra; destruct (fp E (p0 n)), (fp E (p1 n)), (fp E (p2 n)); cbn; f_equal; ring.
  - apply (G _ jc kc); try assumption. apply T. exists 0, 0, 1. repeat split; try lra; destruct (fp E (p0 n)), (fp E (p1 n)), (fp E (p2 n)); cbn; f_equal; ring.
Qed.
End Mesh.
