(** C34: the correction of triangles flipped by packing *)
From Coq Require Import ZArith Bool Arith Reals Lra Lia List.
From Flocq Require Import Core.
From Flocq Require Import IEEE754.BinarySingleNaN.
From Verif Require Import F32 F32Lemmas NumModel EasingExact GeomModel GeomSpec GeomReal GeomExact AffineProofs PartitionModel FlipModel FlipProofs FlipSound FlipExact MeshFormatModel PackModel PackProps PackQuantProps FlipFloat FlipFloatSound.
Import ListNotations.
Local Open Scope R_scope.

(** ** It ends: any arithmetic, any mesh, any coding *)
Theorem C34_ends {N : num} (C : coding N) (pos : Z -> vec N) (ts : list tri) packed : exists l, corrections C pos ts packed (length ts) = Some l.
Proof. destruct (corrections C pos ts packed (length ts)) as [l|] eqn:E; [exists l; reflexivity|]. exfalso. exact (corrections_end C pos ts packed E). Qed.

(** ** Exact arithmetic *)
Lemma step_x a x w : axis_ok a -> (w = @n0 N \/ w = copysign (nmul N (@n1 N) (c_scale (comp_of a))) (nsub N (Fin x : T N) (quantize (comp_of a) (Fin x : T N)))) ->
  exists k, quantize (comp_of a) (nadd N w (quantize (comp_of a) (Fin x : T N))) = Fin (level a k) /\ Rabs (level a k - x) <= a_scale a /\ Rabs (level a k - level a (nearest a x)) <= a_scale a.
Proof.
  intros A H. pose proof (nearest_half a x A) as Nh. pose proof A as [Hs _]. rewrite quantize_x in * by exact A. set (k := nearest a x) in *.
  assert (S1 : level a (k + 1) = level a k + a_scale a) by (unfold level; rewrite plus_IZR; ring). assert (S2 : level a (k - 1) = level a k - a_scale a) by (unfold level; rewrite minus_IZR; ring).
  assert (G : forall j, quantize (comp_of a) (Fin (level a j) : T N) = Fin (level a j)) by (intros j; rewrite quantize_x, nearest_level by exact A; reflexivity).
  apply Rabs_le_inv in Nh. destruct H as [-> | ->].
  - exists k. rewrite x0. cbn [nadd N xnum xadd]. rewrite Rplus_0_l. rewrite G. split; [reflexivity|]. split; apply Rabs_le; lra.
  - rewrite x1e. cbn [comp_of c_scale nmul nsub N xnum xmul]. rewrite xsub_fin. unfold copysign. cbn [nsign nabs nopp N xnum xneg xopp]. rewrite Rmult_1_l, (Rabs_pos_eq (a_scale a)) by lra. destruct (Rlt_bool_spec (x - level a k) 0) as [L|L]; cbn [nadd N xnum xadd].
    + exists (k - 1)%Z. replace (- a_scale a + level a k) with (level a (k - 1)) by (rewrite S2; ring). rewrite G. split; [reflexivity|]. rewrite S2. split; apply Rabs_le; lra.
    + exists (k + 1)%Z. replace (a_scale a + level a k) with (level a (k + 1)) by (rewrite S1; ring). rewrite G. split; [reflexivity|]. rewrite S1. split; apply Rabs_le; lra.
Qed.
(** For every mesh whose positions lie in the range of the coding and whose triangles have three different corners: either nothing
    is overridden, or the packed positions, with the overrides, lie on the grid of the coding, within one step of the original
    position in each coordinate (half a step for those not overridden), and no triangle is turned over. *)
Theorem C34_exact (ax ay : axis) (at_ : Z -> pt) (ts : list tri) : axis_ok ax -> axis_ok ay ->
  (forall a b c, In (a, b, c) ts -> a <> b /\ a <> c /\ b <> c) ->
  (forall a b c, In (a, b, c) ts -> forall v, v = a \/ v = b \/ v = c -> level ax 0 <= px (at_ v) <= level ax (a_max ax) /\ level ay 0 <= py (at_ v) <= level ay (a_max ay)) ->
  exists l, corrections (code ax ay) (fun v => pv (at_ v)) ts true (length ts) = Some l /\ NoDup (map fst l) /\
    (l <> [] -> exists f : Z -> pt,
      (forall v p, In (v, p) l -> p = pv (f v) /\ exists a b c, In (a, b, c) ts /\ (v = a \/ v = b \/ v = c)) /\
      (forall v, ~ In v (map fst l) -> Rabs (px (f v) - px (at_ v)) <= a_scale ax / 2 /\ Rabs (py (f v) - py (at_ v)) <= a_scale ay / 2) /\
      (forall a b c, In (a, b, c) ts -> forall v, v = a \/ v = b \/ v = c ->
        (exists j k, (0 <= j <= a_max ax)%Z /\ (0 <= k <= a_max ay)%Z /\ f v = P (level ax j) (level ay k)) /\
        Rabs (px (f v) - px (at_ v)) <= a_scale ax /\ Rabs (py (f v) - py (at_ v)) <= a_scale ay) /\
      (forall a b c, In (a, b, c) ts -> 0 <= det3 (at_ a) (at_ b) (at_ c) /\ 0 <= det3 (f a) (f b) (f c))).
Proof.
  intros Ax Ay D In_. destruct (C34_ends (code ax ay) (fun v => pv (at_ v)) ts true) as [l El]. exists l. split; [exact El|].
  destruct l as [|e l0]; [split; [constructor|congruence]|]. remember (e :: l0) as l eqn:El0.
  assert (DD : forall t, In t ts -> distinct t) by (intros [[a b] c] I; apply (D a b c I)).
  assert (InU : forall v, used ts v -> level ax 0 <= px (at_ v) <= level ax (a_max ax) /\ level ay 0 <= py (at_ v) <= level ay (a_max ay)).
  { intros v ([[a b] c] & I & Iv). apply (In_ a b c I). cbn in Iv. destruct Iv as [<- |[<- |[<- |[]]]]; auto. }
  destruct (corrections_sound (code ax ay) (fun v => pv (at_ v)) ts DD eq (FlipExact.good ax ay) (@eq_refl _)) with (packed := true) (l := l) as (ND & Ov & Ng).
  - intros a b c a' b' c' -> -> ->. reflexivity.
  - intros q G. pose proof G as (j & k & _ & _ & Q). rewrite Q at 2. rewrite plus_zero, <- Q. symmetry. apply FlipExact.settled; assumption.
  - intros v U. exact (good_start ax ay Ax Ay at_ ts InU v U).
  - apply FlipExact.good_step; assumption.
  - intros q G. apply FlipExact.settled; assumption.
  - exact El.
  - rewrite El0. discriminate.
  - split; [exact ND|]. intros _.
    set (fin := fun x : ereal => match x with Fin r => r | _ => 0 end).
    set (f := fun v => P (fin (vx (packed_at (code ax ay) (fun v => pv (at_ v)) l v))) (fin (vy (packed_at (code ax ay) (fun v => pv (at_ v)) l v)))).
    assert (F1 : forall v p, In (v, p) l -> p = pv (f v) /\ packed_at (code ax ay) (fun v => pv (at_ v)) l v = pv (f v)).
    { intros v p I. destruct (Ov v p I) as (_ & _ & G). unfold f, packed_at. rewrite (override_some _ _ _ ND I). rewrite (FlipExact.settled ax ay Ax Ay p G). destruct G as (j & k & _ & _ & ->). split; reflexivity. }
    assert (F2 : forall v, ~ In v (map fst l) -> f v = on_grid ax ay (nearest ax (px (at_ v))) (nearest ay (py (at_ v))) /\ packed_at (code ax ay) (fun v => pv (at_ v)) l v = pv (f v)).
    { intros v I. unfold f, packed_at. rewrite (override_none _ _ I). rewrite (quantize_point_x ax ay Ax Ay). split; reflexivity. }
    assert (F3 : forall v, packed_at (code ax ay) (fun v => pv (at_ v)) l v = pv (f v)).
    { intros v. destruct (in_dec Z.eq_dec v (map fst l)) as [I|I]; [|apply F2, I]. apply in_map_iff in I. destruct I as ([w p] & Ew & I). cbn in Ew. subst w. apply (F1 v p I). }
    exists f. split; [|split; [|split]].
    + intros v p I. split; [apply (F1 v p I)|]. destruct (Ov v p I) as (([[a b] c] & It & Iv) & _). exists a, b, c. split; [exact It|]. cbn in Iv. destruct Iv as [<- |[<- |[<- |[]]]]; auto.
    + intros v I. destruct (F2 v I) as [-> _]. cbn [on_grid px py]. split; apply nearest_half; assumption.
    + intros a b c It v Hv. assert (U : used ts v) by (exists (a, b, c); split; [exact It|]; cbn; destruct Hv as [-> |[-> | ->]]; auto). destruct (in_dec Z.eq_dec v (map fst l)) as [I|I].
      * apply in_map_iff in I. destruct I as ([w p] & Ew & I). cbn in Ew. subst w. destruct (F1 v p I) as [Ep _]. destruct (Ov v p I) as (_ & (wx & wy & W1 & W2 & E) & (j & k & J & K & G)). rewrite Ep in G. apply pv_inj in G. split; [exists j, k; split; [exact J|split; [exact K|exact G]]|].
        rewrite Ep in E. unfold quantize_point, padd, start_nudge in E, W1, W2. unfold quantize_point, code in W1, W2. cbn [vx vy pv cx cy] in W1, W2, E.
        destruct (step_x ax _ wx Ax W1) as (j' & Ej & Dj & _). destruct (step_x ay _ wy Ay W2) as (k' & Ek & Dk & _). unfold code in E. cbn [cx cy] in E. rewrite Ej, Ek in E. assert (Ef : f v = P (level ax j') (level ay k')) by (apply pv_inj; exact E). rewrite Ef. cbn [px py]. split; assumption.
      * destruct (F2 v I) as [E _]. rewrite E. cbn [on_grid px py]. destruct (InU v U) as [B1 B2]. pose proof (nearest_half ax (px (at_ v)) Ax). pose proof (nearest_half ay (py (at_ v)) Ay). pose proof Ax as [? _]. pose proof Ay as [? _]. split; [exists (nearest ax (px (at_ v))), (nearest ay (py (at_ v))); split; [apply nearest_in; assumption|split; [apply nearest_in; assumption|reflexivity]]|]. split; lra.
    + intros a b c It. destruct (Ng _ It) as [N1 N2]. cbn [triangle_of] in N1, N2. rewrite !F3 in N2. unfold negative in N1, N2. change (Tri (pv (at_ a)) (pv (at_ b)) (pv (at_ c))) with (tr (at_ a) (at_ b) (at_ c)) in N1. change (Tri (pv (f a)) (pv (f b)) (pv (f c))) with (tr (f a) (f b) (f c)) in N2. rewrite signed_area_x, x0, lt_xf in N1, N2. split; lra.
Qed.

(** ** Floats *)
(** The floats read from a packed vertex *)
Definition read_back (E : elem) (p q : params) (kx ky : Z -> Z) (v : Z) : vec (fnum E) := V (N := fnum E) (unpack_single p (kx v)) (unpack_single q (ky v)).
(** What is handed to the packer: the override, if there is one *)
Definition handed (E : elem) (pos : Z -> vec (fnum E)) (l : list (Z * vec (fnum E))) (v : Z) : vec (fnum E) := match override l v with Some p => p | None => pos v end.
Lemma step_f E p M b (v w : f32) k0 : moderate p M -> is_finite v = true -> pack_single p v = Some k0 -> (0 <= k0 <= M)%Z ->
  (w = f0 \/ w = copysign (N := fnum E) (nmul (fnum E) n1 (c_scale (fcomp E p b))) (fsub v (quant p v))) -> forall k, (0 <= k <= M)%Z -> atG p (quant p (fadd w (quant p v))) k -> (Z.abs (k - k0) <= 1)%Z.
Proof.
  intros H F P K0 W k K G. pose proof (start_comp p M v k0 H K0 F P) as G0. destruct (add_step p M H (quant p v) w k0 K0 G0) as (j & J & D & _ & Fq & Zq); [destruct W as [-> | ->]; [left; reflexivity|apply nudge_step]|].
  pose proof (quot_atG p M _ j H J Fq Zq) as G1. assert (Ejk : j = k); [|rewrite <- Ejk; exact D]. destruct G as [_ G], G1 as [_ G1]. rewrite G in G1. destruct (Z.lt_trichotomy j k) as [L|[L|L]]; [exfalso|exact L|exfalso].
  - pose proof (grid_lt p M H j k L (small_k p M H j J) (small_k p M H k ltac:(lia))). lra.
  - pose proof (grid_lt p M H k j L (small_k p M H k ltac:(lia)) (small_k p M H j J)). lra.
Qed.
Lemma pack_good p M (v : f32) k : moderate p M -> (0 <= k <= M)%Z -> atG p v k -> pack_single p v = Some k.
Proof. intros H K G. pose proof H as (_ & _ & _ & MM & _). destruct (stable_near p M H v k (small_k p M H k ltac:(lia)) G) as [F Z]. apply pack_of; [exact F|exact Z|lia]. Qed.
(** For every float mesh whose coordinates the coding can represent, if the scale of the coding is not too small for its offset:
    either nothing is overridden, or every vertex can be packed, to integers that differ by at most one from those of the given
    position (and are the same where nothing is overridden), and of the triangles read back none is turned over. *)
Theorem C34_float (E : elem) (bx by_ : Z) (p q : params) (pos : Z -> vec (fnum E)) (ts : list tri) (ix iy : Z -> Z) :
  (1 <= bx <= 20)%Z -> (1 <= by_ <= 20)%Z -> moderate p (max_value bx) -> moderate q (max_value by_) ->
  (forall a b c, In (a, b, c) ts -> a <> b /\ a <> c /\ b <> c) ->
  (forall a b c, In (a, b, c) ts -> forall v, v = a \/ v = b \/ v = c ->
    is_finite (vx (pos v) : f32) = true /\ pack_single p (vx (pos v)) = Some (ix v) /\ (0 <= ix v <= max_value bx)%Z /\
    is_finite (vy (pos v) : f32) = true /\ pack_single q (vy (pos v)) = Some (iy v) /\ (0 <= iy v <= max_value by_)%Z) ->
  exists l, corrections (fcode E bx by_ p q) pos ts true (length ts) = Some l /\ NoDup (map fst l) /\
    (l <> [] -> exists kx ky : Z -> Z,
      (forall v r, In (v, r) l -> exists a b c, In (a, b, c) ts /\ (v = a \/ v = b \/ v = c)) /\
      (forall a b c, In (a, b, c) ts -> forall v, v = a \/ v = b \/ v = c ->
        pack_single p (vx (handed E pos l v)) = Some (kx v) /\ (0 <= kx v <= max_value bx)%Z /\ (Z.abs (kx v - ix v) <= 1)%Z /\
        pack_single q (vy (handed E pos l v)) = Some (ky v) /\ (0 <= ky v <= max_value by_)%Z /\ (Z.abs (ky v - iy v) <= 1)%Z /\
        (~ In v (map fst l) -> kx v = ix v /\ ky v = iy v)) /\
      (forall a b c, In (a, b, c) ts -> negative (Tri (pos a) (pos b) (pos c)) = false /\
        negative (Tri (read_back E p q kx ky a) (read_back E p q kx ky b) (read_back E p q kx ky c)) = false)).
Proof.
  intros Bx By Hx Hy D Pk. set (C := fcode E bx by_ p q). destruct (C34_ends C pos ts true) as [l El]. exists l. split; [exact El|].
  destruct l as [|e l0]; [split; [constructor|congruence]|]. remember (e :: l0) as l eqn:El0.
  assert (DD : forall t, In t ts -> distinct t) by (intros [[a b] c] I; apply (D a b c I)).
  assert (Pu : forall v, used ts v -> is_finite (vx (pos v) : f32) = true /\ pack_single p (vx (pos v)) = Some (ix v) /\ (0 <= ix v <= max_value bx)%Z /\
    is_finite (vy (pos v) : f32) = true /\ pack_single q (vy (pos v)) = Some (iy v) /\ (0 <= iy v <= max_value by_)%Z).
  { intros v ([[a b] c] & I & Iv). apply (Pk a b c I). cbn in Iv. destruct Iv as [<- |[<- |[<- |[]]]]; auto. }
  assert (St : forall v, used ts v -> atG p (vx (quantize_point C (pos v)) : f32) (ix v) /\ atG q (vy (quantize_point C (pos v)) : f32) (iy v)).
  { intros v U. destruct (Pu v U) as (F1 & P1 & K1 & F2 & P2 & K2). split; [exact (start_comp p _ (vx (pos v)) _ Hx K1 F1 P1)|exact (start_comp q _ (vy (pos v)) _ Hy K2 F2 P2)]. }
  destruct (corrections_sound C pos ts DD (veq E) (good E bx by_ p q) (veq_refl E)) with (packed := true) (l := l) as (ND & Ov & Ng).
  - exact (area_veq E).
  - intros r G. exact (stable E bx by_ p q Hx Hy r G).
  - intros v U. destruct (Pu v U) as (_ & _ & K1 & _ & _ & K2). exists (ix v), (iy v). split; [exact K1|]. split; [exact K2|]. exact (St v U).
  - exact (good_step E bx by_ p q Bx By Hx Hy).
  - intros r G. exact (settled E bx by_ p q Hx Hy r G).
  - exact El.
  - rewrite El0. discriminate.
  - split; [exact ND|]. intros _.
    set (kx := fun v => match pack_single p (vx (handed E pos l v)) with Some k => k | None => 0%Z end). set (ky := fun v => match pack_single q (vy (handed E pos l v)) with Some k => k | None => 0%Z end).
    assert (A : forall v, used ts v -> pack_single p (vx (handed E pos l v)) = Some (kx v) /\ (0 <= kx v <= max_value bx)%Z /\ (Z.abs (kx v - ix v) <= 1)%Z /\
        pack_single q (vy (handed E pos l v)) = Some (ky v) /\ (0 <= ky v <= max_value by_)%Z /\ (Z.abs (ky v - iy v) <= 1)%Z /\
        (~ In v (map fst l) -> kx v = ix v /\ ky v = iy v) /\ atG p (vx (packed_at C pos l v) : f32) (kx v) /\ atG q (vy (packed_at C pos l v) : f32) (ky v)).
    { intros v U. destruct (Pu v U) as (F1 & P1 & K1 & F2 & P2 & K2). unfold kx, ky, packed_at. destruct (in_dec Z.eq_dec v (map fst l)) as [I|I].
      - apply in_map_iff in I. destruct I as ([w r] & Ew & I). cbn in Ew. subst w. destruct (Ov v r I) as (_ & (wx & wy & W1 & W2 & Er) & (j & k & J & K & Gj & Gk)). unfold handed. rewrite (override_some _ _ _ ND I).
        rewrite (pack_good p _ _ j Hx J Gj), (pack_good q _ _ k Hy K Gk). destruct (settled E bx by_ p q Hx Hy r) as [Z1 Z2]; [exists j, k; auto|].
        split; [reflexivity|]. split; [exact J|]. split; [|split; [reflexivity|split; [exact K|split; [|split]]]].
        + eapply (step_f E p _ bx (vx (pos v)) wx _ Hx F1 P1 K1 W1 j J). rewrite Er in Gj. exact Gj.
        + eapply (step_f E q _ by_ (vy (pos v)) wy _ Hy F2 P2 K2 W2 k K). rewrite Er in Gk. exact Gk.
        + intros H. exfalso. apply H. apply in_map_iff. exists (v, r). split; [reflexivity|exact I].
        + pose proof (stable_near p _ Hx (vx r) j (small_k p _ Hx j ltac:(lia)) Gj) as [Fj Zj]. pose proof (stable_near q _ Hy (vy r) k (small_k q _ Hy k ltac:(lia)) Gk) as [Fk Zk]. split; [exact (quot_atG p _ (vx r) j Hx ltac:(lia) Fj Zj)|exact (quot_atG q _ (vy r) k Hy ltac:(lia) Fk Zk)].
      - unfold handed. rewrite (override_none _ _ I). rewrite P1, P2. split; [reflexivity|]. split; [exact K1|]. split; [lia|]. split; [reflexivity|]. split; [exact K2|]. split; [lia|]. split; [auto|]. exact (St v U). }
    exists kx, ky. split; [|split].
    + intros v r I. destruct (Ov v r I) as (([[a b] c] & It & Iv) & _). exists a, b, c. split; [exact It|]. cbn in Iv. destruct Iv as [<- |[<- |[<- |[]]]]; auto.
    + intros a b c It v Hv. assert (U : used ts v) by (exists (a, b, c); split; [exact It|]; cbn; destruct Hv as [-> |[-> | ->]]; auto). destruct (A v U) as (A1 & A2 & A3 & A4 & A5 & A6 & A7 & _). auto 10.
    + intros a b c It. destruct (Ng _ It) as [N1 N2]. split; [exact N1|]. rewrite <- N2. cbn [triangle_of].
      assert (Z : forall v, v = a \/ v = b \/ v = c -> veq E (read_back E p q kx ky v) (packed_at C pos l v)).
      { intros v Hv. assert (U : used ts v) by (exists (a, b, c); split; [exact It|]; cbn; destruct Hv as [-> |[-> | ->]]; auto). destruct (A v U) as (_ & A2 & _ & _ & A5 & _ & _ & A8 & A9). split; [apply (atG_zeq p _ _ (kx v)); [apply (unpack_at p _ Hx); exact A2|exact A8]|apply (atG_zeq q _ _ (ky v)); [apply (unpack_at q _ Hy); exact A5|exact A9]]. }
      apply area_veq; apply Z; auto.
Qed.

(** ** A case: the corners (0,0), (2,5/8), (1,7/16), packed with offset 0 and scale 1, turn over (to (0,0), (2,1), (1,0)); the correction
    moves one of them *)
Definition case_f (E : elem) (v : Z) : vec (fnum E) :=
  if (v =? 0)%Z then V (N := fnum E) f0 f0 else if (v =? 1)%Z then V (N := fnum E) (fZ 2) (fdy 5 (-3)) else V (N := fnum E) f1 (fdy 7 (-4)).
Definition unit_params : params := Params f0 f1.
Definition result_is (E : elem) (l : option (list (Z * vec (fnum E)))) (r : list (Z * (Z * Z))) : bool :=
  match l with
  | Some l => (length l =? length r)%nat && forallb (fun e : (Z * vec (fnum E)) * (Z * (Z * Z)) => (fst (fst e) =? fst (snd e))%Z && feq (vx (snd (fst e)) : T (fnum E)) (fZ (fst (snd (snd e)))) && feq (vy (snd (fst e)) : T (fnum E)) (fZ (snd (snd (snd e))))) (combine l r)
  | None => false
  end.
Example C34_case : forall E, negative (triangle_of (case_f E) (0, 1, 2)%Z) = false /\
  negative (triangle_of (fun v => quantize_point (fcode E 12 12 unit_params unit_params) (case_f E v)) (0, 1, 2)%Z) = true /\
  result_is E (corrections (fcode E 12 12 unit_params unit_params) (case_f E) [(0, 1, 2)%Z] true 1) [(2, (1, 1))%Z] = true.
Proof. intros E. vm_compute. auto. Qed.
(** it meets the hypotheses *)
Example C34_case_meets : forall E : elem, moderate unit_params (max_value 12) /\
  forall v, v = 0%Z \/ v = 1%Z \/ v = 2%Z -> exists i j, is_finite (vx (case_f E v) : f32) = true /\ pack_single unit_params (vx (case_f E v)) = Some i /\ (0 <= i <= max_value 12)%Z /\
    is_finite (vy (case_f E v) : f32) = true /\ pack_single unit_params (vy (case_f E v)) = Some j /\ (0 <= j <= max_value 12)%Z.
Proof.
  intros E. split.
  - split; [reflexivity|]. split; [reflexivity|]. unfold unit_params. cbn [offset scale]. change (B2R f1) with (fR (fZ 1)). destruct (fZ_exact 1) as [R1 _]; [lia|]. rewrite R1. change (B2R f0) with 0. rewrite Rabs_R0. change (max_value 12) with 4095%Z.
    split; [split; [change (IZR 1) with (bpow radix2 0); apply bpow_le; lia|change (IZR 1) with (bpow radix2 0); apply bpow_le; lia]|]. split; [lia|]. lra.
  - intros v [-> |[-> | ->]]; [exists 0%Z, 0%Z|exists 2%Z, 1%Z|exists 1%Z, 0%Z]; (split; [reflexivity|split; [vm_compute; reflexivity|split; [vm_compute; split; discriminate|split; [reflexivity|split; [vm_compute; reflexivity|vm_compute; split; discriminate]]]]]).
Qed.
Print Assumptions C34_ends.
Print Assumptions C34_exact.
Print Assumptions C34_float.
