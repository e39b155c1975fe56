(** The position of the vertices in AsMeshes, with the correction of turned triangles *)
From Coq Require Import ZArith Bool Reals Lra Lia List.
From Flocq Require Import Core IEEE754.BinarySingleNaN.
From Verif Require Import F32 F32Lemmas F32Round NumModel GeomModel MeshFormatModel MeshFormatProps PackModel PackProps PackQuantProps PartitionModel MutableMeshModel MutableMeshSpec MutableMeshProofs MeshModel MeshProofs MeshSpec MeshCoding MeshProps AsMeshesModel AsMeshesSpec AsMeshesFormat AsMeshesBounds AsMeshesProofs.
From Verif Require FlipModel FlipSound FlipFloat FlipFloatSound FlipProps.
Import ListNotations.
Local Open Scope nat_scope.

Lemma params_default b lo hi p : (1 <= Z.of_nat b <= 20)%Z -> component_params (Z.of_nat b) lo hi = Some p -> default_params b lo hi p.
Proof.
  intros B P. destruct (params_inv _ _ _ _ P) as (Fl & Fh & LH & OF & FS & VS & SC). split; [exact OF|]. destruct (Req_EM_T (B2R lo) (B2R hi)) as [EQ|NE].
  - rewrite SC. assert (G : fgt (fsub hi lo) f0 = false). { unfold fgt. apply flt_false; [reflexivity|apply finite_not_nan, FS|]. rewrite (fX_finite (fsub hi lo)) by exact FS. rewrite VS, EQ, Rminus_diag_eq by reflexivity. rewrite round_0 by typeclasses eauto. cbn. lra. }
    rewrite G. split; [reflexivity|]. change f1 with (fZ 1). apply (fZ_exact 1). lia.
  - destruct (scale_val (Z.of_nat b) lo hi p B P) as [_ [FS' V]]; [lra|]. split; [exact FS'|exact V].
Qed.
Lemma max_bits b : (1 <= Z.of_nat b <= 20)%Z -> (1 <= 2 ^ Z.of_nat b - 1 <= 1048575)%Z.
Proof. intros B. assert ((2 ^ 1 <= 2 ^ Z.of_nat b)%Z /\ (2 ^ Z.of_nat b <= 2 ^ 20)%Z) by (split; apply Z.pow_le_mono_r; lia). lia. Qed.
Local Open Scope R_scope.
Lemma calm_given b p : (1 <= Z.of_nat b <= 20)%Z -> usable p -> calm (B2R (offset p)) (B2R (scale p)) (2 ^ Z.of_nat b - 1) -> FlipFloat.moderate p (max_value (Z.of_nat b)).
Proof.
  intros B (F1 & F2 & _) ((S1 & S2) & C). pose proof (max_bits b B) as MB. unfold FlipFloat.moderate, max_value. split; [exact F1|]. split; [exact F2|]. split.
  - split; [eapply Rle_trans; [apply (bpow_le radix2 (-100) (-99)); lia|exact S1]|eapply Rle_trans; [exact S2|apply bpow_le; lia]].
  - split; [lia|]. pose proof (bpow_gt_0 radix2 (-99)). lra.
Qed.
Lemma calm_default b lo hi p : (1 <= Z.of_nat b <= 20)%Z -> component_params (Z.of_nat b) lo hi = Some p ->
  calm (B2R lo) (if Req_EM_T (B2R lo) (B2R hi) then 1 else (B2R hi - B2R lo) / IZR (2 ^ Z.of_nat b - 1)) (2 ^ Z.of_nat b - 1) -> FlipFloat.moderate p (max_value (Z.of_nat b)).
Proof.
  intros B P ((S1 & S2) & C). pose proof (max_bits b B) as MB. destruct (params_default b lo hi p B P) as (OF & FS & SC). destruct (params_inv _ _ _ _ P) as (Fl & Fh & LH & _).
  assert (MR : 1 <= IZR (2 ^ Z.of_nat b - 1) <= 1048575) by (split; apply IZR_le; lia). pose proof (bpow_gt_0 radix2 (-99)) as BP.
  unfold FlipFloat.moderate, max_value. rewrite OF. split; [exact Fl|]. split; [exact FS|].
  destruct (Req_EM_T (B2R lo) (B2R hi)) as [EQ|NE].
  - rewrite SC. split; [split; [eapply Rle_trans; [apply (bpow_le radix2 (-100) (-99)); lia|exact S1]|eapply Rle_trans; [exact S2|apply bpow_le; lia]]|]. split; [lia|]. lra.
  - set (M := IZR (2 ^ Z.of_nat b - 1)) in *. set (s := (B2R hi - B2R lo) / M) in *.
    assert (W : wide (Z.of_nat b) lo hi). { unfold wide, levels. fold M. assert (E : B2R hi - B2R lo = M * s) by (unfold s; field; lra). rewrite E. apply Rmult_le_compat_l; [lra|]. eapply Rle_trans; [|exact S1]. apply bpow_le. lia. }
    destruct (scale_close _ _ _ _ B P W) as (r' & s' & [_ FV] & RE & _ & R1 & _ & R2 & _). unfold levels in R2. fold M in R2. rewrite FV.
    assert (SP : Rabs (r' / M - s) <= u24 * s).
    { unfold s. replace (r' / M - (B2R hi - B2R lo) / M) with ((r' - (fR hi - fR lo)) * / M) by (unfold Rdiv; ring). rewrite Rabs_mult, (Rabs_pos_eq (/ M)) by (apply Rlt_le, Rinv_0_lt_compat; lra). unfold Rdiv. rewrite <- Rmult_assoc. apply Rmult_le_compat_r; [apply Rlt_le, Rinv_0_lt_compat; lra|exact R1]. }
    apply Rabs_le_inv in SP. apply Rabs_le_inv in R2. unfold u24 in *. assert (S0 : 0 < s) by lra. assert (LO : s * (1 - / 4194304) <= s') by lra. assert (UP : s' <= s * (1 + / 4194304)) by lra.
    split; [split|].
    + apply Rle_trans with (s / 2); [|lra]. replace (bpow radix2 (-100)) with (bpow radix2 (-99) / 2); [lra|]. change (-99)%Z with (1 + -100)%Z. rewrite bpow_plus. change (bpow radix2 1) with 2. lra.
    + apply Rle_trans with (2 * s); [lra|]. change 100%Z with (1 + 99)%Z. rewrite bpow_plus. change (bpow radix2 1) with 2. lra.
    + split; [lia|]. fold M. assert (5 * (M + 2) * s' <= 5 * (M + 2) * s + 2 * s) by (assert (5 * (M + 2) * (s' - s) <= 5 * (M + 2) * (s * / 4194304)) by (apply Rmult_le_compat_l; lra); assert (5 * (M + 2) * (s * / 4194304) <= 2 * s) by (replace (5 * (M + 2) * (s * / 4194304)) with ((5 * (M + 2) * / 4194304) * s) by ring; apply Rmult_le_compat_r; lra); lra). lra.
Qed.
Lemma moderate_usable p M : FlipFloat.moderate p M -> usable p.
Proof. intros (A & B & (C & _) & _). split; [exact A|]. split; [exact B|]. pose proof (bpow_gt_0 radix2 (-100)). lra. Qed.
Local Open Scope nat_scope.

Section Position.
Variables (E : elem) (l : list (nat * nat)) (i : ifmt) (f nf : format) (omit : list nat) (m : mesh) (vs : list vertex) (ts : list triple) (custom : list (option (list params))) (TB : list bounds) (c : list (list params)).
Hypothesis CF : create l i = Some f.
Hypothesis CN : create (left_attributes l omit) i = Some nf.
Hypothesis MF : fmt m = f.
Hypothesis R : rep m vs ts.
Hypothesis SMALL : (count vs * Z.of_nat (ustride f) <= 2 ^ 32)%Z.
Notation ks := (kept f omit).
Notation nts := (map ty (attrs nf)).
Notation kp := (pos_index nf).
Notation values := (values_of l omit vs (used_vertices ts)).
Notation value := (value_at l omit vs).
Hypothesis GOOD : forall t, In t ts -> good_triple (count vs) t.
Hypothesis TBO : bounds_of nts values TB.
Hypothesis FV : finite_vals nts values.
Hypothesis CC : compute_coding_array nts TB custom = Some c.
Lemma range v : In v (used_vertices ts) -> (0 <= v < count vs)%Z.
Proof.
  intros I. unfold used_vertices in I. apply in_flat_map in I. destruct I as ([[a b] d] & T & I). specialize (GOOD _ T). pose proof (rep_small _ _ _ R _ T) as S. cbn in GOOD, S, I. lia.
Qed.
Lemma kp_lt : kp < length ks. Proof. rewrite (kept_length l i f nf omit CF CN). apply (pos_id i _ nf CN). Qed.
Lemma kp_type : exists t, nth_error nts kp = Some t /\ component_count t = 2 /\ ty (attr_at nf kp) = t.
Proof.
  destruct (pwf_pos nf (pcreated _ _ _ CN)) as (a & A & C2). exists (ty a). split; [rewrite nth_error_map, A; reflexivity|]. split; [exact C2|]. unfold attr_at. rewrite (nth_error_nth _ _ _ A). reflexivity.
Qed.
Lemma kp_pos : nth kp ks 0 = pos_index f. Proof. apply (kept_pos l i f nf omit CF CN kp kp_lt). reflexivity. Qed.
Lemma pos_value v : (0 <= v < count vs)%Z -> exists x y, value kp v = [x; y] /\ vertex_position m v = (x, y) /\ float_vertex_attribute m v (nth kp ks 0) = [x; y].
Proof.
  intros V. destruct (kept_value l i f nf omit m vs ts CF CN MF R SMALL kp v kp_lt V) as [E1 L]. destruct kp_type as (t & _ & C2 & TY). rewrite TY, C2 in L. destruct (value kp v) as [|x [|y [|? ?]]] eqn:EV; try discriminate L. exists x, y. split; [reflexivity|]. split; [|exact E1].
  destruct (attr_value l i f m vs ts CF MF R SMALL (nth kp ks 0) v (kept_in f omit kp kp_lt) V) as (z & Z1 & Z2 & _). rewrite E1 in Z2. subst z. rewrite kp_pos in Z1. destruct (nth_lt vs v V) as (w & W). rewrite (nth_error_nth _ _ _ W) in Z1. apply (read_position m vs ts v w); try assumption; [rewrite MF; apply (created _ _ _ CF)|lia|rewrite MF; exact Z1].
Qed.
Lemma coding_at k t : nth_error nts k = Some t -> params_of l omit vs ts custom k t (nth k c []) /\ column_ok values custom k t.
Proof.
  intros T. destruct (coding_some nts values custom TB (proj1 TBO) FV (bounds_of_BB _ _ _ TBO) c CC) as (_ & [_ CO] & D). destruct (bnds_nth nts TB (proj1 TBO) k t T) as [b BK]. destruct (D k t b T BK) as (ps & PS & CA). rewrite (nth_error_nth _ _ [] PS). specialize (CO k t T). split; [|exact CO].
  unfold params_of. unfold column_ok in CO. destruct (given_for custom k) as [cps|]; cbn [code_attribute] in CA.
  - destruct CO as (bits & PB & _). unfold is_unpacked in CA. rewrite PB in CA. congruence.
  - intros bits j bb p PB BJ PJ. unfold compute_coding in CA. rewrite PB in CA. destruct (components_some _ _ _ _ CA) as (L1 & L2 & _ & DD). destruct (bits_nth t bits j bb PB BJ) as [BR _].
    assert (JL : j < length bits) by (apply nth_error_Some; congruence). destruct (nth_pick (fst b) j _ L1 JL) as [lo E3]. destruct (nth_pick (snd b) j _ L2 JL) as [hi E4]. destruct (DD j bb lo hi BJ E3 E4) as (p' & P1 & P2). rewrite PJ in P1. injection P1 as <-.
    destruct (bounds_of_BB _ _ _ TBO k t b T BK) as (_ & _ & LG). destruct (LG j lo hi E3 E4) as [LO HI]. exists lo, hi. split; [exact LO|]. split; [exact HI|]. apply params_default; assumption.
Qed.
Lemma calm_params t bits : nth_error nts kp = Some t -> packed_bits t = Some bits -> position_calm l omit vs ts custom kp t ->
  forall j b p, nth_error bits j = Some b -> nth_error (nth kp c []) j = Some p -> FlipFloat.moderate p (max_value (Z.of_nat b)).
Proof.
  intros T PB PC j bb p BJ PJ. specialize (PC bits j bb PB BJ). destruct (bits_nth t bits j bb PB BJ) as [BR _].
  destruct (coding_some nts values custom TB (proj1 TBO) FV (bounds_of_BB _ _ _ TBO) c CC) as (_ & [_ CO] & D). destruct (bnds_nth nts TB (proj1 TBO) kp t T) as [b BK]. destruct (D kp t b T BK) as (ps & PS & CA). rewrite (nth_error_nth _ _ [] PS) in PJ. specialize (CO kp t T).
  unfold column_ok in CO. destruct (given_for custom kp) as [cps|]; cbn [code_attribute] in CA.
  - destruct CO as (bits' & PB' & _ & US & _). unfold is_unpacked in CA. rewrite PB in CA. injection CA as ->. rewrite Forall_forall in US. apply calm_given; [exact BR|apply US, (nth_error_In _ _ PJ)|apply PC, PJ].
  - unfold compute_coding in CA. rewrite PB in CA. destruct (components_some _ _ _ _ CA) as (L1 & L2 & _ & DD).
    assert (JL : j < length bits) by (apply nth_error_Some; congruence). destruct (nth_pick (fst b) j _ L1 JL) as [lo E3]. destruct (nth_pick (snd b) j _ L2 JL) as [hi E4]. destruct (DD j bb lo hi BJ E3 E4) as (p' & P1 & P2). rewrite PJ in P1. injection P1 as <-.
    destruct (bounds_of_BB _ _ _ TBO kp t b T BK) as (_ & _ & LG). destruct (LG j lo hi E3 E4) as [LO HI]. apply (calm_default bb lo hi p BR P2). apply (PC lo hi LO HI).
Qed.
Definition given_point (v : Z) : vec (fnum E) := V (N := fnum E) (nth 0 (value kp v) f0) (nth 1 (value kp v) f0).
Notation over := (correct E m (nth kp c [])).
Lemma find_over (L : list (Z * vec (fnum E))) v : find (fun e => Z.eqb (fst e) v) (map (fun e : Z * vec (fnum E) => (fst e, (vx (snd e) : f32, vy (snd e) : f32))) L) = option_map (fun e : Z * vec (fnum E) => (fst e, (vx (snd e) : f32, vy (snd e) : f32))) (find (fun e => Z.eqb (fst e) v) L).
Proof. induction L as [|[w x] L IH]; [reflexivity|]. cbn [map find fst snd]. destruct (w =? v)%Z; [reflexivity|exact IH]. Qed.
Lemma over_handed L v : (0 <= v < count vs)%Z -> override f (map (fun e : Z * vec (fnum E) => (fst e, (vx (snd e) : f32, vy (snd e) : f32))) L) m v (nth kp ks 0) =
  [vx (FlipProps.handed E (vertex_vec E m) L v) : f32; vy (FlipProps.handed E (vertex_vec E m) L v) : f32].
Proof.
  intros V. unfold override. rewrite kp_pos, Nat.eqb_refl, find_over. unfold FlipProps.handed, FlipSound.override. destruct (find _ L) as [[w p]|]; cbn [option_map fst snd]; [reflexivity|]. rewrite <- kp_pos. destruct (pos_value v V) as (x & y & _ & E2 & E3). unfold vertex_vec. rewrite E2, E3. reflexivity.
Qed.
Lemma vec_given v : (0 <= v < count vs)%Z -> vertex_vec E m v = given_point v.
Proof. intros V. destruct (pos_value v V) as (x & y & E1 & E2 & _). unfold vertex_vec, given_point. rewrite E1, E2. reflexivity. Qed.
Lemma no_override v : (0 <= v < count vs)%Z -> override f [] m v (nth kp ks 0) = value kp v.
Proof. intros V. unfold override. cbn [find]. destruct (pos_value v V) as (x & y & E1 & _ & E3). destruct (nth kp ks 0 =? pos_index f); rewrite E1; exact E3. Qed.
Theorem positions t : nth_error nts kp = Some t -> spread values custom kp t -> position_calm l omit vs ts custom kp t ->
  (packed_bits t = None -> forall v, In v (used_vertices ts) -> override f over m v (nth kp ks 0) = value kp v) /\
  (forall bits, packed_bits t = Some bits -> exists bx by_ p q, bits = [bx; by_] /\ nth kp c [] = [p; q] /\
    exists kx ky : Z -> Z,
     (forall v, In v (used_vertices ts) -> exists hx hy nx ny, override f over m v (nth kp ks 0) = [hx; hy] /\
        pack_single p hx = Some (kx v) /\ (0 <= kx v <= 2 ^ Z.of_nat bx - 1)%Z /\ pack_single q hy = Some (ky v) /\ (0 <= ky v <= 2 ^ Z.of_nat by_ - 1)%Z /\
        level p (nth 0 (value kp v) f0) nx /\ (Z.abs (kx v - nx) <= 1)%Z /\ level q (nth 1 (value kp v) f0) ny /\ (Z.abs (ky v - ny) <= 1)%Z) /\
     ((forall v, In v (used_vertices ts) -> override f over m v (nth kp ks 0) = value kp v /\ level p (nth 0 (value kp v) f0) (kx v) /\ level q (nth 1 (value kp v) f0) (ky v)) \/
      (forall a b d, In (a, b, d) ts -> FlipModel.negative (Tri (given_point a) (given_point b) (given_point d)) = false /\
         FlipModel.negative (Tri (V (N := fnum E) (at_level p (kx a)) (at_level q (ky a))) (V (N := fnum E) (at_level p (kx b)) (at_level q (ky b))) (V (N := fnum E) (at_level p (kx d)) (at_level q (ky d)))) = false))).
Proof.
  intros T SP PC. destruct kp_type as (t' & T' & C2 & TY). rewrite T in T'. injection T' as <-.
  assert (TF : ty (attr_at (fmt m) (pos_index (fmt m))) = t). { rewrite MF, <- kp_pos. destruct (kept_at l i f nf omit CF CN kp kp_lt) as [E1 _]. rewrite <- E1. exact TY. }
  split.
  { intros PB v V. unfold correct. rewrite TF, PB. apply no_override, range, V. }
  intros bits PB. destruct (bits_lengths t bits PB) as [BL BR]. rewrite C2 in BL. destruct bits as [|bx [|by_ [|? ?]]]; try discriminate BL. clear BL.
  assert (BRx : (1 <= Z.of_nat bx <= 20)%Z) by (inversion BR; assumption). assert (BRy : (1 <= Z.of_nat by_ <= 20)%Z) by (inversion BR as [|? ? _ H]; inversion H; assumption).
  (* every used vertex packs *)
  assert (PV : forall v, In v (used_vertices ts) -> length (nth kp c []) = 2 /\ forall j b q x, nth_error [bx; by_] j = Some b -> nth_error (nth kp c []) j = Some q -> nth_error (value kp v) j = Some x -> exists n, pack_single q x = Some n /\ (0 <= n <= 2 ^ Z.of_nat b - 1)%Z /\ is_finite x = true).
  { intros v V. pose proof (range v V) as VR. destruct (pos_value v VR) as (x & y & EV & _). assert (IN : forall j z, nth_error (value kp v) j = Some z -> In z (values kp j)).
    { intros j z Z. unfold values_of. apply in_map_iff. exists v. split; [apply nth_error_nth, Z|exact V]. }
    destruct (packs_value nts values custom TB c (proj1 TBO) FV TBO CC kp t (value kp v) T SP) as (pk & w & _ & _ & _ & _ & PI); [rewrite EV; symmetry; exact C2|exact IN|]. destruct (PI _ PB) as (LP & ns & _ & _ & _ & PJ). split; [congruence|].
    intros j b q z B1 Q1 Z1. destruct (PJ j b q z B1 Q1 Z1) as (n & _ & _ & N1 & N2). exists n. split; [exact N1|]. split; [exact N2|]. apply (FV kp t j z T); [|apply IN, Z1]. rewrite C2. change 2 with (length [bx; by_]). apply nth_error_Some. congruence. }
  assert (LC : length (nth kp c []) = 2).
  { assert (U : exists v, In v (used_vertices ts) \/ True) by (exists 0%Z; auto). clear U.
    destruct (coding_some nts values custom TB (proj1 TBO) FV (bounds_of_BB _ _ _ TBO) c CC) as (_ & [_ CO] & D). destruct (bnds_nth nts TB (proj1 TBO) kp t T) as [b BK]. destruct (D kp t b T BK) as (ps & PS & CA). rewrite (nth_error_nth _ _ [] PS).
    destruct (column_packs nts values custom TB (proj1 TBO) FV (bounds_of_BB _ _ _ TBO) kp t b ps T BK (CO kp t T) SP CA _ PB) as [LP _]. congruence. }
  destruct (nth kp c []) as [|p [|q [|? ?]]] eqn:EC; try discriminate LC. clear LC. exists bx, by_, p, q. split; [reflexivity|]. split; [reflexivity|].
  assert (Mp : FlipFloat.moderate p (max_value (Z.of_nat bx))) by (apply (calm_params t _ T PB PC 0 bx p eq_refl); rewrite EC; reflexivity).
  assert (Mq : FlipFloat.moderate q (max_value (Z.of_nat by_))) by (apply (calm_params t _ T PB PC 1 by_ q eq_refl); rewrite EC; reflexivity).
  pose proof (moderate_usable _ _ Mp) as Up. pose proof (moderate_usable _ _ Mq) as Uq.
  set (pick := fun o : option Z => match o with Some n => n | None => 0%Z end).
  set (ix := fun v => pick (pack_single p (nth 0 (value kp v) f0))). set (iy := fun v => pick (pack_single q (nth 1 (value kp v) f0))).
  assert (PX : forall v, In v (used_vertices ts) -> is_finite (nth 0 (value kp v) f0) = true /\ pack_single p (nth 0 (value kp v) f0) = Some (ix v) /\ (0 <= ix v <= max_value (Z.of_nat bx))%Z /\
     is_finite (nth 1 (value kp v) f0) = true /\ pack_single q (nth 1 (value kp v) f0) = Some (iy v) /\ (0 <= iy v <= max_value (Z.of_nat by_))%Z).
  { intros v V. destruct (PV v V) as [_ PJ]. destruct (pos_value v (range v V)) as (x & y & EV & _). unfold ix, iy. rewrite EV in *. cbn [nth]. destruct (PJ 0 bx p x eq_refl eq_refl eq_refl) as (n & N1 & N2 & N3). destruct (PJ 1 by_ q y eq_refl eq_refl eq_refl) as (n' & N4 & N5 & N6). rewrite N1, N4. unfold max_value. cbn [pick]. auto 10. }
  assert (US : forall a b d, In (a, b, d) ts -> forall v, v = a \/ v = b \/ v = d -> In v (used_vertices ts)).
  { intros a b d I v V. unfold used_vertices. apply in_flat_map. exists (a, b, d). split; [exact I|]. cbn. intuition congruence. }
  destruct (FlipProps.C34_float E (Z.of_nat bx) (Z.of_nat by_) p q (vertex_vec E m) ts ix iy BRx BRy Mp Mq) as (L & COR & ND & RES).
  { intros a b d I. specialize (GOOD _ I). cbn in GOOD. tauto. }
  { intros a b d I v V. pose proof (US a b d I v V) as UV. rewrite (vec_given v (range v UV)). exact (PX v UV). }
  assert (EO : correct E m [p; q] = map (fun e : Z * vec (fnum E) => (fst e, (vx (snd e) : f32, vy (snd e) : f32))) L).
  { unfold correct. rewrite TF, PB, (all_triangles_eq _ _ _ R). change (FlipModel.Coding (component_code E p bx) (component_code E q by_)) with (FlipFloatSound.fcode E (Z.of_nat bx) (Z.of_nat by_) p q). rewrite COR. reflexivity. }
  rewrite EO. destruct L as [|e L0].
  - exists ix, iy. cbn [map]. split.
    + intros v V. destruct (PX v V) as (F1 & P1 & R1 & F2 & P2 & R2). destruct (pos_value v (range v V)) as (x & y & EV & _). pose proof (no_override v (range v V)) as NO. rewrite EV in *. cbn [nth] in *. exists x, y, (ix v), (iy v). unfold max_value in *.
      split; [exact NO|]. split; [exact P1|]. split; [exact R1|]. split; [exact P2|]. split; [exact R2|]. split; [apply pack_level; assumption|]. split; [lia|]. split; [apply pack_level; assumption|lia].
    + left. intros v V. destruct (PX v V) as (F1 & P1 & R1 & F2 & P2 & R2). split; [apply no_override, range, V|]. split; apply pack_level; assumption.
  - destruct (RES ltac:(discriminate)) as (kx & ky & _ & PK & NG). exists kx, ky. assert (UT : forall v, In v (used_vertices ts) -> exists a b d, In (a, b, d) ts /\ (v = a \/ v = b \/ v = d)).
    { intros v V. unfold used_vertices in V. apply in_flat_map in V. destruct V as ([[a b] d] & I & V). exists a, b, d. split; [exact I|]. cbn in V. intuition congruence. }
    split.
    + intros v V. destruct (UT v V) as (a & b & d & I & VA). destruct (PK a b d I v VA) as (A1 & A2 & A3 & A4 & A5 & A6 & _). destruct (PX v V) as (F1 & P1 & R1 & F2 & P2 & R2). rewrite (over_handed _ v (range v V)). eexists _, _, (ix v), (iy v). unfold max_value in *.
      split; [reflexivity|]. split; [exact A1|]. split; [exact A2|]. split; [exact A4|]. split; [exact A5|]. split; [apply pack_level; assumption|]. split; [exact A3|]. split; [apply pack_level; assumption|exact A6].
    + right. intros a b d I. destruct (NG a b d I) as [N1 N2]. rewrite !vec_given in N1 by (apply range, (US a b d I); auto). split; [exact N1|exact N2].
Qed.
End Position.
