(** C63: packing the attributes of a stroke. *)
From Coq Require Import ZArith Bool Reals Lia Lra List.
From Flocq Require Import Core BinarySingleNaN.
From Verif Require Import F32 F32Lemmas F32Round MeshFormatModel PackModel PackProps PackQuantProps StrokeVertexModel StrokeVertexSpec.
Import ListNotations.
Local Open Scope R_scope.

Lemma params_eq (p q : params) : B2SF (offset p) = B2SF (offset q) -> B2SF (scale p) = B2SF (scale q) -> p = q.
Proof. destruct p as [o s], q as [o' s']. cbn [offset scale]. intros A B. apply B2SF_inj in A, B. congruence. Qed.
(** bounds that give the same parameters *)
Definition opacity_hi : f32 := fdy 2113665 (-21).
Definition hsl_hi : f32 := fdy 1050628 (-20).
Lemma fdy_val m e : (Z.abs m < 2 ^ 24)%Z -> (-149 <= e <= 0)%Z -> fR (fdy m e) = IZR m * bpow radix2 e /\ is_finite (fdy m e) = true.
Proof.
  intros M E. assert (B : Rabs (IZR m) < bpow radix2 24) by (rewrite <- abs_IZR; change (bpow radix2 24) with (IZR (2 ^ 24)); apply IZR_lt, M). destruct (fdy_exact m e) as (R & F).
  - apply generic_format_FLT. exists (Float radix2 m e); [reflexivity|exact M|cbn; lia].
  - unfold F2R. cbn [Fnum Fexp]. rewrite Rabs_mult, (Rabs_pos_eq (bpow radix2 e)) by apply bpow_ge_0. apply Rle_lt_trans with (Rabs (IZR m) * 1); [apply Rmult_le_compat_l; [apply Rabs_pos|change 1 with (bpow radix2 0); apply bpow_le; lia]|]. rewrite Rmult_1_r. eapply Rlt_trans; [exact B|]. apply bpow_lt. lia.
  - split; [rewrite R; reflexivity|exact F].
Qed.
Lemma opacity_hi_R : fR opacity_hi = 2113665 / 2097152 /\ is_finite opacity_hi = true.
Proof. destruct (fdy_val 2113665 (-21)) as (R & F); [lia|lia|]. split; [|exact F]. unfold opacity_hi. rewrite R. change (bpow radix2 (-21)) with (/ 2097152). reflexivity. Qed.
Lemma hsl_hi_R : fR hsl_hi = 1050628 / 1048576 /\ is_finite hsl_hi = true.
Proof. destruct (fdy_val 1050628 (-20)) as (R & F); [lia|lia|]. split; [|exact F]. unfold hsl_hi. rewrite R. change (bpow radix2 (-20)) with (/ 1048576). reflexivity. Qed.
Lemma opacity_bounds : component_params 8 (fZ (-1)) opacity_hi = Some opacity_params.
Proof.
  assert (H : option_map (fun p => (B2SF (offset p), B2SF (scale p))) (component_params 8 (fZ (-1)) opacity_hi) = Some (B2SF (offset opacity_params), B2SF (scale opacity_params))) by (vm_compute; reflexivity).
  destruct (component_params 8 (fZ (-1)) opacity_hi) as [p|]; [|discriminate H]. cbn [option_map] in H. f_equal. apply params_eq; congruence.
Qed.
Lemma hsl_bounds : component_params 10 (fZ (-1)) hsl_hi = Some hsl_params.
Proof.
  assert (H : option_map (fun p => (B2SF (offset p), B2SF (scale p))) (component_params 10 (fZ (-1)) hsl_hi) = Some (B2SF (offset hsl_params), B2SF (scale hsl_params))) by (vm_compute; reflexivity).
  destruct (component_params 10 (fZ (-1)) hsl_hi) as [p|]; [|discriminate H]. cbn [option_map] in H. f_equal. apply params_eq; congruence.
Qed.
Lemma u_bounds : component_params 12 f0 f1 = Some u_params.
Proof.
  assert (H : option_map (fun p => (B2SF (offset p), B2SF (scale p))) (component_params 12 f0 f1) = Some (B2SF (offset u_params), B2SF (scale u_params))) by (vm_compute; reflexivity).
  destruct (component_params 12 f0 f1) as [p|]; [|discriminate H]. cbn [option_map] in H. f_equal. apply params_eq; congruence.
Qed.
Lemma v_bounds : component_params 20 f0 f1 = Some v_params.
Proof.
  assert (H : option_map (fun p => (B2SF (offset p), B2SF (scale p))) (component_params 20 f0 f1) = Some (B2SF (offset v_params), B2SF (scale v_params))) by (vm_compute; reflexivity).
  destruct (component_params 20 f0 f1) as [p|]; [|discriminate H]. cbn [option_map] in H. f_equal. apply params_eq; congruence.
Qed.
Lemma wide_any bits lo hi : (1 <= bits <= 20)%Z -> 1 <= fR hi - fR lo -> wide bits lo hi.
Proof.
  intros B H. unfold wide. pose proof (levels_range bits B). assert (P : bpow radix2 (-125) <= bpow radix2 (-20)) by (apply bpow_le; lia). change (bpow radix2 (-20)) with (/ 1048576) in P. pose proof (bpow_gt_0 radix2 (-125)).
  apply Rle_trans with (1048576 * / 1048576); [apply Rmult_le_compat; lra|lra].
Qed.
Lemma le126 x : Rabs x <= 2 -> Rabs x <= bpow radix2 126.
Proof. intros H. eapply Rle_trans; [exact H|]. change 2 with (bpow radix2 1). apply bpow_le. lia. Qed.
(** one value *)
Definition packs (bits : Z) (p : params) (v : f32) (e : R) : Prop :=
  exists n, pack_single p v = Some n /\ (0 <= n <= 2 ^ bits - 1)%Z /\ is_finite (unpack_single p n) = true /\ Rabs (fR (unpack_single p n) - fR v) <= e.
Lemma packs_within bits lo hi p v e : (1 <= bits <= 20)%Z -> component_params bits lo hi = Some p -> 1 <= fR hi - fR lo -> Rabs (fR lo) <= 2 -> Rabs (fR hi) <= 2 -> is_finite v = true -> fR lo <= fR v <= fR hi -> Rabs (fR v) <= 1 ->
  (fR hi - fR lo) / levels bits / 2 + (fR hi - fR lo) / 1048576 + / 16777216 <= e -> packs bits p v e.
Proof.
  intros B C W L H F V V1 E. destruct (C30_error bits lo hi p v B C (wide_any _ _ _ B W) (le126 _ L) (le126 _ H) F V) as (n & P & N & FU & D). exists n. split; [exact P|]. split; [exact N|]. split; [exact FU|].
  replace (2 ^ 20) with 1048576 in D by lra. replace (2 ^ 24) with 16777216 in D by lra. lra.
Qed.
Lemma m1_R : fR (fZ (-1)) = -1. Proof. apply (fZ_exact (-1)). lia. Qed.
Lemma opacity_packs v : inside (-1) 1 v -> packs 8 opacity_params v (/ 254 + / 262144).
Proof.
  intros (F & B). destruct opacity_hi_R as (R & _). apply (packs_within 8 (fZ (-1)) opacity_hi); rewrite ?R, ?m1_R; try assumption; try lia; try lra; try (apply Rabs_le; lra); [apply opacity_bounds|]. unfold levels. change (2 ^ 8 - 1)%Z with 255%Z. lra.
Qed.
Lemma hsl_packs v : inside (-1) 1 v -> packs 10 hsl_params v (/ 1022 + / 262144).
Proof.
  intros (F & B). destruct hsl_hi_R as (R & _). apply (packs_within 10 (fZ (-1)) hsl_hi); rewrite ?R, ?m1_R; try assumption; try lia; try lra; try (apply Rabs_le; lra); [apply hsl_bounds|]. unfold levels. change (2 ^ 10 - 1)%Z with 1023%Z. lra.
Qed.
Lemma u_packs v : inside 0 1 v -> packs 12 u_params v (/ 8190 + / 262144).
Proof.
  intros (F & B). apply (packs_within 12 f0 f1); rewrite ?f0_R, ?f1_R; try assumption; try lia; try lra; try (apply Rabs_le; lra); [apply u_bounds|]. unfold levels. change (2 ^ 12 - 1)%Z with 4095%Z. lra.
Qed.
Lemma v_packs v : inside 0 1 v -> packs 20 v_params v (/ 2097150 + / 262144).
Proof.
  intros (F & B). apply (packs_within 20 f0 f1); rewrite ?f0_R, ?f1_R; try assumption; try lia; try lra; try (apply Rabs_le; lra); [apply v_bounds|]. unfold levels. change (2 ^ 20 - 1)%Z with 1048575%Z. lra.
Qed.
Lemma rnd_Z z : (Z.abs z <= 2 ^ 24)%Z -> rnd (IZR z) = IZR z.
Proof. intros H. destruct (fZ_exact z H) as (R & _). rewrite <- R. apply rnd_fR. Qed.
Lemma safe_Z z : (Z.abs z <= 2 ^ 24)%Z -> Rabs (IZR z) <= bpow radix2 120.
Proof. intros H. rewrite <- abs_IZR. apply Rle_trans with (IZR (2 ^ 24)); [apply IZR_le, H|]. change (IZR (2 ^ 24)) with (bpow radix2 24). apply bpow_le. lia. Qed.
Lemma label_packs v k : whole v k -> (-127 <= k <= 127)%Z -> pack_single label_params v = Some (k + 128)%Z /\ packs 8 label_params v 0.
Proof.
  intros (F & R) K. destruct (fZ_exact (-128)) as (RM & FM); [lia|]. destruct (fZ_exact 1) as (R1 & F1); [lia|].
  destruct (fsub_small v (fZ (-128)) F FM) as (RD & FD); [rewrite R, RM, <- minus_IZR; apply safe_Z; lia|]. rewrite R, RM, <- minus_IZR, rnd_Z in RD by lia.
  destruct (fdiv_small _ _ FD F1) as (RQ & FQ); [rewrite R1; lra|rewrite RD, R1; unfold Rdiv; rewrite Rinv_1, Rmult_1_r; apply safe_Z; lia|]. rewrite RD, R1 in RQ. unfold Rdiv in RQ. rewrite Rinv_1, Rmult_1_r, rnd_Z in RQ by lia.
  assert (P : pack_single label_params v = Some (k + 128)%Z).
  { rewrite (pack_at_value label_params v (IZR (k - -128))); [f_equal; rewrite near_int with (n := (k + 128)%Z); [reflexivity|replace (k - -128)%Z with (k + 128)%Z by lia; rewrite Rminus_diag_eq, Rabs_R0 by reflexivity; lra]|exact FQ|exact RQ|].
    change (bpow radix2 31) with (IZR (2 ^ 31)). split; [apply IZR_le; lia|apply IZR_lt; lia]. }
  split; [exact P|]. exists (k + 128)%Z. split; [exact P|]. split; [lia|]. unfold unpack_single, to_float, label_params. cbn [offset scale].
  destruct (fZ_exact (k + 128)) as (RN & FN); [lia|]. destruct (fmul_small _ _ FN F1) as (RP & FP); [rewrite RN, R1, Rmult_1_r; apply safe_Z; lia|]. rewrite RN, R1, Rmult_1_r, rnd_Z in RP by lia.
  destruct (fadd_small _ _ FP FM) as (RA & FA); [rewrite RP, RM, <- plus_IZR; apply safe_Z; lia|]. rewrite RP, RM, <- plus_IZR, rnd_Z in RA by lia. split; [exact FA|]. rewrite RA, R. replace (k + 128 + -128)%Z with k by lia. rewrite Rminus_diag_eq, Rabs_R0 by reflexivity. lra.
Qed.
(** whole attributes *)
Fixpoint packs_all (bits : list nat) (ps : list params) (vs : list f32) (es : list R) : Prop :=
  match bits, ps, vs, es with
  | b :: bits, p :: ps, v :: vs, e :: es => packs (Z.of_nat b) p v e /\ packs_all bits ps vs es
  | [], [], [], [] => True
  | _, _, _, _ => False
  end.
Lemma packs_list bits ps vs es : packs_all bits ps vs es -> exists ns, pack_singles ps vs = Some ns /\ Forall2 (fun b n => (0 <= n < 2 ^ b)%Z) (map Z.of_nat bits) ns /\ all_close es vs (unpack_singles ps ns).
Proof.
  revert ps vs es. induction bits as [|b bits IH]; intros [|p ps] [|v vs] [|e es] H; try contradiction; [exists []; repeat split; constructor|]. destruct H as ((n & P & N & F & E) & H). destruct (IH _ _ _ H) as (ns & PS & FS & C). exists (n :: ns). cbn [pack_singles unpack_singles map all_close]. rewrite P, PS. split; [reflexivity|]. split; [constructor; [lia|exact FS]|]. repeat split; assumption.
Qed.
Lemma custom_packs a ps vs : custom_params a = Some ps -> within_limits (aid a) vs -> exists bits, packed_bits (ty a) = Some bits /\ Forall (fun p => valid_params p = true) ps /\ packs_all bits ps vs (losses (aid a)).
Proof.
  unfold custom_params. set (id := aid a). intros C W. unfold kOpacityShift, kColorShiftHsl, kSideLabel, kForwardLabel, kSurfaceUv in C.
  destruct id as [|[|[|[|[|[|[|[|[|id]]]]]]]]]; cbn [within_limits] in W; try contradiction; cbn [Nat.eqb orb] in C; destruct (ty a); try discriminate C; injection C as <-; (eexists; split; [reflexivity|]);
    (split; [repeat constructor; vm_compute; reflexivity|]); destruct W as (L & W).
  - destruct vs as [|x [|y [|z [|]]]]; try discriminate L. inversion W as [|? ? W1 W']; subst. inversion W' as [|? ? W2 W'']; subst. inversion W'' as [|? ? W3 _]; subst. cbn [packs_all losses]. repeat split; apply hsl_packs; assumption.
  - destruct vs as [|x [|]]; try discriminate L. inversion W as [|? ? W1 _]; subst. cbn [packs_all losses]. split; [apply opacity_packs, W1|exact I].
  - destruct vs as [|x [|]]; try discriminate L. inversion W as [|? ? (k & W1 & K) _]; subst. cbn [packs_all losses]. split; [apply (label_packs x k W1 K)|exact I].
  - destruct vs as [|x [|]]; try discriminate L. inversion W as [|? ? (k & W1 & K) _]; subst. cbn [packs_all losses]. split; [apply (label_packs x k W1 K)|exact I].
  - destruct vs as [|x [|y [|]]]; try discriminate L. inversion W as [|? ? W1 W']; subst. inversion W' as [|? ? W2 _]; subst. cbn [packs_all losses]. split; [apply u_packs, W1|]. split; [apply v_packs, W2|exact I].
Qed.
(** An attribute of a stroke that has parameters of its own can always be packed while it is within its limits, and reading it back
    gives labels exactly and everything else up to half a step *)
Theorem C63_attribute a ps vs : custom_params a = Some ps -> within_limits (aid a) vs ->
  exists p ws, pack_attribute (ty a) ps vs = Some p /\ unpack_attribute (ty a) ps p = Some ws /\ all_close (losses (aid a)) vs ws.
Proof.
  intros C W. destruct (custom_packs a ps vs C W) as (bits & T & _ & P). destruct (packs_list _ _ _ _ P) as (ns & A & F & K). destruct (packed_widths (ty a) bits T) as (w & k & L & FB).
  assert (R : in_range (ty a) ns) by (exists w, k, (map Z.of_nat bits); split; assumption). destruct (C29_roundtrip (ty a) ns R) as (p & Q & _ & U). exists p, (unpack_singles ps ns).
  unfold pack_attribute, unpack_attribute, is_unpacked. rewrite T, A, Q, U. split; [reflexivity|]. split; [reflexivity|exact K].
Qed.
(** The limits themselves and zero come back exactly *)
Theorem C63_exact :
  (forall v, In v [fZ (-1); f0; f1] -> exists n, pack_single opacity_params v = Some n /\ feq (unpack_single opacity_params n) v = true) /\
  (forall v, In v [fZ (-1); f0; f1] -> exists n, pack_single hsl_params v = Some n /\ feq (unpack_single hsl_params n) v = true) /\
  (forall v, In v [f0; f1] -> exists n, pack_single u_params v = Some n /\ feq (unpack_single u_params n) v = true) /\
  (forall v, In v [f0; f1] -> exists n, pack_single v_params v = Some n /\ feq (unpack_single v_params n) v = true).
Proof.
  assert (Q : forall p vs, forallb (fun v => match pack_single p v with Some n => feq (unpack_single p n) v | None => false end) vs = true -> forall v, In v vs -> exists n, pack_single p v = Some n /\ feq (unpack_single p n) v = true).
  { intros p vs H v IN. pose proof (proj1 (forallb_forall _ _) H v IN) as K. cbn beta in K. destruct (pack_single p v) as [n|]; [|discriminate K]. exists n. auto. }
  split; [|split; [|split]]; apply Q; vm_compute; reflexivity.
Qed.
(** MakeCustomPackingArray gives one entry for each attribute that is not skipped, in their order, unless the format has more than eight *)
Definition kept_attributes (f : format) (skipped : list nat) (kept : list attribute) : Prop :=
  exists mark, length mark = length (attrs f) /\ kept = map snd (filter fst (combine mark (attrs f))) /\ forall b a, In (b, a) (combine mark (attrs f)) -> (b = true <-> ~ In (aid a) skipped).
Lemma kept_unique f skipped kept : kept_attributes f skipped kept -> kept = filter (fun a => negb (existsb (Nat.eqb (aid a)) skipped)) (attrs f).
Proof.
  intros (mark & L & -> & H). revert mark L H. induction (attrs f) as [|a l IH]; intros [|b mark] L H; try discriminate L; [reflexivity|]. cbn [combine filter fst map].
  assert (E : negb (existsb (Nat.eqb (aid a)) skipped) = b).
  { pose proof (H b a (or_introl eq_refl)) as Q. destruct (existsb (Nat.eqb (aid a)) skipped) eqn:E; cbn [negb].
    - apply existsb_exists in E as (x & IN & E). apply Nat.eqb_eq in E. subst x. destruct b; [|reflexivity]. exfalso. apply (proj1 Q eq_refl), IN.
    - symmetry. apply Q. intros IN. assert (existsb (Nat.eqb (aid a)) skipped = true); [|congruence]. apply existsb_exists. exists (aid a). split; [exact IN|apply Nat.eqb_refl]. }
  rewrite E. specialize (IH mark ltac:(cbn in L; lia) ltac:(intros; apply H; right; assumption)). destruct b; cbn [map snd]; rewrite IH; reflexivity.
Qed.
Theorem C63_array f skipped kept : kept_attributes f skipped kept ->
  (length (attrs f) <= 8)%nat /\ custom_packing_array f skipped = Some (map custom_params kept) \/ (8 < length (attrs f))%nat /\ custom_packing_array f skipped = None.
Proof.
  intros K. unfold custom_packing_array, kMaxAttributeCount. rewrite (kept_unique _ _ _ K). destruct (Nat.leb (length (attrs f)) 8) eqn:E; [left; split; [apply Nat.leb_le, E|reflexivity]|right; split; [apply Nat.leb_gt, E|reflexivity]].
Qed.
(** A mesh whose attributes are within their limits is packed with these parameters: they are never refused *)
Definition packable (a : attribute) (b : list f32 * list f32) : Prop :=
  match custom_params a with
  | Some _ => within_limits (aid a) (fst b) /\ within_limits (aid a) (snd b)
  | None => exists ps, compute_coding (ty a) (fst b) (snd b) = Some ps
  end.
Fixpoint chosen (l : list attribute) (bounds : list (list f32 * list f32)) (pss : list (list params)) : Prop :=
  match l, bounds, pss with
  | a :: l, b :: bounds, ps :: pss => (custom_params a = Some ps \/ custom_params a = None /\ compute_coding (ty a) (fst b) (snd b) = Some ps) /\ chosen l bounds pss
  | [], [], [] => True
  | _, _, _ => False
  end.
Lemma representable_packs bits ps vs es : Forall (fun b => (1 <= Z.of_nat b <= 20)%Z) bits -> Forall (fun p => valid_params p = true) ps -> Forall (fun v => is_finite v = true) vs -> packs_all bits ps vs es -> representables bits ps vs = true.
Proof.
  revert ps vs es. induction bits as [|b bits IH]; intros [|p ps] [|v vs] [|e es] B V F H; try contradiction; [reflexivity|]. inversion B; inversion V; inversion F; subst. destruct H as ((n & P & N & _) & H). cbn [representables]. rewrite (IH _ _ _ ltac:(eassumption) ltac:(eassumption) ltac:(eassumption) H), andb_true_r.
  apply representable_iff; [assumption|apply valid_positive; assumption|assumption|]. exists n. split; assumption.
Qed.
Lemma limits_finite id vs : within_limits id vs -> Forall (fun v => is_finite v = true) vs.
Proof.
  destruct id as [|[|[|[|[|[|[|[|[|id]]]]]]]]]; cbn [within_limits]; try contradiction; intros (_ & H); (eapply Forall_impl; [|exact H]); intros v; [intros (F & _)|intros (F & _)|intros (k & (F & _) & _)|intros (k & (F & _) & _)|intros (F & _)]; exact F.
Qed.
Theorem C63_accepted kept bounds : Forall2 packable kept bounds ->
  exists pss, compute_coding_array (map ty kept) bounds (map custom_params kept) = Some pss /\ chosen kept bounds pss.
Proof.
  intros H. assert (LB : length bounds = length kept) by (clear -H; induction H; cbn; congruence).
  assert (OK : custom_ok (map ty kept) bounds (map custom_params kept) = true /\ exists pss, coding_list (map ty kept) bounds (map custom_params kept) = Some pss /\ chosen kept bounds pss).
  { clear LB. induction H as [|a [lo hi] kept bounds P H (IH1 & pss & IH2 & IH3)]; [split; [reflexivity|]; exists []; split; reflexivity|]. cbn [map custom_ok coding_list tl]. rewrite IH1, IH2, andb_true_r. unfold packable in P. cbn [fst snd] in P. destruct (custom_params a) as [ps|] eqn:C.
    - destruct P as (PL & PH). destruct (custom_packs a ps lo C PL) as (bits & T & V & KL), (custom_packs a ps hi C PH) as (bits' & T' & _ & KH). rewrite T in T'. injection T' as <-. destruct (packed_widths (ty a) bits T) as (w & k & L & FB).
      unfold valid_coding, is_unpacked, representable. rewrite T. cbn [negb andb orb]. rewrite (representable_packs bits ps lo _ FB V (limits_finite _ _ PL) KL), (representable_packs bits ps hi _ FB V (limits_finite _ _ PH) KH), !andb_true_r.
      split; [|exists (ps :: pss); split; [reflexivity|split; [left; exact C|exact IH3]]]. apply andb_true_iff. split; [|apply forallb_forall; intros q IN; apply (proj1 (Forall_forall _ _) V q IN)]. apply Nat.eqb_eq.
      unfold custom_params in C. repeat match type of C with (if ?b then _ else _) = _ => destruct b end; try discriminate C; destruct (ty a); try discriminate C; injection C as <-; reflexivity.
    - destruct P as (ps & P). split; [reflexivity|]. rewrite P. exists (ps :: pss). split; [reflexivity|]. split; [right; split; [exact C|exact P]|exact IH3]. }
  destruct OK as (OK & pss & CL & CH). exists pss. split; [|exact CH]. unfold compute_coding_array. rewrite map_length, LB, Nat.eqb_refl. cbn [negb]. destruct (map custom_params kept) as [|c l] eqn:E; [exact CL|]. rewrite <- E in *. rewrite map_length, Nat.eqb_refl. cbn [negb]. rewrite OK. exact CL.
Qed.
(** ** A case: a label attribute and a colour attribute *)
Definition ex_attribute (t : atype) (id : nat) : attribute := Attr t id 0 0 0 0.
Example C63_case : packable (ex_attribute Float1In1Byte 5) ([fZ (-127)], [fZ 127]) /\ packable (ex_attribute Float3In4Bytes_XYZ10 1) ([fZ (-1); f0; f0], [f1; f1; f0]) /\ custom_params (ex_attribute Float1In1Byte 5) <> None.
Proof.
  destruct (fZ_exact (-127)) as (R & F); [lia|]. destruct (fZ_exact 127) as (R' & F'); [lia|]. split; [|split; [|discriminate]].
  - split; (split; [reflexivity|]); constructor; try constructor; [exists (-127)%Z|exists 127%Z]; (split; [split; assumption|lia]).
  - assert (I0 : inside (-1) 1 f0) by (split; [reflexivity|rewrite f0_R; lra]). assert (I1 : inside (-1) 1 f1) by (split; [reflexivity|rewrite f1_R; lra]). assert (Im : inside (-1) 1 (fZ (-1))) by (split; [reflexivity|rewrite m1_R; lra]).
    split; (split; [reflexivity|]); repeat (apply Forall_cons; [assumption|]); apply Forall_nil.
Qed.
Print Assumptions C63_attribute.
Print Assumptions C63_exact.
Print Assumptions C63_array.
Print Assumptions C63_accepted.
