(** Coding parameters settled from the bounds of the values, component by component *)
From Coq Require Import ZArith Bool Reals Lra Lia List.
From Flocq Require Import Core IEEE754.BinarySingleNaN.
From Verif Require Import F32 F32Lemmas MeshFormatModel PackModel PackProps PackQuantProps MeshSpec.
Import ListNotations.
Local Open Scope R_scope.

Lemma rounded_rnd x : rounded x = rnd x. Proof. reflexivity. Qed.
Lemma bits_lengths t bits : packed_bits t = Some bits -> length bits = component_count t /\ Forall (fun b => (1 <= Z.of_nat b <= 20)%Z) bits.
Proof. destruct t; intros [= <-]; (split; [reflexivity|repeat constructor; cbn; lia]). Qed.
Lemma bits_nth t bits c b : packed_bits t = Some bits -> nth_error bits c = Some b -> (1 <= Z.of_nat b <= 20)%Z /\ (c < component_count t)%nat.
Proof.
  intros H N. destruct (bits_lengths t bits H) as [L F]. rewrite Forall_forall in F. split; [apply F, (nth_error_In _ _ N)|]. rewrite <- L. apply nth_error_Some. congruence.
Qed.
Lemma nth_pick {A} (l : list A) c n : length l = n -> (c < n)%nat -> exists x, nth_error l c = Some x.
Proof. intros <- H. destruct (nth_error l c) eqn:E; [eauto|]. apply nth_error_None in E. lia. Qed.

(** ** Levels *)
Lemma usable_valid p : usable p <-> valid_params p = true.
Proof.
  unfold usable, valid_params, fisfinite, fgt. rewrite !andb_true_iff. split.
  - intros (A & B & C). split; [split; assumption|]. apply flt_spec; [reflexivity|apply finite_not_nan, B|]. rewrite (fX_finite (scale p)) by exact B. exact C.
  - intros H. apply (valid_positive p). unfold valid_params, fisfinite, fgt. rewrite !andb_true_iff. exact H.
Qed.
Lemma level_unique p v m n : level p v m -> level p v n -> m = n. Proof. intros [_ ->] [_ ->]. reflexivity. Qed.
Lemma pack_level p v n : usable p -> is_finite v = true -> pack_single p v = Some n -> level p v n.
Proof.
  intros P F H. destruct (pack_inv p v n P F H) as (FQ & R & E & _). pose proof (quot_cases p v P F) as QC. cbv zeta in QC. destruct QC as [(_ & B & _)|[(_ & X)|(_ & X)]]; [|rewrite X in FQ; discriminate FQ..].
  split; [exact B|]. rewrite E, R. reflexivity.
Qed.
Lemma level_pack b p v n : (1 <= b <= 20)%Z -> usable p -> is_finite v = true -> level p v n -> (0 <= n <= 2 ^ b - 1)%Z -> pack_single p v = Some n.
Proof.
  intros B P F [L E] N. destruct (max_float b B) as [FM RM]. assert (E' : n = ZnearestA (rnd (rnd (fR v - fR (offset p)) / fR (scale p)))) by exact E. clear E. rename E' into E. rewrite rounded_rnd in L. change overflow with big in L. pose proof (quot_cases p v P F) as QC. cbv zeta in QC. pose proof (levels_range b B) as LV.
  set (r := rnd (rnd (fR v - fR (offset p)) / fR (scale p))) in *. assert (RB : Rabs r <= 2097152).
  { pose proof (ZnearestA_half r) as H. apply Rabs_le_inv in H. rewrite <- E in H. assert (0 <= IZR n <= levels b) by (unfold levels; split; apply IZR_le; lia). apply Rabs_le. lra. }
  assert (BB : 2097152 < big) by (apply Rlt_le_trans with (bpow radix2 22); [change (bpow radix2 22) with 4194304; lra|apply bpow_le; lia]). apply Rabs_le_inv in RB. apply Rabs_lt_inv in L.
  destruct QC as [(FQ & _ & R & _)|[([X|(_ & X)] & _)|([X|(_ & X)] & _)]]; [|lra..].
  assert (RP : representable1 b p v = true).
  { unfold representable1. set (q := fdiv (fsub v (offset p)) (scale p)) in *. destruct (fround_R q) as [RR FF]. rewrite FQ in FF. rewrite R, <- E in RR. apply negb_true_iff, orb_false_iff. split.
    - apply flt_false; [apply finite_not_nan, FF|reflexivity|]. rewrite (fX_finite (fround q)) by exact FF. change (fX f0) with 0. rewrite RR. apply IZR_le. lia.
    - apply flt_false; [apply finite_not_nan; assumption..|]. rewrite !fX_finite by assumption. rewrite RR, RM. apply IZR_le. lia. }
  apply representable_iff in RP; [|assumption..]. destruct RP as (m & M & _). rewrite M. f_equal. apply (level_unique p v); [apply (pack_level p v m P F M)|split; [rewrite rounded_rnd; change overflow with big; apply Rabs_lt; lra|exact E]].
Qed.

(** ** Bounds of a column *)
Lemma between_level b p lo hi v : (1 <= b <= 20)%Z -> usable p -> is_finite lo = true -> is_finite hi = true -> is_finite v = true -> fR lo <= fR v <= fR hi ->
  representable1 b p lo = true -> representable1 b p hi = true -> exists n, level p v n /\ (0 <= n <= 2 ^ b - 1)%Z.
Proof.
  intros B P Fl Fh Fv V Rl Rh. destruct (C30_custom_between b p lo hi v B (proj1 (usable_valid p) P) Fl Fh Fv V Rl Rh) as (n & N & NB). exists n. split; [apply pack_level; assumption|exact NB].
Qed.
Lemma level_representable b p v n : (1 <= b <= 20)%Z -> usable p -> is_finite v = true -> level p v n -> (0 <= n <= 2 ^ b - 1)%Z -> representable1 b p v = true.
Proof. intros B P F L N. apply representable_iff; [assumption..|]. exists n. split; [apply (level_pack b); assumption|exact N]. Qed.
Lemma representables_iff bits : forall ps vs, length ps = length bits -> length vs = length bits ->
  (representables bits ps vs = true <-> forall c b p v, nth_error bits c = Some b -> nth_error ps c = Some p -> nth_error vs c = Some v -> representable1 (Z.of_nat b) p v = true).
Proof.
  induction bits as [|b bits IH]; intros [|p ps] [|v vs] L1 L2; try discriminate; cbn [representables].
  - split; [intros _ c b p v H; destruct c; discriminate|reflexivity].
  - rewrite andb_true_iff, IH by (cbn in *; lia). split.
    + intros [H1 H2] [|c] b' p' v' E1 E2 E3; cbn in *; [injection E1 as <-; injection E2 as <-; injection E3 as <-; exact H1|apply (H2 c b' p' v' E1 E2 E3)].
    + intros H. split; [apply (H 0%nat b p v eq_refl eq_refl eq_refl)|]. intros c b' p' v' E1 E2 E3. apply (H (S c) b' p' v' E1 E2 E3).
Qed.
Lemma params_iff b lo hi : is_finite lo = true -> is_finite hi = true -> fR lo <= fR hi -> ((exists p, component_params b lo hi = Some p) <-> is_finite (fsub hi lo) = true).
Proof.
  intros Fl Fh L. unfold component_params. assert (E : fle lo hi = true) by (apply fle_spec; [apply finite_not_nan; assumption..|]; rewrite !fX_finite by assumption; exact L). rewrite E. cbn [negb]. unfold fisfinite.
  destruct (is_finite (fsub hi lo)); cbn [negb]; split; try discriminate; eauto. intros [p H]. discriminate H.
Qed.
Lemma spread_finite lo hi v w : is_finite lo = true -> is_finite hi = true -> is_finite v = true -> is_finite w = true -> fR lo <= fR v <= fR hi -> fR lo <= fR w <= fR hi ->
  is_finite (fsub hi lo) = true -> is_finite (fsub v w) = true.
Proof.
  intros Fl Fh Fv Fw V W H. destruct (fsub_finite hi lo Fh Fl) as [(A & _)|[(_ & E)|(_ & E)]]; [|rewrite E in H; discriminate H..]. apply Rabs_lt_inv in A.
  assert (M1 : rnd (fR v - fR w) <= rnd (fR hi - fR lo)) by (apply rnd_mono; lra). assert (M2 : - rnd (fR hi - fR lo) <= rnd (fR v - fR w)) by (rewrite <- rnd_opp; apply rnd_mono; lra).
  destruct (fsub_finite v w Fv Fw) as [(_ & _ & K)|[(K & _)|(K & _)]]; [exact K|lra..].
Qed.
Lemma components_some bits : forall los his ps, components_params bits los his = Some ps ->
  length los = length bits /\ length his = length bits /\ length ps = length bits /\
  forall c b lo hi, nth_error bits c = Some b -> nth_error los c = Some lo -> nth_error his c = Some hi -> exists p, nth_error ps c = Some p /\ component_params (Z.of_nat b) lo hi = Some p.
Proof.
  induction bits as [|b bits IH]; intros [|lo los] [|hi his] ps H; cbn [components_params] in H; try discriminate.
  - injection H as <-. repeat split. intros [|c]; discriminate.
  - destruct (component_params (Z.of_nat b) lo hi) as [p|] eqn:E; [|discriminate]. destruct (components_params bits los his) as [l|] eqn:F; [|discriminate]. injection H as <-. destruct (IH los his l F) as (A & B & C & D). cbn [length]. rewrite A, B, C. repeat split.
    intros [|c] b' lo' hi' E1 E2 E3; cbn in *; [injection E1 as <-; injection E2 as <-; injection E3 as <-; eauto|apply (D c b' lo' hi' E1 E2 E3)].
Qed.
Lemma components_iff bits : forall los his, length los = length bits -> length his = length bits ->
  ((exists ps, components_params bits los his = Some ps) <-> forall c b lo hi, nth_error bits c = Some b -> nth_error los c = Some lo -> nth_error his c = Some hi -> exists p, component_params (Z.of_nat b) lo hi = Some p).
Proof.
  intros los his L1 L2. split.
  - intros [ps H] c b lo hi E1 E2 E3. destruct (components_some _ _ _ _ H) as (_ & _ & _ & D). destruct (D c b lo hi E1 E2 E3) as (p & _ & P). eauto.
  - revert los his L1 L2. induction bits as [|b bits IH]; intros [|lo los] [|hi his] L1 L2 H; try discriminate; cbn [components_params]; [eauto|]. destruct (H 0%nat b lo hi eq_refl eq_refl eq_refl) as [p ->].
    destruct (IH los his) as [l ->]; [cbn in *; lia..| |eauto]. intros c b' lo' hi' E1 E2 E3. apply (H (S c) b' lo' hi' E1 E2 E3).
Qed.

(** ** Whole attributes: [bnds] are the least and greatest values of every component *)
Definition code_attribute (t : atype) (b : list f32 * list f32) (cu : option (list params)) : option (list params) :=
  match cu with Some ps => if is_unpacked t then compute_coding t (fst b) (snd b) else Some ps | None => compute_coding t (fst b) (snd b) end.
Definition custom_fits (t : atype) (b : list f32 * list f32) (ps : list params) : bool :=
  negb (is_unpacked t) && valid_coding t ps && representable t ps (fst b) && representable t ps (snd b).
Lemma given_for_cons c custom k : given_for (c :: custom) (S k) = given_for custom k. Proof. reflexivity. Qed.
Lemma given_for_nil k : given_for [] k = None. Proof. destruct k; reflexivity. Qed.
Lemma given_for_tl custom k : given_for custom (S k) = given_for (tl custom) k. Proof. destruct custom; [rewrite !given_for_nil; reflexivity|reflexivity]. Qed.
Lemma custom_ok_iff ts : forall bnds custom, length bnds = length ts -> length custom = length ts ->
  (custom_ok ts bnds custom = true <-> forall k t b ps, nth_error ts k = Some t -> nth_error bnds k = Some b -> given_for custom k = Some ps -> custom_fits t b ps = true).
Proof.
  induction ts as [|t ts IH]; intros [|[lo hi] bnds] [|cu custom] L1 L2; try discriminate; cbn [custom_ok].
  - split; [intros _ [|k]; discriminate|reflexivity].
  - rewrite andb_true_iff, IH by (cbn in *; lia). split.
    + intros [H1 H2] [|k] t' b' ps' E1 E2 E3; cbn [nth_error] in *; [|rewrite given_for_cons in E3; apply (H2 k t' b' ps' E1 E2 E3)]. injection E1 as <-. injection E2 as <-. unfold given_for in E3. cbn [nth_error] in E3. destruct cu; [|discriminate]. injection E3 as ->. exact H1.
    + intros H. split; [|intros k t' b' ps' E1 E2 E3; apply (H (S k) t' b' ps' E1 E2 E3)]. destruct cu as [ps|]; [|reflexivity]. apply (H 0%nat t (lo, hi) ps eq_refl eq_refl eq_refl).
Qed.
Lemma coding_list_step t ts lo hi bnds custom : coding_list (t :: ts) ((lo, hi) :: bnds) custom =
  match code_attribute t (lo, hi) (given_for custom 0), coding_list ts bnds (tl custom) with Some ps, Some l => Some (ps :: l) | _, _ => None end.
Proof. cbn [coding_list]. destruct custom as [|[ps|] custom]; reflexivity. Qed.
Lemma coding_list_some ts : forall bnds custom c, length bnds = length ts -> coding_list ts bnds custom = Some c ->
  length c = length ts /\ forall k t b, nth_error ts k = Some t -> nth_error bnds k = Some b -> exists ps, nth_error c k = Some ps /\ code_attribute t b (given_for custom k) = Some ps.
Proof.
  induction ts as [|t ts IH]; intros [|[lo hi] bnds] custom c L H; try discriminate.
  - injection H as <-. split; [reflexivity|]. intros [|k]; discriminate.
  - rewrite coding_list_step in H. destruct (code_attribute t (lo, hi) (given_for custom 0)) as [ps|] eqn:E; [|discriminate]. destruct (coding_list ts bnds (tl custom)) as [l|] eqn:F; [|discriminate]. injection H as <-. destruct (IH bnds (tl custom) l) as [A B]; [cbn in L; lia|exact F|]. split; [cbn; lia|].
    intros [|k] t' b' E1 E2; cbn [nth_error] in *; [injection E1 as <-; injection E2 as <-; eauto|]. rewrite given_for_tl. apply (B k t' b' E1 E2).
Qed.
Lemma coding_list_iff ts : forall bnds custom, length bnds = length ts ->
  ((exists c, coding_list ts bnds custom = Some c) <-> forall k t b, nth_error ts k = Some t -> nth_error bnds k = Some b -> exists ps, code_attribute t b (given_for custom k) = Some ps).
Proof.
  intros bnds custom L. split.
  - intros [c H] k t b E1 E2. destruct (coding_list_some ts bnds custom c L H) as [_ D]. destruct (D k t b E1 E2) as (ps & _ & P). eauto.
  - revert bnds custom L. induction ts as [|t ts IH]; intros [|[lo hi] bnds] custom L H; try discriminate; [cbn; eauto|]. rewrite coding_list_step. destruct (H 0%nat t (lo, hi) eq_refl eq_refl) as [ps ->].
    destruct (IH bnds (tl custom)) as [l ->]; [cbn in L; lia| |eauto]. intros k t' b' E1 E2. rewrite <- given_for_tl. apply (H (S k) t' b' E1 E2).
Qed.

Section Bounds.
Variables (ts : list atype) (vals : nat -> nat -> list f32) (custom : list (option (list params))) (bnds : list (list f32 * list f32)).
Hypothesis BL : length bnds = length ts.
Hypothesis BF : forall k t c v, nth_error ts k = Some t -> (c < component_count t)%nat -> In v (vals k c) -> is_finite v = true.
Hypothesis BB : forall k t b, nth_error ts k = Some t -> nth_error bnds k = Some b ->
  length (fst b) = component_count t /\ length (snd b) = component_count t /\
  forall c lo hi, nth_error (fst b) c = Some lo -> nth_error (snd b) c = Some hi -> least (vals k c) lo /\ greatest (vals k c) hi.
Lemma default_iff k t b : nth_error ts k = Some t -> nth_error bnds k = Some b ->
  ((exists ps, compute_coding t (fst b) (snd b) = Some ps) <-> forall bits, packed_bits t = Some bits -> forall c v w, (c < component_count t)%nat -> In v (vals k c) -> In w (vals k c) -> is_finite (fsub v w) = true).
Proof.
  intros T B. destruct (BB k t b T B) as (L1 & L2 & LG). unfold compute_coding. destruct (packed_bits t) as [bits|] eqn:PB; [|split; [intros _ bits; discriminate|eauto]]. destruct (bits_lengths t bits PB) as [BLn _]. rewrite components_iff by congruence. split.
  - intros H bits' [= <-] c v w C V W. destruct (nth_pick bits c _ BLn C) as [bb E1]. destruct (nth_pick (fst b) c _ L1 C) as [lo E2]. destruct (nth_pick (snd b) c _ L2 C) as [hi E3]. destruct (LG c lo hi E2 E3) as [[IL LE] [IH GE]].
    assert (Fl : is_finite lo = true) by (apply (BF k t c lo T C IL)). assert (Fh : is_finite hi = true) by (apply (BF k t c hi T C IH)). apply (spread_finite lo hi v w Fl Fh (BF k t c v T C V) (BF k t c w T C W)); [split; auto|split; auto|].
    apply (params_iff (Z.of_nat bb)); [assumption..|auto|]. apply (H c bb lo hi E1 E2 E3).
  - intros H c bb lo hi E1 E2 E3. destruct (LG c lo hi E2 E3) as [[IL LE] [IH GE]]. assert (C : (c < component_count t)%nat) by (rewrite <- L1; apply nth_error_Some; congruence).
    apply params_iff; [apply (BF k t c lo T C IL)|apply (BF k t c hi T C IH)|auto|]. apply (H bits eq_refl c hi lo C IH IL).
Qed.
Lemma custom_iff k t b ps : nth_error ts k = Some t -> nth_error bnds k = Some b ->
  (custom_fits t b ps = true <-> exists bits, packed_bits t = Some bits /\ length ps = component_count t /\ Forall usable ps /\
      forall c p bb v, nth_error ps c = Some p -> nth_error bits c = Some bb -> In v (vals k c) -> exists n, level p v n /\ (0 <= n <= 2 ^ Z.of_nat bb - 1)%Z).
Proof.
  intros T B. destruct (BB k t b T B) as (L1 & L2 & LG). unfold custom_fits, valid_coding, representable. destruct (is_unpacked t) eqn:U.
  { cbn [negb andb]. split; [discriminate|]. intros (bits & H & _). unfold is_unpacked in U. rewrite H in U. discriminate. }
  unfold is_unpacked in U. destruct (packed_bits t) as [bits|] eqn:PB; [|discriminate]. destruct (bits_lengths t bits PB) as [BLn _]. cbn [negb andb orb]. rewrite !andb_true_iff, Nat.eqb_eq. split.
  - intros [[[LP V] R1] R2]. exists bits. split; [reflexivity|]. split; [exact LP|]. assert (US : Forall usable ps) by (rewrite Forall_forall; intros p I; apply usable_valid; rewrite forallb_forall in V; apply V, I). split; [exact US|].
    rewrite representables_iff in R1, R2 by congruence. intros c p bb v E1 E2 V1. destruct (bits_nth t bits c bb PB E2) as [BR C]. destruct (nth_pick (fst b) c _ L1 C) as [lo E3]. destruct (nth_pick (snd b) c _ L2 C) as [hi E4]. destruct (LG c lo hi E3 E4) as [[IL LE] [IH GE]].
    apply (between_level (Z.of_nat bb) p lo hi v BR); [rewrite Forall_forall in US; apply US, (nth_error_In _ _ E1)|apply (BF k t c lo T C IL)|apply (BF k t c hi T C IH)|apply (BF k t c v T C V1)|split; auto|apply (R1 c bb p lo E2 E1 E3)|apply (R2 c bb p hi E2 E1 E4)].
  - intros (bits' & [= <-] & LP & US & H). rewrite Forall_forall in US. split; [split; [split; [exact LP|]|]|].
    + apply forallb_forall. intros p I. apply usable_valid, US, I.
    + apply representables_iff; [congruence..|]. intros c bb p v E1 E2 E3. destruct (bits_nth t bits c bb PB E1) as [BR C]. destruct (nth_pick (snd b) c _ L2 C) as [hi E4]. destruct (LG c v hi E3 E4) as [[IL _] _]. destruct (H c p bb v E2 E1 IL) as (n & N & NB).
      apply (level_representable _ p v n BR); [apply US, (nth_error_In _ _ E2)|apply (BF k t c v T C IL)|exact N|exact NB].
    + apply representables_iff; [congruence..|]. intros c bb p v E1 E2 E3. destruct (bits_nth t bits c bb PB E1) as [BR C]. destruct (nth_pick (fst b) c _ L1 C) as [lo E4]. destruct (LG c lo v E4 E3) as [_ [IL _]]. destruct (H c p bb v E2 E1 IL) as (n & N & NB).
      apply (level_representable _ p v n BR); [apply US, (nth_error_In _ _ E2)|apply (BF k t c v T C IL)|exact N|exact NB].
Qed.
Lemma bnds_nth k t : nth_error ts k = Some t -> exists b, nth_error bnds k = Some b.
Proof. intros H. apply (nth_pick bnds k _ BL). apply nth_error_Some. congruence. Qed.
Lemma coding_iff : (exists c, compute_coding_array ts bnds custom = Some c) <-> packing_ok ts vals custom.
Proof.
  unfold compute_coding_array. rewrite BL, Nat.eqb_refl. cbn [negb].
  assert (D : (exists c, coding_list ts bnds custom = Some c) -> (forall k t b ps, nth_error ts k = Some t -> nth_error bnds k = Some b -> given_for custom k = Some ps -> custom_fits t b ps = true) -> forall k t, nth_error ts k = Some t -> column_ok vals custom k t).
  { intros H CF k t T. destruct (bnds_nth k t T) as [b B]. unfold column_ok. destruct (given_for custom k) as [ps|] eqn:G; [apply (custom_iff k t b ps T B), (CF k t b ps T B G)|]. apply (proj1 (default_iff k t b T B)). pose proof (proj1 (coding_list_iff ts bnds custom BL) H k t b T B) as K. rewrite G in K. exact K. }
  assert (D' : (forall k t, nth_error ts k = Some t -> column_ok vals custom k t) -> (exists c, coding_list ts bnds custom = Some c) /\ (forall k t b ps, nth_error ts k = Some t -> nth_error bnds k = Some b -> given_for custom k = Some ps -> custom_fits t b ps = true)).
  { intros H. split.
    - apply coding_list_iff; [exact BL|]. intros k t b T B. specialize (H k t T). unfold column_ok in H. destruct (given_for custom k) as [ps|] eqn:G; cbn [code_attribute]; [|apply (default_iff k t b T B), H]. destruct H as (bits & PB & _). unfold is_unpacked. rewrite PB. eauto.
    - intros k t b ps T B G. specialize (H k t T). unfold column_ok in H. rewrite G in H. apply (custom_iff k t b ps T B), H. }
  unfold packing_ok. destruct custom as [|cu cs] eqn:CE.
  - split; [intros H; split; [left; reflexivity|]; apply D; [exact H|intros k t b ps _ _ G; rewrite given_for_nil in G; discriminate]|]. intros [_ H]. apply D', H.
  - destruct (Nat.eqb_spec (length (cu :: cs)) (length ts)) as [E|E]; cbn [negb].
    + destruct (custom_ok ts bnds (cu :: cs)) eqn:CO.
      * split; [intros H; split; [right; exact E|]; apply D; [exact H|apply custom_ok_iff; assumption]|]. intros [_ H]. apply D', H.
      * split; [intros [c H]; discriminate|]. intros [_ H]. exfalso. destruct (D' H) as [_ K]. apply (custom_ok_iff ts bnds (cu :: cs) BL E) in K. congruence.
    + split; [intros [c H]; discriminate|]. intros [[H|H] _]; [discriminate|contradiction].
Qed.
Lemma coding_some c : compute_coding_array ts bnds custom = Some c ->
  length c = length ts /\ packing_ok ts vals custom /\ forall k t b, nth_error ts k = Some t -> nth_error bnds k = Some b -> exists ps, nth_error c k = Some ps /\ code_attribute t b (given_for custom k) = Some ps.
Proof.
  intros H. pose proof (proj1 coding_iff (ex_intro _ c H)) as PO. assert (K : coding_list ts bnds custom = Some c).
  { unfold compute_coding_array in H. rewrite BL, Nat.eqb_refl in H. cbn [negb] in H. destruct custom; [exact H|]. destruct (negb _); [discriminate|]. destruct (custom_ok _ _ _); [exact H|discriminate]. }
  destruct (coding_list_some ts bnds custom c BL K) as [A B]. auto.
Qed.

(** *** Packing values of the columns *)
Lemma column_packs k t b ps : nth_error ts k = Some t -> nth_error bnds k = Some b -> column_ok vals custom k t -> spread vals custom k t -> code_attribute t b (given_for custom k) = Some ps ->
  forall bits, packed_bits t = Some bits -> length ps = component_count t /\
  forall c p bb v, nth_error ps c = Some p -> nth_error bits c = Some bb -> In v (vals k c) -> exists n, pack_single p v = Some n /\ (0 <= n <= 2 ^ Z.of_nat bb - 1)%Z /\
    match given_for custom k with
    | None => moderate vals custom k t -> exists lo hi, least (vals k c) lo /\ greatest (vals k c) hi /\ near bb lo hi v (unpack_single p n)
    | Some _ => level p v n
    end.
Proof.
  intros T B CO SP CA bits PB. destruct (BB k t b T B) as (L1 & L2 & LG). destruct (bits_lengths t bits PB) as [BLn _]. unfold column_ok in CO. destruct (given_for custom k) as [cps|] eqn:G; cbn [code_attribute] in CA.
  - destruct CO as (bits' & PB' & LP & US & H). rewrite PB in PB'. injection PB' as <-. unfold is_unpacked in CA. rewrite PB in CA. injection CA as ->. split; [exact LP|]. intros c p bb v E1 E2 V. destruct (bits_nth t bits c bb PB E2) as [BR C]. destruct (H c p bb v E1 E2 V) as (n & N & NB). exists n.
    split; [|split; [exact NB|exact N]]. apply (level_pack (Z.of_nat bb)); try assumption; [|apply (BF k t c v T C V)]. rewrite Forall_forall in US. apply US, (nth_error_In _ _ E1).
  - unfold compute_coding in CA. rewrite PB in CA. destruct (components_some _ _ _ _ CA) as (_ & _ & LP & D). split; [congruence|]. intros c p bb v E1 E2 V. destruct (bits_nth t bits c bb PB E2) as [BR C].
    destruct (nth_pick (fst b) c _ L1 C) as [lo E3]. destruct (nth_pick (snd b) c _ L2 C) as [hi E4]. destruct (LG c lo hi E3 E4) as [LS GR]. pose proof LS as [IL LE]. pose proof GR as [IH GE]. destruct (D c bb lo hi E2 E3 E4) as (p' & E5 & P). rewrite E1 in E5. injection E5 as <-.
    pose proof (BF k t c v T C V) as Fv. assert (RG : fR lo <= fR v <= fR hi) by (split; auto).
    destruct (Req_dec (fR lo) (fR hi)) as [EQ|NE].
    + destruct (C30_constant (Z.of_nat bb) lo hi p v P EQ Fv ltac:(lra)) as (P0 & FU & RU). exists 0%Z. split; [exact P0|]. split; [assert (0 < 2 ^ Z.of_nat bb)%Z by (apply Z.pow_pos_nonneg; lia); lia|]. intros _. exists lo, hi. split; [exact LS|]. split; [exact GR|]. split; [exact FU|]. rewrite RU, EQ.
      replace (fR v - fR v) with 0 by ring. rewrite Rabs_R0. replace (fR hi - fR hi) with 0 by ring. unfold Rdiv. rewrite !Rmult_0_l. assert (0 <= Rabs (fR v) * / 2 ^ 24) by (apply Rmult_le_pos; [apply Rabs_pos|lra]). lra.
    + assert (W : wide (Z.of_nat bb) lo hi).
      { destruct (SP G bits bb c PB E2) as [ALL|(x & y & IX & IY & XY)]; [exfalso; apply NE; apply ALL; assumption|]. unfold wide, levels. pose proof (LE x IX). pose proof (GE y IY). lra. }
      destruct (C30_packed_in_range (Z.of_nat bb) lo hi p v BR P W Fv RG) as (n & N & NB & _). exists n. split; [exact N|]. split; [exact NB|]. intros MD. exists lo, hi. split; [exact LS|]. split; [exact GR|].
      destruct (C30_error (Z.of_nat bb) lo hi p v BR P W (MD G bits c lo PB C IL) (MD G bits c hi PB C IH) Fv RG) as (n' & N' & _ & FU & ER). rewrite N in N'. injection N' as <-. split; assumption.
Qed.
End Bounds.

Lemma pack_singles_nth ps : forall vs (bits : list nat), length vs = length ps -> length bits = length ps ->
  (forall c p b v, nth_error ps c = Some p -> nth_error bits c = Some b -> nth_error vs c = Some v -> exists n, pack_single p v = Some n /\ (0 <= n <= 2 ^ Z.of_nat b - 1)%Z) ->
  exists ns, pack_singles ps vs = Some ns /\ Forall2 fits (map Z.of_nat bits) ns /\ length (unpack_singles ps ns) = length ps /\ length ns = length ps /\
    forall c p v, nth_error ps c = Some p -> nth_error vs c = Some v -> exists n, nth_error ns c = Some n /\ pack_single p v = Some n /\ nth_error (unpack_singles ps ns) c = Some (unpack_single p n).
Proof.
  induction ps as [|p ps IH]; intros [|v vs] [|b bits] L1 L2 H; try discriminate.
  - exists []. repeat split; try constructor. intros [|c]; discriminate.
  - destruct (H 0%nat p b v eq_refl eq_refl eq_refl) as (n & N & NB). destruct (IH vs bits) as (ns & A & F & LU & LN & D); [cbn in *; lia..| |].
    { intros c p' b' v' E1 E2 E3. apply (H (S c) p' b' v' E1 E2 E3). }
    exists (n :: ns). cbn [pack_singles unpack_singles map length]. rewrite N, A. split; [reflexivity|]. split; [constructor; [unfold fits; lia|exact F]|]. split; [lia|]. split; [lia|].
    intros [|c] p' v' E1 E2; cbn [nth_error] in *; [injection E1 as <-; injection E2 as <-; eauto|apply (D c p' v' E1 E2)].
Qed.
Lemma attribute_packs t bits ps vs : packed_bits t = Some bits -> length ps = component_count t -> length vs = component_count t ->
  (forall c p b v, nth_error ps c = Some p -> nth_error bits c = Some b -> nth_error vs c = Some v -> exists n, pack_single p v = Some n /\ (0 <= n <= 2 ^ Z.of_nat b - 1)%Z) ->
  exists pk ns ws, pack_attribute t ps vs = Some pk /\ unpack_ints t pk = Some ns /\ unpack_attribute t ps pk = Some ws /\ length ws = length vs /\ length ns = length vs /\
    forall c p v, nth_error ps c = Some p -> nth_error vs c = Some v -> exists n, nth_error ns c = Some n /\ pack_single p v = Some n /\ nth_error ws c = Some (unpack_single p n).
Proof.
  intros PB LP LV H. destruct (bits_lengths t bits PB) as [BLn _]. destruct (pack_singles_nth ps vs bits) as (ns & A & F & LU & LN & D); [congruence..|exact H|].
  destruct (packed_widths t bits PB) as (w & kk & LY & _). assert (IR : in_range t ns) by (exists w, kk, (map Z.of_nat bits); split; assumption). destruct (C29_roundtrip t ns IR) as (pk & P & _ & U).
  exists pk, ns, (unpack_singles ps ns). unfold pack_attribute, unpack_attribute, is_unpacked. rewrite PB, A, P, U. repeat split; congruence || assumption.
Qed.
