(** Property C15: which brush families can be created. *)
From Coq Require Import ZArith Reals Ascii String Lia Lra Bool List.
From Flocq Require Import Core IEEE754.BinarySingleNaN.
From Verif Require Import F32 F32Lemmas NumModel NumLaws BehaviorModel BehaviorSpec BehaviorRun BehaviorProps UriModel UriSpec UriProps FamilyModel FamilySpec.
Import ListNotations.
Local Open Scope R_scope.

Lemma fX0 : fX f0 = 0. Proof. reflexivity. Qed.
Lemma fR1 : fR f1 = 1. Proof. vm_compute. lra. Qed.
Lemma between (lo hi x : f32) : is_finite lo = true -> is_finite hi = true -> fle lo x && fle x hi = true <-> within (fR lo) (fR hi) x.
Proof.
  intros Fl Fh. unfold within, finite32. split.
  - intros H. apply andb_true_iff in H. destruct H as [H1 H2].
    assert (Nx : is_nan x = false) by (destruct x; try reflexivity; destruct lo; discriminate H1).
    assert (Fx : is_finite x = true).
    { destruct x as [| [] | |]; try reflexivity; try discriminate Nx; [destruct lo as [|[]| |]|destruct hi as [|[]| |]]; try discriminate; discriminate H1 || discriminate H2. }
    apply fle_spec in H1; [|apply finite_not_nan; assumption|exact Nx]. apply fle_spec in H2; [|exact Nx|apply finite_not_nan; assumption].
    rewrite (fX_finite x Fx) in H1, H2. rewrite (fX_finite lo Fl) in H1. rewrite (fX_finite hi Fh) in H2. auto.
  - intros (Fx & H1 & H2). pose proof (finite_not_nan x Fx). pose proof (finite_not_nan lo Fl). pose proof (finite_not_nan hi Fh).
    apply andb_true_iff. split; apply fle_spec; try assumption; rewrite ?(fX_finite x Fx), ?(fX_finite lo Fl), ?(fX_finite hi Fh); assumption.
Qed.
Lemma unit_iff x : unit_interval x = true <-> within 0 1 x.
Proof. unfold unit_interval. rewrite (between f0 f1 x) by (vm_compute; reflexivity). rewrite fR1. change (fR f0) with 0. reflexivity. Qed.
Lemma not_pos x : negb (fisfinite x) || fle x f0 = false <-> positive32 x.
Proof.
  unfold positive32, finite32. rewrite orb_false_iff, negb_false_iff. change (fisfinite x) with (is_finite x). split; intros [F H]; (split; [exact F|]);
  [apply fle_false in H|apply fle_false]; try (apply finite_not_nan; assumption); try reflexivity; rewrite (fX_finite x F), fX0 in *; exact H.
Qed.
Lemma not_neg x : negb (fisfinite x) || flt x f0 = false <-> nonneg32 x.
Proof.
  unfold nonneg32, finite32. rewrite orb_false_iff, negb_false_iff. change (fisfinite x) with (is_finite x). split; intros [F H]; (split; [exact F|]);
  [apply flt_false in H|apply flt_false]; try (apply finite_not_nan; assumption); try reflexivity; rewrite (fX_finite x F), fX0 in *; exact H.
Qed.
Ltac step := match goal with |- (if ?b then false else _) = true <-> _ => let E := fresh "C" in destruct b eqn:E end.
Lemma if_none {A} (P : A -> Prop) : if_present P None. Proof. intros x H. discriminate. Qed.
Lemma if_some {A} (P : A -> Prop) x : if_present P (Some x) <-> P x. Proof. unfold if_present. split; [auto|]. intros H y [= <-]. exact H. Qed.
Lemma test_present {A} (P : A -> Prop) (b : A -> bool) o : (forall x, b x = false <-> P x) -> match o with Some x => b x | None => false end = false <-> if_present P o.
Proof. intros H. destruct o; [rewrite if_some; apply H|]. split; [intros _; apply if_none|reflexivity]. Qed.
Lemma if_false (b : bool) (c : bool) (P Q : Prop) : (b = false <-> P) -> (c = true <-> Q) -> (if b then false else c) = true <-> P /\ Q.
Proof. intros H1 H2. destruct b; [|tauto]. split; [discriminate|]. intros [H _]. apply H1 in H. discriminate. Qed.
Lemma finite_iff x : negb (fisfinite x) = false <-> finite32 x. Proof. rewrite negb_false_iff. reflexivity. Qed.
Lemma pair_pos (v : f32 * f32) : (let '(x, y) := v in negb (fisfinite x) || negb (fisfinite y) || fle x f0 || fle y f0) = false <-> both positive32 v.
Proof. destruct v as [x y]. unfold both. cbn [fst snd]. rewrite <- !not_pos. rewrite !orb_false_iff. tauto. Qed.
Lemma pair_unit (v : f32 * f32) : (let '(x, y) := v in negb (unit_interval x && unit_interval y)) = false <-> both (within 0 1) v.
Proof. destruct v as [x y]. unfold both. cbn [fst snd]. rewrite negb_false_iff, andb_true_iff, !unit_iff. tauto. Qed.
Lemma keyframe_iff k : validate_keyframe k = true <-> documented_keyframe k.
Proof.
  unfold validate_keyframe.
  transitivity (within 0 1 (k_progress k) /\ if_present (both positive32) (k_size k) /\ if_present (both (within 0 1)) (k_offset k) /\ if_present finite32 (k_rotation k) /\ if_present (within 0 1) (k_opacity k) /\ True).
  - apply if_false; [rewrite negb_false_iff; apply unit_iff|]. 
    apply if_false; [apply (test_present (both positive32)); apply pair_pos|].
    apply if_false; [apply (test_present (both (within 0 1))); apply pair_unit|].
    apply if_false; [apply (test_present finite32); apply finite_iff|].
    apply if_false; [apply (test_present (within 0 1)); intros x; rewrite negb_false_iff; apply unit_iff|]. tauto.
  - split; [intros (A & B & C & D & F & _); constructor; assumption|]. intros []. tauto.
Qed.
Lemma forallb_iff {A} (b : A -> bool) (P : A -> Prop) l : (forall x, b x = true <-> P x) -> forallb b l = true <-> Forall P l.
Proof. intros H. rewrite forallb_forall, Forall_forall. split; intros G x Hx; apply H, G, Hx. Qed.
Lemma enum_iff (b : Z -> bool) n z : (forall k, b k = true <-> (0 <= k <= n)%Z) -> negb (b z) = false <-> (0 <= z <= n)%Z.
Proof. intros H. rewrite negb_false_iff. apply H. Qed.
Ltac enum := let z := fresh in intros z; destruct z as [|p|p]; [split; [lia|reflexivity]| |split; [discriminate|lia]]; 
  do 4 (try (destruct p as [p|p|])); cbn; split; try lia; try discriminate; reflexivity.
Lemma mapping_iff z : is_valid_mapping z = true <-> (0 <= z <= 1)%Z. Proof. revert z. enum. Qed.
Lemma three_iff z : is_valid_origin z = true <-> (0 <= z <= 2)%Z. Proof. revert z. enum. Qed.
Lemma blend_iff z : is_valid_blend_mode z = true <-> (0 <= z <= 11)%Z. Proof. revert z. enum. Qed.
Lemma layer_iff l : validate_layer l = true <-> documented_layer finite32 l.
Proof.
  unfold validate_layer. destruct (l_size l) as [sx sy] eqn:E1, (l_offset l) as [ox oy] eqn:E2, (l_size_jitter l) as [jx jy] eqn:E3, (l_offset_jitter l) as [px py] eqn:E4.
  transitivity (asset_ty (l_uri l) = Texture /\ (0 <= l_mapping l <= 1)%Z /\ (0 <= l_origin l <= 2)%Z /\ (0 <= l_size_unit l <= 2)%Z /\ (0 <= l_wrap_x l <= 2)%Z /\ (0 <= l_wrap_y l <= 2)%Z
    /\ (positive32 sx /\ positive32 sy) /\ (finite32 ox /\ finite32 oy) /\ finite32 (l_rotation l) /\ (is_finite sx = true -> is_finite sy = true -> within 0 (fR sx) jx /\ within 0 (fR sy) jy)
    /\ (within 0 1 px /\ within 0 1 py) /\ finite32 (l_rotation_jitter l) /\ within 0 1 (l_opacity l) /\ Forall documented_keyframe (l_keyframes l) /\ (0 <= l_blend_mode l <= 11)%Z).
  - apply if_false; [unfold is_texture; destruct (asset_ty (l_uri l)); split; try reflexivity; discriminate|].
    apply if_false; [apply enum_iff, mapping_iff|]. apply if_false; [apply enum_iff, three_iff|]. apply if_false; [apply enum_iff, three_iff|].
    apply if_false; [apply enum_iff, three_iff|]. apply if_false; [apply enum_iff, three_iff|].
    destruct (fle sx f0 || negb (fisfinite sx) || fle sy f0 || negb (fisfinite sy)) eqn:C.
    { split; [discriminate|]. intros ((P1 & P2) & _). apply not_pos in P1, P2. rewrite !orb_false_iff in P1, P2. destruct P1 as [P1 P1'], P2 as [P2 P2']. rewrite P1, P1', P2, P2' in C. discriminate. }
    assert (P12 : positive32 sx /\ positive32 sy) by (rewrite <- !not_pos; rewrite !orb_false_iff in *; tauto). destruct P12 as [P1 P2].
    pose proof P1 as [F1 _]. pose proof P2 as [F2 _].
    transitivity ((finite32 ox /\ finite32 oy) /\ finite32 (l_rotation l) /\ (within 0 (fR sx) jx /\ within 0 (fR sy) jy)
      /\ (within 0 1 px /\ within 0 1 py) /\ finite32 (l_rotation_jitter l) /\ within 0 1 (l_opacity l) /\ Forall documented_keyframe (l_keyframes l) /\ (0 <= l_blend_mode l <= 11)%Z).
    2: { split; [intros (? & ? & ? & ?); tauto|]. intros (_ & ? & ? & J & ?). specialize (J F1 F2). tauto. }
    apply if_false; [rewrite orb_false_iff, !finite_iff; reflexivity|]. apply if_false; [apply finite_iff|].
    apply if_false; [rewrite negb_false_iff; rewrite <- (andb_assoc (fle f0 jx && fle jx sx)), andb_true_iff, (between f0 sx jx), (between f0 sy jy) by (assumption || reflexivity); reflexivity|].
    apply if_false; [rewrite negb_false_iff, <- (andb_assoc (fle f0 px && fle px f1)), andb_true_iff; change (fle f0 px && fle px f1) with (unit_interval px); change (fle f0 py && fle py f1) with (unit_interval py); rewrite !unit_iff; reflexivity|].
    apply if_false; [apply finite_iff|]. apply if_false; [rewrite negb_false_iff; apply unit_iff|].
    apply if_false; [rewrite negb_false_iff; apply forallb_iff, keyframe_iff|]. apply blend_iff.
  - split.
    + intros (H1 & H2 & H3 & H4 & H5 & H6 & H7 & H8 & H9 & H10 & H11 & H12 & H13 & H14 & H15).
      destruct (H10 (proj1 (proj1 H7)) (proj1 (proj2 H7))). constructor; rewrite ?E1, ?E2, ?E3, ?E4; try assumption; unfold both; cbn [fst snd]; assumption.
    + intros []. rewrite E1, E2, E3, E4 in *. unfold both in *. cbn [fst snd] in *. tauto.
Qed.
Lemma paint_iff p : validate_paint p = true <-> documented_paint finite32 p.
Proof.
  unfold validate_paint, documented_paint. apply if_false; [rewrite negb_false_iff; apply forallb_iff, layer_iff|].
  destruct p as [|l p]; [split; [intros _ ? ? []|reflexivity]|]. rewrite forallb_forall. split.
  - intros H a b Ha Hb. apply H, Z.eqb_eq in Ha. apply H, Z.eqb_eq in Hb. congruence.
  - intros H a Ha. apply Z.eqb_eq, H; [exact Ha|left; reflexivity].
Qed.
Section Family.
Variable E : elem.
Local Notation N := (fnum E).
Lemma tip_iff (t : brush_tip N) : valid_tip t = true <-> documented_tip E t.
Proof.
  unfold valid_tip. change (nfin N) with fisfinite. change (nlt N) with flt. change (nle N) with fle. change (neqb N) with feq. change (n0 (N := N)) with f0. change (n1 (N := N)) with f1.
  assert (F2 : within 0 2 (opacity_multiplier t) <-> fle f0 (opacity_multiplier t) && fle (opacity_multiplier t) (nZ (N := N) 2) = true).
  { rewrite (between f0 (nZ (N := N) 2)) by (vm_compute; reflexivity). replace (fR (nZ (N := N) 2)) with 2 by (vm_compute; lra). reflexivity. }
  transitivity ((nonneg32 (scale_x t) /\ nonneg32 (scale_y t) /\ (0 < fR (scale_x t) \/ 0 < fR (scale_y t))) /\ within 0 1 (corner_rounding t) /\
    within (- fR (quarter_turn (N := N))) (fR (quarter_turn (N := N))) (slant t) /\ within 0 1 (pinch t) /\ finite32 (rotation t) /\ within 0 2 (opacity_multiplier t) /\
    nonneg32 (particle_gap_distance_scale t) /\ nonneg32 (particle_gap_duration t) /\
    Forall (fun b => Forall (documented_node (N := N)) b /\ exists rs : list (root N unit), lists b rs) (behaviors t)).
  2: { split; [intros ((A1 & A2 & A3) & A4 & A5 & A6 & A7 & A8 & A9 & A10 & A11); constructor; assumption|]. intros []. tauto. }
  apply if_false.
  { rewrite !orb_false_iff. split.
    - intros ((((A & B) & C) & D) & F). assert (X : nonneg32 (scale_x t)) by (apply not_neg; rewrite orb_false_iff; auto). assert (Y : nonneg32 (scale_y t)) by (apply not_neg; rewrite orb_false_iff; auto).
      split; [exact X|]. split; [exact Y|]. destruct X as [X1 X2], Y as [Y1 Y2]. apply andb_false_iff in F.
      destruct F as [F|F]; [left|right]; (match goal with |- 0 < fR ?x => assert (Nz : fR x <> 0); [|lra]; intros Z; assert (Q : feq x f0 = true); [|congruence];
        apply feq_spec; [apply finite_not_nan; assumption|reflexivity|rewrite fX_finite, fX0; assumption] end).
    - intros (X & Y & Z). pose proof X as [X1 X2]. pose proof Y as [Y1 Y2]. apply not_neg in X, Y. rewrite orb_false_iff in X, Y. destruct X, Y. repeat split; try assumption. apply andb_false_iff.
      destruct Z as [Z|Z]; [left|right]; apply not_true_is_false; intros Q; apply feq_spec in Q; try (apply finite_not_nan; assumption); try reflexivity; rewrite fX_finite, fX0 in Q by assumption; lra. }
  apply if_false; [rewrite negb_false_iff; apply unit_iff|].
  apply if_false.
  { rewrite orb_false_iff, !negb_false_iff. rewrite (between (nopp N quarter_turn) (quarter_turn (N := N))) by (vm_compute; reflexivity).
    replace (fR (nopp N quarter_turn)) with (- fR (quarter_turn (N := N))) by (symmetry; apply (B2R_Bopp 24 128)).
    unfold within, finite32. change (fisfinite (slant t)) with (is_finite (slant t)). tauto. }
  apply if_false; [rewrite negb_false_iff; apply unit_iff|].
  apply if_false; [apply finite_iff|].
  apply if_false; [rewrite negb_false_iff, F2; reflexivity|].
  apply if_false; [apply not_neg|]. apply if_false; [apply not_neg|].
  apply forallb_iff. intros b. apply (C16_valid_iff_listing E b).
Qed.
Lemma coat_iff (c : coat E) : validate_coat E c = true <-> documented_coat E finite32 c.
Proof.
  unfold validate_coat, documented_coat. destruct (c_tips E c) as [|t [|t' r]].
  - split; [discriminate|]. intros ((t & H & _) & _). discriminate.
  - cbn [length Nat.eqb Nat.ltb Nat.leb forallb]. rewrite andb_true_r. destruct (valid_tip t) eqn:V; cbn [negb].
    + rewrite paint_iff. split; [intros P; split; [exists t; split; [reflexivity|apply tip_iff, V]|exact P]|tauto].
    + split; [discriminate|]. intros ((x & [= <-] & D) & _). apply tip_iff in D. congruence.
  - split; [discriminate|]. intros ((x & H & _) & _). discriminate.
Qed.
Variable M : Type.
(** *** C15 *)
(** Create succeeds exactly for the documented families, except that texture offsets only
    have to be finite; and the family has what was given. *)
Theorem C15_create_iff (coats : list (coat E)) (u : option uri) (m : M) :
  (exists f, family_create E M coats u m = Some f) <-> documented_family E finite32 coats u.
Proof.
  unfold family_create, documented_family, max_brush_coats. destruct (Nat.ltb_spec 10 (length coats)).
  { split; [intros [f H0]; discriminate|]. intros [L _]. lia. }
  destruct (forallb (validate_coat E) coats) eqn:C; cbn [negb].
  2: { split; [intros [f H0]; discriminate|]. intros (_ & D & _). apply (forallb_iff _ _ _ coat_iff) in D. congruence. }
  apply (forallb_iff _ _ _ coat_iff) in C.
  assert (U : match u with Some v => negb (is_brush_family v) | None => false end = false <-> if_present (fun v => asset_ty v = BrushFamily) u).
  { apply test_present. intros v. unfold is_brush_family. destruct (asset_ty v); split; try reflexivity; discriminate. }
  destruct (match u with Some v => negb (is_brush_family v) | None => false end).
  - split; [intros [f H0]; discriminate|]. intros (_ & _ & D). apply U in D. discriminate.
  - split; [intros _|eauto]. split; [assumption|]. split; [exact C|]. apply U. reflexivity.
Qed.
Theorem C15_create_keeps (coats : list (coat E)) (u : option uri) (m : M) f : family_create E M coats u m = Some f -> f_coats E M f = coats /\ f_uri E M f = u /\ f_model E M f = m.
Proof.
  unfold family_create. destruct (Nat.ltb _ _); [discriminate|]. destruct (negb _); [discriminate|]. destruct (match u with Some v => negb (is_brush_family v) | None => false end); [discriminate|].
  intros [= <-]. auto.
Qed.
(** With a string, the empty string stands for no URI and every other must be a valid one. *)
Theorem C15_create_string_iff (coats : list (coat E)) (s : list ascii) (m : M) f :
  family_create_string E M coats s m = Some f <->
  (s = [] /\ family_create E M coats None m = Some f) \/ (exists u, ink_uri s u /\ family_create E M coats (Some u) m = Some f).
Proof.
  unfold family_create_string. destruct s as [|a s].
  - split; [auto|]. intros [[_ H]|(u & H & _)]; [exact H|]. exfalso. inversion H. apply (f_equal (@length ascii)) in H0. rewrite !app_length in H0. cbn in H0. lia.
  - destruct (parse (a :: s)) as [u|] eqn:P.
    + apply C01_parse_accepts_exactly_the_grammar in P. split.
      * intros H. right. exists u. split; [|exact H]. destruct P as [[P _]|P]; [discriminate|exact P].
      * intros [[H _]|(v & H & G)]; [discriminate|]. assert (Q : parse (a :: s) = Some v) by (apply C01_parse_accepts_exactly_the_grammar; auto).
        apply C01_parse_accepts_exactly_the_grammar in P. congruence.
    + split; [discriminate|]. intros [[H _]|(v & H & _)]; [discriminate|]. assert (Q : parse (a :: s) = Some v) by (apply C01_parse_accepts_exactly_the_grammar; auto). congruence.
Qed.
Theorem C15_create_tip (t : brush_tip N) (p : paint) (u : option uri) (m : M) :
  (exists f, family_create_tip E M t p u m = Some f) <-> documented_tip E t /\ documented_paint finite32 p /\ if_present (fun v => asset_ty v = BrushFamily) u.
Proof.
  unfold family_create_tip. rewrite C15_create_iff. unfold documented_family. split.
  - intros (_ & D & U). apply Forall_inv in D. destruct D as [(t' & H & T) P]. injection H as <-. auto.
  - intros (T & P & U). split; [cbn; lia|]. split; [constructor; [|constructor]; split; [exists t; auto|exact P]|exact U].
Qed.
End Family.

(** *** Concrete cases and refuted readings *)
Definition tex : uri := MkUri [] (list_ascii_of_string "paper"%string) 1 Texture.
Definition fam_uri : uri := MkUri [] (list_ascii_of_string "marker"%string) 1 BrushFamily.
Definition layer_with (off : f32 * f32) : texture_layer :=
  {| l_uri := tex; l_mapping := 0; l_origin := 0; l_size_unit := 1; l_wrap_x := 0; l_wrap_y := 2; l_size := (f1, fZ 2); l_offset := off;
     l_rotation := f0; l_size_jitter := (f0, f1); l_offset_jitter := (f0, f1); l_rotation_jitter := f0; l_opacity := f1;
     l_keyframes := [{| k_progress := f1; k_size := Some (f1, f1); k_offset := Some (f0, f1); k_rotation := None; k_opacity := Some f0 |}]; l_blend_mode := 11 |}.
Section Examples.
Variable E : elem.
Local Notation N := (fnum E).
Definition plain_tip : brush_tip N :=
  {| scale_x := f1 : T N; scale_y := f1 : T N; corner_rounding := f1; slant := f0; pinch := f0; rotation := f0; opacity_multiplier := f1;
     particle_gap_distance_scale := f0; particle_gap_duration := f0; behaviors := [] |}.
Definition coat_with (off : f32 * f32) : coat E := {| c_tips := [plain_tip]; c_paint := [layer_with off] |}.
Lemma coat_with_valid off : is_finite (fst off) = true -> is_finite (snd off) = true -> validate_coat E (coat_with off) = true.
Proof. destruct off as [x y]. cbn [fst snd]. intros Fx Fy. apply coat_iff. split.
  - exists plain_tip. split; [reflexivity|]. apply tip_iff. vm_compute. reflexivity.
  - apply paint_iff. unfold validate_paint. cbn [coat_with c_paint forallb]. rewrite Z.eqb_refl. cbn [negb andb].
    assert (V : validate_layer (layer_with (x, y)) = true); [|rewrite V; reflexivity].
    unfold validate_layer. cbn -[fle f0 f1 fZ forallb unit_interval]. change (fisfinite x) with (is_finite x). change (fisfinite y) with (is_finite y). rewrite Fx, Fy. vm_compute. reflexivity.
Qed.
(** A family with two coats and a URI is created. *)
Example C15_ex : exists f, family_create E unit [coat_with (f0, f0); coat_with (f1, f1)] (Some fam_uri) tt = Some f.
Proof. apply C15_create_iff. split; [cbn; lia|]. split; [|intros v [= <-]; reflexivity].
  repeat apply Forall_cons; [| |apply Forall_nil]; apply coat_iff, coat_with_valid; vm_compute; reflexivity. Qed.
(** ... and not with the URI of a texture, nor with eleven coats. *)
Example C15_ex_texture : family_create E unit [coat_with (f0, f0)] (Some tex) tt = None.
Proof. unfold family_create. destruct (Nat.ltb _ _); [reflexivity|]. destruct (negb _); reflexivity. Qed.
Example C15_ex_many : family_create E unit (repeat (coat_with (f0, f0)) 11) None tt = None.
Proof. reflexivity. Qed.
(** Refuted: "one or more coats" (brush_family.h): none at all are accepted. *)
Theorem C15_at_least_one_coat_refuted : exists f, family_create E unit [] None tt = Some f /\ f_coats E unit f = [].
Proof. eexists. split; reflexivity. Qed.
(** Refuted: "offset: each component in [0, 1]" (brush_family.h): any finite offset is accepted. *)
Theorem C15_offset_range_refuted : exists l, validate_paint [l] = true /\ ~ documented_layer (within 0 1) l.
Proof.
  exists (layer_with (fZ 5, fZ 5)). split.
  - pose proof (coat_with_valid (fZ 5, fZ 5) eq_refl eq_refl) as V. apply coat_iff in V. destruct V as [_ V]. apply paint_iff in V. exact V.
  - intros D. pose proof (dl_offset _ _ D) as O. destruct O as [O _]. destruct O as (_ & _ & O). cbn [layer_with l_offset fst] in O.
    replace (fR (fZ 5)) with 5 in O by (vm_compute; lra). lra.
Qed.
End Examples.
Print Assumptions C15_create_iff.
Print Assumptions C15_create_keeps.
Print Assumptions C15_create_string_iff.
Print Assumptions C15_create_tip.
Print Assumptions C15_at_least_one_coat_refuted.
Print Assumptions C15_offset_range_refuted.
