(** Bounding boxes of finite float objects: the comparisons are exact, so these hold for the floats themselves. *)
From Coq Require Import ZArith Reals Lra Psatz Bool List Permutation.
From Flocq Require Import Core BinarySingleNaN.
From Verif Require Import F32 F32Lemmas NumModel GeomModel GeomSpec GeomReal.
Import ListNotations.
Local Open Scope R_scope.

Section Box.
Variable E : elem.
Notation N := (fnum E).

(** the real point of a float point, the point set of a float rect *)
Definition fp (p : vec N) : pt := P (fR (vx p : f32)) (fR (vy p : f32)).
Definition fb (r : rect N) : shape := box_set (fR (x_min r : f32)) (fR (y_min r : f32)) (fR (x_max r : f32)) (fR (y_max r : f32)).
Definition point_ok (p : vec N) : Prop := is_finite (vx p : f32) = true /\ is_finite (vy p : f32) = true.
Definition rect_ok (r : rect N) : Prop :=
  (is_finite (x_min r : f32) = true /\ is_finite (y_min r : f32) = true /\ is_finite (x_max r : f32) = true /\ is_finite (y_max r : f32) = true) /\
  fR (x_min r : f32) <= fR (x_max r : f32) /\ fR (y_min r : f32) <= fR (y_max r : f32).
(** all points spanned by four corners taken in order *)
Definition four (a b c d : pt) : shape := fun p => exists s t, 0 <= s <= 1 /\ 0 <= t <= 1 /\ p = mix t (mix s a b) (mix s d c).
Definition nothing : shape := fun _ => False.
Definition object_set (o : object N) : shape :=
  match o with
  | OPoint p => point_set (fp p)
  | OSegment s => seg_set (fp (s_start s)) (fp (s_end s))
  | OTriangle t => tri_set (fp (p0 t)) (fp (p1 t)) (fp (p2 t))
  | ORect r => fb r
  | OQuad q => match quad_corners q with [a; b; c; d] => four (fp a) (fp b) (fp c) (fp d) | _ => nothing end
  | OEnvelope None => nothing
  | OEnvelope (Some r) => fb r
  end.
Definition object_ok (o : object N) : Prop :=
  match o with
  | OPoint p => point_ok p
  | OSegment s => point_ok (s_start s) /\ point_ok (s_end s)
  | OTriangle t => point_ok (p0 t) /\ point_ok (p1 t) /\ point_ok (p2 t)
  | ORect r => rect_ok r
  | OQuad q => Forall point_ok (quad_corners q)
  | OEnvelope None => True
  | OEnvelope (Some r) => rect_ok r
  end.
(** [r] is the smallest box around the point set *)
Definition hugs (r : rect N) (S : shape) : Prop :=
  (forall p, S p -> fb r p) /\
  (forall x0 y0 x1 y1, (forall p, S p -> box_set x0 y0 x1 y1 p) -> forall p, fb r p -> box_set x0 y0 x1 y1 p).

Lemma min_fin (a b : f32) : is_finite a = true -> is_finite b = true -> is_finite (nmin (N := N) a b) = true /\ fR (nmin (N := N) a b) = Rmin (fR a) (fR b).
Proof.
  intros A B. unfold nmin. change (nlt N) with flt. pose proof (finite_not_nan _ A). pose proof (finite_not_nan _ B). destruct (flt b a) eqn:L.
  - split; [exact B|]. apply flt_spec in L; auto. rewrite !fX_finite in L by assumption. rewrite Rmin_right by lra. reflexivity.
  - split; [exact A|]. apply flt_false in L; auto. rewrite !fX_finite in L by assumption. rewrite Rmin_left by lra. reflexivity.
Qed.
Lemma max_fin (a b : f32) : is_finite a = true -> is_finite b = true -> is_finite (nmax (N := N) a b) = true /\ fR (nmax (N := N) a b) = Rmax (fR a) (fR b).
Proof.
  intros A B. unfold nmax. change (nlt N) with flt. pose proof (finite_not_nan _ A). pose proof (finite_not_nan _ B). destruct (flt a b) eqn:L.
  - split; [exact B|]. apply flt_spec in L; auto. rewrite !fX_finite in L by assumption. rewrite Rmax_right by lra. reflexivity.
  - split; [exact A|]. apply flt_false in L; auto. rewrite !fX_finite in L by assumption. rewrite Rmax_left by lra. reflexivity.
Qed.
Lemma fle_fin (a b : f32) : is_finite a = true -> is_finite b = true -> (fle a b = true <-> fR a <= fR b).
Proof. intros A B. rewrite fle_spec by (apply finite_not_nan; assumption). rewrite !fX_finite by assumption. tauto. Qed.
Lemma flt_fin (a b : f32) : is_finite a = true -> is_finite b = true -> (flt a b = true <-> fR a < fR b).
Proof. intros A B. rewrite flt_spec by (apply finite_not_nan; assumption). rewrite !fX_finite by assumption. tauto. Qed.
Lemma flt_fin_f (a b : f32) : is_finite a = true -> is_finite b = true -> (flt a b = false <-> fR b <= fR a).
Proof. intros A B. rewrite <- not_true_iff_false, flt_fin by assumption. lra. Qed.

Definition low (r : rect N) : pt := P (fR (x_min r : f32)) (fR (y_min r : f32)).
Definition high (r : rect N) : pt := P (fR (x_max r : f32)) (fR (y_max r : f32)).
Lemma fb_low r : rect_ok r -> fb r (low r). Proof. intros (_ & A & B). unfold fb, box_set, low. cbn. lra. Qed.
Lemma fb_high r : rect_ok r -> fb r (high r). Proof. intros (_ & A & B). unfold fb, box_set, high. cbn. lra. Qed.
Lemma within r x0 y0 x1 y1 p : box_set x0 y0 x1 y1 (low r) -> box_set x0 y0 x1 y1 (high r) -> fb r p -> box_set x0 y0 x1 y1 p.
Proof. unfold fb, box_set, low, high. cbn. lra. Qed.
Lemma join_ok r q : rect_ok r -> rect_ok q -> rect_ok (rect_join r q).
Proof.
  intros ((A1 & A2 & A3 & A4) & A5 & A6) ((B1 & B2 & B3 & B4) & B5 & B6). unfold rect_ok, rect_join. cbn [x_min y_min x_max y_max].
  destruct (min_fin _ _ A1 B1) as [-> ->], (min_fin _ _ A2 B2) as [-> ->], (max_fin _ _ A3 B3) as [-> ->], (max_fin _ _ A4 B4) as [-> ->]. split; [auto|].
  split; (eapply Rle_trans; [apply Rmin_l|]); (eapply Rle_trans; [eassumption|apply Rmax_l]).
Qed.
Lemma join_hugs r q S U : rect_ok r -> rect_ok q -> hugs r S -> hugs q U -> hugs (rect_join r q) (fun p => S p \/ U p).
Proof.
  intros Hr Hq [S1 S2] [U1 U2]. pose proof Hr as ((A1 & A2 & A3 & A4) & A5 & A6). pose proof Hq as ((B1 & B2 & B3 & B4) & B5 & B6).
  assert (F : forall p, fb (rect_join r q) p <-> box_set (Rmin (px (low r)) (px (low q))) (Rmin (py (low r)) (py (low q))) (Rmax (px (high r)) (px (high q))) (Rmax (py (high r)) (py (high q))) p).
  { intros p. unfold fb, rect_join. cbn [x_min y_min x_max y_max]. destruct (min_fin _ _ A1 B1) as [_ ->], (min_fin _ _ A2 B2) as [_ ->], (max_fin _ _ A3 B3) as [_ ->], (max_fin _ _ A4 B4) as [_ ->]. reflexivity. }
  split.
  - intros p [H|H]; apply F; unfold box_set.
    + apply S1 in H. destruct H as [[H1 H2] [H3 H4]]. split; (split; [eapply Rle_trans; [apply Rmin_l|eassumption]|eapply Rle_trans; [eassumption|apply Rmax_l]]).
    + apply U1 in H. destruct H as [[H1 H2] [H3 H4]]. split; (split; [eapply Rle_trans; [apply Rmin_r|eassumption]|eapply Rle_trans; [eassumption|apply Rmax_r]]).
  - intros x0 y0 x1 y1 H p Hp. apply F in Hp.
    pose proof (S2 x0 y0 x1 y1 (fun p K => H p (or_introl K))) as S3. pose proof (U2 x0 y0 x1 y1 (fun p K => H p (or_intror K))) as U3.
    pose proof (S3 _ (fb_low r Hr)) as L1. pose proof (S3 _ (fb_high r Hr)) as L2. pose proof (U3 _ (fb_low q Hq)) as L3. pose proof (U3 _ (fb_high q Hq)) as L4.
    unfold box_set in *. revert Hp. unfold Rmin, Rmax. repeat destruct Rle_dec; lra.
Qed.
Lemma hugs_ext r (S U : shape) : (forall p, S p <-> U p) -> hugs r S -> hugs r U.
Proof. intros H [A B]. split; [intros p K; apply A, H, K|]. intros x0 y0 x1 y1 K. apply B. intros p J. apply K, H, J. Qed.
Lemma hugs_gen r (S U : shape) : (forall p, S p -> U p) -> (forall x0 y0 x1 y1, (forall p, S p -> box_set x0 y0 x1 y1 p) -> forall p, U p -> box_set x0 y0 x1 y1 p) -> hugs r S -> hugs r U.
Proof. intros H K [A B]. split; [unfold fb in *; apply K; exact A|]. intros x0 y0 x1 y1 J. apply B. intros p L. apply J, H, L. Qed.
Lemma hugs_self r : hugs r (fb r). Proof. split; auto. Qed.
Definition dotbox (p : vec N) : rect N := Rect (vx p) (vy p) (vx p) (vy p).
Lemma dot_ok p : point_ok p -> rect_ok (dotbox p). Proof. intros [A B]. unfold rect_ok, dotbox. cbn. repeat split; auto; lra. Qed.
Lemma dot_hugs p : hugs (dotbox p) (point_set (fp p)).
Proof.
  split; [intros q ->; unfold fb, box_set, fp; cbn; lra|]. intros x0 y0 x1 y1 H q K. specialize (H (fp p) eq_refl). unfold fb, box_set, fp, dotbox in *. cbn in *. lra.
Qed.
Lemma sub_0 (x : f32) : is_finite x = true -> is_finite (fsub x (fdiv f0 (fZ 2))) = true /\ fR (fsub x (fdiv f0 (fZ 2))) = fR x /\ is_finite (fadd x (fdiv f0 (fZ 2))) = true /\ fR (fadd x (fdiv f0 (fZ 2))) = fR x.
Proof.
  intros F. assert (Z : fdiv f0 (fZ 2) = f0) by (apply B2SF_inj; vm_compute; reflexivity). rewrite Z.
  assert (F0 : is_finite f0 = true) by reflexivity. pose proof (fR_bounds x) as [B1 B2].
  destruct (fsub_finite x f0 F F0) as [(A & B & C)|[(A & B)|(A & B)]]; rewrite f0_R, Rminus_0_r, rnd_fR in *; try lra.
  destruct (fadd_finite x f0 F F0) as [(A' & B' & C')|[(A' & B')|(A' & B')]]; rewrite f0_R, Rplus_0_r, rnd_fR in *; try lra. auto.
Qed.
Lemma center_dot p : point_ok p -> exists r, rect_from_center p n0 n0 = Some r /\ rect_ok r /\ hugs r (point_set (fp p)).
Proof.
  intros [A B]. unfold rect_from_center. replace (nle N n0 n0 && nle N n0 n0)%bool with true by (symmetry; vm_compute; reflexivity). eexists. split; [reflexivity|].
  change (nsub N (vx p) (ndiv N n0 n2)) with (fsub (vx p) (fdiv f0 (fZ 2))). change (nsub N (vy p) (ndiv N n0 n2)) with (fsub (vy p) (fdiv f0 (fZ 2))).
  change (nadd N (vx p) (ndiv N n0 n2)) with (fadd (vx p) (fdiv f0 (fZ 2))). change (nadd N (vy p) (ndiv N n0 n2)) with (fadd (vy p) (fdiv f0 (fZ 2))).
  destruct (sub_0 _ A) as (X1 & X2 & X3 & X4), (sub_0 _ B) as (Y1 & Y2 & Y3 & Y4). split.
  - unfold rect_ok. cbn [x_min y_min x_max y_max]. rewrite X2, X4, Y2, Y4. repeat split; auto; lra.
  - destruct (dot_hugs p) as [D1 D2]. unfold hugs, fb in *. cbn [x_min y_min x_max y_max dotbox] in *. rewrite X2, X4, Y2, Y4. auto.
Qed.
Lemma two_ok a b : point_ok a -> point_ok b -> rect_ok (rect_from_two a b) /\ hugs (rect_from_two a b) (fun p => p = fp a \/ p = fp b).
Proof.
  intros A B. change (rect_from_two a b) with (rect_join (dotbox a) (dotbox b)). split; [apply join_ok; apply dot_ok; assumption|].
  apply join_hugs; try (apply dot_ok; assumption); apply dot_hugs.
Qed.
Lemma add_point_ok r p S : rect_ok r -> point_ok p -> hugs r S -> rect_ok (rect_join_point r p) /\ hugs (rect_join_point r p) (fun q => S q \/ q = fp p).
Proof.
  intros R Pp H. change (rect_join_point r p) with (rect_join r (dotbox p)). split; [apply join_ok; [assumption|apply dot_ok; assumption]|].
  apply join_hugs; auto using dot_ok. apply dot_hugs.
Qed.
Lemma box_mix x0 y0 x1 y1 t a b : 0 <= t <= 1 -> box_set x0 y0 x1 y1 a -> box_set x0 y0 x1 y1 b -> box_set x0 y0 x1 y1 (mix t a b).
Proof. unfold box_set, mix. cbn. intros T A B. nra. Qed.
Lemma gen_seg r a b (S : shape) : hugs r (fun p => S p \/ p = a \/ p = b) -> hugs r (fun p => S p \/ seg_set a b p).
Proof.
  apply hugs_gen; [intros p [H|[-> | ->]]; auto using seg_start, seg_end|]. intros x0 y0 x1 y1 H p [K|(t & T & ->)]; [auto|]. apply box_mix; auto.
Qed.
Lemma gen_tri r a b c (S : shape) : hugs r (fun p => S p \/ p = a \/ p = b \/ p = c) -> hugs r (fun p => S p \/ tri_set a b c p).
Proof.
  apply hugs_gen; [intros p [H|[-> |[-> | ->]]]; auto using tri_0, tri_1, tri_2|]. intros x0 y0 x1 y1 H p [K|(u & v & w & U & V & W & Q & ->)]; [auto|].
  assert (A := H a ltac:(auto)). assert (B := H b ltac:(auto)). assert (C := H c ltac:(auto)). unfold box_set in *. cbn [px py].
  assert (G : forall (f g : pt -> R), (forall p, f p = px p) \/ (forall p, f p = py p) -> True) by auto. clear G.
  assert (L : forall l x y z, l <= x -> l <= y -> l <= z -> l <= u * x + v * y + w * z).
  { intros l x y z L1 L2 L3. pose proof (Rmult_le_compat_l u _ _ U L1). pose proof (Rmult_le_compat_l v _ _ V L2). pose proof (Rmult_le_compat_l w _ _ W L3). replace l with (u * l + v * l + w * l) by (rewrite <- 2 Rmult_plus_distr_r, Q; ring). lra. }
  assert (M : forall l x y z, x <= l -> y <= l -> z <= l -> u * x + v * y + w * z <= l).
  { intros l x y z L1 L2 L3. pose proof (Rmult_le_compat_l u _ _ U L1). pose proof (Rmult_le_compat_l v _ _ V L2). pose proof (Rmult_le_compat_l w _ _ W L3). replace l with (u * l + v * l + w * l) by (rewrite <- 2 Rmult_plus_distr_r, Q; ring). lra. }
  split; split; (apply L || apply M); lra.
Qed.
Lemma gen_four r a b c d (S : shape) : hugs r (fun p => S p \/ p = a \/ p = b \/ p = c \/ p = d) -> hugs r (fun p => S p \/ four a b c d p).
Proof.
  apply hugs_gen.
  - intros p [H|[-> |[-> |[-> | ->]]]]; [auto|right; exists 0, 0|right; exists 1, 0|right; exists 1, 1|right; exists 0, 1]; (split; [lra|]); (split; [lra|]); apply pt_eq; cbn; ring.
  - intros x0 y0 x1 y1 H p [K|(s & t & U & T & ->)]; [auto|]. apply box_mix; [exact T|apply box_mix; auto 8..].
Qed.
Definition env_set (e : option (rect N)) : shape := match e with None => nothing | Some r => fb r end.
Definition env_ok (e : option (rect N)) : Prop := match e with None => True | Some r => rect_ok r end.
(** the envelope [e] is the smallest box around [S]; it is empty only if [S] is *)
Definition encloses (e : option (rect N)) (S : shape) : Prop := match e with None => forall p, ~ S p | Some r => rect_ok r /\ hugs r S end.
Lemma corners_4 q : exists a b c d, quad_corners (N := N) q = [a; b; c; d].
Proof. unfold quad_corners. destruct (quad_semi_axes q). repeat eexists. Qed.
Lemma add_encloses e o S : encloses e S -> object_ok o -> encloses (env_add e o) (fun p => S p \/ object_set o p).
Proof.
  assert (EM : forall S : shape, (forall p, ~ S p) -> forall U : shape, (forall p, U p <-> S p \/ U p)) by (intros S0 H0 U p; specialize (H0 p); tauto).
  intros H Ho. destruct o as [p|s|t|r'|q|[r'|]]; cbn [object_set object_ok] in *.
  - destruct e as [r|]; cbn [env_add env_add_point] in *.
    + destruct H. apply add_point_ok; assumption.
    + destruct (center_dot p Ho) as (r & -> & R & Hr). split; [exact R|]. eapply hugs_ext; [apply EM; exact H|exact Hr].
  - destruct Ho as [A B]. destruct e as [r|]; cbn [env_add] in *.
    + destruct H as [R H]. destruct (add_point_ok r (s_start s) S R A H) as [R1 H1]. destruct (add_point_ok _ (s_end s) _ R1 B H1) as [R2 H2]. split; [exact R2|].
      apply gen_seg. eapply hugs_ext; [|exact H2]. intros p. cbn. tauto.
    + destruct (two_ok _ _ A B) as [R1 H1]. split; [exact R1|]. apply gen_seg. eapply hugs_ext; [|exact H1]. intros p. specialize (H p). cbn. tauto.
  - destruct Ho as (A & B & C). destruct e as [r|]; cbn [env_add] in *.
    + destruct H as [R H]. destruct (add_point_ok r (p0 t) S R A H) as [R1 H1]. destruct (add_point_ok _ (p1 t) _ R1 B H1) as [R2 H2]. destruct (add_point_ok _ (p2 t) _ R2 C H2) as [R3 H3]. split; [exact R3|].
      apply gen_tri. eapply hugs_ext; [|exact H3]. intros p. cbn. tauto.
    + destruct (two_ok _ _ A B) as [R1 H1]. destruct (add_point_ok _ (p2 t) _ R1 C H1) as [R2 H2]. split; [exact R2|]. apply gen_tri. eapply hugs_ext; [|exact H2]. intros p. specialize (H p). cbn. tauto.
  - destruct e as [r|]; cbn [env_add] in *.
    + destruct H as [R H]. split; [apply join_ok; assumption|]. apply join_hugs; auto using hugs_self.
    + split; [exact Ho|]. eapply hugs_ext; [apply EM; exact H|apply hugs_self].
  - destruct (corners_4 q) as (a & b & c & d & Q). cbn [env_add]. rewrite Q in *. inversion Ho as [|? ? A Ho1]; subst. inversion Ho1 as [|? ? B Ho2]; subst. inversion Ho2 as [|? ? C Ho3]; subst. inversion Ho3 as [|? ? D _]; subst.
    destruct e as [r|]; cbn [encloses fold_left] in *.
    + destruct H as [R H]. destruct (add_point_ok r a S R A H) as [R1 H1]. destruct (add_point_ok _ b _ R1 B H1) as [R2 H2]. destruct (add_point_ok _ c _ R2 C H2) as [R3 H3]. destruct (add_point_ok _ d _ R3 D H3) as [R4 H4].
      split; [exact R4|]. apply gen_four. eapply hugs_ext; [|exact H4]. intros p. cbn. tauto.
    + destruct (two_ok _ _ A B) as [R1 H1]. destruct (add_point_ok _ c _ R1 C H1) as [R2 H2]. destruct (add_point_ok _ d _ R2 D H2) as [R3 H3]. split; [exact R3|]. apply gen_four. eapply hugs_ext; [|exact H3]. intros p. specialize (H p). cbn. tauto.
  - destruct e as [r|]; cbn [env_add] in *.
    + destruct H as [R H]. split; [apply join_ok; assumption|]. apply join_hugs; auto using hugs_self.
    + split; [exact Ho|]. eapply hugs_ext; [apply EM; exact H|apply hugs_self].
  - cbn [env_add]. destruct e as [r|]; cbn [encloses] in *.
    + destruct H as [R H]. split; [exact R|]. eapply hugs_ext; [|exact H]. unfold nothing. tauto.
    + intros p [K|[]]. exact (H p K).
Qed.
Definition objects_set (l : list (object N)) : shape := fun p => exists o, In o l /\ object_set o p.
Theorem add_all_encloses l : forall e S, encloses e S -> Forall object_ok l -> encloses (env_add_all e l) (fun p => S p \/ objects_set l p).
Proof.
  induction l as [|o l IH]; intros e S H F.
  - cbn. assert (X : forall p, S p <-> S p \/ objects_set [] p) by (intros p; split; [auto|intros [K|(o & [] & _)]; exact K]).
    destruct e as [r|]; cbn [encloses] in *; [destruct H as [R H]; split; [exact R|]; eapply hugs_ext; [exact X|exact H]|intros p K; apply (H p), X, K].
  - inversion F; subst. change (env_add_all e (o :: l)) with (env_add_all (env_add e o) l).
    assert (X : forall p, ((S p \/ object_set o p) \/ objects_set l p) <-> (S p \/ objects_set (o :: l) p)).
    { intros p. split; [intros [[K|K]|(o' & J & K)]; [auto|right; exists o; cbn; auto|right; exists o'; cbn; auto]|intros [K|(o' & [<- |J] & K)]; [auto|auto|right; exists o'; auto]]. }
    pose proof (IH (env_add e o) _ (add_encloses e o S H ltac:(assumption)) ltac:(assumption)) as Q.
    destruct (env_add_all (env_add e o) l) as [r|]; cbn [encloses] in *; [destruct Q as [R Q]; split; [exact R|]; eapply hugs_ext; [exact X|exact Q]|intros p K; apply (Q p), X, K].
Qed.
Definition same_env (e e' : option (rect N)) : Prop :=
  match e, e' with
  | None, None => True
  | Some r, Some q => fR (x_min r : f32) = fR (x_min q : f32) /\ fR (y_min r : f32) = fR (y_min q : f32) /\ fR (x_max r : f32) = fR (x_max q : f32) /\ fR (y_max r : f32) = fR (y_max q : f32)
  | _, _ => False
  end.
Lemma encloses_unique e e' S : encloses e S -> encloses e' S -> same_env e e'.
Proof.
  assert (NE : forall r S0, rect_ok r -> hugs r S0 -> ~ forall p, ~ S0 p).
  { intros r S0 R [A B] H. pose proof (B 1 1 0 0 (fun p K => False_ind _ (H p K)) _ (fb_low r R)) as K. unfold box_set in K. lra. }
  destruct e as [r|], e' as [q|]; cbn [encloses same_env]; intros H K; [|destruct H; eapply NE; eassumption|destruct K; eapply NE; eassumption|exact I].
  destruct H as [R [A B]], K as [Q [A' B']].
  pose proof (B _ _ _ _ A' _ (fb_low r R)) as L1. pose proof (B _ _ _ _ A' _ (fb_high r R)) as L2. pose proof (B' _ _ _ _ A _ (fb_low q Q)) as L3. pose proof (B' _ _ _ _ A _ (fb_high q Q)) as L4.
  unfold box_set, low, high in *. cbn [px py] in *. repeat split; lra.
Qed.
End Box.
