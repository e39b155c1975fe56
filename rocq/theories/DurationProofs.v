From Coq Require Import ZArith Reals Bool Lia Lra.
From Flocq Require Import Core IEEE754.BinarySingleNaN.
From Verif Require Import F32 F32Lemmas DurationModel DurationSpec.

Lemma nan_iff x : fisnan x = true <-> nan x.
Proof. unfold fisnan, nan. destruct x; cbn; split; congruence. Qed.

(** the result of rounding is never NaN *)
Lemma finite_mul_not_nan x y : is_finite x = true -> is_finite y = true -> ~ nan (fmul x y).
Proof.
  intros Hx Hy N. unfold nan, fmul in N.
  pose proof (Bmult_correct 24 128 _ _ mode_NE x y) as C. rewrite N in C.
  destruct (Rlt_bool _ _) in C.
  - destruct C as (_ & C & _). rewrite Hx, Hy in C. discriminate.
  - cbn in C. destruct (xorb _ _) in C; discriminate C.
Qed.
Lemma add_not_nan x y : is_finite x = true -> ~ nan y -> ~ nan (fadd x y).
Proof.
  intros Hx Ny N. unfold nan, fadd in N. destruct (is_finite y) eqn:Hy.
  - pose proof (Bplus_correct 24 128 _ _ mode_NE x y Hx Hy) as C. rewrite N in C.
    destruct (Rlt_bool _ _) in C.
    + destruct C as (_ & C & _). discriminate.
    + destruct C as [C _]. cbn in C. destruct (Bsign x) in C; discriminate C.
  - destruct x, y; cbn in *; try discriminate; congruence.
Qed.
Lemma sub_not_nan x y : is_finite x = true -> ~ nan y -> ~ nan (fsub x y).
Proof.
  intros Hx Ny N. unfold nan, fsub in N. destruct (is_finite y) eqn:Hy.
  - pose proof (Bminus_correct 24 128 _ _ mode_NE x y Hx Hy) as C. rewrite N in C.
    destruct (Rlt_bool _ _) in C.
    + destruct C as (_ & C & _). discriminate.
    + destruct C as [C _]. cbn in C. destruct (Bsign x) in C; discriminate C.
  - destruct x, y; cbn in *; try discriminate; congruence.
Qed.
Lemma mul_nan_iff x y : ~ nan x -> ~ nan y ->
  (nan (fmul x y) <-> (zero x /\ infinite y) \/ (infinite x /\ zero y)).
Proof.
  intros Nx Ny. split.
  - intros N. destruct (is_finite x) eqn:Hx, (is_finite y) eqn:Hy.
    + destruct (finite_mul_not_nan x y Hx Hy N).
    + destruct x, y; cbn in *; try discriminate; unfold nan, zero, infinite in *; try congruence; eauto.
    + destruct x, y; cbn in *; try discriminate; unfold nan, zero, infinite in *; try congruence; eauto.
    + destruct x, y; cbn in *; try discriminate; unfold nan in *; congruence.
  - unfold zero, infinite, nan. intros [[[s ->] [t ->]]|[[s ->] [t ->]]]; reflexivity.
Qed.
Lemma div_finite_not_nan x y : is_finite x = true -> is_finite y = true -> B2R y <> 0%R -> ~ nan (fdiv x y).
Proof.
  intros Hx Hy H0 N. unfold nan, fdiv in N.
  pose proof (Bdiv_correct 24 128 _ _ mode_NE x y H0) as C. rewrite N in C.
  destruct (Rlt_bool _ _) in C.
  - destruct C as (_ & C & _). rewrite Hx in C. discriminate.
  - cbn in C. destruct (xorb _ _) in C; discriminate C.
Qed.
Lemma B2R_nonzero s m e H : @B2R 24 128 (B754_finite s m e H) <> 0%R.
Proof. cbn. apply F2R_neq_0. cbn. destruct s; discriminate. Qed.
Lemma div_nan_iff x y : is_finite x = true -> ~ nan y -> (nan (fdiv x y) <-> zero x /\ zero y).
Proof.
  intros Hx Ny. split.
  - intros N. destruct y as [s|s| |s m e H].
    + destruct x; cbn in *; try discriminate; unfold nan, zero in *; cbn in *; try congruence. eauto.
    + destruct x; cbn in *; try discriminate; unfold nan in *; cbn in *; congruence.
    + congruence.
    + destruct (div_finite_not_nan x (B754_finite s m e H) Hx eq_refl (B2R_nonzero s m e H) N).
  - unfold zero, nan. intros [[s ->] [t ->]]. reflexivity.
Qed.

(** *** Operators *)
Lemma d_seconds_not_nan s : ~ nan (d_seconds s).
Proof. unfold d_seconds. destruct s; cbn; unfold nan, d_infinite, finf; congruence. Qed.
Lemma fin_const x : (match x with B754_finite _ _ _ _ => true | _ => false end) = true ->
  is_finite x = true /\ ~ @infinite x /\ ~ zero x /\ ~ nan x.
Proof. destruct x; try discriminate. intros _. unfold infinite, zero, nan. repeat split; try congruence; intros [? ?]; congruence. Qed.
Lemma d_millis_not_nan s : ~ nan (d_millis s).
Proof.
  unfold d_millis. destruct (fisnan s) eqn:E; [unfold nan, d_infinite, finf; congruence|].
  destruct (fin_const c_0_001) as (A & B & C & D); [vm_compute; reflexivity|].
  rewrite mul_nan_iff; [tauto|exact D|]. intros N. apply nan_iff in N. congruence.
Qed.
Lemma d_to_millis_not_nan d : ~ nan d -> ~ nan (d_to_millis d).
Proof.
  intros N. unfold d_to_millis.
  destruct (fin_const (fZ 1000)) as (A & B & C & D); [vm_compute; reflexivity|].
  rewrite mul_nan_iff; [tauto|exact D|exact N].
Qed.
Lemma d_neg_nan_iff d : nan (d_neg d) <-> nan d.
Proof. unfold d_neg, fopp, nan. destruct d; cbn; split; congruence. Qed.
Lemma d_add_not_nan a b : ~ nan a -> ~ nan b -> ~ nan (d_add a b).
Proof.
  intros Na Nb. unfold d_add, d_isfinite, fisfinite. destruct (is_finite a) eqn:E; cbn; [|exact Na].
  apply add_not_nan; assumption.
Qed.
Lemma d_sub_not_nan a b : ~ nan a -> ~ nan b -> ~ nan (d_sub a b).
Proof.
  intros Na Nb. unfold d_sub, d_isfinite, fisfinite. destruct (is_finite a) eqn:E; cbn; [|exact Na].
  apply sub_not_nan; assumption.
Qed.
Lemma inf_not_nan : ~ nan d_infinite /\ ~ nan (d_neg d_infinite).
Proof. split; discriminate. Qed.
Lemma d_mul_nan_iff d s : ~ nan d -> (nan (d_mul d s) <-> zero d /\ infinite s).
Proof.
  intros Nd. unfold d_mul. destruct (fisnan s) eqn:Es.
  - apply nan_iff in Es. unfold nan in Es; subst s. split; [|intros [_ [? ?]]; discriminate].
    destruct (d_ge d d_zero); discriminate.
  - assert (Ns : ~ nan s) by (rewrite <- nan_iff; congruence).
    unfold d_isfinite, fisfinite. destruct (is_finite d) eqn:Ed; cbn [negb].
    + rewrite mul_nan_iff by assumption. split; [|tauto]. intros [H|[[t ->] _]]; [exact H|discriminate].
    + split; [destruct (Bool.eqb _ _); discriminate|]. intros [[t ->] _]. discriminate.
Qed.
Lemma d_div_nan_iff d s : ~ nan d -> (nan (d_div d s) <-> zero d /\ zero s).
Proof.
  intros Nd. unfold d_div. destruct (fisnan s) eqn:Es.
  - apply nan_iff in Es. unfold nan in Es; subst s. split; [|intros [_ [? ?]]; discriminate].
    destruct (d_ge d d_zero); discriminate.
  - assert (Ns : ~ nan s) by (rewrite <- nan_iff; congruence).
    unfold d_isfinite, fisfinite. destruct (is_finite d) eqn:Ed; cbn [negb].
    + apply div_nan_iff; assumption.
    + split; [destruct (Bool.eqb _ _); discriminate|]. intros [[t ->] _]. discriminate.
Qed.
Lemma d_ratio_not_nan a b : ~ nan a -> ~ nan b -> ~ nan (d_ratio a b).
Proof.
  intros Na Nb. unfold d_ratio. destruct (d_eq b d_zero) eqn:E0.
  - destruct (d_ge _ _); discriminate.
  - unfold d_isfinite, fisfinite. destruct (is_finite a) eqn:Ed; cbn [negb].
    + rewrite div_nan_iff by assumption. intros [_ [s ->]]. cbn in E0. discriminate.
    + destruct (Bool.eqb _ _); discriminate.
Qed.

Lemma deval_nan e : determinate e -> ~ nan (deval e).
Proof.
  induction e; cbn [determinate deval]; intros D.
  - discriminate.
  - discriminate.
  - apply d_seconds_not_nan.
  - apply d_millis_not_nan.
  - rewrite d_neg_nan_iff. auto.
  - apply d_add_not_nan; tauto.
  - apply d_sub_not_nan; tauto.
  - rewrite d_mul_nan_iff; tauto.
  - rewrite d_div_nan_iff; tauto.
  - rewrite d_mul_nan_iff; tauto.
Qed.

(** The documented table, duration.h 53-76, for all d, and all signs *)
Definition sgn_inf (s : bool) : f32 := B754_infinity s.
Lemma table : forall (d : duration) (s t : bool), ~ nan d ->
  d_add (sgn_inf s) d = sgn_inf s /\
  d_sub (sgn_inf s) d = sgn_inf s /\
  d_ratio (sgn_inf s) (sgn_inf t) = sgn_inf (xorb s t) /\
  d_div (sgn_inf s) (sgn_inf t) = sgn_inf (xorb s t) /\
  d_ratio d_zero d_zero = finf /\
  d_mul d fnan = (if d_ge d d_zero then d_infinite else d_neg d_infinite) /\
  d_div d fnan = (if d_ge d d_zero then d_infinite else d_neg d_infinite).
Proof. intros d s t N. repeat split; destruct s; try destruct t; reflexivity. Qed.

Lemma signs : forall (d b : duration) (z t : bool) (s : f32), ~ nan d -> ~ nan s ->
  d_ratio d (B754_zero z) = (if d_ge d d_zero then sgn_inf false else sgn_inf true) /\
  d_mul (sgn_inf t) s = sgn_inf (xorb t (negb (fge s f0))) /\
  d_div (sgn_inf t) s = sgn_inf (xorb t (negb (fge s f0))) /\
  (is_finite d = true -> d_add d b = fadd d b /\ d_sub d b = fsub d b /\
     d_mul d s = fmul d s /\ d_div d s = fdiv d s /\
     (feq b f0 = false -> d_ratio d b = fdiv d b)).
Proof.
  intros d b z t s Nd Ns.
  assert (Es : fisnan s = false) by (destruct s; try reflexivity; exfalso; apply Ns; reflexivity).
  split; [destruct z; reflexivity|].
  split; [unfold d_mul; rewrite Es; destruct t, (fge s f0); reflexivity|].
  split; [unfold d_div; rewrite Es; destruct t, (fge s f0); reflexivity|].
  intros F. assert (Ef : d_isfinite d = true) by exact F.
  unfold d_add, d_sub, d_mul, d_div, d_ratio, d_eq, d_zero. rewrite Ef, Es.
  repeat (split; [reflexivity|]). intros ->. reflexivity.
Qed.
