(** Property theorems about Duration32. *)
From Coq Require Import ZArith Bool.
From Flocq Require Import IEEE754.BinarySingleNaN.
From Verif Require Import F32 DurationModel DurationSpec DurationProofs.

(** C03: exactly when an operation on non-NaN durations produces NaN. *)
Theorem C03_duration_nan_exactly : forall (a b d : duration) (s : f32),
  ~ nan a -> ~ nan b -> ~ nan d ->
  ~ nan (d_seconds s) /\ ~ nan (d_millis s) /\ ~ nan (d_neg d) /\
  ~ nan (d_add a b) /\ ~ nan (d_sub a b) /\ ~ nan (d_ratio a b) /\
  ~ nan (d_to_seconds d) /\ ~ nan (d_to_millis d) /\
  (nan (d_mul d s) <-> zero d /\ infinite s) /\
  (nan (d_div d s) <-> zero d /\ zero s).
Proof.
  intros a b d s Na Nb Nd.
  split; [apply d_seconds_not_nan|]. split; [apply d_millis_not_nan|].
  split; [rewrite d_neg_nan_iff; exact Nd|]. split; [apply d_add_not_nan; assumption|].
  split; [apply d_sub_not_nan; assumption|]. split; [apply d_ratio_not_nan; assumption|].
  split; [exact Nd|]. split; [apply d_to_millis_not_nan, Nd|].
  split; [apply d_mul_nan_iff, Nd|apply d_div_nan_iff, Nd].
Qed.
Print Assumptions C03_duration_nan_exactly.

(** C03: a computation of any size that never scales zero by infinity or divides
    zero by zero never yields NaN, whatever floats (NaN included) it is given. *)
Theorem C03_determinate_computation_not_nan : forall e, determinate e -> ~ nan (deval e).
Proof. exact deval_nan. Qed.
Print Assumptions C03_determinate_computation_not_nan.

(** C03: the table in the header, for every duration d and all signs. *)
Theorem C03_documented_table : forall (d : duration) (s t : bool), ~ nan d ->
  let inf := fun s => B754_infinity s : f32 in
  d_add (inf s) d = inf s /\
  d_sub (inf s) d = inf s /\
  d_ratio (inf s) (inf t) = inf (xorb s t) /\
  d_div (inf s) (inf t) = inf (xorb s t) /\
  d_ratio d_zero d_zero = B754_infinity false /\
  d_mul d B754_nan = (if d_ge d d_zero then d_infinite else d_neg d_infinite) /\
  d_div d B754_nan = (if d_ge d d_zero then d_infinite else d_neg d_infinite).
Proof. exact table. Qed.
Print Assumptions C03_documented_table.

(** C03: everywhere else: division by a zero duration and scaling an infinite one give
    the infinity of the obvious sign, all-finite operations are the float operations. *)
Theorem C03_signs_and_finite_cases : forall (d b : duration) (z t : bool) (s : f32),
  ~ nan d -> ~ nan s ->
  let inf := fun s => B754_infinity s : f32 in
  d_ratio d (B754_zero z) = (if d_ge d d_zero then inf false else inf true) /\
  d_mul (inf t) s = inf (xorb t (negb (fge s f0))) /\
  d_div (inf t) s = inf (xorb t (negb (fge s f0))) /\
  (is_finite d = true -> d_add d b = fadd d b /\ d_sub d b = fsub d b /\
     d_mul d s = fmul d s /\ d_div d s = fdiv d s /\
     (feq b f0 = false -> d_ratio d b = fdiv d b)).
Proof. exact signs. Qed.
Print Assumptions C03_signs_and_finite_cases.

(** C03: the header's claim that ToSeconds() is never NaN is false. *)
Theorem C03_never_nan_refuted :
  d_to_seconds (deval (EMul EZero finf)) = B754_nan /\
  d_to_seconds (deval (EDiv EZero f0)) = B754_nan.
Proof. split; reflexivity. Qed.
Print Assumptions C03_never_nan_refuted.

(** a non-trivial determinate computation with infinities and a NaN argument *)
Example C03_determinate_example :
  determinate (EAdd (EMul (ESeconds (fZ 3)) fnan) (EDiv (ESub EInfinite (EMillis (fZ 5))) f0)).
Proof.
  cbn [determinate deval]. split; (split; [try exact I; split; exact I|]).
  - intros [[s H] _]. unfold d_seconds in H. destruct (fisnan (fZ 3)) eqn:E; [vm_compute in E; discriminate|].
    assert (K : match fZ 3 with B754_zero _ => true | _ => false end = false) by (vm_compute; reflexivity).
    rewrite H in K. discriminate.
  - intros [[s H] _]. discriminate H.
Qed.
