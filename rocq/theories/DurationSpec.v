(** Specification vocabulary for Duration32. *)
From Flocq Require Import IEEE754.BinarySingleNaN.
From Verif Require Import F32 DurationModel.

Definition nan (x : f32) : Prop := x = B754_nan.
Definition zero (x : f32) : Prop := exists s, x = B754_zero s.
Definition infinite (x : f32) : Prop := exists s, x = B754_infinity s.

(** No subexpression multiplies a zero duration by an infinite float or divides a
    zero duration by zero. *)
Fixpoint determinate (e : dexpr) : Prop :=
  match e with
  | EZero | EInfinite | ESeconds _ | EMillis _ => True
  | ENeg a => determinate a
  | EAdd a b | ESub a b => determinate a /\ determinate b
  | EMul a s => determinate a /\ ~ (zero (deval a) /\ infinite s)
  | EDiv a s => determinate a /\ ~ (zero (deval a) /\ zero s)
  | EMulRatio a b c => determinate a /\ determinate b /\ determinate c /\
      ~ (zero (deval a) /\ infinite (d_ratio (deval b) (deval c)))
  end.
