(** 64-bit IEEE-754 floats (C++ [double]) and the conversions to and from [float].  Definitions only. *)
From Coq Require Import ZArith Bool Reals.
From Flocq Require Import Core IEEE754.BinarySingleNaN.
From Verif Require Import F32.

Definition f64 : Type := binary_float 53 1024.
Global Instance prec53_gt_0 : Prec_gt_0 53 := eq_refl.
Global Instance prec53_lt_emax : Prec_lt_emax 53 1024 := eq_refl.
Definition dadd (x y : f64) : f64 := Bplus mode_NE x y.
Definition dsub (x y : f64) : f64 := Bminus mode_NE x y.
Definition dmul (x y : f64) : f64 := Bmult mode_NE x y.
Definition ddiv (x y : f64) : f64 := Bdiv mode_NE x y.
Definition dlt (x y : f64) : bool := Bltb x y.
Definition dZ (z : Z) : f64 := binary_normalize 53 1024 _ _ mode_NE z 0 false.
(** the literal m * 10^-k, correctly rounded: its quotient is cut after 141 binary places and made odd if anything
    was cut off, so that it does not round differently *)
Definition dlit (m k : Z) : f64 :=
  let n := (Z.abs m * 2 ^ 140)%Z in let d := (10 ^ k)%Z in
  let q := (2 * (n / d) + if Z.eqb (n mod d) 0 then 0 else 1)%Z in
  binary_normalize 53 1024 _ _ mode_NE (if Z.ltb m 0 then - q else q)%Z (-141) false.
(** implicit conversion of a float to double *)
Definition of_f32 (x : f32) : f64 :=
  match x with
  | B754_zero s => B754_zero s
  | B754_infinity s => B754_infinity s
  | B754_nan => B754_nan
  | B754_finite s m e _ => binary_normalize 53 1024 _ _ mode_NE (cond_Zopp s (Zpos m)) e s
  end.
(** static_cast<float> of a double, or returning it as a float *)
Definition to_f32 (x : f64) : f32 :=
  match x with
  | B754_zero s => B754_zero s
  | B754_infinity s => B754_infinity s
  | B754_nan => B754_nan
  | B754_finite s m e _ => binary_normalize 24 128 _ _ mode_NE (cond_Zopp s (Zpos m)) e s
  end.
