(** 32-bit IEEE-754 floats (C++ [float]), as Flocq's [binary_float 24 128] with
    a single NaN, rounding to nearest even.  This file contains definitions only. *)
From Coq Require Import ZArith Bool Reals.
From Flocq Require Import Core IEEE754.BinarySingleNaN.

Definition f32 : Type := binary_float 24 128.

Global Instance prec24_gt_0 : Prec_gt_0 24 := eq_refl.
Global Instance prec24_lt_emax : Prec_lt_emax 24 128 := eq_refl.

(** Arithmetic operators; every operation rounds once, to nearest even. *)
Definition fadd (x y : f32) : f32 := Bplus mode_NE x y.
Definition fsub (x y : f32) : f32 := Bminus mode_NE x y.
Definition fmul (x y : f32) : f32 := Bmult mode_NE x y.
Definition fdiv (x y : f32) : f32 := Bdiv mode_NE x y.
Definition fsqrt (x : f32) : f32 := Bsqrt mode_NE x.
Definition fopp (x : f32) : f32 := Bopp x.
Definition fabs (x : f32) : f32 := Babs x.

(** Comparison operators; every comparison with NaN except != is false. *)
Definition feq (x y : f32) : bool := Beqb x y.
Definition fne (x y : f32) : bool := negb (Beqb x y).
Definition flt (x y : f32) : bool := Bltb x y.
Definition fle (x y : f32) : bool := Bleb x y.
Definition fgt (x y : f32) : bool := Bltb y x.
Definition fge (x y : f32) : bool := Bleb y x.

(** std::isfinite, std::isnan, std::isinf, std::signbit *)
Definition fisfinite (x : f32) : bool := is_finite x.
Definition fisnan (x : f32) : bool := is_nan x.
Definition fisinf (x : f32) : bool :=
  match x with B754_infinity _ => true | _ => false end.
Definition fsignbit (x : f32) : bool := Bsign x.

(** std::floor, std::ceil, std::trunc, std::round (half away from zero) and
    std::nearbyint / std::rint in the default rounding mode *)
Definition ffloor (x : f32) : f32 := Bnearbyint mode_DN x.
Definition fceil (x : f32) : f32 := Bnearbyint mode_UP x.
Definition ftrunc (x : f32) : f32 := Bnearbyint mode_ZR x.
Definition fround (x : f32) : f32 := Bnearbyint mode_NA x.
Definition frint (x : f32) : f32 := Bnearbyint mode_NE x.

(** std::max(a, b) is [a < b ? b : a]; std::min(a, b) is [b < a ? b : a];
    std::clamp(v, lo, hi) is [v < lo ? lo : hi < v ? hi : v]. *)
Definition fmax (a b : f32) : f32 := if flt a b then b else a.
Definition fmin (a b : f32) : f32 := if flt b a then b else a.
Definition fclamp (v lo hi : f32) : f32 :=
  if flt v lo then lo else if flt hi v then hi else v.

(** Conversion from integers and from dyadic numbers m * 2^e (rounded) *)
Definition fZ (z : Z) : f32 := binary_normalize 24 128 _ _ mode_NE z 0 false.
Definition fdy (m e : Z) : f32 := binary_normalize 24 128 _ _ mode_NE m e false.

Definition f0 : f32 := B754_zero false.
Definition fneg0 : f32 := B754_zero true.
Definition f1 : f32 := fZ 1.
Definition finf : f32 := B754_infinity false.
Definition fninf : f32 := B754_infinity true.
Definition fnan : f32 := B754_nan.
(** std::numeric_limits<float>::max() *)
Definition fmaxval : f32 := fdy (2 ^ 24 - 1) 104.

(** Structural equality test used in examples (distinguishes signed zeros). *)
Definition fbits_eqb (x y : f32) : bool :=
  match x, y with
  | B754_zero s, B754_zero t => Bool.eqb s t
  | B754_infinity s, B754_infinity t => Bool.eqb s t
  | B754_nan, B754_nan => true
  | B754_finite s m e _, B754_finite t n f _ => Bool.eqb s t && Pos.eqb m n && Z.eqb e f
  | _, _ => false
  end.
