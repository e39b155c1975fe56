(** std::fmod on floats, as used by ink/geometry/angle.cc 26-27, 46-47, computed exactly on the integer significands.
    Angle::Normalized and NormalizedAboutZero (angle.cc 25-55) themselves are [normalized] and
    [normalized_about_zero] in NumModel.v. *)
From Coq Require Import ZArith Reals Bool.
From Flocq Require Import Core BinarySingleNaN.
From Verif Require Import F32 NumModel.

(** C standard, 7.12.10.1: x - n*y for the integer n such that the result has the sign of x and is smaller than y *)
Definition ffmod (x y : f32) : f32 :=
  match x, y with
  | B754_nan, _ | _, B754_nan | B754_infinity _, _ | _, B754_zero _ => B754_nan
  | _, B754_infinity _ | B754_zero _, _ => x
  | B754_finite sx mx ex _, B754_finite sy my ey _ =>
      let e := Z.min ex ey in
      let r := Z.rem (cond_Zopp sx (Zpos mx) * 2 ^ (ex - e)) (cond_Zopp sy (Zpos my) * 2 ^ (ey - e)) in
      binary_normalize 24 128 _ _ mode_NE r e sx
  end.
(** a math library whose fmod is exact; the standard requires it to be *)
Definition fmod_exact (E : elem) : Prop :=
  forall x y : f32, is_finite x = true -> is_finite y = true -> B2R y <> 0%R ->
    is_finite (e_fmod E x y) = true /\ B2R (e_fmod E x y) = fmodR (B2R x) (B2R y).
