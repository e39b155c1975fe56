(** The arithmetic the stroke code computes with, as a record, so that one model serves
    two readings: 32-bit floats ([fnum], the code) and exact arithmetic on extended
    reals ([xnum], the code without rounding).  Elementary functions of the C++ library
    (exp, sin, ...) are an arbitrary parameter of [fnum]. *)
From Coq Require Import ZArith Reals Bool.
From Flocq Require Import Core IEEE754.BinarySingleNaN.
From Verif Require Import F32.

Record num := {
  T : Type;
  nadd : T -> T -> T; nsub : T -> T -> T; nmul : T -> T -> T; ndiv : T -> T -> T;
  nopp : T -> T; nabs : T -> T; nfloor : T -> T; nround : T -> T;
  ntrunc : T -> Z; (* static_cast<int> *)
  nlt : T -> T -> bool; nle : T -> T -> bool; neqb : T -> T -> bool;
  nfin : T -> bool; nnan : T -> bool; nsign : T -> bool; (* isfinite, isnan, signbit *)
  ndy : Z -> Z -> T; (* the literal m * 2^e *)
  nInf : T; nNaN : T;
  nexp : T -> T; nsin : T -> T; ncos : T -> T; ntan : T -> T; natan : T -> T;
  natan2 : T -> T -> T; nhypot : T -> T -> T; nfmod : T -> T -> T;
}.

(** ** 32-bit floats *)
Record elem := {
  e_exp : f32 -> f32; e_sin : f32 -> f32; e_cos : f32 -> f32; e_tan : f32 -> f32; e_atan : f32 -> f32;
  e_atan2 : f32 -> f32 -> f32; e_hypot : f32 -> f32 -> f32; e_fmod : f32 -> f32 -> f32;
}.
(** static_cast<int> of an in-range float: truncation toward zero *)
Definition ftoZ (x : f32) : Z :=
  match x with
  | B754_finite s m e _ =>
      let a := match e with Z0 => Zpos m | Zpos p => (Zpos m * 2 ^ Zpos p)%Z | Zneg p => (Zpos m / 2 ^ Zpos p)%Z end in
      if s then (- a)%Z else a
  | _ => 0%Z
  end.
Definition fnum (E : elem) : num := {|
  T := f32; nadd := fadd; nsub := fsub; nmul := fmul; ndiv := fdiv;
  nopp := fopp; nabs := fabs; nfloor := ffloor; nround := fround; ntrunc := ftoZ;
  nlt := flt; nle := fle; neqb := feq; nfin := fisfinite; nnan := fisnan; nsign := fsignbit;
  ndy := fdy; nInf := finf; nNaN := fnan;
  nexp := e_exp E; nsin := e_sin E; ncos := e_cos E; ntan := e_tan E; natan := e_atan E;
  natan2 := e_atan2 E; nhypot := e_hypot E; nfmod := e_fmod E |}.

(** ** Extended reals; no signed zero *)
Inductive ereal := Fin (r : R) | Inf (neg : bool) | Nan.
Definition xopp (a : ereal) := match a with Fin x => Fin (- x) | Inf s => Inf (negb s) | Nan => Nan end.
Definition xadd (a b : ereal) : ereal :=
  match a, b with
  | Nan, _ | _, Nan => Nan
  | Fin x, Fin y => Fin (x + y)
  | Inf s, Inf t => if Bool.eqb s t then Inf s else Nan
  | Inf s, Fin _ | Fin _, Inf s => Inf s
  end.
Definition xsub (a b : ereal) : ereal := xadd a (xopp b).
Definition xneg (a : ereal) : bool := match a with Fin x => Rlt_bool x 0 | Inf s => s | Nan => false end.
Definition xmul (a b : ereal) : ereal :=
  match a, b with
  | Nan, _ | _, Nan => Nan
  | Fin x, Fin y => Fin (x * y)
  | Inf s, Inf t => Inf (xorb s t)
  | Inf s, Fin x | Fin x, Inf s => if Req_bool x 0 then Nan else Inf (xorb s (Rlt_bool x 0))
  end.
Definition xdiv (a b : ereal) : ereal :=
  match a, b with
  | Nan, _ | _, Nan => Nan
  | Fin x, Fin y => if Req_bool y 0 then (if Req_bool x 0 then Nan else Inf (Rlt_bool x 0)) else Fin (x / y)
  | Inf s, Fin y => Inf (xorb s (Rlt_bool y 0))
  | Fin _, Inf _ => Fin 0
  | Inf _, Inf _ => Nan
  end.
Definition xlt (a b : ereal) : bool :=
  match a, b with
  | Fin x, Fin y => Rlt_bool x y
  | Inf true, Inf true => false
  | Inf true, Fin _ | Inf true, Inf false | Fin _, Inf false => true
  | _, _ => false
  end.
Definition xeq (a b : ereal) : bool :=
  match a, b with Fin x, Fin y => Req_bool x y | Inf s, Inf t => Bool.eqb s t | _, _ => false end.
Definition xle (a b : ereal) : bool := xlt a b || xeq a b.
Definition xmap (f : R -> R) (a : ereal) : ereal := match a with Fin x => Fin (f x) | _ => Nan end.
Definition xmap2 (f : R -> R -> R) (a b : ereal) : ereal := match a, b with Fin x, Fin y => Fin (f x y) | _, _ => Nan end.
(** std::atan2 *)
Definition atan2R (y x : R) : R :=
  if Rlt_bool 0 x then atan (y / x)
  else if Rlt_bool x 0 then (if Rle_bool 0 y then atan (y / x) + PI else atan (y / x) - PI)
  else if Rlt_bool 0 y then PI / 2 else if Rlt_bool y 0 then - (PI / 2) else 0%R.
Definition fmodR (x y : R) : R := x - y * IZR (Ztrunc (x / y)).
Definition xnum : num := {|
  T := ereal; nadd := xadd; nsub := xsub; nmul := xmul; ndiv := xdiv;
  nopp := xopp; nabs := fun a => match a with Fin x => Fin (Rabs x) | Inf _ => Inf false | Nan => Nan end;
  nfloor := fun a => match a with Fin x => Fin (IZR (Zfloor x)) | _ => a end;
  nround := fun a => match a with Fin x => Fin (IZR (ZnearestA x)) | _ => a end;
  ntrunc := fun a => match a with Fin x => Ztrunc x | _ => 0%Z end;
  nlt := xlt; nle := xle; neqb := xeq;
  nfin := fun a => match a with Fin _ => true | _ => false end;
  nnan := fun a => match a with Nan => true | _ => false end;
  nsign := xneg;
  ndy := fun m e => Fin (F2R (Float radix2 m e)); nInf := Inf false; nNaN := Nan;
  nexp := fun a => match a with Fin x => Fin (exp x) | Inf false => Inf false | Inf true => Fin 0 | Nan => Nan end;
  nsin := xmap sin; ncos := xmap cos; ntan := xmap tan; natan := xmap atan;
  natan2 := xmap2 atan2R; nhypot := xmap2 (fun x y => sqrt (x * x + y * y)); nfmod := xmap2 fmodR |}.

(** ** Derived operations *)
Section Derived.
Context {N : num}.
Definition nZ (z : Z) : T N := ndy N z 0.
Definition n0 : T N := nZ 0.
Definition n1 : T N := nZ 1.
Definition nmax (a b : T N) : T N := if nlt N a b then b else a. (* std::max *)
Definition nmin (a b : T N) : T N := if nlt N b a then b else a. (* std::min *)
Definition nclamp (v lo hi : T N) : T N := if nlt N v lo then lo else if nlt N hi v then hi else v.
(** Lerp, InverseLerp: /repo/ink/geometry/internal/algorithms.cc 104, 127-134 *)
Definition lerp (a b t : T N) : T N := nadd N a (nmul N (nsub N b a) t).
Definition inverse_lerp (a b v : T N) : T N :=
  if neqb N (nsub N b a) n0 then n0 else ndiv N (nsub N v a) (nsub N b a).
(** kQuarterTurn, kHalfTurn, kFullTurn: /repo/ink/geometry/angle.h 78-80 *)
Definition quarter_turn : T N := ndy N 13176795 (-23).
Definition half_turn : T N := ndy N 13176795 (-22).
Definition full_turn : T N := ndy N 13176795 (-21).
(** Angle::Normalized, NormalizedAboutZero: /repo/ink/geometry/angle.cc 25-51 *)
Definition normalized (a : T N) : T N :=
  let r := nfmod N a full_turn in
  if nlt N r n0 then
    let r' := nadd N r full_turn in if neqb N r' full_turn then n0 else r'
  else r.
Definition normalized_about_zero (a : T N) : T N :=
  let r := nfmod N a full_turn in
  if nlt N half_turn r then nsub N r full_turn
  else if nle N r (nopp N half_turn) then nadd N r full_turn else r.
End Derived.
