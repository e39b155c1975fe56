(** Model of Duration32 (/repo/ink/types/duration.h, duration.cc): a float number of
    seconds.  Conversions from and to absl::Duration and formatting are not modelled. *)
From Coq Require Import ZArith Bool.
From Flocq Require Import IEEE754.BinarySingleNaN.
From Verif Require Import F32.

(** duration.h 136 *)
Definition duration : Type := f32.

(** Zero, Infinite, duration.h 151-155 *)
Definition d_zero : duration := f0.
Definition d_infinite : duration := finf.
(** Seconds, duration.h 157-160 *)
Definition d_seconds (s : f32) : duration := if fisnan s then d_infinite else s.
(** Millis, duration.h 162-165; 0.001f is the float nearest to 1/1000 *)
Definition c_0_001 : f32 := fdy 8589935 (-33).
Definition d_millis (ms : f32) : duration := if fisnan ms then d_infinite else fmul c_0_001 ms.
(** ToSeconds, ToMillis, duration.h 167-169 *)
Definition d_to_seconds (d : duration) : f32 := d.
Definition d_to_millis (d : duration) : f32 := fmul (fZ 1000) d.
(** IsFinite, duration.h 175-177 *)
Definition d_isfinite (d : duration) : bool := fisfinite d.
(** comparisons, duration.h 179-201 *)
Definition d_eq (a b : duration) : bool := feq a b.
Definition d_lt (a b : duration) : bool := flt a b.
Definition d_le (a b : duration) : bool := fle a b.
Definition d_ge (a b : duration) : bool := fge a b.
(** unary minus, duration.h 203-205 *)
Definition d_neg (d : duration) : duration := fopp d.
(** addition and subtraction, duration.h 207-215 *)
Definition d_add (a b : duration) : duration := if negb (d_isfinite a) then a else fadd a b.
Definition d_sub (a b : duration) : duration := if negb (d_isfinite a) then a else fsub a b.
(** duration.cc 26-36 (and duration.h 217) *)
Definition d_mul (d : duration) (scale : f32) : duration :=
  if fisnan scale then (if d_ge d d_zero then d_infinite else d_neg d_infinite)
  else if negb (d_isfinite d) then
    (if Bool.eqb (d_ge d d_zero) (fge scale f0) then d_infinite else d_neg d_infinite)
  else fmul d scale.
(** duration.cc 38-49 *)
Definition d_div (d : duration) (divisor : f32) : duration :=
  if fisnan divisor then (if d_ge d d_zero then d_infinite else d_neg d_infinite)
  else if negb (d_isfinite d) then
    (if Bool.eqb (d_ge d d_zero) (fge divisor f0) then d_infinite else d_neg d_infinite)
  else fdiv d divisor.
(** duration.cc 51-62 *)
Definition d_ratio (a b : duration) : f32 :=
  if d_eq b d_zero then (if d_ge a d_zero then finf else fninf)
  else if negb (d_isfinite a) then
    (if Bool.eqb (d_ge a d_zero) (d_ge b d_zero) then finf else fninf)
  else fdiv a b.

(** Programs computing with durations: every way to build one. *)
Inductive dexpr :=
| EZero | EInfinite
| ESeconds (s : f32) | EMillis (ms : f32)
| ENeg (a : dexpr) | EAdd (a b : dexpr) | ESub (a b : dexpr)
| EMul (a : dexpr) (s : f32) | EDiv (a : dexpr) (s : f32)
| EMulRatio (a b c : dexpr). (* a * (b / c) *)
Fixpoint deval (e : dexpr) : duration :=
  match e with
  | EZero => d_zero | EInfinite => d_infinite
  | ESeconds s => d_seconds s | EMillis ms => d_millis ms
  | ENeg a => d_neg (deval a)
  | EAdd a b => d_add (deval a) (deval b)
  | ESub a b => d_sub (deval a) (deval b)
  | EMul a s => d_mul (deval a) s
  | EDiv a s => d_div (deval a) s
  | EMulRatio a b c => d_mul (deval a) (d_ratio (deval b) (deval c))
  end.
