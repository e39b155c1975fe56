(** Bytes in memory: std::memcpy of floats and unsigned integers (little endian, IEEE-754 binary32) to and from byte arrays,
    as used by /repo/ink/geometry/mutable_mesh.{h,cc}, mesh.{h,cc} and internal/mesh_packing.cc.
    Every NaN is read and written as the quiet NaN 0x7fc00000: payloads are not modelled. *)
From Coq Require Import ZArith Bool List.
From Flocq Require Import Core IEEE754.BinarySingleNaN.
From Verif Require Import F32.
Import ListNotations.
Local Open Scope Z_scope.

Fixpoint le_bytes (n : nat) (z : Z) : list Z := match n with O => [] | S n => z mod 256 :: le_bytes n (z / 256) end.
Fixpoint le_value (l : list Z) : Z := match l with [] => 0 | b :: l => b + 256 * le_value l end.

(** sign, 8 bits of exponent, 23 bits of fraction *)
Definition float_bits (x : f32) : Z :=
  match x with
  | B754_zero s => if s then 2 ^ 31 else 0
  | B754_infinity s => (if s then 2 ^ 31 else 0) + 255 * 2 ^ 23
  | B754_nan => 255 * 2 ^ 23 + 2 ^ 22
  | B754_finite s m e _ => (if s then 2 ^ 31 else 0) + (if Z.pos m <? 2 ^ 23 then Z.pos m else (e + 150) * 2 ^ 23 + (Z.pos m - 2 ^ 23))
  end.
Definition bits_float (z : Z) : f32 :=
  let s := z / 2 ^ 31 in
  let e := (z / 2 ^ 23) mod 256 in
  let f := z mod 2 ^ 23 in
  let a := if Z.eqb e 255 then (if Z.eqb f 0 then B754_infinity false else B754_nan) else if Z.eqb e 0 then fdy f (-149) else fdy (f + 2 ^ 23) (e - 150) in
  if Z.eqb s 0 then a else fopp a.
Definition float_bytes (x : f32) : list Z := le_bytes 4 (float_bits x).
Definition bytes_float (l : list Z) : f32 := bits_float (le_value l).
Definition floats_bytes (l : list f32) : list Z := concat (map float_bytes l).
Fixpoint bytes_floats (n : nat) (l : list Z) : list f32 :=
  match n with O => [] | S n => bytes_float (firstn 4 l) :: bytes_floats n (skipn 4 l) end.

(** memcpy of [bs] to offset [off], and reading [n] bytes from it *)
Definition poke (off : nat) (bs mem : list Z) : list Z := firstn off mem ++ bs ++ skipn (off + length bs) mem.
Definition peek (off n : nat) (mem : list Z) : list Z := firstn n (skipn off mem).
(** std::vector<std::byte>::resize: new bytes are zero *)
Definition resize (n : nat) (mem : list Z) : list Z := firstn n mem ++ repeat 0 (n - length mem).
