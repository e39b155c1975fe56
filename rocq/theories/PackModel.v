(** Packing of mesh attributes: /repo/ink/geometry/internal/mesh_packing.{h,cc}.
    Integers are uint32_t held in Z.  The packed bytes of a type packed into floats are modelled as that list of floats
    (they are copied with memcpy); those of other types as a list of bytes.  DCHECKs are not modelled. *)
From Coq Require Import ZArith Bool Arith List.
From Verif Require Import F32 NumModel MeshFormatModel.
Import ListNotations.
Local Open Scope Z_scope.

Inductive packed := PFloats (l : list f32) | PBytes (l : list Z).
Definition shl32 (x k : Z) : Z := Z.shiftl x k mod 2 ^ 32. (* << on uint32_t *)
Definition to_byte (x : Z) : Z := x mod 256. (* static_cast<std::byte> *)
Definition to_float (x : Z) : f32 := fZ x. (* static_cast<float>(uint32_t) *)
Definition to_u32 (x : f32) : Z := ftoZ x. (* static_cast<uint32_t>(float), for values in [0, 2^32) *)
Definition field (x mask k : Z) : Z := Z.shiftr (Z.land x mask) k. (* (x & mask) >> k *)
Definition max_value (bits : Z) : Z := 2 ^ bits - 1. (* MaxValueForBits: mesh_packing.h 66-69 *)

(** The integer part of PackFloat1PackedIn1UnsignedByte ... PackFloat4PackedIn3Floats: mesh_packing.cc 100-292 *)
Definition pack_ints (t : atype) (n : list Z) : option packed :=
  match t, n with
  | Float1In1Byte, [a] => Some (PBytes [to_byte a])
  | Float2In1Float, [a; b] => Some (PFloats [to_float (Z.lor (shl32 a 12) b)])
  | Float2In3Bytes_XY12, [a; b] =>
      Some (PBytes [to_byte (Z.shiftr a 4); to_byte (shl32 (Z.land a 15) 4 + Z.shiftr b 8); to_byte (Z.land b 255)])
  | Float2In4Bytes_X12_Y20, [a; b] =>
      Some (PBytes [to_byte (Z.shiftr a 4); to_byte (shl32 (Z.land a 15) 4 + Z.shiftr b 16); to_byte (field b 65280 8); to_byte (Z.land b 255)])
  | Float3In4Bytes_XYZ10, [a; b; c] =>
      Some (PBytes [to_byte (Z.shiftr a 2); to_byte (shl32 (Z.land a 3) 6 + Z.shiftr b 4); to_byte (shl32 (Z.land b 15) 4 + Z.shiftr c 6); to_byte (shl32 (Z.land c 63) 2)])
  | Float3In1Float, [a; b; c] => Some (PFloats [to_float (Z.lor (Z.lor (shl32 a 16) (shl32 b 8)) c)])
  | Float3In2Floats, [a; b; c] => Some (PFloats [to_float (Z.lor (shl32 a 8) (Z.shiftr b 8)); to_float (Z.lor (shl32 (Z.land b 255) 16) c)])
  | Float4In1Float, [a; b; c; d] => Some (PFloats [to_float (Z.lor (Z.lor (Z.lor (shl32 a 18) (shl32 b 12)) (shl32 c 6)) d)])
  | Float4In2Floats, [a; b; c; d] => Some (PFloats [to_float (Z.lor (shl32 a 12) b); to_float (Z.lor (shl32 c 12) d)])
  | Float4In3Floats, [a; b; c; d] =>
      Some (PFloats [to_float (Z.lor (shl32 a 6) (Z.shiftr b 12)); to_float (Z.lor (shl32 (Z.land b 4095) 12) (Z.shiftr c 6)); to_float (Z.lor (shl32 (Z.land c 63) 18) d)])
  | _, _ => None
  end.
(** UnpackIntegersFromPackedAttribute: 634-668, with 421-602 *)
Definition unpack_ints (t : atype) (p : packed) : option (list Z) :=
  match t, p with
  | Float1In1Byte, PBytes [x] => Some [x]
  | Float2In1Float, PFloats [f] => let x := to_u32 f in Some [field x 16773120 12; Z.land x 4095]
  | Float2In3Bytes_XY12, PBytes [x; y; z] => Some [shl32 x 4 + Z.shiftr y 4; shl32 (Z.land y 15) 8 + z]
  | Float3In4Bytes_XYZ10, PBytes [x; y; z; w] =>
      Some [shl32 x 2 + Z.shiftr y 6; shl32 (Z.land y 63) 4 + Z.shiftr z 4; shl32 (Z.land z 15) 6 + field w 252 2]
  | Float2In4Bytes_X12_Y20, PBytes [x; y; z; w] => Some [shl32 x 4 + Z.shiftr y 4; shl32 (Z.land y 15) 16 + shl32 z 8 + w]
  | Float3In1Float, PFloats [f] => let x := to_u32 f in Some [field x 16711680 16; field x 65280 8; Z.land x 255]
  | Float3In2Floats, PFloats [f; g] =>
      let x := to_u32 f in let y := to_u32 g in
      Some [field x 16776960 8; Z.lor (shl32 (Z.land x 255) 8) (field y 16711680 16); Z.land y 65535]
  | Float4In1Float, PFloats [f] => let x := to_u32 f in Some [field x 16515072 18; field x 258048 12; field x 4032 6; Z.land x 63]
  | Float4In2Floats, PFloats [f; g] =>
      let x := to_u32 f in let y := to_u32 g in Some [field x 16773120 12; Z.land x 4095; field y 16773120 12; Z.land y 4095]
  | Float4In3Floats, PFloats [f; g; h] =>
      let x := to_u32 f in let y := to_u32 g in let z := to_u32 h in
      Some [field x 16777152 6; Z.lor (shl32 (Z.land x 63) 12) (field y 16773120 12); Z.lor (shl32 (Z.land y 4095) 6) (field z 16515072 18); Z.land z 262143]
  | _, _ => None
  end.

(** ComponentCodingParams: mesh_packing_types.h 28-31 *)
Record params := Params { offset : f32; scale : f32 }.
(** PackSingleFloat: mesh_packing.cc 296-299; [None] where the conversion to uint32_t is undefined *)
Definition pack_single (p : params) (v : f32) : option Z :=
  let q := fround (fdiv (fsub v (offset p)) (scale p)) in
  if fisfinite q && fge q f0 && flt q (fdy 1 32) then Some (ftoZ q) else None.
(** UnpackSingleFloat: 377-380 *)
Definition unpack_single (p : params) (n : Z) : f32 := fadd (fmul (to_float n) (scale p)) (offset p).
(** IsValidCodingParams: 65-75 *)
Definition valid_params (p : params) : bool := fisfinite (offset p) && fisfinite (scale p) && fgt (scale p) f0.
Definition valid_coding (t : atype) (ps : list params) : bool :=
  is_unpacked t || (Nat.eqb (length ps) (component_count t) && forallb valid_params ps).
(** UnpackedFloatValuesAreRepresentable: 77-98 *)
Definition representable1 (bits : Z) (p : params) (v : f32) : bool :=
  let q := fround (fdiv (fsub v (offset p)) (scale p)) in negb (flt q f0 || fgt q (to_float (max_value bits))).
Fixpoint representables (bits : list nat) (ps : list params) (vs : list f32) : bool :=
  match bits, ps, vs with
  | b :: bits, p :: ps, v :: vs => representable1 (Z.of_nat b) p v && representables bits ps vs
  | _, _, _ => true
  end.
Definition representable (t : atype) (ps : list params) (vs : list f32) : bool :=
  match packed_bits t with None => true | Some bits => representables bits ps vs end.
(** PackAttribute: 301-356 *)
Fixpoint pack_singles (ps : list params) (vs : list f32) : option (list Z) :=
  match ps, vs with
  | p :: ps, v :: vs =>
      match pack_single p v, pack_singles ps vs with Some n, Some l => Some (n :: l) | _, _ => None end
  | _, _ => Some []
  end.
Definition pack_attribute (t : atype) (ps : list params) (vs : list f32) : option packed :=
  if is_unpacked t then Some (PFloats vs)
  else match pack_singles ps vs with Some n => pack_ints t n | None => None end.
(** UnpackAttribute: 606-632 *)
Fixpoint unpack_singles (ps : list params) (ns : list Z) : list f32 :=
  match ps, ns with
  | p :: ps, n :: ns => unpack_single p n :: unpack_singles ps ns
  | _, _ => []
  end.
Definition unpack_attribute (t : atype) (ps : list params) (p : packed) : option (list f32) :=
  if is_unpacked t then match p with PFloats vs => Some vs | PBytes _ => None end
  else match unpack_ints t p with Some n => Some (unpack_singles ps n) | None => None end.
(** ComputeCodingParams: 841-883.  [None] is an error, or the CHECK failure of lo > hi. *)
Definition component_params (bits : Z) (lo hi : f32) : option params :=
  if negb (fle lo hi) then None
  else let range := fsub hi lo in
       if negb (fisfinite range) then None
       else Some (Params lo (if fgt range f0 then fdiv range (to_float (max_value bits)) else f1)).
Fixpoint components_params (bits : list nat) (los his : list f32) : option (list params) :=
  match bits, los, his with
  | [], [], [] => Some []
  | b :: bits, lo :: los, hi :: his =>
      match component_params (Z.of_nat b) lo hi, components_params bits los his with Some p, Some l => Some (p :: l) | _, _ => None end
  | _, _, _ => None
  end.
Definition compute_coding (t : atype) (los his : list f32) : option (list params) :=
  match packed_bits t with
  | None => Some (repeat (Params f0 f1) (component_count t))
  | Some bits => components_params bits los his
  end.
(** ComputeCodingParamsArray: 885-949.  Bounds are (minimum, maximum); an empty list of custom params means none. *)
Fixpoint custom_ok (ts : list atype) (bounds : list (list f32 * list f32)) (custom : list (option (list params))) : bool :=
  match ts, bounds, custom with
  | t :: ts, (lo, hi) :: bounds, c :: custom =>
      match c with
      | None => true
      | Some ps => negb (is_unpacked t) && valid_coding t ps && representable t ps lo && representable t ps hi
      end && custom_ok ts bounds custom
  | _, _, _ => true
  end.
Fixpoint coding_list (ts : list atype) (bounds : list (list f32 * list f32)) (custom : list (option (list params))) : option (list (list params)) :=
  match ts, bounds with
  | t :: ts, (lo, hi) :: bounds =>
      match (match custom with Some ps :: _ => if is_unpacked t then compute_coding t lo hi else Some ps | _ => compute_coding t lo hi end),
            coding_list ts bounds (tl custom) with
      | Some ps, Some l => Some (ps :: l)
      | _, _ => None
      end
  | _, _ => Some []
  end.
Definition compute_coding_array (ts : list atype) (bounds : list (list f32 * list f32)) (custom : list (option (list params))) : option (list (list params)) :=
  if negb (Nat.eqb (length bounds) (length ts)) then None
  else match custom with
       | [] => coding_list ts bounds []
       | _ => if negb (Nat.eqb (length custom) (length ts)) then None
              else if custom_ok ts bounds custom then coding_list ts bounds custom else None
       end.
