(** Color: /repo/ink/color/color.{h,cc}, color_space.cc and color_helpers.h.
    [pow] is std::pow(double, double).  [None] is an ABSL_LOG(FATAL) crash.  Not modelled: enum values outside the
    enumerations, string formatting, the parameter tables handed to shaders (color_space.cc 169-223). *)
From Coq Require Import ZArith Bool List.
From Verif Require Import F32 F64 NumModel.
From Flocq Require Import IEEE754.BinarySingleNaN.
Import ListNotations.

(** ColorSpace: color_space.h; Color::Format: color.h 65-81 *)
Inductive space := kSrgb | kDisplayP3.
Inductive format := kLinear | kGammaEncoded | kPremultipliedAlpha.
Definition space_eqb (a b : space) : bool := match a, b with kSrgb, kSrgb | kDisplayP3, kDisplayP3 => true | _, _ => false end.

Section Color.
Variable pow : f64 -> f64 -> f64.
(** color_space.cc 34-38 *)
Definition srgb_a : f64 := ddiv (dZ 1) (dlit 1055 3).
Definition srgb_b : f64 := ddiv (dlit 55 3) (dlit 1055 3).
Definition srgb_c : f64 := ddiv (dZ 1) (dlit 1292 2).
Definition srgb_d : f64 := dlit 4045 5.
Definition srgb_g : f64 := dlit 24 1.
(** GammaDecode, GammaEncode: color_space.cc 97-125.  Both spaces use the same curve. *)
Definition gamma_decode (x : f32) : f32 :=
  if dlt (of_f32 x) srgb_d then to_f32 (dmul srgb_c (of_f32 x))
  else to_f32 (pow (dadd (dmul srgb_a (of_f32 x)) srgb_b) srgb_g).
Definition gamma_encode (x : f32) : f32 :=
  if dlt (of_f32 x) (dmul srgb_c srgb_d) then to_f32 (ddiv (of_f32 x) srgb_c)
  else to_f32 (ddiv (dsub (pow (of_f32 x) (ddiv (dZ 1) srgb_g)) srgb_b) srgb_a).

(** The conversion matrices, column by column: color_space.cc 52-67 *)
Record mat := Mat { m0 : f64; m1 : f64; m2 : f64; m3 : f64; m4 : f64; m5 : f64; m6 : f64; m7 : f64; m8 : f64 }.
Definition srgb_to_xyz : mat :=
  Mat (dlit 4123865632529916 16) (dlit 2126368216773238 16) (dlit 193306201524840 16)
      (dlit 3575914909206254 16) (dlit 7151829818412507 16) (dlit 1191971636402085 16)
      (dlit 1804504912035637 16) (dlit 721801964814255 16) (dlit 9503725870054357 16).
Definition xyz_to_srgb : mat :=
  Mat (dlit 32410032329763610 16) (dlit (-9692242522025170) 16) (dlit 556394198519755 16)
      (dlit (-15373989694887868) 16) (dlit 18759299836951764 16) (dlit (-2040112061239100) 16)
      (dlit (-4986158819963633) 16) (dlit 415542263400848 16) (dlit 10571489771875330 16).
Definition p3_to_xyz : mat :=
  Mat (dlit 4865685656607022 16) (dlit 2289734426638599 16) (dlit 0 16)
      (dlit 2656727394591274 16) (dlit 6917516612331996 16) (dlit 451142387760782 16)
      (dlit 1981872402573512 16) (dlit 792748961029405 16) (dlit 10437861320220500 16).
Definition xyz_to_p3 : mat :=
  Mat (dlit 24935091239346090 16) (dlit (-8294732139295545) 16) (dlit 358512644339180 16)
      (dlit (-9313881794047785) 16) (dlit 17626305796003034 16) (dlit (-761839369220757) 16)
      (dlit (-4027127567416515) 16) (dlit 236242371055886 16) (dlit 9570295866943107 16).
Definition from_xyz (s : space) : mat := match s with kSrgb => xyz_to_srgb | kDisplayP3 => xyz_to_p3 end. (* 69-79 *)
Definition to_xyz (s : space) : mat := match s with kSrgb => srgb_to_xyz | kDisplayP3 => p3_to_xyz end. (* 81-91 *)
Definition sum3 (a b c d e f : f64) : f64 := dadd (dadd (dmul a b) (dmul c d)) (dmul e f).
(** MultMat3ByMat3, MultMat3ByVec4: 129-151 *)
Definition mat_mul (a b : mat) : mat :=
  Mat (sum3 (m0 a) (m0 b) (m3 a) (m1 b) (m6 a) (m2 b)) (sum3 (m1 a) (m0 b) (m4 a) (m1 b) (m7 a) (m2 b)) (sum3 (m2 a) (m0 b) (m5 a) (m1 b) (m8 a) (m2 b))
      (sum3 (m0 a) (m3 b) (m3 a) (m4 b) (m6 a) (m5 b)) (sum3 (m1 a) (m3 b) (m4 a) (m4 b) (m7 a) (m5 b)) (sum3 (m2 a) (m3 b) (m5 a) (m4 b) (m8 a) (m5 b))
      (sum3 (m0 a) (m6 b) (m3 a) (m7 b) (m6 a) (m8 b)) (sum3 (m1 a) (m6 b) (m4 a) (m7 b) (m7 a) (m8 b)) (sum3 (m2 a) (m6 b) (m5 a) (m7 b) (m8 a) (m8 b)).
Record rgba := RGBA { red : f32; green : f32; blue : f32; alpha : f32 }.
Definition mat_vec (m : mat) (v : rgba) : rgba :=
  let r := of_f32 (red v) in let g := of_f32 (green v) in let b := of_f32 (blue v) in
  RGBA (to_f32 (sum3 (m0 m) r (m3 m) g (m6 m) b)) (to_f32 (sum3 (m1 m) r (m4 m) g (m7 m) b)) (to_f32 (sum3 (m2 m) r (m5 m) g (m8 m) b)) (alpha v).
(** ConvertColor: 158-167 *)
Definition convert_color (v : rgba) (source target : space) : rgba :=
  if space_eqb source target then v else mat_vec (mat_mul (from_xyz target) (to_xyz source)) v.

(** Color: rgba_, color_space_: color.h 267-270 *)
Record color := Color { chan : rgba; cspace : space }.
Definition default_color : color := Color (RGBA f0 f0 f0 f1) kSrgb. (* color.h 157 *)
Definition nan_to_zero (x : f32) : f32 := if fisnan x then f0 else x. (* color.cc 43-48 *)
(** FromFloat: color.cc 52-80 *)
Definition from_float (r g b a : f32) (f : format) (s : space) : option color :=
  let r := nan_to_zero r in let g := nan_to_zero g in let b := nan_to_zero b in
  let a := fclamp (nan_to_zero a) f0 f1 in
  match f with
  | kLinear => Some (Color (RGBA r g b a) s)
  | kGammaEncoded => Some (Color (RGBA (gamma_decode r) (gamma_decode g) (gamma_decode b) a) s)
  | kPremultipliedAlpha =>
      if feq a f0 && (fne r f0 || fne g f0 || fne b f0) then None
      else if fne a f0 then Some (Color (RGBA (fdiv r a) (fdiv g a) (fdiv b a) a) s)
      else Some (Color (RGBA r g b a) s)
  end.
(** FromUint8: 82-94; channels are integers in [0, 255] *)
Definition from_uint8 (r g b a : Z) (f : format) (s : space) : option color :=
  match f with
  | kPremultipliedAlpha =>
      if Z.eqb a 0 && (negb (Z.eqb r 0) || negb (Z.eqb g 0) || negb (Z.eqb b 0)) then None
      else from_float (fdiv (fZ r) (fZ 255)) (fdiv (fZ g) (fZ 255)) (fdiv (fZ b) (fZ 255)) (fdiv (fZ a) (fZ 255)) f s
  | _ => from_float (fdiv (fZ r) (fZ 255)) (fdiv (fZ g) (fZ 255)) (fdiv (fZ b) (fZ 255)) (fdiv (fZ a) (fZ 255)) f s
  end.
(** FromPackedUint32RGBA: 96-102 *)
Definition byte (z : Z) : Z := Z.land z 255. (* static_cast<uint8_t>, & 0xff *)
Definition from_packed (v : Z) (f : format) (s : space) : option color :=
  from_uint8 (byte (Z.shiftr v 24)) (byte (Z.shiftr v 16)) (byte (Z.shiftr v 8)) (byte v) f s.
(** operator==: 104-114; NearlyEquals uses [in_space] below *)
Definition color_eqb (a b : color) : bool :=
  space_eqb (cspace a) (cspace b) && feq (red (chan a)) (red (chan b)) && feq (green (chan a)) (green (chan b))
  && feq (blue (chan a)) (blue (chan b)) && feq (alpha (chan a)) (alpha (chan b)).
(** IsInGamut: 126-133 *)
Definition in_gamut (c : color) : bool :=
  let bad x := flt x f0 || fgt x f1 in
  negb (bad (red (chan c)) || bad (green (chan c)) || bad (blue (chan c))).
(** ClampedToGamut: 144-151 *)
Definition clamped (c : color) : color :=
  let k x := fclamp x f0 f1 in
  Color (RGBA (k (red (chan c))) (k (green (chan c))) (k (blue (chan c))) (k (alpha (chan c)))) (cspace c).
(** ScaledToGamut: 153-176 *)
Definition scaled (c : color) : color :=
  let r := fmax f0 (red (chan c)) in let g := fmax f0 (green (chan c)) in let b := fmax f0 (blue (chan c)) in
  let a := fmin f1 (fmax f0 (alpha (chan c))) in
  let m := fmax r (fmax g b) in
  Color (if fgt m f1 then RGBA (fdiv r m) (fdiv g m) (fdiv b m) a else RGBA r g b a) (cspace c).
(** InColorSpace, WithAlphaFloat: 178-191.  FromFloat with kLinear cannot crash. *)
Definition in_space (c : color) (target : space) : option color :=
  let v := convert_color (chan c) (cspace c) target in from_float (red v) (green v) (blue v) (alpha v) kLinear target.
Definition with_alpha (c : color) (a : f32) : option color :=
  from_float (red (chan c)) (green (chan c)) (blue (chan c)) a kLinear (cspace c).
(** AsFloat: 193-215 *)
Definition as_float (c : color) (f : format) : rgba :=
  let v := chan c in
  match f with
  | kLinear => v
  | kGammaEncoded => RGBA (gamma_encode (red v)) (gamma_encode (green v)) (gamma_encode (blue v)) (alpha v)
  | kPremultipliedAlpha =>
      if feq (alpha v) f0 then RGBA f0 f0 f0 (alpha v)
      else RGBA (fmul (red v) (alpha v)) (fmul (green v) (alpha v)) (fmul (blue v) (alpha v)) (alpha v)
  end.
(** FloatToUint8: 217-222; the cast truncates, and is undefined ([None]) for a NaN *)
Definition to_uint8 (x : f32) : option Z :=
  let y := fclamp (fround (fmul (fZ 255) x)) f0 (fZ 255) in
  if fisnan y then None else Some (ftoZ y).
(** AsUint8, AsPackedUint32RGBA: 224-239 *)
Definition as_uint8 (c : color) (f : format) : option (Z * Z * Z * Z) :=
  let v := as_float c f in
  match to_uint8 (red v), to_uint8 (green v), to_uint8 (blue v), to_uint8 (alpha v) with
  | Some r, Some g, Some b, Some a => Some (r, g, b, a)
  | _, _, _, _ => None
  end.
Definition as_packed (c : color) (f : format) : option Z :=
  match as_uint8 c f with
  | Some (r, g, b, a) => Some (Z.lor (Z.lor (Z.lor (Z.shiftl r 24) (Z.shiftl g 16)) (Z.shiftl b 8)) a)
  | None => None
  end.
(** UnpackUint32ARGB, PackUint32ARGB: color_helpers.h 25-37, as (r, g, b, a) *)
Definition unpack_argb (v : Z) : Z * Z * Z * Z := (byte (Z.shiftr v 16), byte (Z.shiftr v 8), byte v, byte (Z.shiftr v 24)).
Definition pack_argb (q : Z * Z * Z * Z) : Z :=
  let '(r, g, b, a) := q in Z.lor (Z.lor (Z.lor (Z.shiftl a 24) (Z.shiftl r 16)) (Z.shiftl g 8)) b.
End Color.
