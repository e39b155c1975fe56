(** The unpacking functions of the vertex shader:
    /repo/ink/rendering/skia/common_internal/sksl_vertex_shader_helper_functions.h 104-107, 217-220, 241-348.
    They are SkSL source that runs on a GPU.  A `float` of SkSL is modelled as a 32-bit IEEE float, each operation rounding once to
    nearest even; `fract(x)` is `x - floor(x)`.  Fused multiply-adds and the freedom of a GPU to be less exact are not modelled.
    A byte of a `kUByte4_unorm` attribute arrives in the shader as byte/255, held in a `half`: what a GPU keeps of it is either a
    32-bit float or, as the comment at 245-249 has it, a 16-bit float; both are modelled. *)
From Coq Require Import ZArith Bool List.
From Flocq Require Import IEEE754.BinarySingleNaN.
From Verif Require Import F32.
Import ListNotations.
Local Open Scope Z_scope.

(** ** 16-bit floats *)
Definition f16 : Type := binary_float 11 16.
Global Instance prec11_gt_0 : FLX.Prec_gt_0 11 := eq_refl.
Global Instance prec11_lt_emax : Prec_lt_emax 11 16 := eq_refl.
Definition hZ (z : Z) : f16 := binary_normalize 11 16 _ _ mode_NE z 0 false.
Definition hmul (x y : f16) : f16 := Bmult mode_NE x y.
Definition hsub (x y : f16) : f16 := Bminus mode_NE x y.
Definition hdiv (x y : f16) : f16 := Bdiv mode_NE x y.
(** float(x) for a half *)
Definition of_half (x : f16) : f32 :=
  match x with
  | B754_zero s => B754_zero s
  | B754_infinity s => B754_infinity s
  | B754_nan => B754_nan
  | B754_finite s m e _ => binary_normalize 24 128 _ _ mode_NE (if s then Zneg m else Zpos m) e false
  end.
(** ** What a byte is loaded as: 245-249 *)
Definition load32 (b : Z) : f32 := fdiv (fZ b) (fZ 255).
Definition load16 (b : Z) : f16 := hdiv (hZ b) (hZ 255).

Definition fract (x : f32) : f32 := fsub x (ffloor x).
(** unpackingTransform: {x-offset, x-scale, y-offset, y-scale} *)
Record transform := Transform { x_offset : f32; x_scale : f32; y_offset : f32; y_scale : f32 }.
Definition transformed (t : transform) (x y : f32) : f32 * f32 := (fadd (fmul (x_scale t) x) (x_offset t), fadd (fmul (y_scale t) y) (y_offset t)).
(** unpackFloat2PackedIntoFloat: 251-260 *)
Definition unpack_float2_float (t : transform) (v : f32) : f32 * f32 :=
  transformed t (ffloor (fdiv v (fZ 4096))) (fmul (fract (fdiv v (fZ 4096))) (fZ 4096)).
(** unpackFloat2PackedIntoUByte3: 262-274.  15.9375 is 255/16. *)
Definition unpack_float2_ubyte3 (t : transform) (x y z : f32) : f32 * f32 :=
  let mixed := fmul (fdy 255 (-4)) y in
  transformed t (fadd (fmul (fZ 4080) x) (ffloor mixed)) (fadd (fmul (fZ 4096) (fract mixed)) (fmul (fZ 255) z)).
(** unpackPositionAndOpacityShift: 279-294.  The opacity is computed from a half; only the version in 32 bits is modelled. *)
Definition unpack_position_float (t : transform) (x y : f32) : f32 * f32 * f32 := (unpack_float2_float t x, y).
Definition opacity32 (w : f32) : f32 := fsub (fmul (fdiv (fZ 255) (fZ 127)) w) (fZ 1).
Definition unpack_position_bytes (t : transform) (x y z w : f32) : f32 * f32 * f32 := (unpack_float2_ubyte3 t x y z, opacity32 w).
(** unpackDerivativeAndLabel: 298-311; again the label is computed in the precision of halves *)
Definition label32 (w : f32) : f32 := fsub (fmul (fZ 255) w) (fZ 128).
Definition label16 (w : f16) : f16 := hsub (hmul (hZ 255) w) (hZ 128).
Definition unpack_derivative_float3 (x y z : f32) : f32 * f32 * f32 := (x, y, z).
Definition unpack_derivative_bytes (t : transform) (x y z w : f32) : f32 * f32 * f32 := (unpack_float2_ubyte3 t x y z, label32 w).
(** unpackHSLColorShift: 315-330.  3.984375 is 255/64 and 63.75 is 255/4. *)
Definition minus_one (x : f32) : f32 := fsub (fdiv x (fZ 511)) (fZ 1).
Definition unpack_hsl_bytes (x y z w : f32) : f32 * f32 * f32 :=
  let xy := fmul (fdy 255 (-6)) y in
  let yz := fmul (fdy 255 (-4)) z in
  (minus_one (fadd (fmul (fZ 1020) x) (ffloor xy)), minus_one (fadd (fmul (fZ 1024) (fract xy)) (ffloor yz)),
   minus_one (fadd (fmul (fZ 1024) (fract yz)) (fmul (fdy 255 (-2)) w))).
(** unpackSurfaceUv: 334-348 *)
Definition unpack_uv_bytes (x y z w : f32) : f32 * f32 :=
  let mixed := fmul (fdy 255 (-4)) y in
  (fdiv (fadd (fmul (fZ 4080) x) (ffloor mixed)) (fZ 4095),
   fdiv (fadd (fadd (fmul (fZ 1048576) (fract mixed)) (fmul (fZ 65280) z)) (fmul (fZ 255) w)) (fZ 1048575)).
(** decodeMargins: 104-107, one component *)
Definition shader_margin (l : f32) : f32 := fmul (fdiv (fZ 4) (fZ 126)) (fmax (fsub (fabs l) (fZ 1)) f0).
(** normalizedToEdgeLRFB: 217-220, the two components of one label; the true value of 0.005 is 10737418 * 2^-31 *)
Definition five_thousandths : f32 := fdy 10737418 (-31).
Definition clear_of_edges (l : f32) : bool * bool := (fgt l (fopp five_thousandths), flt l five_thousandths).

(** ** The overload that a packed attribute goes to, fed with its bytes (kUByte4_unorm) or floats *)
Definition shader_point (t : transform) (x : list f32) : option (f32 * f32) :=
  match x with [v] => Some (unpack_float2_float t v) | [x; y; z] => Some (unpack_float2_ubyte3 t x y z) | _ => None end.
Definition shader_color (x : list f32) : option (list f32) :=
  match x with [x; y; z; w] => let '(h, s, l) := unpack_hsl_bytes x y z w in Some [h; s; l] | _ => None end.
Definition shader_opacity (x : list f32) : option (list f32) := match x with [w] => Some [opacity32 w] | _ => None end.
Definition shader_label (x : list f32) : option (list f32) := match x with [w] => Some [label32 w] | _ => None end.
Definition shader_uv (x : list f32) : option (list f32) :=
  match x with [x; y; z; w] => let '(u, v) := unpack_uv_bytes x y z w in Some [u; v] | _ => None end.
