(** StrokeVertex: /repo/ink/strokes/internal/stroke_vertex.h 37-296 and stroke_vertex.cc 37-462;
    LinearMap: geometry/internal/algorithms.cc 126-141.  The DCHECKs are the preconditions of the theorems. *)
From Coq Require Import ZArith Bool List.
From Verif Require Import F32 BytesModel MeshFormatModel PackModel MutableMeshModel.
Import ListNotations.
Local Open Scope Z_scope.

(** ** Labels: stroke_vertex.h 66-114 and 255-296 *)
Definition label := f32. (* Label::encoded_value *)
Inductive category := Minus | Interior | Plus. (* kExteriorLeft or kExteriorFront, kInterior, kExteriorRight or kExteriorBack *)
Definition decode_category (l : label) : category := if flt l f0 then Minus else if feq l f0 then Interior else Plus.
Definition b2f (b : bool) : Z := if b then 1 else 0.
(** (encoded_value > 0) - (encoded_value < 0): an int made a float *)
Definition outset_sign (l : label) : f32 := fZ (b2f (fgt l f0) - b2f (flt l f0)).
Definition kMaximumMargin : f32 := fZ 4.
Definition kInteriorLabel : label := f0.
Definition kExteriorMinusLabel : label := fZ (-127). (* kExteriorLeftLabel, kExteriorFrontLabel *)
Definition kExteriorPlusLabel : label := fZ 127. (* kExteriorRightLabel, kExteriorBackLabel *)
Definition label_eqb (a b : label) : bool := feq a b.
(** Lerp(float), InverseLerp, LinearMap *)
Definition flerp (a b t : f32) : f32 := fadd a (fmul (fsub b a) t).
Definition finverse_lerp (a b v : f32) : f32 := if feq (fsub b a) f0 then f0 else fdiv (fsub v a) (fsub b a).
Definition linear_map (v : f32) (from to : f32 * f32) : f32 := flerp (fst to) (snd to) (finverse_lerp (fst from) (snd from) v).
(** WithMargin, DecodeMargin: stroke_vertex.cc 57-73 *)
Definition encoded_range : f32 * f32 := (fZ 1, fZ 127).
Definition with_margin (l : label) (margin : f32) : label :=
  if feq l f0 then l
  else fmul (outset_sign l) (ffloor (linear_map (fclamp margin f0 kMaximumMargin) (f0, kMaximumMargin) encoded_range)).
Definition decode_margin (l : label) : f32 :=
  if feq l f0 then f0 else linear_map (fabs l) encoded_range (f0, kMaximumMargin).

(** ** Attributes *)
(** MeshFormat::AttributeId: mesh_format.h 160-179 *)
Definition kColorShiftHsl : nat := 1. Definition kOpacityShift : nat := 2. Definition kTexture : nat := 3.
Definition kSideDerivative : nat := 4. Definition kSideLabel : nat := 5. Definition kForwardDerivative : nat := 6. Definition kForwardLabel : nat := 7. Definition kSurfaceUv : nat := 8.
(** GetCustomPackingParams: stroke_vertex.cc 79-148 *)
Definition opacity_params : params := Params (fZ (-1)) (fdiv (fZ 2) (fZ 254)).
Definition hsl_params : params := Params (fZ (-1)) (fdiv (fZ 2) (fZ 1022)).
Definition label_params : params := Params (fZ (-128)) (fZ 1).
Definition u_params : params := Params f0 (fdiv (fZ 1) (fZ 4095)).
Definition v_params : params := Params f0 (fdiv (fZ 1) (fZ 1048575)).
Definition custom_params (a : attribute) : option (list params) :=
  if Nat.eqb (aid a) kOpacityShift then match ty a with Float1In1Byte => Some [opacity_params] | _ => None end
  else if Nat.eqb (aid a) kColorShiftHsl then match ty a with Float3In4Bytes_XYZ10 => Some [hsl_params; hsl_params; hsl_params] | _ => None end
  else if Nat.eqb (aid a) kSideLabel || Nat.eqb (aid a) kForwardLabel then match ty a with Float1In1Byte => Some [label_params] | _ => None end
  else if Nat.eqb (aid a) kSurfaceUv then match ty a with Float2In4Bytes_X12_Y20 => Some [u_params; v_params] | _ => None end
  else None.
(** MakeCustomPackingArray: 152-173.  [None]: the CHECK fails. *)
Definition kMaxAttributeCount : nat := 8.
Definition custom_packing_array (f : format) (skipped : list nat) : option (list (option (list params))) :=
  if Nat.leb (length (attrs f)) kMaxAttributeCount
  then Some (map custom_params (filter (fun a => negb (existsb (Nat.eqb (aid a)) skipped)) (attrs f)))
  else None.
(** FullMeshFormat: 177-227; [None]: the CHECK fails *)
Definition full_attributes : list (atype * nat) :=
  [(Float2In3Bytes_XY12, kPosition); (Float1In1Byte, kOpacityShift); (Float3In4Bytes_XYZ10, kColorShiftHsl); (Float2In3Bytes_XY12, kSideDerivative);
   (Float1In1Byte, kSideLabel); (Float2In3Bytes_XY12, kForwardDerivative); (Float1In1Byte, kForwardLabel); (Float2In4Bytes_X12_Y20, kSurfaceUv)].
Definition full_mesh_format : option format := create (map (fun x => (type_byte (fst x), snd x)) full_attributes) k32BitUnpacked16BitPacked.
(** FindAttributeIndices: 229-265.  The last attribute with the id, or -1; in the order of FormatAttributeIndices. *)
Definition last_index (f : format) (id : nat) : Z :=
  fold_left (fun r x => if Nat.eqb (aid (snd x)) id then Z.of_nat (fst x) else r) (combine (seq 0 (length (attrs f))) (attrs f)) (-1).
Definition find_attribute_indices (f : format) : list Z :=
  map (last_index f) [kPosition; kOpacityShift; kColorShiftHsl; kSideDerivative; kSideLabel; kForwardDerivative; kForwardLabel; kSurfaceUv].
(** kFullFormatAttributeIndices: stroke_vertex.h 155-164 *)
Definition full_indices : list Z := [0; 1; 2; 3; 4; 5; 6; 7].

(** ** Vertices in a mesh: stroke_vertex.h 117-143, 236-237 *)
Record attributes := Attributes { opacity : f32; hsl : f32 * f32 * f32; side_derivative : point; side_label : label; forward_derivative : point; forward_label : label; surface_uv : point }.
Record stroke_vertex := StrokeVertex { position : point; non_position : attributes }.
(** The floats of the struct in the order of its members; it has no padding *)
Definition vertex_floats (v : stroke_vertex) : list f32 :=
  let a := non_position v in let '(h, s, l) := hsl a in
  [fst (position v); snd (position v); opacity a; h; s; l; fst (side_derivative a); snd (side_derivative a); side_label a;
   fst (forward_derivative a); snd (forward_derivative a); forward_label a; fst (surface_uv a); snd (surface_uv a)].
Definition vertex_of_floats (l : list f32) : option stroke_vertex :=
  match l with
  | [x; y; o; h; s; li; sx; sy; sl; fx; fy; fl; u; v] => Some (StrokeVertex (x, y) (Attributes o (h, s, li) (sx, sy) sl (fx, fy) fl (u, v)))
  | _ => None
  end.
(** sizeof(StrokeVertex) *)
Definition vertex_size : Z := 56.
(** GetFromMesh: stroke_vertex.cc 267-275.  size_t arithmetic.  [None] does not occur. *)
Definition get_from_mesh (m : mesh) (i : Z) : option stroke_vertex := vertex_of_floats (bytes_floats 14 (peek (Z.to_nat (i * vertex_size)) 56 (vdata m))).
(** GetSideDerivativeFromMesh ... GetSurfaceUvFromMesh: 277-301 *)
Definition get_side_derivative (m : mesh) (i : Z) : option point := option_map (fun v => side_derivative (non_position v)) (get_from_mesh m i).
Definition get_forward_derivative (m : mesh) (i : Z) : option point := option_map (fun v => forward_derivative (non_position v)) (get_from_mesh m i).
Definition get_side_label (m : mesh) (i : Z) : option label := option_map (fun v => side_label (non_position v)) (get_from_mesh m i).
Definition get_forward_label (m : mesh) (i : Z) : option label := option_map (fun v => forward_label (non_position v)) (get_from_mesh m i).
Definition get_surface_uv (m : mesh) (i : Z) : option point := option_map (fun v => surface_uv (non_position v)) (get_from_mesh m i).
(** SetSideDerivativeInMesh ... SetSurfaceUvInMesh: 357-405 *)
Definition set_side_derivative (m : mesh) (i : Z) (d : point) : mesh := set_float_vertex_attribute m i 3 [fst d; snd d].
Definition set_side_label (m : mesh) (i : Z) (l : label) : mesh := set_float_vertex_attribute m i 4 [l].
Definition set_forward_derivative (m : mesh) (i : Z) (d : point) : mesh := set_float_vertex_attribute m i 5 [fst d; snd d].
Definition set_forward_label (m : mesh) (i : Z) (l : label) : mesh := set_float_vertex_attribute m i 6 [l].
Definition set_surface_uv (m : mesh) (i : Z) (p : point) : mesh := set_float_vertex_attribute m i 7 [fst p; snd p].
(** SetNonPositionAttributes: 307-337 *)
Definition clamp1 (x : f32) : f32 := fclamp x (fZ (-1)) (fZ 1).
Definition set_non_position (m : mesh) (i : Z) (a : attributes) : mesh :=
  let m := set_float_vertex_attribute m i 1 [clamp1 (opacity a)] in
  let m := let '(h, s, l) := hsl a in set_float_vertex_attribute m i 2 [clamp1 h; clamp1 s; clamp1 l] in
  let m := set_side_derivative m i (side_derivative a) in
  let m := set_side_label m i (side_label a) in
  let m := set_forward_derivative m i (forward_derivative a) in
  let m := set_forward_label m i (forward_label a) in
  set_surface_uv m i (surface_uv a).
(** AppendToMesh, SetInMesh: 341-355 *)
Definition append_to_mesh (m : mesh) (v : stroke_vertex) : mesh :=
  let m := append_vertex m (position v) in set_non_position m (u32 (vcount m - 1)) (non_position v).
Definition set_in_mesh (m : mesh) (i : Z) (v : stroke_vertex) : mesh := set_non_position (set_vertex_position m i (position v)) i (non_position v).

(** ** Interpolation: 409-462 *)
Definition lerp_label (a b : label) (t : f32) : label :=
  let a := with_margin a kMaximumMargin in
  let b := with_margin b kMaximumMargin in
  if label_eqb a b || fle t f0 then a else if fge t f1 then b else kInteriorLabel.
Definition barycentric_label (a b c : label) (t : f32 * f32 * f32) : label :=
  let '(t0, t1, t2) := t in
  if feq t0 f0 then lerp_label b c t2 else if feq t1 f0 then lerp_label a c t2 else if feq t2 f0 then lerp_label a b t1 else kInteriorLabel.
(** Segment::Lerp: geometry/segment.h; Point operators are componentwise *)
Definition flerp_point (a b : point) (t : f32) : point :=
  (fadd (fmul (fst a) (fsub f1 t)) (fmul (fst b) t), fadd (fmul (snd a) (fsub f1 t)) (fmul (snd b) t)).
Definition zero_vec : point := (f0, f0).
Definition lerp_attributes (a b : attributes) (t : f32) : attributes :=
  let '(ha, sa, la) := hsl a in let '(hb, sb, lb) := hsl b in
  Attributes (flerp (opacity a) (opacity b) t) (flerp ha hb t, flerp sa sb t, flerp la lb t) zero_vec (lerp_label (side_label a) (side_label b) t)
    zero_vec (lerp_label (forward_label a) (forward_label b) t) (flerp_point (surface_uv a) (surface_uv b) t).
Definition weighted (a b c : f32) (t : f32 * f32 * f32) : f32 := let '(t0, t1, t2) := t in fadd (fadd (fmul a t0) (fmul b t1)) (fmul c t2).
Definition barycentric_attributes (a b c : attributes) (t : f32 * f32 * f32) : attributes :=
  let '(ha, sa, la) := hsl a in let '(hb, sb, lb) := hsl b in let '(hc, sc, lc) := hsl c in
  Attributes (weighted (opacity a) (opacity b) (opacity c) t) (weighted ha hb hc t, weighted sa sb sc t, weighted la lb lc t) zero_vec
    (barycentric_label (side_label a) (side_label b) (side_label c) t) zero_vec (barycentric_label (forward_label a) (forward_label b) (forward_label c) t)
    (weighted (fst (surface_uv a)) (fst (surface_uv b)) (fst (surface_uv c)) t, weighted (snd (surface_uv a)) (snd (surface_uv b)) (snd (surface_uv c)) t).
