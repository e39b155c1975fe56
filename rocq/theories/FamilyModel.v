(** BrushFamily::Create and the validation of coats, tips and paints, 32-bit floats.
    Enumerations are ints, since any int can be cast to them. *)
From Coq Require Import ZArith Ascii List Bool.
From Flocq Require Import IEEE754.BinarySingleNaN.
From Verif Require Import F32 NumModel BehaviorModel UriModel.
Import ListNotations.

(** BrushPaint::TextureKeyframe: /repo/ink/brush/brush_paint.h 206-221; vectors are pairs *)
Record keyframe := { k_progress : f32; k_size : option (f32 * f32); k_offset : option (f32 * f32); k_rotation : option f32; k_opacity : option f32 }.
(** BrushPaint::TextureLayer: brush_paint.h 223-267 *)
Record texture_layer := {
  l_uri : uri; l_mapping : Z; l_origin : Z; l_size_unit : Z; l_wrap_x : Z; l_wrap_y : Z;
  l_size : f32 * f32; l_offset : f32 * f32; l_rotation : f32;
  l_size_jitter : f32 * f32; l_offset_jitter : f32 * f32; l_rotation_jitter : f32;
  l_opacity : f32; l_keyframes : list keyframe; l_blend_mode : Z }.
(** BrushPaint is a vector of layers: brush_paint.h 269 *)
Definition paint := list texture_layer.

(** IsValidBrushPaint...: brush_paint.cc 30-86 *)
Definition is_valid_mapping (z : Z) : bool := match z with 0 | 1 => true | _ => false end%Z.
Definition is_valid_origin (z : Z) : bool := match z with 0 | 1 | 2 => true | _ => false end%Z.
Definition is_valid_size_unit (z : Z) : bool := match z with 0 | 1 | 2 => true | _ => false end%Z.
Definition is_valid_wrap (z : Z) : bool := match z with 0 | 1 | 2 => true | _ => false end%Z.
Definition is_valid_blend_mode (z : Z) : bool :=
  match z with 0 | 1 | 2 | 3 | 4 | 5 | 6 | 7 | 8 | 9 | 10 | 11 => true | _ => false end%Z.

Definition unit_interval (x : f32) : bool := fle f0 x && fle x f1.
(** ValidateBrushPaintTextureKeyframe: brush_paint.cc 88-134 *)
Definition validate_keyframe (k : keyframe) : bool :=
  if negb (unit_interval (k_progress k)) then false
  else if match k_size k with
          | Some (x, y) => negb (fisfinite x) || negb (fisfinite y) || fle x f0 || fle y f0
          | None => false end then false
  else if match k_offset k with Some (x, y) => negb (unit_interval x && unit_interval y) | None => false end then false
  else if match k_rotation k with Some r => negb (fisfinite r) | None => false end then false
  else if match k_opacity k with Some o => negb (unit_interval o) | None => false end then false
  else true.
Definition is_texture (u : uri) : bool := match asset_ty u with Texture => true | _ => false end.
(** ValidateBrushPaintTextureLayer: brush_paint.cc 138-223 *)
Definition validate_layer (l : texture_layer) : bool :=
  let '(sx, sy) := l_size l in let '(ox, oy) := l_offset l in
  let '(jx, jy) := l_size_jitter l in let '(px, py) := l_offset_jitter l in
  if negb (is_texture (l_uri l)) then false
  else if negb (is_valid_mapping (l_mapping l)) then false
  else if negb (is_valid_origin (l_origin l)) then false
  else if negb (is_valid_size_unit (l_size_unit l)) then false
  else if negb (is_valid_wrap (l_wrap_x l)) then false
  else if negb (is_valid_wrap (l_wrap_y l)) then false
  else if fle sx f0 || negb (fisfinite sx) || fle sy f0 || negb (fisfinite sy) then false
  else if negb (fisfinite ox) || negb (fisfinite oy) then false
  else if negb (fisfinite (l_rotation l)) then false
  else if negb (fle f0 jx && fle jx sx && fle f0 jy && fle jy sy) then false
  else if negb (fle f0 px && fle px f1 && fle f0 py && fle py f1) then false
  else if negb (fisfinite (l_rotation_jitter l)) then false
  else if negb (unit_interval (l_opacity l)) then false
  else if negb (forallb validate_keyframe (l_keyframes l)) then false
  else is_valid_blend_mode (l_blend_mode l).
(** ValidateBrushPaint: brush_paint.cc 225-246 *)
Definition validate_paint (p : paint) : bool :=
  if negb (forallb validate_layer p) then false
  else match p with
       | [] => true
       | l :: _ => forallb (fun l' => Z.eqb (l_mapping l') (l_mapping l)) p
       end.

Section Family.
Variable E : elem.
(** BrushCoat: /repo/ink/brush/brush_coat.h 32-38 *)
Record coat := { c_tips : list (brush_tip (fnum E)); c_paint : paint }.
(** ValidateBrushCoat: brush_coat.cc 53-72 *)
Definition validate_coat (c : coat) : bool :=
  if Nat.eqb (length (c_tips c)) 0 then false
  else if Nat.ltb 1 (length (c_tips c)) then false
  else if negb (forallb valid_tip (c_tips c)) then false
  else validate_paint (c_paint c).
(** BrushFamily: /repo/ink/brush/brush_family.h 165-173; the input model is a parameter *)
Variable M : Type.
Record family := { f_coats : list coat; f_uri : option uri; f_model : M }.
Definition max_brush_coats : nat := 10. (* brush_family.cc 40-47 *)
(** BrushFamily::Create: brush_family.cc 91-112 (coats and an optional URI), 55-66 (a
    string), 68-76, 114-121 (one tip and paint) *)
Definition is_brush_family (u : uri) : bool := match asset_ty u with BrushFamily => true | _ => false end.
Definition family_create (coats : list coat) (u : option uri) (m : M) : option family :=
  if Nat.ltb max_brush_coats (length coats) then None
  else if negb (forallb validate_coat coats) then None
  else if match u with Some v => negb (is_brush_family v) | None => false end then None
  else Some {| f_coats := coats; f_uri := u; f_model := m |}.
Definition family_create_string (coats : list coat) (s : list ascii) (m : M) : option family :=
  match s with
  | [] => family_create coats None m
  | _ => match parse s with None => None | Some u => family_create coats (Some u) m end
  end.
Definition family_create_tip (t : brush_tip (fnum E)) (p : paint) (u : option uri) (m : M) : option family :=
  family_create [{| c_tips := [t]; c_paint := p |}] u m.
End Family.
