(** The documented conditions for a BrushFamily: brush_family.h 72-112, brush_coat.h,
    brush_tip.h, brush_paint.h.  Numbers are compared as reals. *)
From Coq Require Import ZArith Reals List Bool.
From Flocq Require Import IEEE754.BinarySingleNaN.
From Verif Require Import F32 F32Lemmas NumModel BehaviorModel BehaviorSpec UriModel FamilyModel.
Import ListNotations.
Local Open Scope R_scope.

Definition finite32 (x : f32) : Prop := is_finite x = true.
Definition within (lo hi : R) (x : f32) : Prop := finite32 x /\ lo <= fR x <= hi.
Definition positive32 (x : f32) : Prop := finite32 x /\ 0 < fR x.
Definition nonneg32 (x : f32) : Prop := finite32 x /\ 0 <= fR x.
Definition both {A} (P : A -> Prop) (v : A * A) : Prop := P (fst v) /\ P (snd v).
Definition if_present {A} (P : A -> Prop) (v : option A) : Prop := forall x, v = Some x -> P x.

Record documented_keyframe (k : keyframe) : Prop := {
  dk_progress : within 0 1 (k_progress k);
  dk_size : if_present (both positive32) (k_size k);
  dk_offset : if_present (both (within 0 1)) (k_offset k);
  dk_rotation : if_present finite32 (k_rotation k);
  dk_opacity : if_present (within 0 1) (k_opacity k) }.
(** [offset_ok]: the condition on the offset, which the header gives as [0, 1] *)
Record documented_layer (offset_ok : f32 -> Prop) (l : texture_layer) : Prop := {
  dl_uri : asset_ty (l_uri l) = Texture;
  dl_mapping : (0 <= l_mapping l <= 1)%Z; dl_origin : (0 <= l_origin l <= 2)%Z;
  dl_unit : (0 <= l_size_unit l <= 2)%Z; dl_wrap_x : (0 <= l_wrap_x l <= 2)%Z; dl_wrap_y : (0 <= l_wrap_y l <= 2)%Z;
  dl_blend : (0 <= l_blend_mode l <= 11)%Z;
  dl_size : both positive32 (l_size l);
  dl_offset : both offset_ok (l_offset l);
  dl_rotation : finite32 (l_rotation l);
  dl_jitter_x : within 0 (fR (fst (l_size l))) (fst (l_size_jitter l));
  dl_jitter_y : within 0 (fR (snd (l_size l))) (snd (l_size_jitter l));
  dl_offset_jitter : both (within 0 1) (l_offset_jitter l);
  dl_rotation_jitter : finite32 (l_rotation_jitter l);
  dl_opacity : within 0 1 (l_opacity l);
  dl_keyframes : Forall documented_keyframe (l_keyframes l) }.
Definition documented_paint (offset_ok : f32 -> Prop) (p : paint) : Prop :=
  Forall (documented_layer offset_ok) p /\ forall l l', In l p -> In l' p -> l_mapping l = l_mapping l'.

Section FamilySpec.
Variable E : elem.
Local Notation N := (fnum E).
(** kQuarterTurn is the float nearest to pi/2 *)
Record documented_tip (t : brush_tip N) : Prop := {
  dt_scale_x : nonneg32 (scale_x t); dt_scale_y : nonneg32 (scale_y t);
  dt_scale : 0 < fR (scale_x t) \/ 0 < fR (scale_y t);
  dt_rounding : within 0 1 (corner_rounding t);
  dt_slant : within (- fR (quarter_turn (N := N))) (fR (quarter_turn (N := N))) (slant t);
  dt_pinch : within 0 1 (pinch t);
  dt_rotation : finite32 (rotation t);
  dt_opacity : within 0 2 (opacity_multiplier t);
  dt_gap : nonneg32 (particle_gap_distance_scale t); dt_gap_time : nonneg32 (particle_gap_duration t);
  dt_behaviors : Forall (fun b => Forall (documented_node (N := N)) b /\ exists rs : list (root N unit), lists b rs) (behaviors t) }.
Definition documented_coat (offset_ok : f32 -> Prop) (c : coat E) : Prop :=
  (exists t, c_tips E c = [t] /\ documented_tip t) /\ documented_paint offset_ok (c_paint E c).
Definition documented_family (offset_ok : f32 -> Prop) (coats : list (coat E)) (u : option uri) : Prop :=
  (length coats <= 10)%nat /\ Forall (documented_coat offset_ok) coats /\ if_present (fun v => asset_ty v = BrushFamily) u.
End FamilySpec.
