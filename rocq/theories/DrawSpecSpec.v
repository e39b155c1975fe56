(** What may be drawn, and what a shader should see of a vertex.  Attributes are (type, id) pairs: 0 is the position, 1 the colour shift,
    2 the opacity shift, 4 and 6 the side and forward derivatives, 5 and 7 their labels, 8 the texture coordinates (mesh_format.h 176-196). *)
From Coq Require Import ZArith Bool Reals List.
From Flocq Require Import IEEE754.BinarySingleNaN.
From Verif Require Import F32 MeshFormatModel PackModel MutableMeshModel MeshModel PackProps StrokeVertexModel StrokeVertexSpec ShaderUnpackSpec DrawSpecModel.
Import ListNotations.

Definition neighbours {A} (l : list A) (a b : A) : Prop := exists l1 l2, l = l1 ++ a :: b :: l2.
(** The formats that can be drawn: mesh_specification_data.h, CreateForStroke, and the supported types in the .cc *)
Definition drawable (l : list (atype * nat)) : Prop :=
  (neighbours l (Float2In1Float, 0) (Float1Unpacked, 2) \/ neighbours l (Float2In3Bytes_XY12, 0) (Float1In1Byte, 2)) /\
  (neighbours l (Float2Unpacked, 4) (Float1Unpacked, 5) \/ neighbours l (Float2In3Bytes_XY12, 4) (Float1In1Byte, 5)) /\
  (neighbours l (Float2Unpacked, 6) (Float1Unpacked, 7) \/ neighbours l (Float2In3Bytes_XY12, 6) (Float1In1Byte, 7)) /\
  (forall t, In (t, 1) l -> t = Float3Unpacked \/ t = Float3In4Bytes_XYZ10) /\
  (forall t, In (t, 8) l -> t = Float2Unpacked \/ t = Float2In4Bytes_X12_Y20).
Definition attributes_of (f : format) : list (atype * nat) := map (fun a => (ty a, aid a)) (attrs f).

(** The attributes of the mesh that a field of the shader is made of, and the fields of a specification *)
Definition parts (n : sname) : list nat :=
  match n with PositionAndOpacityShift => [0; 2] | HslShift => [1] | SideDerivativeAndLabel => [4; 5] | ForwardDerivativeAndLabel => [6; 7] | SurfaceUv => [8] end.
(** the bytes from [o] on, [n] of them, are those of the attributes with the ids, in their order *)
Fixpoint covers (f : format) (ids : list nat) (o n : nat) : Prop :=
  match ids with
  | [] => n = 0
  | id :: ids => exists a, In a (attrs f) /\ aid a = id /\ poff a = o /\ pwidth a <= n /\ covers f ids (o + pwidth a) (n - pwidth a)
  end.

(** ** Meshes as they come out of packing *)
(** attribute [k] of vertex [i] holds floats, or packed integers each in its range *)
Definition stored (m : imesh) (i : Z) (k : nat) : Prop :=
  let t := ty (attr_at (iformat m) k) in
  exists p, packed_attribute m i k = packed_bytes p /\
    if is_unpacked t then exists l, p = PFloats l /\ length l = component_count t else exists ns, in_range t ns /\ pack_ints t ns = Some p.
(** the mesh is coded as stroke meshes are: as many parameters as components, and the fixed ones where the shader has them fixed *)
Definition coded_for_strokes (m : imesh) : Prop :=
  length (coding m) = length (attrs (iformat m)) /\
  forall k a, nth_error (attrs (iformat m)) k = Some a ->
    length (nth k (coding m) []) = component_count (ty a) /\ (forall ps, custom_params a = Some ps -> nth k (coding m) [] = ps).

(** ** What is seen *)
(** exactly what the mesh reports, or up to [slack] *)
Definition exactly (m : imesh) (i : Z) (k : nat) (xs : list f32) : Prop := iattribute m i k = Some xs.
Definition nearly (m : imesh) (i : Z) (k : nat) (a : attribute) (xs : list f32) : Prop :=
  exists ys, iattribute m i k = Some ys /\ if is_unpacked (ty a) then ys = xs else all_close (repeat (slack (aid a)) (length ys)) ys xs.
Definition agrees (m : imesh) (i : Z) (v : vertex_seen) : Prop :=
  (forall k a, nth_error (attrs (iformat m)) k = Some a ->
    (aid a = 0 -> exactly m i k [fst (seen_position v); snd (seen_position v)]) /\
    (aid a = 2 -> nearly m i k a [seen_opacity v]) /\
    (aid a = 4 -> exactly m i k [fst (fst (seen_side v)); snd (fst (seen_side v))]) /\
    (aid a = 5 -> exactly m i k [snd (seen_side v)]) /\
    (aid a = 6 -> exactly m i k [fst (fst (seen_forward v)); snd (fst (seen_forward v))]) /\
    (aid a = 7 -> exactly m i k [snd (seen_forward v)]) /\
    (aid a = 1 -> exists h s l, seen_hsl v = Some (h, s, l) /\ nearly m i k a [h; s; l]) /\
    (aid a = 8 -> exists x y, seen_uv v = Some (x, y) /\ nearly m i k a [x; y])) /\
  (~ In 1 (map aid (attrs (iformat m))) -> seen_hsl v = None) /\ (~ In 8 (map aid (attrs (iformat m))) -> seen_uv v = None).
