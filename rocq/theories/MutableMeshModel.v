(** MutableMesh: /repo/ink/geometry/mutable_mesh.h 45-335 and mutable_mesh.cc 55-145, down to the bytes of its two arrays.
    Counts are uint32_t; byte offsets are size_t (64 bits, assumed not to wrap) except where the code computes them in uint32_t.
    The DCHECKs are the preconditions of the theorems; reads and writes outside an array are not given a meaning.
    Allocation failure is not modelled. *)
From Coq Require Import ZArith Bool List.
From Verif Require Import F32 BytesModel MeshFormatModel PartitionModel.
Import ListNotations.
Local Open Scope Z_scope.

Definition point := (f32 * f32)%type.
Definition u32 (z : Z) : Z := z mod 2 ^ 32.
(** mutable_mesh.h 329-333 *)
Record mesh := Mesh { fmt : format; vdata : list Z; idata : list Z; vcount : Z; tcount : Z }.

(** The byte at which attribute [k] of vertex [i] starts; size_t arithmetic *)
Definition attr_at (f : format) (k : nat) : attribute := nth k (attrs f) (Attr Float1Unpacked 0 0 0 0 0).
Definition vertex_byte (f : format) (i : Z) (k : nat) : Z := i * Z.of_nat (ustride f) + Z.of_nat (uoff (attr_at f k)).
(** MutableMesh(format): 51-55 *)
Definition new_mesh (f : format) : mesh := Mesh f [] [] 0 0.
(** Clone: mutable_mesh.cc 55-62 *)
Definition clone (m : mesh) : mesh := Mesh (fmt m) (vdata m) (idata m) (vcount m) (tcount m).
(** Clear: mutable_mesh.h 75-80; Reset: 84-90 *)
Definition clear (m : mesh) : mesh := Mesh (fmt m) [] [] 0 0.
Definition reset (m : mesh) (f : format) : mesh := Mesh f [] [] 0 0.
(** SetVertexPosition: 124-132 *)
Definition set_vertex_position (m : mesh) (i : Z) (p : point) : mesh :=
  Mesh (fmt m) (poke (Z.to_nat (vertex_byte (fmt m) i (pos_index (fmt m)))) (float_bytes (fst p) ++ float_bytes (snd p)) (vdata m)) (idata m) (vcount m) (tcount m).
(** VertexPosition: 109-120 *)
Definition vertex_position (m : mesh) (i : Z) : point :=
  match bytes_floats 2 (peek (Z.to_nat (vertex_byte (fmt m) i (pos_index (fmt m)))) 8 (vdata m)) with
  | [x; y] => (x, y)
  | _ => (f0, f0)
  end.
(** AppendVertex: 101-105 *)
Definition append_vertex (m : mesh) (p : point) : mesh :=
  let m' := Mesh (fmt m) (resize (length (vdata m) + ustride (fmt m)) (vdata m)) (idata m) (u32 (vcount m + 1)) (tcount m) in
  set_vertex_position m' (u32 (vcount m' - 1)) p.
(** ReadUnpackedFloatAttributeFromByteArray: internal/mesh_packing.cc 743-784.  The offset is computed from uint32_t and
    uint16_t, so in uint32_t. *)
Definition float_vertex_attribute (m : mesh) (i : Z) (k : nat) : list f32 :=
  let n := component_count (ty (attr_at (fmt m) k)) in
  bytes_floats n (peek (Z.to_nat (u32 (vertex_byte (fmt m) i k))) (4 * n) (vdata m)).
(** SetFloatVertexAttribute: mutable_mesh.cc 90-124.  The number of floats copied is given by the type. *)
Definition set_float_vertex_attribute (m : mesh) (i : Z) (k : nat) (v : list f32) : mesh :=
  let n := component_count (ty (attr_at (fmt m) k)) in
  Mesh (fmt m) (poke (Z.to_nat (vertex_byte (fmt m) i k)) (floats_bytes (firstn n v)) (vdata m)) (idata m) (vcount m) (tcount m).
(** Read/WriteTriangleIndices...ByteArray: internal/mesh_packing.cc 696-731; a 16-bit index keeps the low 16 bits *)
Definition tri_bytes (w : nat) (t : tri) : list Z := let '(a, b, c) := t in le_bytes w a ++ le_bytes w b ++ le_bytes w c.
Definition triangle_indices (m : mesh) (j : Z) : tri :=
  let w := istride (fmt m) in
  let l := peek (Z.to_nat (j * 3 * Z.of_nat w)) (3 * w) (idata m) in
  (le_value (peek 0 w l), le_value (peek w w l), le_value (peek (2 * w) w l)).
(** SetTriangleIndices: mutable_mesh.h 199-206 *)
Definition set_triangle_indices (m : mesh) (j : Z) (t : tri) : mesh :=
  let w := istride (fmt m) in
  Mesh (fmt m) (vdata m) (poke (Z.to_nat (j * 3 * Z.of_nat w)) (tri_bytes w t) (idata m)) (vcount m) (tcount m).
(** AppendTriangleIndices: 178-182 *)
Definition append_triangle_indices (m : mesh) (t : tri) : mesh :=
  let m' := Mesh (fmt m) (vdata m) (resize (length (idata m) + 3 * istride (fmt m)) (idata m)) (vcount m) (u32 (tcount m + 1)) in
  set_triangle_indices m' (u32 (tcount m' - 1)) t.
(** InsertTriangleIndices: 214-222 *)
Definition insert_triangle_indices (m : mesh) (j : Z) (t : tri) : mesh :=
  let w := istride (fmt m) in
  let o := Z.to_nat (3 * Z.of_nat w * j) in
  set_triangle_indices (Mesh (fmt m) (vdata m) (firstn o (idata m) ++ repeat 0 (3 * w) ++ skipn o (idata m)) (vcount m) (u32 (tcount m + 1))) j t.
(** Resize: 239-244 *)
Definition resize_mesh (m : mesh) (nv nt : Z) : mesh :=
  Mesh (fmt m) (resize (Z.to_nat (nv * Z.of_nat (ustride (fmt m)))) (vdata m)) (resize (Z.to_nat (nt * 3 * Z.of_nat (istride (fmt m)))) (idata m)) nv nt.
(** ValidateTriangles: mutable_mesh.cc 126-145: None for OK, otherwise the index of the first bad triangle and whether it
    refers to a missing vertex (rather than to the same vertex twice) *)
Fixpoint validate_from (m : mesh) (n : nat) (i : Z) : option (Z * bool) :=
  match n with
  | O => None
  | S n =>
      let '(a, b, c) := triangle_indices m i in
      if (vcount m <=? a) || (vcount m <=? b) || (vcount m <=? c) then Some (i, true)
      else if Z.eqb a b || Z.eqb a c || Z.eqb b c then Some (i, false)
      else validate_from m n (i + 1)
  end.
Definition validate_triangles (m : mesh) : option (Z * bool) := validate_from m (Z.to_nat (tcount m)) 0.
(** GetTriangle: mutable_mesh.h 257-259, 321-326 *)
Definition get_triangle (m : mesh) (j : Z) : point * point * point :=
  let '(a, b, c) := triangle_indices m j in (vertex_position m a, vertex_position m b, vertex_position m c).
