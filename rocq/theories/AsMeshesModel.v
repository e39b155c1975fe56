(** MutableMesh::AsMeshes with the correction of flipped triangles: /repo/ink/geometry/mutable_mesh.cc 690-781 ([as_meshes_with] in
    MeshModel) calling GetCorrectedPackedVertexPositions, 597-686 ([corrections] in FlipModel). *)
From Coq Require Import ZArith Bool List.
From Verif Require Import F32 NumModel GeomModel MeshFormatModel PackModel PartitionModel MutableMeshModel MeshModel FlipModel.
Import ListNotations.
Local Open Scope Z_scope.

(** The coding of a component, with the largest value of its bits as a float (CalculateQuantizationBounds, 330-345).  [E] stands
    for the elementary functions, which are not used. *)
Definition component_code (E : elem) (p : params) (b : nat) : comp (fnum E) := Comp (N := fnum E) (offset p) (scale p) (to_float (max_value (Z.of_nat b))).
Definition vertex_vec (E : elem) (m : mesh) (v : Z) : vec (fnum E) := let '(x, y) := vertex_position m v in V (N := fnum E) x y.
(** The number of steps is bounded by the number of triangles (C34_ends) *)
Definition correct (E : elem) (m : mesh) (ps : list params) : list (Z * point) :=
  match packed_bits (ty (attr_at (fmt m) (pos_index (fmt m)))), ps with
  | Some (bx :: by_ :: _), p :: q :: _ =>
      match corrections (Coding (component_code E p bx) (component_code E q by_)) (vertex_vec E m) (all_triangles m) true (length (all_triangles m)) with
      | Some l => map (fun e : Z * vec (fnum E) => (fst e, (vx (snd e) : f32, vy (snd e) : f32))) l
      | None => []
      end
  | _, _ => []
  end.
Definition as_meshes (E : elem) : mesh -> list (option (list params)) -> list nat -> outcome (list imesh) := as_meshes_with (correct E).
