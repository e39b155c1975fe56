(** MutableMeshView over a MutableMesh: /repo/ink/strokes/internal/brush_tip_extruder/mutable_mesh_view.h 38-130 and mutable_mesh_view.cc
    38-281; ConstructUpdate and ExtendStroke's use of it: brush_tip_extruder.cc 77-135; StrokeShapeUpdate::Add: stroke_shape_update.cc 24-42.
    The mesh is the one of MutableMeshModel, down to its bytes.  The second kind of view, over the vectors of LegacyVertex, is not modelled.
    The region of an update is not modelled here. *)
From Coq Require Import ZArith Bool List.
From Verif Require Import F32 MeshFormatModel PartitionModel MutableMeshModel StrokeVertexModel.
Import ListNotations.
Local Open Scope Z_scope.

(** mutable_mesh_view.h 138-141 *)
Record view := View { vmesh : mesh; first_mutated_vertex : Z; first_mutated_triangle : Z }.

(** ResetMutationTracking: mutable_mesh_view.cc 278-281 *)
Definition reset_mutation_tracking (v : view) : view := View (vmesh v) (vcount (vmesh v)) (tcount (vmesh v)).
(** the constructor: 38-42 *)
Definition new_view (m : mesh) : view := reset_mutation_tracking (View m 0 0).

(** The calls that change the mesh.  A vertex is an ExtrudedVertex without its legacy part. *)
Inductive call :=
  | AppendVertex (x : stroke_vertex)
  | AppendTriangleIndices (t : tri)
  | SetVertex (i : Z) (x : stroke_vertex)
  | SetSideDerivative (i : Z) (d : point)
  | SetForwardDerivative (i : Z) (d : point)
  | SetSideLabel (i : Z) (l : label)
  | SetForwardLabel (i : Z) (l : label)
  | SetTriangleIndices (j : Z) (t : tri)
  | InsertTriangleIndices (j : Z) (t : tri)
  | Resize (nv nt : Z).

Definition is_u32 (z : Z) : bool := (0 <=? z) && (z <? 2 ^ 32).
(** every index can be written with the indices of the mesh; for 32-bit indices always so *)
Definition writable (m : mesh) (t : tri) : bool :=
  let limit := 256 ^ Z.of_nat (istride (fmt m)) in
  let '(a, b, c) := t in (0 <=? a) && (a <? limit) && (0 <=? b) && (b <? limit) && (0 <=? c) && (c <? limit).

Definition mutated_vertex (v : view) (m : mesh) (i : Z) : view := View m (Z.min (first_mutated_vertex v) i) (first_mutated_triangle v).
Definition mutated_triangle (v : view) (m : mesh) (j : Z) : view := View m (first_mutated_vertex v) (Z.min (first_mutated_triangle v) j).
Definition with_vertex (v : view) (i : Z) (r : view) : option view := if (0 <=? i) && (i <? vcount (vmesh v)) then Some r else None.

(** AppendVertex 159-169, AppendTriangleIndices 171-180, SetVertex 182-193, SetSideDerivative 195-202, SetForwardDerivative 204-211,
    SetSideLabel 213-221, SetForwardLabel 223-231, SetTriangleIndices 233-246, InsertTriangleIndices 248-260, Resize 262-276.
    [None]: a CHECK fails, or a count or an index does not fit its type. *)
Definition step (v : view) (c : call) : option view :=
  let m := vmesh v in
  match c with
  | AppendVertex x => if vcount m + 1 <? 2 ^ 32 then Some (View (append_to_mesh m x) (first_mutated_vertex v) (first_mutated_triangle v)) else None
  | AppendTriangleIndices t =>
      if (tcount m + 1 <? 2 ^ 32) && writable m t then Some (View (append_triangle_indices m t) (first_mutated_vertex v) (first_mutated_triangle v)) else None
  | SetVertex i x => with_vertex v i (mutated_vertex v (set_in_mesh m i x) i)
  | SetSideDerivative i d => with_vertex v i (mutated_vertex v (set_side_derivative m i d) i)
  | SetForwardDerivative i d => with_vertex v i (mutated_vertex v (set_forward_derivative m i d) i)
  | SetSideLabel i l => with_vertex v i (mutated_vertex v (set_side_label m i l) i)
  | SetForwardLabel i l => with_vertex v i (mutated_vertex v (set_forward_label m i l) i)
  | SetTriangleIndices j t =>
      if (0 <=? j) && (j <? tcount m) && writable m t then Some (mutated_triangle v (set_triangle_indices m j t) j) else None
  | InsertTriangleIndices j t =>
      if (0 <=? j) && (j <=? tcount m) && (tcount m + 1 <? 2 ^ 32) && writable m t then Some (mutated_triangle v (insert_triangle_indices m j t) j) else None
  | Resize nv nt =>
      if is_u32 nv && is_u32 nt then Some (View (resize_mesh m nv nt) (Z.min (first_mutated_vertex v) nv) (Z.min (first_mutated_triangle v) nt)) else None
  end.
Fixpoint run (v : view) (cs : list call) : option view :=
  match cs with
  | [] => Some v
  | c :: cs => match step v c with Some v' => run v' cs | None => None end
  end.

(** StrokeShapeUpdate without its region: stroke_shape_update.h *)
Record update := Update { first_index_offset : option Z; first_vertex_offset : option Z }.
(** ConstructUpdate: brush_tip_extruder.cc 79-97; the product is in uint32_t *)
Definition construct_update (v : view) (triangle_count_before vertex_count_before : Z) : update :=
  let m := vmesh v in
  Update
    (if negb (first_mutated_triangle v =? tcount m) || negb (tcount m =? triangle_count_before) then Some (u32 (3 * first_mutated_triangle v)) else None)
    (if negb (first_mutated_vertex v =? vcount m) || negb (vcount m =? vertex_count_before) then Some (first_mutated_vertex v) else None).
(** ExtendStroke: 101-135, where the calls made by the extruder are given *)
Definition extend (v : view) (cs : list call) : option (view * update) :=
  let v := reset_mutation_tracking v in
  match run v cs with
  | Some v' => Some (v', construct_update v' (tcount (vmesh v)) (vcount (vmesh v)))
  | None => None
  end.
(** GetMinValue, StrokeShapeUpdate::Add: stroke_shape_update.cc 24-42 *)
Definition get_min_value (a b : option Z) : option Z :=
  match a, b with
  | None, _ => b
  | _, None => a
  | Some x, Some y => Some (Z.min x y)
  end.
Definition add (u o : update) : update :=
  Update (get_min_value (first_index_offset u) (first_index_offset o)) (get_min_value (first_vertex_offset u) (first_vertex_offset o)).
Definition no_update : update := Update None None.
(** Several calls of ExtendStroke, the updates added up, for a renderer that refreshes its buffers less often *)
Fixpoint extends (v : view) (u : update) (css : list (list call)) : option (view * update) :=
  match css with
  | [] => Some (v, u)
  | cs :: css => match extend v cs with Some (v', u') => extends v' (add u u') css | None => None end
  end.
