(** Intersects with a PartitionedMesh: /repo/ink/geometry/intersects.cc 30-146.  The overloads with the arguments exchanged
    (intersects.h 62-64 and the like) call these.  [None] is a call that ends the process or reads outside an array. *)
From Coq Require Import ZArith Bool List.
From Verif Require Import NumModel GeomModel AffineModel PartitionedMeshModel.
Import ListNotations.

Section Model.
Context {N : num} {M : Type}.
Variable MO : mesh_ops N M.
Variable sort : (nat -> nat -> bool) -> list nat -> list nat.
(** the visitor of 52-55 and 105-108: remember that something was found, and stop *)
Definition found (_ : bool) (_ : ipair) : option (bool * bool) := Some (true, false).
(** CalculateCollapsedSegment(shape.Meshes(), *shape.Bounds().AsRect(), transform) *)
Definition collapse (p : pmesh M) (t : affine N) : option (segment N) :=
  match bounds MO p with None => None | Some b => collapsed_segment MO (meshes p) b t end.
(** IntersectsPartitionedMesh: 33-66 *)
Definition mesh_intersects (p : pmesh M) (t : affine N) (o : object N) : option bool :=
  match meshes p with
  | [] => Some false
  | _ =>
      match inverse t with
      | Some back => visit_object MO sort found p (apply_object back o) identity false
      | None => option_map (fun c => intersects (OSegment c) o) (collapse p t)
      end
  end.
(** TryOneWayPartitionedMeshToPartitionedMeshIntersects: 95-114; the outer [None] is std::nullopt *)
Definition one_way (l : pmesh M) (tl : affine N) (r : pmesh M) (tr : affine N) : option (option bool) :=
  match inverse tr with
  | None => None
  | Some back => Some (visit_mesh MO sort found r l (compose back tl) false)
  end.
(** Intersects(PartitionedMesh, AffineTransform, PartitionedMesh, AffineTransform): 118-144 *)
Definition meshes_intersect (p : pmesh M) (tp : affine N) (q : pmesh M) (tq : affine N) : option bool :=
  match meshes p, meshes q with
  | [], _ => Some false
  | _, [] => Some false
  | _, _ =>
      match one_way p tp q tq with
      | Some r => r
      | None =>
          match one_way q tq p tp with
          | Some r => r
          | None =>
              match collapse p tp, collapse q tq with
              | Some u, Some v => Some (intersects (OSegment u) (OSegment v))
              | _, _ => None
              end
          end
      end
  end.
End Model.
