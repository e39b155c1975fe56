(** What a PartitionedMesh should do, in terms of the lists given to it. *)
From Coq Require Import ZArith Permutation List.
From Verif Require Import NumModel GeomModel MeshFormatModel RTreeSpec PartitionedMeshModel.
Import ListNotations.
Local Open Scope Z_scope.

Section Spec.
Context {N : num} {M : Type}.
Variable MO : mesh_ops N M.
(** the documented conditions on one group: partitioned_mesh.h 160-167 *)
Record good_group (g : group M) : Prop := {
  same_format : forall m m', In m (g_meshes g) -> In m' (g_meshes g) -> m_format MO m = m_format MO m';
  not_empty : forall m, In m (g_meshes g) -> m_tcount MO m <> 0;
  outlines_good : forall o, In o (g_outlines g) -> o <> [] /\
    forall mi vi, In (mi, vi) o -> exists m, nth_error (g_meshes g) (Z.to_nat mi) = Some m /\ vi < m_vcount MO m }.
Definition mesh_total (gs : list (group M)) : Z := Z.of_nat (length (flat_map g_meshes gs)).
(** the formats come from MeshFormat::Create *)
Definition formats_made (ms : list M) : Prop := forall m, In m ms -> exists l i, create l i = Some (m_format MO m).
(** a group reads as it was given *)
Record reads_as (p : pmesh M) (i : Z) (g : group M) : Prop := {
  reads_meshes : render_group_meshes p i = Some (g_meshes g);
  reads_format : forall m, In m (g_meshes g) -> render_group_format p i = Some (m_format MO m);
  reads_no_format : g_meshes g = [] -> render_group_format p i = Some default_format;
  reads_count : outline_count p i = Some (Z.of_nat (length (g_outlines g)));
  reads_outline : forall j, 0 <= j < 2 ^ 32 -> outline p i j = nth_error (g_outlines g) (Z.to_nat j);
  reads_vertices : forall j o, 0 <= j -> nth_error (g_outlines g) (Z.to_nat j) = Some o -> Z.of_nat (length o) < 2 ^ 32 ->
    outline_vertex_count p i j = Some (Z.of_nat (length o)) /\
    forall k, 0 <= k -> match nth_error o (Z.to_nat k) with
      | Some (mi, vi) => exists m, nth_error (g_meshes g) (Z.to_nat mi) = Some m /\ outline_position MO p i j k = m_position MO m vi
      | None => outline_position MO p i j k = None
      end }.
(** every triangle once, mesh by mesh *)
Definition all_pairs (ms : list M) : list (Z * Z) :=
  flat_map (fun km => map (fun t => (Z.of_nat (fst km), Z.of_nat t)) (seq 0 (Z.to_nat (m_tcount MO (snd km))))) (combine (seq 0 (length ms)) ms).
End Spec.

(** [run] calls its visitor on the members of [L], each once, in an order that does not depend on the visitor, and stops when
    the visitor says so *)


Definition visits_exactly {A} (run : forall St, (St -> A -> St * bool) -> St -> option St) (L : list A) : Prop :=
  exists order, Permutation order L /\ forall St (v : St -> A -> St * bool) s, exists s', run St v s = Some s' /\ visits v order s s'.
