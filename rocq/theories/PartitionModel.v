(** PartitionTriangles: /repo/ink/geometry/internal/mesh_packing.cc 786-839, on the triangles already read from the bytes.
    The flat_hash_map is modelled as an association list; reserve has no effect. *)
From Coq Require Import ZArith Bool List.
Import ListNotations.
Local Open Scope Z_scope.

Definition tri := (Z * Z * Z)%type.
Definition corners (t : tri) : list Z := let '(a, b, c) := t in [a; b; c].
(** PartitionInfo: mesh_packing.h 165-171 *)
Record part := Part { vertex_indices : list Z; triangles : list tri }.
Definition no_part : part := Part [] [].
(** mesh_idx_to_partition_idx *)
Definition index_map := list (Z * Z).
Definition lookup (k : Z) (m : index_map) : option Z := option_map snd (find (fun e => Z.eqb (fst e) k) m).
Definition contains (k : Z) (m : index_map) : bool := match lookup k m with Some _ => true | None => false end.
Definition size (l : list Z) : Z := Z.of_nat (length l).
(** The body of the inner loop: 826-833 *)
Definition place (k : Z) (vs : list Z) (m : index_map) : list Z * index_map * Z :=
  match lookup k m with
  | Some i => (vs, m, i)
  | None => (vs ++ [k], (k, size vs) :: m, size vs)
  end.
Definition add_triangle (t : tri) (p : part) (m : index_map) : part * index_map :=
  let '(a, b, c) := t in
  let '(vs1, m1, i) := place a (vertex_indices p) m in
  let '(vs2, m2, j) := place b vs1 m1 in
  let '(vs3, m3, k) := place c vs2 m2 in
  (Part vs3 (triangles p ++ [(i, j, k)]), m3).
(** The check of 809-823; the subtraction is in uint64_t *)
Definition count_new (t : tri) (m : index_map) : Z := Z.of_nat (length (filter (fun k => negb (contains k m)) (corners t))).
Definition needs_split (max : Z) (t : tri) (p : part) (m : index_map) : bool :=
  ((max - 3) mod 2 ^ 64 <? size (vertex_indices p)) && (max <? size (vertex_indices p) + count_new t m).
Fixpoint partition_loop (max : Z) (ts : list tri) (done : list part) (p : part) (m : index_map) : list part :=
  match ts with
  | [] => done ++ [p]
  | t :: ts =>
      if needs_split max t p m
      then let '(p', m') := add_triangle t no_part [] in partition_loop max ts (done ++ [p]) p' m'
      else let '(p', m') := add_triangle t p m in partition_loop max ts done p' m'
  end.
Definition partition_triangles (max : Z) (ts : list tri) : list part := partition_loop max ts [] no_part [].
