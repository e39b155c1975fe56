(** The geometry of an extruded stroke as far as saving, reverting and clearing go:
    /repo/ink/strokes/internal/brush_tip_extruder/geometry.h 36-140, 585-700 and geometry.cc.

    What the triangulation decides to do is not modelled: it is an arbitrary sequence of the operations below, which are
    all the places where geometry.cc changes the mesh, the per-vertex arrays, the index lists and discontinuities of the
    two sides, the metadata of the last extrusion break and the save point (see [op]).

    Simplified: the mesh is a list of vertices and a list of triangles (MutableMeshView and MutableMesh are in MeshViewModel
    and MutableMeshModel); counts are natural numbers; a mesh is always present; first_mutated_left_index_,
    first_mutated_right_index_ and envelope_of_removed_geometry_ are left out.  [None]: a CHECK fails, or memory outside
    an array would be accessed. *)
From Coq Require Import Arith Bool List.
Import ListNotations.

Section Geometry.
(** A vertex is what the extrusion put ([core]) with what DerivativeCalculator computes afterwards ([shade]: the two
    derivatives and the margin of the side label).  [J]: IndexOffsetRange.  [R]: the other members of Side that are
    copied whole: partition_start without the two offsets below, first_simplifiable_index_offset, intersection,
    last_simplified_vertex_positions. *)
Variables (core shade T J R : Type).
Notation vertex := (core * shade)%type.
(** zeroed vertices and triangles of MutableMesh::Resize *)
Variables (zero_vertex : core * shade) (zero_triangle : T).
(** [R] after SetExtrusionBreakPartitionOnSide: geometry.cc 365-380; from the number of triangles and of adjacent indices *)
Variable fresh : nat -> nat -> R.
Variable empty_disc : J.

(** side.h: indices, intersection_discontinuities, partition_start.adjacent_first_index_offset and
    .opposite_first_index_offset, vertex_buffer, next_buffered_vertex_offset *)
Record side := Side { indices : list nat; discs : list J; adjacent_first : nat; opposite_first : nat; buffer : list vertex; next_buffered : nat; rest : R }.
(** GeometryLastExtrusionBreakMetadata: geometry.h 44-63 *)
Record side_info := SideInfo { index_count : nat; disc_count : nat }.
Record metadata := Metadata { break_count : nat; vertex_count : nat; triangle_count : nat; left_info : side_info; right_info : side_info }.
(** GeometrySavePointState: 67-131.  The hash maps are association lists. *)
Record side_state := SideState { n_indices : nat; n_discs : nat; saved_indices : list nat; saved_discs : list J;
  saved_adjacent_first : nat; saved_opposite_first : nat; saved_buffer : list vertex; saved_next_buffered : nat; saved_rest : R }.
Record save_point := SavePoint { is_active : bool; contains_all : bool; n_mesh_vertices : nat; n_mesh_triangles : nat;
  saved_ids : list bool; saved_offsets : list nat; saved_vertices : list (nat * vertex); saved_triangles : list (nat * T); saved_opposites : list (nat * nat);
  left_state : side_state; right_state : side_state; saved_break : metadata }.
(** [ids]: vertex_side_ids_, true for the left side; [offsets]: side_offsets_; [opposites]: opposite_side_offsets_;
    [mutated_left], [mutated_right]: first_mutated_..._index_offset_in_current_partition_ *)
Record geometry := Geometry { vertices : list vertex; triangles : list T; ids : list bool; offsets : list nat; opposites : list nat;
  left : side; right : side; last_break : metadata; save : save_point; mutated_left : nat; mutated_right : nat }.

(** std::vector::resize *)
Definition resize {A} (z : A) (n : nat) (l : list A) : list A := firstn n l ++ repeat z (n - length l).
(** assignment to an existing element *)
Definition write {A} (i : nat) (x : A) (l : list A) : option (list A) :=
  if i <? length l then Some (firstn i l ++ x :: skipn (S i) l) else None.
(** flat_hash_map::emplace: does nothing if the key is there *)
Fixpoint lookup {A} (k : nat) (m : list (nat * A)) : option A :=
  match m with [] => None | (j, x) :: m => if j =? k then Some x else lookup k m end.
Definition emplace {A} (k : nat) (x : A) (m : list (nat * A)) : list (nat * A) :=
  match lookup k m with Some _ => m | None => (k, x) :: m end.
(** std::copy of [l] onto the end of [m]; writes before the start of [m] if [l] is longer *)
Definition copy_to_end {A} (l m : list A) : option (list A) :=
  if length l <=? length m then Some (firstn (length m - length l) m ++ l) else None.
(** std::copy of the elements from [i] up to [j] *)
Definition slice {A} (i j : nat) (l : list A) : option (list A) :=
  if (i <=? j) && (j <=? length l) then Some (firstn (j - i) (skipn i l)) else None.

Definition with_mesh (g : geometry) vs ts := Geometry vs ts (ids g) (offsets g) (opposites g) (left g) (right g) (last_break g) (save g) (mutated_left g) (mutated_right g).
Definition with_save (g : geometry) s := Geometry (vertices g) (triangles g) (ids g) (offsets g) (opposites g) (left g) (right g) (last_break g) s (mutated_left g) (mutated_right g).
Definition with_sides (g : geometry) l r := Geometry (vertices g) (triangles g) (ids g) (offsets g) (opposites g) l r (last_break g) (save g) (mutated_left g) (mutated_right g).
Definition with_saved_vertices (s : save_point) m := SavePoint (is_active s) (contains_all s) (n_mesh_vertices s) (n_mesh_triangles s) (saved_ids s) (saved_offsets s) m (saved_triangles s) (saved_opposites s) (left_state s) (right_state s) (saved_break s).
Definition with_saved_triangles (s : save_point) m := SavePoint (is_active s) (contains_all s) (n_mesh_vertices s) (n_mesh_triangles s) (saved_ids s) (saved_offsets s) (saved_vertices s) m (saved_opposites s) (left_state s) (right_state s) (saved_break s).
Definition with_saved_opposites (s : save_point) m := SavePoint (is_active s) (contains_all s) (n_mesh_vertices s) (n_mesh_triangles s) (saved_ids s) (saved_offsets s) (saved_vertices s) (saved_triangles s) m (left_state s) (right_state s) (saved_break s).

(** SetSavePoint: geometry.cc 82-130 *)
Definition set_side_state (s : side) : side_state :=
  SideState (length (indices s)) (length (discs s)) [] [] (adjacent_first s) (opposite_first s) (buffer s) (next_buffered s) (rest s).
Definition trim_buffer (s : side) : side :=
  match buffer s with
  | _ :: _ :: _ => Side (indices s) (discs s) (adjacent_first s) (opposite_first s) [last (buffer s) zero_vertex] 1 (rest s)
  | _ => s
  end.
Definition set_save_point (g : geometry) : geometry :=
  with_save (with_sides g (trim_buffer (left g)) (trim_buffer (right g)))
    (SavePoint true false (length (vertices g)) (length (triangles g)) [] [] [] [] [] (set_side_state (left g)) (set_side_state (right g)) (last_break g)).

(** SetVertex: 2956-2975; reads vertex_side_ids_[index] *)
Definition set_vertex (g : geometry) (i : nat) (v : vertex) (update_save_state : bool) : option geometry :=
  match nth_error (vertices g) i, write i v (vertices g), nth_error (ids g) i with
  | Some old, Some vs, Some _ =>
      let s := save g in
      let s := if update_save_state && is_active s && (i <? n_mesh_vertices s) then with_saved_vertices s (emplace i old (saved_vertices s)) else s in
      Some (with_save (with_mesh g vs (triangles g)) s)
  | _, _, _ => None
  end.
(** SetTriangleIndices: 2977-2987 *)
Definition save_triangle (s : save_point) (j : nat) (t : T) : save_point :=
  if is_active s && (j <? n_mesh_triangles s) then with_saved_triangles s (emplace j t (saved_triangles s)) else s.
Definition set_triangle (g : geometry) (j : nat) (t : T) (update_save_state : bool) : option geometry :=
  match nth_error (triangles g) j, write j t (triangles g) with
  | Some old, Some ts => Some (with_save (with_mesh g (vertices g) ts) (if update_save_state then save_triangle (save g) j old else save g))
  | _, _ => None
  end.
(** UpdateOppositeSideOffset: 2989-2999 *)
Definition set_opposite (g : geometry) (i o : nat) (update_save_state : bool) : option geometry :=
  match nth_error (opposites g) i, write i o (opposites g) with
  | Some old, Some os =>
      if old =? o then Some g
      else
        let s := save g in
        let s := if update_save_state && is_active s && (i <? n_mesh_vertices s) then with_saved_opposites s (emplace i old (saved_opposites s)) else s in
        Some (Geometry (vertices g) (triangles g) (ids g) (offsets g) os (left g) (right g) (last_break g) s (mutated_left g) (mutated_right g))
  | _, _ => None
  end.
(** AppendVertexToMesh: 818-832 *)
Definition push_index (s : side) (i : nat) : side := Side (indices s ++ [i]) (discs s) (adjacent_first s) (opposite_first s) (buffer s) (next_buffered s) (rest s).
Definition append_vertex (g : geometry) (to_left : bool) (v : vertex) : geometry :=
  let s := if to_left then left g else right g in
  let o := if to_left then right g else left g in
  let n := length (indices o) in
  let partition_offset := Nat.max (opposite_first s) (adjacent_first o) in
  let s' := push_index s (length (vertices g)) in
  Geometry (vertices g ++ [v]) (triangles g) (ids g ++ [to_left]) (offsets g ++ [length (indices s)])
    (opposites g ++ [if partition_offset <? n then n - 1 else partition_offset])
    (if to_left then s' else left g) (if to_left then right g else s') (last_break g) (save g) (mutated_left g) (mutated_right g).
(** the loop and insertion in retriangulation: 1242-1286.  From the last triangle down to [k] each is saved and then perhaps
    replaced ([change]) without saving; then one is inserted at [k]. *)
Fixpoint retriangulate_from (g : geometry) (k n : nat) (change : nat -> T -> T) : option geometry :=
  match n with
  | O => Some g
  | S n =>
      match nth_error (triangles g) (k + n) with
      | Some old =>
          match set_triangle (with_save g (save_triangle (save g) (k + n) old)) (k + n) (change (k + n) old) false with
          | Some g' => retriangulate_from g' k n change
          | None => None
          end
      | None => None
      end
  end.
Definition retriangulate (g : geometry) (k : nat) (change : nat -> T -> T) (t : T) : option geometry :=
  match retriangulate_from g k (length (triangles g) - k) change with
  | Some g' => if k <=? length (triangles g') then Some (with_mesh g' (vertices g') (firstn k (triangles g') ++ t :: skipn k (triangles g'))) else None
  | None => None
  end.
(** SetExtrusionBreakPartitionOnSide: 365-380 *)
Definition break_side (s : side) (first_triangle opposite_count : nat) : side :=
  Side (indices s) (discs s) (length (indices s)) opposite_count [] 0 (fresh first_triangle (length (indices s))).
(** AddExtrusionBreak: 388-433.  The one or two SetVertex calls at its start are separate operations. *)
Definition info_of (s : side) : side_info := SideInfo (length (indices s)) (length (discs s)).
Definition add_break (g : geometry) : geometry :=
  let n := length (triangles g) in
  let l := break_side (left g) n (length (indices (right g))) in
  let r := break_side (right g) n (length (indices l)) in
  Geometry (vertices g) (triangles g) (ids g) (offsets g) (opposites g) l r
    (Metadata (break_count (last_break g) + 1) (length (vertices g)) n (info_of l) (info_of r)) (save g) (length (indices l)) (length (indices r)).
(** CaptureGeometrySinceLastExtrusionBreak: 448-501 *)
Fixpoint emplace_from {A} (i n : nat) (l : list A) (m : list (nat * A)) : option (list (nat * A)) :=
  match n with
  | O => Some m
  | S n => match nth_error l i with Some x => emplace_from (S i) n l (emplace i x m) | None => None end
  end.
Definition capture_side (s : side) (b : side_info) (st : side_state) : option side_state :=
  if index_count b <=? n_indices st then
    match slice (index_count b) (n_indices st) (indices s), slice (disc_count b) (n_discs st) (discs s) with
    | Some is, Some ds =>
        Some (SideState (n_indices st) (n_discs st) (saved_indices st ++ is) (saved_discs st ++ ds) (saved_adjacent_first st) (saved_opposite_first st) (saved_buffer st) (saved_next_buffered st) (saved_rest st))
    | _, _ => None
    end
  else None.
Definition capture (g : geometry) : option save_point :=
  let s := save g in let b := last_break g in
  let nv := n_mesh_vertices s in let nt := n_mesh_triangles s in
  if (vertex_count b <=? nv) && (triangle_count b <=? nt) then
    match slice (vertex_count b) nv (ids g), slice (vertex_count b) nv (offsets g),
          emplace_from (triangle_count b) (nt - triangle_count b) (triangles g) (saved_triangles s),
          emplace_from (vertex_count b) (nv - vertex_count b) (vertices g) (saved_vertices s),
          emplace_from (vertex_count b) (nv - vertex_count b) (opposites g) (saved_opposites s),
          capture_side (left g) (left_info b) (left_state s), capture_side (right g) (right_info b) (right_state s) with
    | Some si, Some so, Some st, Some sv, Some sp, Some ls, Some rs =>
        Some (SavePoint (is_active s) true nv nt (saved_ids s ++ si) (saved_offsets s ++ so) sv st sp ls rs (saved_break s))
    | _, _, _, _, _, _, _ => None
    end
  else None.
(** ClearSinceLastExtrusionBreak: 505-561 *)
Definition cut_side (b : side_info) (s : side) : side :=
  Side (resize 0 (index_count b) (indices s)) (resize empty_disc (disc_count b) (discs s)) (adjacent_first s) (opposite_first s) (buffer s) (next_buffered s) (rest s).
Definition clear (g : geometry) : option geometry :=
  let b := last_break g in
  if length (vertices g) =? vertex_count b then Some g
  else
    match (if is_active (save g) && negb (contains_all (save g)) && (triangle_count b <=? n_mesh_triangles (save g)) then capture g else Some (save g)) with
    | None => None
    | Some s =>
        let l := cut_side (left_info b) (left g) in
        let r := cut_side (right_info b) (right g) in
        let vs := resize zero_vertex (vertex_count b) (vertices g) in
        let ts := resize zero_triangle (triangle_count b) (triangles g) in
        let l' := break_side l (length ts) (length (indices r)) in
        let r' := break_side r (length ts) (length (indices l')) in
        Some (Geometry vs ts (resize true (vertex_count b) (ids g)) (resize 0 (vertex_count b) (offsets g)) (resize 0 (vertex_count b) (opposites g))
          l' r' b s (Nat.min (mutated_left g) (length (indices l))) (Nat.min (mutated_right g) (length (indices r))))
    end.
(** The other places: mesh_.AppendTriangleIndices (843, 1303, 2353), intersection_discontinuities.push_back (2140), the
    members of Side that are copied whole, and UpdateMeshDerivatives (577-620) by way of DerivativeCalculator. *)
Definition push_disc (s : side) (d : J) : side := Side (indices s) (discs s ++ [d]) (adjacent_first s) (opposite_first s) (buffer s) (next_buffered s) (rest s).
Definition write_side (s : side) (a o : nat) (b : list vertex) (n : nat) (r : R) : side := Side (indices s) (discs s) a o b n r.
Definition reshade (g : geometry) (i : nat) (d : shade) : option geometry :=
  match nth_error (vertices g) i with
  | Some (c, _) => match write i (c, d) (vertices g) with Some vs => Some (with_mesh g vs (triangles g)) | None => None end
  | None => None
  end.

(** ResetMutationTracking: 277-286 *)
Definition reset_tracking (g : geometry) : geometry :=
  Geometry (vertices g) (triangles g) (ids g) (offsets g) (opposites g) (left g) (right g) (last_break g) (save g) (length (indices (left g))) (length (indices (right g))).

Inductive op :=
  | AppendVertex (to_left : bool) (v : vertex)
  | AppendTriangle (t : T)
  | SetVertex (i : nat) (v : vertex)
  | SetTriangle (j : nat) (t : T)
  | Retriangulate (k : nat) (change : nat -> T -> T) (t : T)
  | SetOpposite (i o : nat)
  | PushDisc (to_left : bool) (d : J)
  | WriteSide (to_left : bool) (a o : nat) (b : list vertex) (n : nat) (r : R)
  | Reshade (i : nat) (d : shade)
  | AddBreak
  | Clear
  | ResetTracking.
Definition step (g : geometry) (o : op) : option geometry :=
  match o with
  | AppendVertex b v => Some (append_vertex g b v)
  | AppendTriangle t => Some (with_mesh g (vertices g) (triangles g ++ [t]))
  | SetVertex i v => set_vertex g i v true
  | SetTriangle j t => set_triangle g j t true
  | Retriangulate k f t => retriangulate g k f t
  | SetOpposite i n => set_opposite g i n true
  | PushDisc b d => Some (if b then with_sides g (push_disc (left g) d) (right g) else with_sides g (left g) (push_disc (right g) d))
  | WriteSide b a n f x r => Some (if b then with_sides g (write_side (left g) a n f x r) (right g) else with_sides g (left g) (write_side (right g) a n f x r))
  | Reshade i d => reshade g i d
  | AddBreak => Some (add_break g)
  | Clear => clear g
  | ResetTracking => Some (reset_tracking g)
  end.
Fixpoint run (g : geometry) (os : list op) : option geometry :=
  match os with [] => Some g | o :: os => match step g o with Some g' => run g' os | None => None end end.

(** RevertToSavePoint: 191-265.  [sv], [st], [so]: the three hash maps in the order in which they happen to be walked. *)
Fixpoint all {A} (f : geometry -> nat -> A -> option geometry) (g : geometry) (m : list (nat * A)) : option geometry :=
  match m with [] => Some g | (k, x) :: m => match f g k x with Some g' => all f g' m | None => None end end.
Definition revert_side (s : side) (mutated : nat) (st : side_state) : option (side * nat) :=
  match copy_to_end (saved_indices st) (resize 0 (n_indices st) (indices s)), copy_to_end (saved_discs st) (resize empty_disc (n_discs st) (discs s)) with
  | Some is, Some ds =>
      Some (Side is ds (saved_adjacent_first st) (saved_opposite_first st) (saved_buffer st) (saved_next_buffered st) (saved_rest st),
            Nat.min mutated (n_indices st - length (saved_indices st)))
  | _, _ => None
  end.
(** what std::swap leaves in the save point is not kept: it is not active any more *)
Definition revert (g : geometry) (sv : list (nat * vertex)) (st : list (nat * T)) (so : list (nat * nat)) : option geometry :=
  let s := save g in
  if negb (is_active s) then Some g
  else
    let nv := n_mesh_vertices s in
    let g1 := Geometry (resize zero_vertex nv (vertices g)) (resize zero_triangle (n_mesh_triangles s) (triangles g))
                (resize true nv (ids g)) (resize 0 nv (offsets g)) (resize 0 nv (opposites g)) (left g) (right g) (last_break g) s (mutated_left g) (mutated_right g) in
    match all (fun g k v => set_vertex g k v false) g1 sv with
    | Some g2 =>
        match all (fun g k t => set_triangle g k t false) g2 st with
        | Some g3 =>
            match all (fun g k n => set_opposite g k n false) g3 so with
            | Some g4 =>
                match copy_to_end (saved_ids s) (ids g4), copy_to_end (saved_offsets s) (offsets g4),
                      revert_side (left g4) (mutated_left g4) (left_state s), revert_side (right g4) (mutated_right g4) (right_state s) with
                | Some is, Some os, Some (l, ml), Some (r, mr) =>
                    Some (Geometry (vertices g4) (triangles g4) is os (opposites g4) l r (saved_break s)
                      (SavePoint false (contains_all s) nv (n_mesh_triangles s) (saved_ids s) (saved_offsets s) (saved_vertices s) (saved_triangles s) (saved_opposites s) (left_state s) (right_state s) (saved_break s)) ml mr)
                | _, _, _, _ => None
                end
            | None => None
            end
        | None => None
        end
    | None => None
    end.
(** Reset: 696-709; [r]: the other members of a new Side *)
Definition new_side (r : R) : side := Side [] [] 0 0 [] 0 r.
Definition no_break : metadata := Metadata 0 0 0 (SideInfo 0 0) (SideInfo 0 0).
Definition new_geometry (r : R) : geometry :=
  let s := new_side r in
  Geometry [] [] [] [] [] s s no_break (SavePoint false false 0 0 [] [] [] [] [] (set_side_state s) (set_side_state s) no_break) 0 0.
End Geometry.

Arguments Side {core shade J R}. Arguments indices {core shade J R}. Arguments discs {core shade J R}. Arguments adjacent_first {core shade J R}. Arguments opposite_first {core shade J R}.
Arguments buffer {core shade J R}. Arguments next_buffered {core shade J R}. Arguments rest {core shade J R}.
Arguments SideState {core shade J R}. Arguments n_indices {core shade J R}. Arguments n_discs {core shade J R}. Arguments saved_indices {core shade J R}. Arguments saved_discs {core shade J R}.
Arguments saved_adjacent_first {core shade J R}. Arguments saved_opposite_first {core shade J R}. Arguments saved_buffer {core shade J R}. Arguments saved_next_buffered {core shade J R}. Arguments saved_rest {core shade J R}.
Arguments SavePoint {core shade T J R}. Arguments is_active {core shade T J R}. Arguments contains_all {core shade T J R}. Arguments n_mesh_vertices {core shade T J R}. Arguments n_mesh_triangles {core shade T J R}.
Arguments saved_ids {core shade T J R}. Arguments saved_offsets {core shade T J R}. Arguments saved_vertices {core shade T J R}. Arguments saved_triangles {core shade T J R}. Arguments saved_opposites {core shade T J R}.
Arguments left_state {core shade T J R}. Arguments right_state {core shade T J R}. Arguments saved_break {core shade T J R}.
Arguments Geometry {core shade T J R}. Arguments vertices {core shade T J R}. Arguments triangles {core shade T J R}. Arguments ids {core shade T J R}. Arguments offsets {core shade T J R}. Arguments opposites {core shade T J R}.
Arguments left {core shade T J R}. Arguments right {core shade T J R}. Arguments last_break {core shade T J R}. Arguments save {core shade T J R}. Arguments mutated_left {core shade T J R}. Arguments mutated_right {core shade T J R}.
Arguments with_mesh {core shade T J R}. Arguments with_save {core shade T J R}. Arguments with_sides {core shade T J R}. Arguments with_saved_vertices {core shade T J R}. Arguments with_saved_triangles {core shade T J R}. Arguments with_saved_opposites {core shade T J R}.
Arguments set_side_state {core shade J R}. Arguments trim_buffer {core shade J R}. Arguments set_save_point {core shade T J R}. Arguments set_vertex {core shade T J R}. Arguments save_triangle {core shade T J R}. Arguments set_triangle {core shade T J R}. Arguments set_opposite {core shade T J R}.
Arguments push_index {core shade J R}. Arguments append_vertex {core shade T J R}. Arguments retriangulate_from {core shade T J R}. Arguments retriangulate {core shade T J R}. Arguments break_side {core shade J R}. Arguments info_of {core shade J R}. Arguments add_break {core shade T J R}.
Arguments capture_side {core shade J R}. Arguments capture {core shade T J R}. Arguments cut_side {core shade J R}. Arguments clear {core shade T J R}. Arguments push_disc {core shade J R}. Arguments write_side {core shade J R}. Arguments reshade {core shade T J R}.
Arguments AppendVertex {core shade T J R}. Arguments AppendTriangle {core shade T J R}. Arguments SetVertex {core shade T J R}. Arguments SetTriangle {core shade T J R}. Arguments Retriangulate {core shade T J R}. Arguments SetOpposite {core shade T J R}.
Arguments PushDisc {core shade T J R}. Arguments WriteSide {core shade T J R}. Arguments Reshade {core shade T J R}. Arguments AddBreak {core shade T J R}. Arguments Clear {core shade T J R}. Arguments ResetTracking {core shade T J R}.
Arguments step {core shade T J R}. Arguments run {core shade T J R}. Arguments all {core shade T J R A}. Arguments revert_side {core shade J R}. Arguments revert {core shade T J R}. Arguments reset_tracking {core shade T J R}. Arguments new_side {core shade J R}. Arguments new_geometry {core shade T J R}.
