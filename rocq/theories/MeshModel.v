(** Mesh: /repo/ink/geometry/mesh.h 47-300 and mesh.cc 40-230; MutableMesh::AsMeshes, FromMesh: mutable_mesh.cc 64-89, 149-206,
    690-781; CopyAndPackPartitionVertices: internal/mesh_packing.cc 951-1030.
    Sharing of the data between copies of a Mesh is not modelled (it is immutable).  Status messages are not modelled. *)
From Coq Require Import ZArith Bool Arith List.
From Verif Require Import F32 NumModel GeomModel BytesModel MeshFormatModel PackModel PartitionModel MutableMeshModel.
Import ListNotations.
Local Open Scope Z_scope.

(** Mesh::Data: mesh.h 217-225.  Bounds are (minimum, maximum) of each attribute. *)
Definition bounds := (list f32 * list f32)%type.
Record imesh := IMesh { iformat : format; coding : list (list params); ibounds : option (list bounds); ivdata : list Z; iidata : list Z; ivcount : Z; itcount : Z }.
(** Refused: an error status.  Undefined: a float-to-integer conversion without a meaning was made. *)
Inductive outcome (A : Type) := Refused | Undefined | Made (a : A).
Arguments Refused {A}. Arguments Undefined {A}. Arguments Made {A} a.
(** CreateMeshData: 258-276 *)
Definition make_mesh (f : format) (c : list (list params)) (b : option (list bounds)) (vd id : list Z) : imesh :=
  IMesh f c b vd id (u32 (Z.of_nat (length vd / pstride f))) (u32 (Z.of_nat (length id / 6))).

(** The bytes of a packed value *)
Definition packed_bytes (p : packed) : list Z := match p with PFloats l => floats_bytes l | PBytes l => l end.
Definition bytes_packed (t : atype) (l : list Z) : packed :=
  if is_unpacked t || is_packed_as_float t then PFloats (bytes_floats (packed_size t / 4) l) else PBytes l.
(** A sequence of writes to an array *)
Definition write_all (ws : list (nat * list Z)) (mem : list Z) : list Z := fold_left (fun mem w => poke (fst w) (snd w) mem) ws mem.
Fixpoint gather {A} (l : list (option A)) : option (list A) :=
  match l with
  | [] => Some []
  | Some a :: l => match gather l with Some r => Some (a :: r) | None => None end
  | None :: _ => None
  end.
(** The index data: mesh.cc 145-151 and mutable_mesh.cc 761-769 *)
Definition index_bytes (ts : list tri) : list Z :=
  write_all (map (fun x => (fst x * 6, tri_bytes 2 (snd x))%nat) (combine (seq 0 (length ts)) ts)) (repeat 0 (6 * length ts)).

(** ** Mesh::Create *)
(** The spans of each attribute *)
Fixpoint attr_spans (ts : list atype) (spans : list (list f32)) : list (list (list f32)) :=
  match ts with [] => [] | t :: ts => firstn (component_count t) spans :: attr_spans ts (skipn (component_count t) spans) end.
(** std::minmax_element: the first smallest and the last largest *)
Definition min_element (l : list f32) : f32 := match l with [] => f0 | x :: l => fold_left (fun m y => if flt y m then y else m) l x end.
Definition max_element (l : list f32) : f32 := match l with [] => f0 | x :: l => fold_left (fun m y => if flt y m then m else y) l x end.
(** ComputeAttributeBounds: mesh.cc 40-69 *)
Definition attribute_bounds (ts : list atype) (spans : list (list f32)) : option (list bounds) :=
  match nth 0 spans [] with
  | [] => None
  | _ => Some (map (fun ss => (map min_element ss, map max_element ss)) (attr_spans ts spans))
  end.
(** MakeCodingParamsArrayForEmptyMesh: 71-83 *)
Definition empty_coding (ts : list atype) : list (list params) := map (fun t => repeat (Params f0 f1) (component_count t)) ts.
(** PackVertexByteData: 203-230; [value i k] is attribute [k] of vertex [i] *)
Definition pack_writes (f : format) (c : list (list params)) (value : nat -> nat -> list f32) (n : nat) : option (list (nat * list Z)) :=
  gather (flat_map (fun i =>
    map (fun k => let a := attr_at f k in
           match pack_attribute (ty a) (nth k c []) (value i k) with
           | Some p => Some ((i * pstride f + poff a)%nat, packed_bytes p)
           | None => None
           end) (seq 0 (length (attrs f)))) (seq 0 n)).
Definition pack_vertex_data (f : format) (spans : list (list f32)) (c : list (list params)) : option (list Z) :=
  let n := length (nth 0 spans []) in
  let value i k := map (fun s => nth i s f0) (nth k (attr_spans (map ty (attrs f)) spans) []) in
  match pack_writes f c value n with Some ws => Some (write_all ws (repeat 0 (n * pstride f))) | None => None end.
Fixpoint triples (l : list Z) : list tri :=
  match l with a :: b :: c :: l => (a, b, c) :: triples l | _ => [] end.
(** Create: 87-160 *)
Definition create_mesh (f : format) (spans : list (list f32)) (idx : list Z) (custom : list (option (list params))) : outcome imesh :=
  let ts := map ty (attrs f) in
  let n := length (nth 0 spans []) in
  if negb (Nat.eqb (fold_right Nat.add 0%nat (map component_count ts)) (length spans)) then Refused
  else if 65536 <? Z.of_nat n then Refused
  else if negb (forallb (fun s => Nat.eqb (length s) n) (tl spans)) then Refused
  else if negb (forallb (forallb fisfinite) spans) then Refused
  else if negb (Nat.eqb (length idx mod 3) 0) then Refused
  else if negb (forallb (fun i => i <? Z.of_nat n) idx) then Refused
  else
    let b := attribute_bounds ts spans in
    match (match b with Some b => compute_coding_array ts b custom | None => Some (empty_coding ts) end) with
    | None => Refused
    | Some c =>
        match pack_vertex_data f spans c with
        | None => Undefined
        | Some vd => Made (make_mesh f c b vd (index_bytes (triples idx)))
        end
    end.

(** ** Reading: mesh.cc 163-201, mesh.h 112-197 *)
Definition packed_attribute (m : imesh) (i : Z) (k : nat) : list Z :=
  let a := attr_at (iformat m) k in
  peek (Z.to_nat (u32 (i * Z.of_nat (pstride (iformat m)) + Z.of_nat (poff a)))) (pwidth a) (ivdata m).
Definition iattribute (m : imesh) (i : Z) (k : nat) : option (list f32) :=
  let t := ty (attr_at (iformat m) k) in unpack_attribute t (nth k (coding m) []) (bytes_packed t (packed_attribute m i k)).
(** PackedIntegersForFloatVertexAttribute *)
Definition iintegers (m : imesh) (i : Z) (k : nat) : option (list Z) :=
  let t := ty (attr_at (iformat m) k) in unpack_ints t (bytes_packed t (packed_attribute m i k)).
Definition iposition (m : imesh) (i : Z) : option point :=
  match iattribute m i (pos_index (iformat m)) with Some (x :: y :: _) => Some (x, y) | _ => None end.
Definition iindices (m : imesh) (j : Z) : tri :=
  let l := peek (Z.to_nat (j * 3 * 2)) 6 (iidata m) in (le_value (peek 0 2 l), le_value (peek 2 2 l), le_value (peek 4 2 l)).
Definition itriangle (m : imesh) (j : Z) : option (point * point * point) :=
  let '(a, b, c) := iindices m j in
  match iposition m a, iposition m b, iposition m c with Some p, Some q, Some r => Some (p, q, r) | _, _, _ => None end.
Definition iattr_bounds (m : imesh) (k : nat) : option bounds := match ibounds m with Some b => nth_error b k | None => None end.
(** Bounds: mesh.h 158-166; [E] stands for the elementary functions, which are not used *)
Definition ienvelope (E : elem) (m : imesh) : option (@rect (fnum E)) :=
  match iattr_bounds m (pos_index (iformat m)) with
  | Some (x0 :: y0 :: _, x1 :: y1 :: _) => env_add_point (env_add_point None (@V (fnum E) x0 y0)) (@V (fnum E) x1 y1)
  | _ => None
  end.

(** ** MutableMesh::AsMeshes *)
Definition omitted (omit : list nat) (a : attribute) : bool := existsb (Nat.eqb (aid a)) omit.
(** the indices of the attributes that are kept *)
Definition kept (f : format) (omit : list nat) : list nat := filter (fun k => negb (omitted omit (attr_at f k))) (seq 0 (length (attrs f))).
(** std::min(a, b), std::max(a, b) *)
Definition smin (a b : f32) : f32 := if flt b a then b else a.
Definition smax (a b : f32) : f32 := if flt a b then b else a.
Definition zip2 {A B C} (g : A -> B -> C) (a : list A) (b : list B) : list C := map (fun x => g (fst x) (snd x)) (combine a b).
(** ComputeAttributeBoundsForPartition: mutable_mesh.cc 149-183 *)
Definition partition_bounds (m : mesh) (vis : list Z) (omit : list nat) : list bounds :=
  map (fun k =>
    let n := component_count (ty (attr_at (fmt m) k)) in
    fold_left (fun b vi => let v := float_vertex_attribute m vi k in (zip2 smin v (fst b), zip2 smax v (snd b))) vis (repeat finf n, repeat (fopp finf) n))
    (kept (fmt m) omit).
(** ComputeTotalAttributeBounds: 185-206 *)
Definition join_bounds (cur add : bounds) : bounds := (zip2 smin (fst cur) (fst add), zip2 smax (snd cur) (snd add)).
Definition total_bounds (l : list (list bounds)) : list bounds :=
  match l with [] => [] | b :: l => fold_left (fun cur add => zip2 join_bounds cur add) l b end.
(** CopyAndPackPartitionVertices: internal/mesh_packing.cc 951-1030; its own running offsets *)
Fixpoint running (o : nat) (ws : list nat) : list nat := match ws with [] => [] | w :: ws => o :: running (o + w) ws end.
Definition override (f : format) (over : list (Z * point)) (m : mesh) (vi : Z) (k : nat) : list f32 :=
  match (if Nat.eqb k (pos_index f) then find (fun e => Z.eqb (fst e) vi) over else None) with
  | Some (_, (x, y)) => [x; y]
  | None => float_vertex_attribute m vi k
  end.
Definition copy_and_pack (m : mesh) (vis : list Z) (omit : list nat) (c : list (list params)) (over : list (Z * point)) : option (list Z) :=
  let f := fmt m in
  let ks := kept f omit in
  let widths := map (fun k => pwidth (attr_at f k)) ks in
  let stride := fold_right Nat.add 0%nat widths in
  match gather (flat_map (fun iv =>
    map (fun kc => let '(k, (o, ps)) := kc in
           match pack_attribute (ty (attr_at f k)) ps (override f over m (snd iv) k) with
           | Some p => Some ((fst iv * stride + o)%nat, packed_bytes p)
           | None => None
           end) (combine ks (combine (running 0 widths) c))) (combine (seq 0 (length vis)) vis)) with
  | Some ws => Some (write_all ws (repeat 0 (length vis * stride)))
  | None => None
  end.
Definition indices_upto (n : Z) : list Z := map Z.of_nat (seq 0 (Z.to_nat n)).
Definition all_triangles (m : mesh) : list tri := map (triangle_indices m) (indices_upto (tcount m)).
(** AsMeshes: 690-781.  [correct] gives the corrected vertex positions (GetCorrectedPackedVertexPositions). *)
Definition as_meshes_with (correct : mesh -> list params -> list (Z * point)) (m : mesh) (custom : list (option (list params))) (omit : list nat) : outcome (list imesh) :=
  if Z.eqb (tcount m) 0 then Made []
  else match validate_triangles m with
  | Some _ => Refused
  | None =>
    match without_attributes (fmt m) omit with
    | None => Refused
    | Some nf =>
      if negb (forallb (fun vi => forallb (fun k => forallb fisfinite (float_vertex_attribute m vi k)) (kept (fmt m) omit)) (indices_upto (vcount m))) then Refused
      else
        let parts := partition_triangles (2 ^ 16) (all_triangles m) in
        let bs := map (fun p => partition_bounds m (vertex_indices p) omit) parts in
        match compute_coding_array (map ty (attrs nf)) (total_bounds bs) custom with
        | None => Refused
        | Some c =>
          let over := correct m (nth (pos_index nf) c []) in
          match gather (map (fun pb => match copy_and_pack m (vertex_indices (fst pb)) omit c over with
                                       | Some vd => Some (make_mesh nf c (Some (snd pb)) vd (index_bytes (triangles (fst pb))))
                                       | None => None
                                       end) (combine parts bs)) with
          | Some ms => Made ms
          | None => Undefined
          end
        end
    end
  end.

(** MutableMesh::FromMesh: 64-89 *)
Definition copy_attributes (im : imesh) (m : mesh) : option mesh :=
  fold_left (fun r ik => match r with
                         | Some m => match iattribute im (fst ik) (snd ik) with Some v => Some (set_float_vertex_attribute m (fst ik) (snd ik) v) | None => None end
                         | None => None
                         end)
    (flat_map (fun i => map (fun k => (i, k)) (seq 0 (length (attrs (iformat im))))) (indices_upto (ivcount im))) (Some m).
Definition from_mesh (im : imesh) : option mesh :=
  match copy_attributes im (resize_mesh (new_mesh (iformat im)) (ivcount im) (itcount im)) with
  | None => None
  | Some m =>
      Some (match index_format (iformat im) with
            | k16BitUnpacked16BitPacked => Mesh (fmt m) (vdata m) (poke 0 (peek 0 (Z.to_nat (3 * 2 * itcount im)) (iidata im)) (idata m)) (vcount m) (tcount m)
            | k32BitUnpacked16BitPacked => fold_left (fun m j => set_triangle_indices m j (iindices im j)) (indices_upto (itcount im)) m
            end)
  end.
