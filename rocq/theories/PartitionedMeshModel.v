(** PartitionedMesh: /repo/ink/geometry/partitioned_mesh.h 46-531 and partitioned_mesh.cc 52-630;
    CalculateCollapsedSegment: internal/algorithms.cc 236-279.
    The model is for either reading of [num] and for any kind of mesh with the operations that are used.
    A failed ABSL_CHECK and undefined behavior are [None].
    Simplifications: the spatial index and the total area are computed at each use instead of once (they depend only
    on the immutable meshes, partitioned_mesh.h 360-376); the mutex around them is not modelled; status messages are not
    modelled. *)
From Coq Require Import ZArith Bool Arith List.
From Verif Require Import F32 NumModel GeomModel AffineModel RTreeModel MeshFormatModel PackModel PartitionModel MutableMeshModel MeshModel.
Import ListNotations.
Local Open Scope Z_scope.

Definition u16z (z : Z) : Z := z mod 2 ^ 16.
(** VertexIndexPair and TriangleIndexPair: partitioned_mesh.h 69-83 *)
Definition ipair := (Z * Z)%type.
(** The operations of Mesh that are used *)
Record mesh_ops (N : num) (M : Type) := Ops {
  m_format : M -> format; m_vcount : M -> Z; m_tcount : M -> Z; m_position : M -> Z -> option (vec N);
  m_triangle : M -> Z -> option (triangle N); m_bounds : M -> option (rect N) }.
Arguments m_format {N M}. Arguments m_vcount {N M}. Arguments m_tcount {N M}. Arguments m_position {N M}. Arguments m_triangle {N M}. Arguments m_bounds {N M}.

Section Model.
Context {N : num} {M : Type}.
Variable MO : mesh_ops N M.
(** MeshGroup: 98-103; Data: 378-390 *)
Record group := Group { g_meshes : list M; g_outlines : list (list ipair) }.
Record data := Data { d_meshes : list M; d_outlines : list (list ipair); first_mesh : list Z; first_outline : list Z; d_formats : list format }.

(** ** Data::FromMeshGroups: partitioned_mesh.cc 197-287 *)
Definition outline_ok (ms : list M) (o : list ipair) : bool :=
  negb (match o with [] => true | _ => false end) &&
  forallb (fun p => match nth_error ms (Z.to_nat (fst p)) with Some m => snd p <? m_vcount MO m | None => false end) o.
Definition group_ok (g : group) : bool :=
  match g_meshes g with
  | [] => true
  | m :: ms => forallb (fun m' => format_eqb (m_format MO m') (m_format MO m)) ms
  end &&
  forallb (fun m => negb (m_tcount MO m =? 0)) (g_meshes g) &&
  forallb (outline_ok (g_meshes g)) (g_outlines g).
Definition group_format (g : group) : format := match g_meshes g with [] => default_format | m :: _ => m_format MO m end.
Definition append_group (d : data) (g : group) : data :=
  Data (d_meshes d ++ g_meshes g) (d_outlines d ++ g_outlines g)
       (first_mesh d ++ [u16z (Z.of_nat (length (d_meshes d)))]) (first_outline d ++ [u32 (Z.of_nat (length (d_outlines d)))])
       (d_formats d).
Definition from_mesh_groups (gs : list group) : option data :=
  let total := fold_left Z.add (map (fun g => Z.of_nat (length (g_meshes g))) gs) 0 in
  if 65535 <? total then None
  else if forallb group_ok gs then Some (fold_left append_group gs (Data [] [] [] [] (map group_format gs)))
  else None.
(** WithEmptyGroups, FromMeshes: 58-60, 183-188 *)
Definition with_empty_groups (n : nat) : option data := from_mesh_groups (repeat (Group [] []) n).
Definition from_meshes (ms : list M) (os : list (list ipair)) : option data := from_mesh_groups [Group ms os].

(** ** Reading: partitioned_mesh.h 421-522.  A default-constructed PartitionedMesh has no data. *)
Definition pmesh := option data.
(** absl::Span::subspan(start, end - start): a start beyond the end of the span is an error, the length is cut *)
Definition span_between {A} (l : list A) (first last : Z) : option (list A) :=
  if Z.of_nat (length l) <? first then None
  else let len := (last - first) mod 2 ^ 64 in
       Some (firstn (Z.to_nat (Z.min len (Z.of_nat (length l)))) (skipn (Z.to_nat first) l)).
(** the part of [l] that belongs to group [i] when [firsts] lists where the groups begin *)
Definition group_part {A} (l : list A) (firsts : list Z) (i : Z) : option (list A) :=
  if i <? u32 (Z.of_nat (length firsts)) then
    match nth_error firsts (Z.to_nat i) with
    | None => None
    | Some start => span_between l start (if u32 (i + 1) <? Z.of_nat (length firsts) then nth (Z.to_nat (u32 (i + 1))) firsts 0 else Z.of_nat (length l))
    end
  else None.
Definition render_group_count (p : pmesh) : Z := match p with None => 0 | Some d => u32 (Z.of_nat (length (first_mesh d))) end.
Definition render_group_format (p : pmesh) (i : Z) : option format :=
  match p with None => None | Some d => if i <? render_group_count p then nth_error (d_formats d) (Z.to_nat i) else None end.
Definition render_group_meshes (p : pmesh) (i : Z) : option (list M) :=
  match p with None => None | Some d => group_part (d_meshes d) (first_mesh d) i end.
Definition meshes (p : pmesh) : list M := match p with None => [] | Some d => d_meshes d end.
Definition outlines (p : pmesh) (i : Z) : option (list (list ipair)) :=
  match p with None => None | Some d => if i <? render_group_count p then group_part (d_outlines d) (first_outline d) i else None end.
Definition outline_count (p : pmesh) (i : Z) : option Z := option_map (fun os => u32 (Z.of_nat (length os))) (outlines p i).
Definition outline (p : pmesh) (i j : Z) : option (list ipair) :=
  match outline_count p i, outlines p i with
  | Some n, Some os => if j <? n then nth_error os (Z.to_nat j) else None
  | _, _ => None
  end.
Definition outline_vertex_count (p : pmesh) (i j : Z) : option Z := option_map (fun o => u32 (Z.of_nat (length o))) (outline p i j).
Definition outline_position (p : pmesh) (i j k : Z) : option (vec N) :=
  match outline p i j with
  | None => None
  | Some o =>
      match nth_error o (Z.to_nat k), render_group_meshes p i with
      | Some (mi, vi), Some ms => match nth_error ms (Z.to_nat mi) with Some m => m_position MO m vi | None => None end
      | _, _ => None
      end
  end.
(** Bounds: partitioned_mesh.cc 289-296 *)
Definition bounds (p : pmesh) : option (rect N) := fold_left (fun e m => env_add e (OEnvelope (m_bounds MO m))) (meshes p) None.

(** ** The spatial index: 569-612 *)
Definition triangle_at (ms : list M) (p : ipair) : option (triangle N) :=
  match nth_error ms (Z.to_nat (fst p)) with Some m => m_triangle MO m (snd p) | None => None end.
(** one call of the generator *)
Definition next_pair (ms : list M) (p : ipair) : option ipair :=
  match nth_error ms (Z.to_nat (fst p)) with
  | None => None
  | Some m => let t := u16z (snd p + 1) in Some (if m_tcount MO m <=? t then (u16z (fst p + 1), 0) else (fst p, t))
  end.
Fixpoint generate (ms : list M) (n : nat) (p : ipair) : option (list ipair) :=
  match n with
  | O => Some []
  | S n' => match next_pair ms p with
            | None => None
            | Some q => match generate ms n' q with Some l => Some (p :: l) | None => None end
            end
  end.
Definition triangle_total (ms : list M) : Z := fold_left (fun n m => u32 (n + m_tcount MO m)) ms 0.
(** [*Envelope(triangle).AsRect()]; unreadable triangles are excluded below *)
Definition pair_box (ms : list M) (p : ipair) : rect N :=
  match triangle_at ms p with
  | Some t => match env_add None (OTriangle t) with Some r => r | None => rect_default end
  | None => rect_default
  end.
Variable sort : (nat -> nat -> bool) -> list nat -> list nat.
(** kBranchingFactor: static_rtree.h 58 *)
Definition branching : nat := 16.
Definition spatial_index (d : data) : option (list (node N) * list ipair) :=
  match d_meshes d with
  | [] => None
  | _ =>
      match generate (d_meshes d) (Z.to_nat (triangle_total (d_meshes d))) (0, 0) with
      | None => None
      | Some ps =>
          if forallb (fun p => match triangle_at (d_meshes d) p with Some _ => true | None => false end) ps then
            match init_tree branching sort (pair_box (d_meshes d)) ps with
            | None => None
            | Some nodes => Some (nodes, ps)
            end
          else None
      end
  end.

(** ** Queries: 298-450.  [visitor] says whether to go on. *)
Definition apply_object (t : affine N) (o : object N) : object N :=
  match o with
  | OPoint p => OPoint (apply t p)
  | OSegment s => OSegment (apply_segment t s)
  | OTriangle x => OTriangle (apply_triangle t x)
  | ORect r => OQuad (apply_rect t r)
  | OQuad q => OQuad (apply_quad t q)
  | OEnvelope e => OEnvelope e (* there is no such query *)
  end.
Section Visit.
Context {St : Type}.
Definition visit_tree (d : data) (box : rect N) (wrapper : St -> ipair -> option (St * bool)) (s : St) : option St :=
  match spatial_index d with
  | None => None
  | Some (nodes, ps) =>
      (* a visitor that is itself undefined leaves [None] as the state *)
      match visit (pair_box (d_meshes d)) (fun (s : option St) p =>
              match s with
              | None => (None, false)
              | Some s => match wrapper s p with Some (s', go) => (Some s', go) | None => (None, false) end
              end) nodes ps box (Some s) with
      | Some r => r
      | None => None
      end
  end.
Variable visitor : St -> ipair -> option (St * bool).
Definition visit_object (p : pmesh) (q : object N) (t : affine N) (s : St) : option St :=
  match p with
  | None => Some s
  | Some d =>
      let q' := apply_object t q in
      match env_add None q' with
      | None => None
      | Some box => visit_tree d box (fun s i =>
            match triangle_at (d_meshes d) i with
            | None => None
            | Some x => if intersects q' (OTriangle x) then visitor s i else Some (s, true)
            end) s
      end
  end.
End Visit.
(** the search for one triangle of [q] that meets [x]: 402-410 *)
Definition meets_triangle (q : pmesh) (x : triangle N) (t : affine N) : option bool :=
  visit_object (fun (_ : bool) _ => Some (true, false)) q (OTriangle x) t false.
(** CalculateCollapsedSegment *)
Fixpoint all_some {A} (l : list (option A)) : option (list A) :=
  match l with
  | [] => Some []
  | Some a :: l => match all_some l with Some r => Some (a :: r) | None => None end
  | None :: _ => None
  end.
Definition mesh_triangles (m : M) : list (option (triangle N)) := map (fun i => m_triangle MO m (Z.of_nat i)) (seq 0 (Z.to_nat (m_tcount MO m))).
Definition collapsed_segment (ms : list M) (b : rect N) (t : affine N) : option (segment N) :=
  let diagonal := apply_segment t (Seg (V (x_min b) (y_min b)) (V (x_max b) (y_max b))) in
  if neqb N (magnitude_squared (seg_vector diagonal)) n0 then Some diagonal
  else match all_some (flat_map mesh_triangles ms) with
  | None => None
  | Some ts =>
      let range := fold_left (fun r v => match seg_project diagonal (apply t v) with
                                         | Some k => (nmin (fst r) k, nmax (snd r) k)
                                         | None => r
                                         end) (flat_map (fun x => [p0 x; p1 x; p2 x]) ts) (nInf N, nopp N (nInf N)) in
      Some (Seg (seg_lerp diagonal (fst range)) (seg_lerp diagonal (snd range)))
  end.
Section VisitMesh.
Context {St : Type}.
Variable visitor : St -> ipair -> option (St * bool).
Definition visit_mesh (p q : pmesh) (t : affine N) (s : St) : option St :=
  match p with
  | None => Some s
  | Some d =>
      match meshes q with
      | [] => Some s
      | _ =>
          match bounds q with
          | None => None
          | Some b =>
              match inverse t with
              | Some back =>
                  match env_add None (OQuad (apply_rect t b)) with
                  | None => None
                  | Some box => visit_tree d box (fun s i =>
                        match triangle_at (d_meshes d) i with
                        | None => None
                        | Some x => match meets_triangle q x back with
                                    | None => None
                                    | Some true => visitor s i
                                    | Some false => Some (s, true)
                                    end
                        end) s
                  end
              | None =>
                  match collapsed_segment (meshes q) b t with
                  | None => None
                  | Some c => visit_object visitor p (OSegment c) identity s
                  end
              end
          end
      end
  end.
(** A query is an object or another PartitionedMesh. *)
Inductive query := QObject (o : object N) | QMesh (q : pmesh).
Definition visit_query (p : pmesh) (q : query) (t : affine N) (s : St) : option St :=
  match q with QObject o => visit_object visitor p o t s | QMesh q => visit_mesh p q t s end.
End VisitMesh.

(** ** Coverage: 452-567, 614-628 *)
Definition absolute_area (x : triangle N) : T N := nabs N (signed_area x).
Definition total_area (d : data) : option (T N) :=
  match d_meshes d with
  | [] => None
  | _ => option_map (fun ts => fold_left (fun a x => nadd N a (absolute_area x)) ts n0) (all_some (flat_map mesh_triangles (d_meshes d)))
  end.
Definition add_area (d : data) (a : T N) (i : ipair) : option (T N) :=
  option_map (fun x => nadd N a (absolute_area x)) (triangle_at (d_meshes d) i).
Definition coverage (p : pmesh) (q : query) (t : affine N) : option (T N) :=
  match p with
  | None => Some n0
  | Some d =>
      match total_area d with
      | None => None
      | Some total => option_map (fun a => ndiv N a total)
          (visit_query (fun a i => option_map (fun a' => (a', true)) (add_area d a i)) p q t n0)
      end
  end.
Definition coverage_is_greater_than (p : pmesh) (q : query) (threshold : T N) (t : affine N) : option bool :=
  match p with
  | None => Some false
  | Some d =>
      match total_area d with
      | None => None
      | Some total =>
          let limit := nmul N threshold total in
          option_map (fun a => nlt N limit a)
            (visit_query (fun a i => option_map (fun a' => (a', negb (nlt N limit a'))) (add_area d a i)) p q t n0)
      end
  end.
End Model.
Arguments data : clear implicits. Arguments group : clear implicits. Arguments pmesh : clear implicits.
Arguments Group {M}. Arguments Data {M}.

(** ** Meshes of floats *)
Definition to_vec (E : elem) (p : point) : vec (fnum E) := @V (fnum E) (fst p) (snd p).
Definition imesh_ops (E : elem) : mesh_ops (fnum E) imesh :=
  Ops (fnum E) imesh iformat ivcount itcount (fun m i => option_map (to_vec E) (iposition m i))
    (fun m j => option_map (fun x => let '(a, b, c) := x in Tri (to_vec E a) (to_vec E b) (to_vec E c)) (itriangle m j)) (ienvelope E).

(** ** FromMutableMeshGroups: partitioned_mesh.cc 62-181.  The map from vertices to pairs keeps the first pair inserted. *)
Record mutable_group := MutableGroup { mg_mesh : mesh; mg_outlines : list (list Z); mg_omit : list nat; mg_packing : list (option (list params)) }.
Definition partition_pairs (parts : list part) : list (Z * ipair) :=
  flat_map (fun kp => map (fun iv => (snd iv, (u16z (Z.of_nat (fst kp)), u16z (Z.of_nat (fst iv))))) (combine (seq 0 (length (vertex_indices (snd kp)))) (vertex_indices (snd kp))))
           (combine (seq 0 (length parts)) parts).
Definition find_pair (pairs : list (Z * ipair)) (v : Z) : option ipair := option_map snd (find (fun e => Z.eqb (fst e) v) pairs).
Definition partition_outline (pairs : list (Z * ipair)) (o : list Z) : list ipair :=
  flat_map (fun v => match find_pair pairs v with Some p => [p] | None => [] end) o.
Definition partition_outlines (m : mesh) (os : list (list Z)) : list (list ipair) :=
  let pairs := partition_pairs (partition_triangles (2 ^ 16) (all_triangles m)) in
  map (partition_outline pairs) (filter (fun o => match o with [] => false | _ => true end) os).
Definition mesh_group (correct : mesh -> list params -> list (Z * point)) (g : mutable_group) : outcome (group imesh) :=
  if forallb (forallb (fun v => v <? vcount (mg_mesh g))) (mg_outlines g) then
    match as_meshes_with correct (mg_mesh g) (mg_packing g) (mg_omit g) with
    | Made ms => Made (Group ms (partition_outlines (mg_mesh g) (mg_outlines g)))
    | Refused => Refused
    | Undefined => Undefined
    end
  else Refused.
Fixpoint mesh_groups (correct : mesh -> list params -> list (Z * point)) (gs : list mutable_group) : outcome (list (group imesh)) :=
  match gs with
  | [] => Made []
  | g :: gs =>
      match mesh_group correct g with
      | Made x => match mesh_groups correct gs with Made xs => Made (x :: xs) | Refused => Refused | Undefined => Undefined end
      | Refused => Refused
      | Undefined => Undefined
      end
  end.
Definition from_mutable_mesh_groups (E : elem) (correct : mesh -> list params -> list (Z * point)) (gs : list mutable_group) : outcome (data imesh) :=
  match mesh_groups correct gs with
  | Made xs => match from_mesh_groups (imesh_ops E) xs with Some d => Made d | None => Refused end
  | Refused => Refused
  | Undefined => Undefined
  end.
