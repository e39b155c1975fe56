(** The static R-tree: /repo/ink/geometry/internal/static_rtree.h and .cc.
    Undefined behavior (out-of-range access, a NaN converted to an integer) is [None].
    Two simplifications.  [sort] stands for absl::c_sort, whose result is only specified to be
    some ordering of its input; it is a parameter.  Tiles are all computed before the parents
    are assigned; the assignments do not change the children that the tiles depend on.
    The ceilings are computed in double; RTreeFloat.v proves that they are exact. *)
From Coq Require Import ZArith Bool Arith List.
From Verif Require Import NumModel GeomModel.
Import ListNotations.

(** ceil(static_cast<double>(n) / d) *)
Definition ceil_div (n d : nat) : nat := (n + (d - 1)) / d.
(** ceil(sqrt(n)) *)
Definition ceil_sqrt (n : nat) : nat := if Nat.sqrt n * Nat.sqrt n =? n then Nat.sqrt n else S (Nat.sqrt n).

Section RTree.
Context {N : num}.
(** BranchNode: static_rtree.h 67-78 *)
Record node := Node { n_bounds : rect N; n_leaf : bool; n_children : list nat }.
Definition node_default : node := Node rect_default false [].

Section Build.
Variable B : nat. (* kBranchingFactor *)
Variable sort : (nat -> nat -> bool) -> list nat -> list nat.

(** ComputeNumberOfRTreeBranchNodesAtDepth: static_rtree.cc 27-46, before the final reversal *)
Fixpoint counts_up (fuel n : nat) : option (list nat) :=
  if 1 <? n then
    match fuel with
    | O => None
    | S f => let m := ceil_div n B in match counts_up f m with Some l => Some (m :: l) | None => None end
    end
  else Some [].
Definition depth_counts (n : nat) : option (list nat) :=
  if n <=? B then Some [1] else match counts_up n n with Some l => Some (rev l) | None => None end.
(** ComputeRTreeBranchDepthOffsets: static_rtree.cc 48-57 *)
Definition offset_at (counts : list nat) (depth : nat) : nat := list_sum (firstn depth counts).

(** BulkLoadOneLevelOfNodes: static_rtree.h 213-294.  [subspan]: absl::Span::subspan cuts the
    length to what is there. *)
Definition subspan (l : list nat) (pos len : nat) : list nat := firstn len (skipn pos l).
Definition by_x (get : nat -> option (rect N)) (i j : nat) : bool :=
  match get i, get j with Some a, Some b => nlt N (x_min a) (x_min b) | _, _ => false end.
Definition by_y (get : nat -> option (rect N)) (i j : nat) : bool :=
  match get i, get j with Some a, Some b => nlt N (y_min a) (y_min b) | _, _ => false end.
Definition tile (n_tiles : nat) (slice : list nat) (k : nat) : list nat :=
  subspan slice (k * B) (if k =? n_tiles - 1 then length slice - k * B else B).
Definition slice_tiles (n_tiles : nat) (slice : list nat) : list (list nat) :=
  map (tile n_tiles slice) (seq 0 (ceil_div (length slice) B)).
Definition tiles (get : nat -> option (rect N)) (first_child n_child : nat) : list (list nat) :=
  let n_tiles := ceil_div n_child B in
  let base := ceil_sqrt n_tiles * B in
  let n_slices := ceil_div n_child base in
  let sorted := sort (by_x get) (seq first_child n_child) in
  flat_map (fun k => slice_tiles n_tiles (sort (by_y get)
              (subspan sorted (k * base) (if k =? n_slices - 1 then n_child - k * base else base))))
           (seq 0 n_slices).
(** the envelope of the children; [*envelope.AsRect()] *)
Fixpoint children_bounds (get : nat -> option (rect N)) (l : list nat) (e : option (rect N)) : option (rect N) :=
  match l with
  | [] => e
  | i :: r => match get i with None => None | Some b => children_bounds get r (env_add e (ORect b)) end
  end.
Fixpoint set_node (l : list node) (i : nat) (n : node) : option (list node) :=
  match l, i with
  | [], _ => None
  | _ :: r, O => Some (n :: r)
  | m :: r, S j => match set_node r j n with Some r' => Some (m :: r') | None => None end
  end.
Fixpoint assign (get : list node -> nat -> option (rect N)) (leaf : bool) (nodes : list node) (parent : nat) (ts : list (list nat)) : option (list node) :=
  match ts with
  | [] => Some nodes
  | t :: r =>
      match children_bounds (get nodes) t None with
      | None => None
      | Some b =>
          if length t <=? B then (* SmallArray: small_array.h 61-64 *)
            match set_node nodes parent (Node b leaf t) with
            | None => None
            | Some nodes' => assign get leaf nodes' (S parent) r
            end
          else None
      end
  end.
Definition bulk_load (get : list node -> nat -> option (rect N)) (leaf : bool) (nodes : list node) (first_parent first_child n_child : nat) : option (list node) :=
  if n_child =? 0 then None (* 0/0 as the number of slices *)
  else assign get leaf nodes first_parent (tiles (get nodes) first_child n_child).
Definition branch_bounds (nodes : list node) (i : nat) : option (rect N) := option_map n_bounds (nth_error nodes i).

(** InitializeTree: static_rtree.h 321-379; the number of elements is converted to uint32_t *)
Fixpoint build_up (counts : list nat) (nodes : list node) (depth : nat) : option (list node) :=
  match depth with
  | O => Some nodes
  | S d => match bulk_load branch_bounds false nodes (offset_at counts d) (offset_at counts (S d)) (nth (S d) counts 0) with
           | None => None
           | Some nodes' => build_up counts nodes' d
           end
  end.
Section Elements.
Context {A : Type}.
Variable bounds : A -> rect N.
Definition leaf_bounds (elements : list A) (_ : list node) (i : nat) : option (rect N) := option_map bounds (nth_error elements i).
Definition uint32 (n : nat) : nat := Z.to_nat (Z.of_nat n mod 2 ^ 32).
Definition init_tree (elements : list A) : option (list node) :=
  match elements with
  | [] => Some []
  | _ =>
      let n := uint32 (length elements) in
      match depth_counts n with
      | None => None
      | Some counts =>
          let d := length counts - 1 in
          let nodes := repeat node_default (offset_at counts d + nth d counts 0) in
          match bulk_load (leaf_bounds elements) true nodes (offset_at counts d) 0 n with
          | None => None
          | Some nodes' => build_up counts nodes' d
          end
      end
  end.
End Elements.
End Build.

Section Visit.
Context {A : Type}.
Variable bounds : A -> rect N.
(** VisitIntersectedElements, VisitIntersectedElementsInSubTree: static_rtree.h 382-411.  The
    visitor is a function on a state; it returns whether to go on. *)
Context {S : Type}.
Variable visitor : S -> A -> S * bool.
Fixpoint visit_loop (step : nat -> S -> option (S * bool)) (l : list nat) (s : S) : option (S * bool) :=
  match l with
  | [] => Some (s, true)
  | i :: r => match step i s with
              | None => None
              | Some (s', true) => visit_loop step r s'
              | Some (s', false) => Some (s', false)
              end
  end.
Fixpoint visit_sub (fuel : nat) (nodes : list node) (elements : list A) (query : rect N) (root : nat) (s : S) : option (S * bool) :=
  match fuel with
  | O => None
  | Datatypes.S f =>
      match nth_error nodes root with
      | None => None
      | Some nd =>
          if n_leaf nd then
            visit_loop (fun i s => match nth_error elements i with
                                   | None => None
                                   | Some a => if int_rects (bounds a) query then Some (visitor s a) else Some (s, true)
                                   end) (n_children nd) s
          else
            visit_loop (fun i s => match nth_error nodes i with
                                   | None => None
                                   | Some c => if int_rects (n_bounds c) query then visit_sub f nodes elements query i s else Some (s, true)
                                   end) (n_children nd) s
      end
  end.
(** The recursion is cut off after as many levels as there are nodes; the root of an empty tree
    is read out of range *)
Definition visit (nodes : list node) (elements : list A) (query : rect N) (s : S) : option S :=
  match nodes with
  | [] => None
  | root :: _ => if int_rects (n_bounds root) query then option_map fst (visit_sub (length nodes) nodes elements query 0 s) else Some s
  end.
End Visit.
End RTree.
Arguments node : clear implicits.
