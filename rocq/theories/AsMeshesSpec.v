(** What may be asked of MutableMesh::AsMeshes and what it must return, from mutable_mesh.h 261-296.  [l] lists the attributes of
    the format as (type, id), [omit] the ids to leave out, [vs] and [ts] the vertices and triangles of the mesh, [custom] the
    packing parameters asked for. *)
From Coq Require Import ZArith Reals List.
From Flocq Require Import Core IEEE754.BinarySingleNaN.
From Verif Require Import F32 MeshFormatModel PackModel MutableMeshSpec MeshSpec.
Import ListNotations.
Local Open Scope Z_scope.

Section AsMeshes.
Variables (l : list (nat * nat)) (omit : list nat) (vs : list vertex) (ts : list triple) (custom : list (option (list params))).
Definition stays (p : nat * nat) : bool := negb (existsb (Nat.eqb (snd p)) omit).
(** the attributes left, and what is left of a vertex *)
Definition left_attributes : list (nat * nat) := filter stays l.
Definition left_types : list atype := flat_map (fun p => match type_of (fst p) with Some t => [t] | None => [] end) left_attributes.
Definition left_of (v : vertex) : vertex := map snd (filter (fun p => stays (fst p)) (combine l v)).
Definition corners3 (t : triple) : list Z := let '(a, b, c) := t in [a; b; c].
(** the corners of the triangles *)
Definition used_vertices : list Z := flat_map corners3 ts.
Definition value_at (k : nat) (v : Z) : list f32 := nth k (left_of (nth (Z.to_nat v) vs [])) [].
(** component [c] of attribute [k] of the vertices [us] *)
Definition values_of (us : list Z) (k c : nat) : list f32 := map (fun v => nth c (value_at k v) f0) us.
Notation values := (values_of used_vertices).
Definition proper : Prop :=
  (forall t, In t ts -> good_triple (count vs) t) /\
  ~ In 0%nat omit /\ (forall j, In j omit -> In j (map snd l)) /\
  (forall v a x, In v vs -> In a (left_of v) -> In x a -> is_finite x = true) /\
  packing_ok left_types values custom.

(** The parameters of a component of [b] bits whose least and greatest values are [lo] and [hi], where none are asked for *)
Definition default_params (b : nat) (lo hi : f32) (p : params) : Prop :=
  offset p = lo /\ is_finite (scale p) = true /\
  B2R (scale p) = (if Req_EM_T (B2R lo) (B2R hi) then 1 else rounded (rounded (B2R hi - B2R lo) / IZR (2 ^ Z.of_nat b - 1)))%R.
(** The parameters of attribute [k] *)
Definition params_of (k : nat) (t : atype) (ps : list params) : Prop :=
  match given_for custom k with
  | Some ps' => ps = ps'
  | None => forall bits c b p, packed_bits t = Some bits -> nth_error bits c = Some b -> nth_error ps c = Some p ->
      exists lo hi, least (values k c) lo /\ greatest (values k c) hi /\ default_params b lo hi p
  end.

(** ** The position *)
(** The value read back from the integer [n] *)
Definition at_level (p : params) (n : Z) : f32 := fadd (fmul (fZ n) (scale p)) (offset p).
(** The steps are not too small for the offset: enough for the floats on the grid of the coding to stay apart *)
Definition calm (o s : R) (M : Z) : Prop := (bpow radix2 (-99) <= s <= bpow radix2 99 /\ 5 * (IZR M + 2) * s + 2 * Rabs o <= 7900000 * s)%R.
Definition position_calm (k : nat) (t : atype) : Prop :=
  forall bits c b, packed_bits t = Some bits -> nth_error bits c = Some b ->
  match given_for custom k with
  | Some ps => forall p, nth_error ps c = Some p -> calm (B2R (offset p)) (B2R (scale p)) (2 ^ Z.of_nat b - 1)
  | None => forall lo hi, least (values k c) lo -> greatest (values k c) hi ->
      calm (B2R lo) (if Req_EM_T (B2R lo) (B2R hi) then 1 else (B2R hi - B2R lo) / IZR (2 ^ Z.of_nat b - 1)) (2 ^ Z.of_nat b - 1)
  end.
End AsMeshes.
